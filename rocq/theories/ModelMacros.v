(* The macros, macros.hpp: how overriders find their method and calls theirs, in one
   translation unit.  Simplified: no using-directives or using-declarations, no inline
   namespaces, and no other functions with the name of a method; parameters are written without
   const at the top level, which is not part of the type of a function; the static_asserts of
   a method count where it is declared (they only do if it is used). *)
From stdpp Require Import base list numbers.
From Verif Require Import Base Registry ModelSignature.

(* A namespace: the names of the namespaces it is in, innermost first; [] is the global one.
   macros.hpp:67-85, 104-114 are used at namespace scope. *)
Definition namespace := list N.

(* What the macros expand to, in the order of the translation unit.  BOOST_OPENMETHOD_OVERRIDE
   is BOOST_OPENMETHOD_DECLARE_OVERRIDER then BOOST_OPENMETHOD_DEFINE_OVERRIDER
   (macros.hpp:139-141); so is BOOST_OPENMETHOD_INLINE_OVERRIDE, but for [inline]
   (macros.hpp:143-147). *)
Inductive declaration :=
  (* BOOST_OPENMETHOD(name, (ps), ret, r), macros.hpp:67-85; [r] is va_args::registry (25-38) *)
  | Method (ns : namespace) (name : N) (r : N) (ps : list ty) (ret : ty) (fns : fptr * fptr * nat)
  (* BOOST_OPENMETHOD_DECLARE_OVERRIDER(name, (qs), ret), macros.hpp:104-125 *)
  | Declare (ns : namespace) (name : N) (qs : list ty) (ret : ty)
  (* BOOST_OPENMETHOD_DEFINE_OVERRIDER(name, (qs), ret), macros.hpp:134-137 *)
  | Define (ns : namespace) (name : N) (qs : list ty) (ret : ty) (pf : fptr) (next : nat).

(* BOOST_OPENMETHOD_ID(name) and what goes with it, macros.hpp:50-85, with the overriders
   registered by static objects (macros.hpp:127-132) so far. *)
Record method_decl := MethodDecl {
  md_scope : namespace;
  md_name : N;
  md_registry : N;
  md_source : method_source
}.

(* A specialization of BOOST_OPENMETHOD_OVERRIDERS(name), macros.hpp:105-114.  [ct_method]:
   the type found by its locate_method_aux (87-102), as an index in the list of methods.
   It is found when has_next is compiled, macros.hpp:115-119. *)
Record container := Container {
  ct_scope : namespace;
  ct_name : N;
  ct_parameters : list ty;
  ct_return : ty;
  ct_method : nat;
  ct_defined : bool             (* the function [fn] has been defined *)
}.

(* The declarations seen so far: macros.hpp:67-147. *)
Record unit_state := UnitState {
  us_methods : list method_decl;
  us_containers : list container
}.

Section Macros.
  (* Type traits, as in ModelSignature; [convertible q p]: std::declval<q>() can be passed to a
     parameter of type p.  [associated q]: the namespaces that argument dependent lookup
     searches for an argument of type q. *)
  Context (polymorphic : ty -> bool) (base_of convertible : ty -> ty -> bool).
  Context (associated : ty -> list namespace).

  (* enable_forwarder: Method::fn(std::declval<Parameters>()...), macros.hpp:18-23; the parameters
     of operator() are those of core.hpp:2437-2440. *)
  Definition callable (ps qs : list ty) : bool :=
    bool_decide (length ps = length qs)
      && forallb (fun pq => convertible (snd pq) (remove_virtual (fst pq))) (zip ps qs).

  (* Unqualified lookup of the guide, or of the function, in macros.hpp:98-101: the innermost
     namespace that has one with this name. *)
  Fixpoint nearest_scope (ns : namespace) (name : N) (ms : list method_decl) : option namespace :=
    if existsb (fun m => bool_decide (md_scope m = ns) && bool_decide (md_name m = name)) ms
    then Some ns
    else match ns with [] => None | _ :: up => nearest_scope up name ms end.

  (* The function templates that are found, by that or by argument dependent lookup, and are
     not removed by enable_forwarder: macros.hpp:69-74, 75-80, 95-102. *)
  Definition viable (ns : namespace) (name : N) (qs : list ty) (ms : list method_decl) (m : method_decl) :
      bool :=
    bool_decide (md_name m = name)
      && (bool_decide (nearest_scope ns name ms = Some (md_scope m))
          || bool_decide (md_scope m ∈ concat (map associated qs)))
      && callable (ms_parameters (md_source m)) qs.

  (* Overload resolution among them.  All have the same parameters, ForwarderParameters&&...,
     so none is better than another: macros.hpp:69-80.  For an overrider the failure selects the
     primary template and its static_assert, macros.hpp:88-94. *)
  Definition locate (ns : namespace) (name : N) (qs : list ty) (ms : list method_decl) : option nat :=
    match filter (fun n => match ms !! n with Some m => viable ns name qs ms m | None => false end = true)
            (seq 0 (length ms)) with
    | [n] => Some n
    | _ => None
    end.

  (* The call name(args), with args of types qs: the forwarding function, macros.hpp:75-83. *)
  Definition call_located (us : unit_state) (ns : namespace) (name : N) (qs : list ty) : option nat :=
    locate ns name qs (us_methods us).

  (* The same specialization, macros.hpp:107-108. *)
  Definition same_container (ns : namespace) (name : N) (qs : list ty) (ret : ty) (c : container) : bool :=
    bool_decide (ct_scope c = ns) && bool_decide (ct_name c = name)
      && bool_decide (ct_parameters c = qs)
      && bool_decide (ct_return c = ret).

  (* The static object of type override<fn>, macros.hpp:127-132: core.hpp:2712-2782. *)
  Definition add_overrider (o : overrider_source) (m : method_decl) : method_decl :=
    let s := md_source m in
    MethodDecl (md_scope m) (md_name m) (md_registry m)
      (MethodSource (ms_parameters s) (ms_return s) (ms_overriders s ++ [o])
         (ms_not_implemented s) (ms_ambiguous s) (ms_slots_strides s)).

  (* The same method type declared twice is a redefinition of the function, macros.hpp:75-83.
     core.hpp:2274-2276 are its static_asserts. *)
  Definition same_method (ns : namespace) (name r : N) (ps : list ty) (ret : ty) (m : method_decl) : bool :=
    bool_decide (md_scope m = ns) && bool_decide (md_name m = name) && bool_decide (md_registry m = r)
      && bool_decide (ms_parameters (md_source m) = ps)
      && bool_decide (ms_return (md_source m) = ret).

  (* One declaration; None: the compiler rejects it.  macros.hpp:67-147. *)
  Definition declare (us : unit_state) (d : declaration) : option unit_state :=
    match d with
    | Method ns name r ps ret (ni, amb, ss) =>
        if existsb (same_method ns name r ps ret) (us_methods us) then None
        else if negb (method_compiles r polymorphic ps) then None
        else Some (UnitState
               (us_methods us ++ [MethodDecl ns name r (MethodSource ps ret [] ni amb ss)])
               (us_containers us))
    | Declare ns name qs ret =>
        if existsb (same_container ns name qs ret) (us_containers us) then None
        else match locate ns name qs (us_methods us) with
             | Some n => Some (UnitState (us_methods us)
                           (us_containers us ++ [Container ns name qs ret n false]))
             | None => None
             end
    | Define ns name qs ret pf next =>
        match list_find (fun c => same_container ns name qs ret c = true) (us_containers us) with
        | Some (k, c) =>
            match ct_defined c, us_methods us !! ct_method c with
            | false, Some m =>
                if overrider_compiles (md_registry m) base_of convertible (ms_parameters (md_source m)) qs
                then Some (UnitState
                       (<[ct_method c := add_overrider (OverriderSource qs ret pf next) m]> (us_methods us))
                       (<[k := Container (ct_scope c) (ct_name c) (ct_parameters c) (ct_return c)
                                (ct_method c) true]> (us_containers us)))
                else None
            | _, _ => None
            end
        | None => None
        end
    end.

  (* macros.hpp:67-147, one after the other. *)
  Definition translate (ds : list declaration) : option unit_state :=
    foldl (fun us d => us ≫= fun us => declare us d) (Some (UnitState [] [])) ds.
End Macros.
