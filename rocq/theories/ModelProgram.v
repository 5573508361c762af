(* Programs made of several translation units: what the linker makes of the methods and
   overriders of the macros, and what is registered before initialize(). *)
From stdpp Require Import base list numbers.
From Verif Require Import Base Registry ModelSignature ModelMacros.

(* The same type method<Id, ReturnType(Parameters...), Registry>, in two units.  Its static
   variable fn is then the same.  macros.hpp:61-65, core.hpp:2186, 2366-2369. *)
Definition same_type (m m' : method_decl) : bool :=
  same_method (md_scope m) (md_name m) (md_registry m) (ms_parameters (md_source m))
    (ms_return (md_source m)) m'.

(* override_aux<fn>::impl, core.hpp:2356-2363, 2383-2389, is a static member of a template, constructed once
   even if several units have it (inline overriders, macros.hpp:143-147).  [os_pf] is the thunk, a
   template over fn too. *)
Definition link_overrider (m : method_decl) (o : overrider_source) : method_decl :=
  if existsb (fun o' => bool_decide (os_pf o' = os_pf o)) (ms_overriders (md_source m)) then m
  else add_overrider o m.

(* The method of a unit is added to the program: macros.hpp:61-83, 127-132. *)
Definition link_method (ms : list method_decl) (m : method_decl) : list method_decl :=
  match list_find (fun m' => same_type m m' = true) ms with
  | Some (k, m') => <[k := foldl link_overrider m' (ms_overriders (md_source m))]> ms
  | None => ms ++ [m]
  end.

(* The methods of all the units.  macros.hpp:61-147. *)
Definition link (us : list unit_state) : list method_decl :=
  foldl link_method [] (concat (map us_methods us)).

(* In some unit, name(args) with args of types [qs] calls [m]: macros.hpp:75-83.  A method is known
   by its variable slots_strides, core.hpp:2280. *)
Definition calls_method (convertible : ty -> ty -> bool) (associated : ty -> list namespace)
    (u : unit_state) (ns : namespace) (name : N) (qs : list ty) (m : method_record) : Prop :=
  exists k d, call_located convertible associated u ns name qs = Some k /\ us_methods u !! k = Some d /\
    mr_slots_strides m = ms_slots_strides (md_source d).

Section Load.
  (* Of the registry, and what rtti::static_type returns in each unit. *)
  Context (r : N) (static_type : nat -> ty -> N) (static_void : nat -> N).

  (* fn is constructed, with the code of some unit, core.hpp:2392-2424; so are its overriders,
     core.hpp:2733-2798, which join its list in the order of their construction (2781).  The order
     is not specified: these are static members of templates. *)
  Definition constructs (d : method_decl) (m : method_record) : Prop :=
    let s := md_source d in
    exists u os ids ovs,
      os ≡ₚ ms_overriders s /\
      method_ids r (static_type u) (static_void u) (ms_parameters s) = Ok ids /\
      Forall2 (fun o orec => exists v,
        overrider_registered r (static_type v) (static_void v) (ms_parameters s) o = Ok orec) os ovs /\
      m = MethodRecord ids (return_id r (static_type u) (static_void u) (ms_return s)) ovs
            (ms_not_implemented s) (ms_ambiguous s) (ms_slots_strides s).

  (* The methods of the registry, in the order of their construction, core.hpp:2409.  Some may be
     missing: a method that nothing uses is not instantiated (macros.hpp:67-85). *)
  Definition loads (ms : list method_decl) (R : registrations) : Prop :=
    exists ds, ds ⊆+ filter (fun d => md_registry d = r) ms /\ Forall2 constructs ds (reg_methods R).
End Load.
