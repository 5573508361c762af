(* Model of what happens to the arguments of a call on their way to the overrider:
   core.hpp:126-148 (optimal_cast), 244-340, 1847-1926 (virtual_traits), 2006-2028
   (parameter_traits), 2437-2446 (operator()), 2583-2614 (error stubs), 2712-2728
   (thunk), 1120-1123, 1738-1767 (casts of virtual_ptr); interop/std_shared_ptr.hpp:69-172,
   interop/std_unique_ptr.hpp:25-62, interop/boost_intrusive_ptr.hpp:25-117. *)
From stdpp Require Import base list numbers.
From Verif Require Import Base Registry ModelClasses ModelHash ModelWorld ModelCall ModelErrors
  ModelVirtualPtr.

(* Variables hold values, pointers and smart pointers.  Objects are numbered.  An
   owner of object [o] through control block [b] is (o, b); unique_ptr has none and
   intrusive_ptr uses the object itself: [b] is 0 for them.
   interop/std_shared_ptr.hpp:58-186, std_unique_ptr.hpp:19-62, boost_intrusive_ptr.hpp:19-114. *)
Inductive ownership := Shared | Unique | Intrusive.
Global Instance ownership_eq_dec : EqDecision ownership.
Proof. solve_decision. Defined.

(* core.hpp:247-339, 1853-1926. *)
Inductive handle :=
  | HValue (v : option N)                       (* None: moved from *)
  | HRaw (p : option nat)
  | HSmart (k : ownership) (p : option (nat * nat)).

(* [ct_vp]: the member vp of a virtual_ptr, core.hpp:680, 1170. *)
Record content := Content { ct_handle : handle; ct_vp : option box }.

(* Variables, parameters and temporaries in order of construction; None: destroyed.
   And which objects exist.  The parameters of core.hpp:2437-2440, 2717-2718. *)
Record heap := Heap {
  hp_vars : list (option content);
  hp_alive : nat -> bool
}.

(* An argument written by the caller: an object, a variable passed by reference, a
   copy, a std::move.  Conversions done by the caller (to a pointer to a base, or to
   virtual_ptr) come before.  The arguments of core.hpp:2437-2446, 2222-2233. *)
Inductive expression :=
  | EObject (o : nat)
  | EVar (x : nat)
  | ECopy (x : nat)
  | EMove (x : nat).
Global Instance expression_eq_dec : EqDecision expression.
Proof. solve_decision. Defined.

(* A parameter inside a function: a reference to an object, a reference to a variable,
   a variable of its own.  core.hpp:2437-2440, 2717-2718. *)
Inductive parameter :=
  | PObject (o : nat)
  | PRef (x : nat)
  | PVar (x : nat).

(* Types of method parameters.  Non-virtual rvalue references are not accepted by
   parameter_traits::cast in C++17; virtual_ptr& and unique_virtual_ptr const& do not
   compile with virtual_traits.  core.hpp:247-339, 1853-1926, 2006-2062. *)
Inductive ptype :=
  | TValue                                  (* T *)
  | TRef                                    (* T& *)
  | TObject                                 (* virtual_<Class&>, virtual_<Class&&> *)
  | TPtr                                    (* virtual_<Class*> *)
  | TSmart (k : ownership)                  (* virtual_<shared_ptr<Class>>, ... *)
  | TSmartRef (k : ownership)               (* virtual_<const shared_ptr<Class>&>, ... *)
  | TVptr (k : option ownership)            (* virtual_ptr<Class>, virtual_ptr<shared_ptr<Class>>, ... *)
  | TVptrRef (k : option ownership).        (* const virtual_ptr<Class>&, ... *)

(* The parameters of core.hpp:2439-2440. *)
Definition by_value (t : ptype) : bool :=
  match t with TValue | TPtr | TSmart _ | TVptr _ => true | _ => false end.

(* is_virtual, core.hpp:153-157, 498-506. *)
Definition is_virtual_type (t : ptype) : bool :=
  match t with TValue | TRef => false | _ => true end.

(* The parameter of an overrider in the same position.  [ot_same]: it has the type of
   the method's parameter; [ot_ref]: it is a reference; [ot_dynamic]: requires_dynamic_cast,
   core.hpp:128-138. *)
Record otype := OType { ot_class : N; ot_same : bool; ot_ref : bool; ot_dynamic : bool }.

(* A variable of core.hpp:2437-2440, 2717-2718. *)
Definition look (s : heap) (x : nat) : option content :=
  match hp_vars s !! x with Some (Some c) => Some c | _ => None end.
(* A variable of core.hpp:2437-2440, 2717-2718. *)
Definition read (x : nat) (s : heap) : outcome content := deref (look s x).
(* A variable of core.hpp:2437-2440, 2717-2718. *)
Definition write (x : nat) (c : option content) (s : heap) : heap :=
  Heap (<[x := c]> (hp_vars s)) (hp_alive s).
(* A variable of core.hpp:2437-2440, 2717-2718. *)
Definition alloc (c : content) (s : heap) : nat * heap :=
  (length (hp_vars s), Heap (hp_vars s ++ [Some c]) (hp_alive s)).

(* core.hpp:1171; interop. *)
Definition owned (h : handle) : option (nat * nat) :=
  match h with HSmart _ p => p | _ => None end.

(* Is there another owner with the same control block?
   use_count, of the smart pointers of interop/std_shared_ptr.hpp:58-186,
   boost_intrusive_ptr.hpp:19-114. *)
Definition shared_with (ob : nat * nat) (s : heap) : bool :=
  existsb (fun c => match c with
                    | Some c => bool_decide (owned (ct_handle c) = Some ob)
                    | None => false
                    end) (hp_vars s).

(* Destructor of a variable.  The last owner deletes the object.
   At the end of core.hpp:2446, 2596, 2614, 2728. *)
Definition destroy (x : nat) (s : heap) : outcome heap :=
  let* c := read x s in
  let s := write x None s in
  match ct_handle c with
  | HSmart k (Some (o, b)) =>
      if bool_decide (k <> Unique) && shared_with (o, b) s then Ok s
      else if hp_alive s o then Ok (Heap (hp_vars s) (upd (hp_alive s) o false))
      else Undef
  | _ => Ok s
  end.

(* At the end of core.hpp:2446, 2596, 2614, 2728. *)
Definition leave (l : list nat) (s : heap) : outcome heap := foldM destroy (rev l) s.

Section Arguments.
  (* [objs]: dynamic type ids; [isa]: the object is of that class; [dyn]: what
     rtti::dynamic_type returns for a non-virtual argument; [cxx20]: __cplusplus. *)
  Context (cf : config) (w : world) (objs : nat -> N) (isa : nat -> N -> bool)
    (dyn : handle -> N) (cxx20 : bool).

  (* What a move leaves behind.  The move constructor of a smart virtual_ptr is
     core.hpp:1231-1236; a plain one is copied. *)
  Definition moved (c : content) : content :=
    match ct_handle c with
    | HValue _ => Content (HValue None) (ct_vp c)
    | HRaw _ => c
    | HSmart k _ =>
        Content (HSmart k None)
          (match ct_vp c with Some _ => Some (box_vptr cf w FromNull) | None => None end)
    end.

  (* std::forward, core.hpp:2444-2445, 2013-2014. *)
  Definition move_var (x : nat) (s : heap) : outcome (nat * heap) :=
    let* c := read x s in
    Ok (alloc c (write x (Some (moved c)) s)).

  (* unique_ptr cannot be copied.  Done by the caller of core.hpp:2437-2440. *)
  Definition copy_var (x : nat) (s : heap) : outcome (nat * heap) :=
    let* c := read x s in
    match ct_handle c with
    | HSmart Unique _ => Undef
    | _ => Ok (alloc c s)
    end.

  (* Initialization of a parameter by the caller.  The parameters of core.hpp:2439-2440. *)
  Definition pass (t : ptype) (e : expression) (s : heap) : outcome (parameter * list nat * heap) :=
    match by_value t, e with
    | true, ECopy x => let* '(y, s) := copy_var x s in Ok (PVar y, [y], s)
    | true, EMove x => let* '(y, s) := move_var x s in Ok (PVar y, [y], s)
    | false, EVar x => Ok (PRef x, [], s)
    | false, EObject o => Ok (PObject o, [], s)
    | _, _ => Undef                         (* would not compile *)
    end.

  (* std::forward<StripVirtualDecorator<Parameters>::type>(args)..., core.hpp:2444-2445. *)
  Definition forward (t : ptype) (p : parameter) (s : heap) : outcome (parameter * list nat * heap) :=
    match p with
    | PVar x => let* '(y, s) := move_var x s in Ok (PVar y, [y], s)
    | _ => Ok (p, [], s)
    end.

  (* A reference to an object that exists.  *arg, core.hpp:317-319; std_shared_ptr.hpp:72-74. *)
  Definition object_at (p : option nat) (s : heap) : outcome nat :=
    let* o := deref p in
    if hp_alive s o then Ok o else Undef.

  (* virtual_traits::peek and parameter_traits::peek, core.hpp:255-257, 286-288, 317-319,
     1862-1865, 1908-1911, 2008-2010, std_shared_ptr.hpp:72-74, 156-158,
     std_unique_ptr.hpp:27-29, boost_intrusive_ptr.hpp:33-35, 80-82; then what
     method::vptr (core.hpp:2475-2482) sees. *)
  Definition peek (t : ptype) (p : parameter) (s : heap) : outcome arg :=
    match t, p with
    | TObject, PObject o => let* o := object_at (Some o) s in Ok (AObject (objs o))
    | TPtr, PVar x | TSmart _, PVar x | TSmartRef _, PRef x =>
        let* c := read x s in
        let* o := object_at
          match ct_handle c with HRaw p => p | HSmart _ p => fst <$> p | HValue _ => None end s in
        Ok (AObject (objs o))
    | TVptr _, PVar x | TVptrRef _, PRef x =>
        let* c := read x s in
        let* vp := deref (ct_vp c) in
        let* v := unbox_vptr w vp in
        match ct_handle c with
        | HRaw (Some o) | HSmart _ (Some (o, _)) => Ok (APtr v (objs o))
        | _ => Ok (APtr v 0)                (* null: the type is not read *)
        end
    | TValue, PVar x | TRef, PRef x =>
        let* c := read x s in Ok (AOther (dyn (ct_handle c)))
    | _, _ => Undef
    end.

  (* core.hpp:2442, 2590-2591, 2608-2609. *)
  Definition arguments (ts : list ptype) (ps : list parameter) (s : heap) : outcome (list arg) :=
    mapM (fun '(t, p) => peek t p s) (zip ts ps).

  (* A cast to the class of the overrider's parameter, of a reference or a pointer that
     is not null.  A failed dynamic_cast of a reference throws std::bad_cast, which the
     model does not follow.  core.hpp:141-148. *)
  Definition cast_object (ot : otype) (o : nat) (s : heap) : outcome nat :=
    if hp_alive s o && isa o (ot_class ot) then Ok o else Undef.

  (* The handle that results from virtual_traits<SmartPtr>::cast, and what it leaves in
     the argument.  [rvalue]: the argument is an rvalue.
     shared_ptr: std_shared_ptr.hpp:85-97, 114-129 and 169-184; the rvalue overload is for
     C++20.  unique_ptr: std_unique_ptr.hpp:41-55: release, then construct.
     intrusive_ptr: boost_intrusive_ptr.hpp:46-58, 93-114: from the raw pointer, or a copy. *)
  Definition cast_smart (k : ownership) (rvalue : bool) (ot : otype) (p : option (nat * nat))
      (s : heap) : outcome (option (nat * nat) * option (nat * nat)) :=
    match k, p with
    | Shared, None => Ok (None, None)
    | Shared, Some (o, b) =>
        if hp_alive s o && isa o (ot_class ot) then
          Ok (Some (o, b), if rvalue && cxx20 then None else Some (o, b))
        else if ot_dynamic ot then Ok (None, Some (o, b))
        else Undef
    | Unique, None => Undef
    | Unique, Some (o, _) =>
        if rvalue then let* o := cast_object ot o s in Ok (Some (o, 0), None)
        else Undef                          (* would not compile *)
    | Intrusive, None => if ot_dynamic ot then Undef else Ok (None, None)
    | Intrusive, Some (o, b) =>
        let* o := cast_object ot o s in
        Ok (Some (o, if ot_dynamic ot then 0 else b), Some (o, b))
    end.

  (* A variable initialized by that cast.  core.hpp:2724-2727. *)
  Definition cast_var (k : ownership) (rvalue : bool) (ot : otype) (x : nat) (s : heap) :
      outcome (nat * heap) :=
    let* c := read x s in
    match ct_handle c with
    | HSmart k' p =>
        if decide (k' = k) then
          let* '(q, p) := cast_smart k rvalue ot p s in
          let s := write x (Some (Content (HSmart k p) (ct_vp c))) s in
          Ok (alloc (Content (HSmart k q) None) s)
        else Undef
    | _ => Undef
    end.

  (* virtual_ptr::cast, core.hpp:1120-1123, 1738-1767.  A smart one: the cast of obj is
     a temporary from which the new obj is moved (core.hpp:1179-1181). *)
  Definition cast_vptr (k : option ownership) (rvalue : bool) (ot : otype) (x : nat) (s : heap) :
      outcome (nat * heap) :=
    let* c := read x s in
    match k with
    | None =>
        match ct_handle c with
        | HRaw p =>
            let* o := deref p in
            let* o := cast_object ot o s in
            Ok (alloc (Content (HRaw (Some o)) (ct_vp c)) s)
        | _ => Undef
        end
    | Some k =>
        let* '(y, s) := cast_var k rvalue ot x s in
        let* t := read y s in
        let s := write y (Some (moved t)) s in
        let '(z, s) := alloc (Content (ct_handle t) (ct_vp c)) s in
        let* s := destroy y s in
        Ok (z, s)
    end.

  (* parameter_traits::cast (core.hpp:2012-2015) and virtual_traits::cast (core.hpp:267-271,
     298-302, 329-338, 1874-1878, 1887-1890, 1920-1925; interop), then the
     initialization of the parameter of the overrider, core.hpp:2724-2727.  The casts of
     different arguments are independent; the model does them from left to right. *)
  Definition cast (t : ptype) (ot : otype) (p : parameter) (s : heap) :
      outcome (parameter * list nat * heap) :=
    match t, p with
    | TValue, PVar x =>
        (* parameter [value], moved to the result *)
        let* '(y, s) := move_var x s in
        let* '(z, s) := move_var y s in
        let* s := destroy y s in
        Ok (PVar z, [z], s)
    | TRef, PRef x => Ok (PRef x, [], s)
    | TObject, PObject o => let* o := cast_object ot o s in Ok (PObject o, [], s)
    | TPtr, PVar x =>
        let* c := read x s in
        match ct_handle c with
        | HRaw p =>
            let* p := match p with
                      | Some o => let* o := cast_object ot o s in Ok (Some o)
                      | None => Ok None
                      end in
            let '(y, s) := alloc (Content (HRaw p) None) s in
            Ok (PVar y, [y], s)
        | _ => Undef
        end
    | TSmart k, PVar x =>
        let* '(y, s) := cast_var k true ot x s in
        Ok (if ot_ref ot then PRef y else PVar y, [y], s)
    | TSmartRef k, PRef x =>
        if ot_same ot then Ok (PRef x, [], s)
        else
          let* '(y, s) := cast_var k false ot x s in
          Ok (if ot_ref ot then PRef y else PVar y, [y], s)
    | TVptr k, PVar x =>
        let* '(y, s) := cast_vptr k true ot x s in Ok (PVar y, [y], s)
    | TVptrRef k, PRef x =>
        let* '(y, s) := cast_vptr k false ot x s in Ok (PRef y, [y], s)
    | _, _ => Undef
    end.

  (* For all the parameters: the parameters made, and their variables.
     The pack expansions of core.hpp:2444-2445, 2724-2727. *)
  Fixpoint steps {A} (f : A -> heap -> outcome (parameter * list nat * heap)) (l : list A) (s : heap) :
      outcome (list parameter * list nat * heap) :=
    match l with
    | [] => Ok ([], [], s)
    | a :: l =>
        let* '(p, xs, s) := f a s in
        let* '(ps, ys, s) := steps f l s in
        Ok (p :: ps, xs ++ ys, s)
    end.

  (* core.hpp:2439-2440. *)
  Definition pass_all (ts : list ptype) (es : list expression) : heap -> _ :=
    steps (fun te => pass (fst te) (snd te)) (zip ts es).
  (* core.hpp:2444-2445. *)
  Definition forward_all (ts : list ptype) (ps : list parameter) : heap -> _ :=
    steps (fun tp => forward (fst tp) (snd tp)) (zip ts ps).
  (* core.hpp:2724-2727. *)
  Definition cast_all (ts : list ptype) (ots : list otype) (ps : list parameter) : heap -> _ :=
    steps (fun top => cast (fst (fst top)) (snd (fst top)) (snd top)) (zip (zip ts ots) ps).

  (* Either the body of function [f] starts, with these parameters, and variables to be
     destroyed when it returns; or an exception thrown by the error handler left the
     call, destroying the variables made.  core.hpp:2437-2446, 2583-2614, 2712-2728. *)
  Inductive entered :=
    | Enters (f : fptr) (ps : list parameter) (l : list nat) (s : heap)
    | Throws (e : error) (s : heap).

  (* core.hpp:2583-2614. *)
  Definition in_stub (e : error) : bool :=
    match e with ENoOverrider _ _ _ | EAmbiguousCall _ _ _ => true | _ => false end.

  (* operator(), core.hpp:2437-2446, the stubs and thunk::fn, 2583-2614, 2712-2728.
     [ots f]: the parameters of the overrider behind thunk [f]. *)
  Definition operator_call (mid : N) (m : method_record) (ts : list ptype)
      (ots : fptr -> list otype) (es : list expression) (s : heap) : outcome entered :=
    let* '(ps, l1, s) := pass_all ts es s in
    let* args := arguments ts ps s in
    match call cf w mid m args with
    | Ok (Calls f) =>
        let* '(ps, l2, s) := forward_all ts ps s in
        let* '(ps, l3, s) := cast_all ts (ots f) ps s in
        Ok (Enters f ps (l1 ++ l2 ++ l3) s)
    | Err e =>
        if in_stub e then
          let* '(_, l2, s) := forward_all ts ps s in
          let* s := leave (l1 ++ l2) s in
          Ok (Throws e s)
        else let* s := leave l1 s in Ok (Throws e s)
    | Undef => Undef
    | Diverge => Diverge
    end.

  (* next<Fn>(args...), core.hpp:2222-2233.  The arguments are peeked at by the stubs
     only; the model does it in all cases. *)
  Definition next_call (mid : N) (m : method_record) (loc : nat) (ts : list ptype)
      (ots : fptr -> list otype) (es : list expression) (s : heap) : outcome entered :=
    let* '(ps, l1, s) := pass_all ts es s in
    let* args := arguments ts ps s in
    match call_next w mid m loc args with
    | Ok (Calls f) =>
        let* '(ps, l2, s) := cast_all ts (ots f) ps s in
        Ok (Enters f ps (l1 ++ l2) s)
    | Err e => let* s := leave l1 s in Ok (Throws e s)
    | Undef => Undef
    | Diverge => Diverge
    end.
End Arguments.
