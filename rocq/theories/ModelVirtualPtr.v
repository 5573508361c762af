(* Model of virtual_ptr: core.hpp:523-1786, and of the casts of the smart pointers:
   interop/std_shared_ptr.hpp:69-125, interop/std_unique_ptr.hpp:45-62,
   interop/boost_intrusive_ptr.hpp:44-57. *)
From stdpp Require Import base list numbers.
From Verif Require Import Base Registry ModelClasses ModelHash ModelWorld ModelCall.

(* The member [vp] (core.hpp:680, 1170): with indirect_vptr the address of a
   vptr_type, otherwise its value. *)
Inductive box :=
  | BValue (v : vptr)
  | BRef (r : vref)
  | BNull                     (* &detail::null_vptr *)
  | BTemp.                    (* address of a temporary that no longer exists *)

(* The argument of box_vptr: a reference to a variable of the registry, null_vptr
   (core.hpp:556), or a temporary. *)
Inductive boxed_from :=
  | FromRef (r : vref)
  | FromNull
  | FromTemp (v : vptr).

(* box_vptr, core.hpp:539-546. *)
Definition box_vptr (cf : config) (w : world) (x : boxed_from) : box :=
  if cf_indirect cf then
    match x with FromRef r => BRef r | FromNull => BNull | FromTemp _ => BTemp end
  else
    match x with
    | FromRef r => BValue (vref_value w r) | FromNull => BValue VNull | FromTemp v => BValue v
    end.

(* unbox_vptr, core.hpp:548-554.  A pointer to an element of a container of the vptr
   policy is not kept by the code; the model does not follow it. *)
Definition unbox_vptr (w : world) (b : box) : outcome vptr :=
  match b with
  | BValue v => Ok v
  | BRef (RStatic loc) => Ok (w_static w loc)
  | BRef (RElem _) => Undef
  | BNull => Ok VNull
  | BTemp => Undef
  end.

(* An object: its dynamic type id, and the v-table pointer embedded in it if it has
   one (inplace_vptr.hpp). *)
Record object := Object { ob_type : N; ob_inplace : option box }.

(* acquire_vptr, core.hpp:528-537.  [via]: the static type of the argument has a
   boost_openmethod_vptr function (has_vptr_fn); it returns by value. *)
Definition acquire (cf : config) (w : world) (via : bool) (ob : object) : outcome boxed_from :=
  let* _ := require_initialized cf w in
  if via then
    let* b := deref (ob_inplace ob) in
    let* v := unbox_vptr w b in
    Ok (FromTemp v)
  else
    let* r := dynamic_vptr cf w (ob_type ob) in
    Ok (FromRef r).

(* A virtual_ptr variable.  Objects are numbered; None is a null pointer.
   core.hpp:680-681, 1170-1171. *)
Inductive vvar :=
  | VUninit                                (* default constructed plain virtual_ptr *)
  | VVar (obj : option nat) (vp : box).

(* How cast<Other>() converts the pointer: through a reference (plain virtual_ptr,
   core.hpp:141-151, 268-271; std_unique_ptr.hpp:42-55; boost_intrusive_ptr.hpp:50-54),
   by static_pointer_cast (std_shared_ptr.hpp:93-96, boost_intrusive_ptr.hpp:55-57), or
   by dynamic_pointer_cast (std_shared_ptr.hpp:89-92).  [fits]: the object is an Other. *)
Inductive cast_kind := CReference | CStatic | CDynamic.

(* The operations.  [d]: virtual_ptr written, [s]: virtual_ptr read, [o]: object,
   [p]: pointer to an object, [q]: smart pointer variable. *)
Inductive vop :=
  (* plain virtual_ptr *)
  | PlainDefault (d : nat)                               (* 699 *)
  | PlainNull (d : nat)                                  (* 721-724 *)
  | PlainFromRef (d o : nat) (via : bool)                (* 768-772 *)
  | PlainFromPtr (d : nat) (p : option nat) (via : bool) (* 818-822 *)
  | PlainCopy (d s : nat)                                (* 881-883, implicit copy *)
  | PlainAssignRef (d o : nat) (via : bool)              (* 930-935 *)
  | PlainAssignPtr (d : nat) (p : option nat) (via : bool)  (* 980-985 *)
  | PlainAssign (d s : nat)                              (* 1046-1050, implicit copy *)
  | PlainAssignNull (d : nat)                            (* 1071-1075 *)
  | PlainCast (d s : nat) (fits : bool)                  (* 1120-1123 *)
  (* virtual_ptr to a smart pointer *)
  | SmartNull (d : nat)                                  (* 1204-1206, 1225-1227 *)
  | SmartCopy (d s : nat)                                (* 1229, 1414-1416 *)
  | SmartMove (d s : nat)                                (* 1231-1236, 1454-1459 *)
  | SmartFrom (d q : nat) (via : bool)                   (* 1277-1282, 1324-1329 *)
  | SmartFromMove (d q : nat) (via : bool)               (* 1374-1379 *)
  | SmartAssignNull (d : nat)                            (* 1482-1486 *)
  | SmartAssignFrom (d q : nat) (via : bool)             (* 1520-1525, const Other& *)
  | SmartAssignFromMove (d q : nat) (via : bool)         (* 1560-1565, Other&& *)
  | SmartAssign (d s : nat)                              (* 1603-1607, 1609, 1647-1651 *)
  | SmartAssignMove (d s : nat)                          (* 1692-1698 *)
  | SmartCast (d s : nat) (k : cast_kind) (fits : bool)  (* 1738-1743, 1750-1755 *)
  | SmartCastMove (d s : nat) (k : cast_kind) (fits moves : bool) (* 1758-1767 *)
  (* final_virtual_ptr on an object of static type [t], whose static_vptr is at
     [loc]; [poly]: the class is polymorphic according to the rtti policy *)
  | Final (d : nat) (p : option nat) (t : N) (loc : nat) (poly : bool) (* 582-622 *)
  (* the program's own smart pointers *)
  | SmartPtrSet (q : nat) (p : option nat).

(* core.hpp:680-681, 1170-1171. *)
Record vstate := VState {
  vs_vars : nat -> vvar;
  vs_sptrs : nat -> option nat
}.

(* core.hpp:680-681, 1170-1171. *)
Definition set_var (d : nat) (x : vvar) (s : vstate) : vstate :=
  VState (upd (vs_vars s) d x) (vs_sptrs s).
(* The argument of core.hpp:1374-1379, 1560-1565. *)
Definition set_sptr (q : nat) (p : option nat) (s : vstate) : vstate :=
  VState (vs_vars s) (upd (vs_sptrs s) q p).

(* Reading a virtual_ptr; the members of a default constructed one are
   indeterminate.  core.hpp:699, 881-883, 1046-1050. *)
Definition read_var (s : vstate) (x : nat) : outcome (option nat * box) :=
  match vs_vars s x with VUninit => Undef | VVar obj vp => Ok (obj, vp) end.

(* [x ? acquire_vptr( *x) : null_vptr] where acquire_vptr returns a reference; the
   conditional makes a temporary when it returns by value (core.hpp:1278-1280, ...). *)
Definition acquire_or_null (cf : config) (w : world) (objs : nat -> object) (via : bool)
    (p : option nat) : outcome boxed_from :=
  match p with
  | Some o => acquire cf w via (objs o)
  | None => Ok (if via then FromTemp VNull else FromNull)
  end.

(* A cast of a pointer.  static_cast to a class that the object does not have is
   undefined; dynamic_pointer_cast gives a null pointer; dynamic_cast of a reference
   throws std::bad_cast, which the model does not follow and treats like undefined
   behaviour.  core.hpp:141-148; the lines cited at [cast_kind]. *)
Definition cast_ptr (k : cast_kind) (fits : bool) (p : option nat) : outcome (option nat) :=
  match p, k, fits with
  | None, CReference, _ => Undef
  | None, _, _ => Ok None
  | Some o, _, true => Ok (Some o)
  | Some _, CDynamic, false => Ok None
  | Some _, _, false => Undef
  end.

(* The state after the operation, and how it ended.  After an exception the state
   holds what was already written.  core.hpp:930-935, 980-985, 1520-1525. *)
Definition after {A} (s : vstate) (o : outcome A) (k : A -> vstate * outcome unit) :
    vstate * outcome unit :=
  match o with
  | Ok a => k a | Err e => (s, Err e) | Undef => (s, Undef) | Diverge => (s, Diverge)
  end.

(* Replaces one member of a variable; a VUninit one gets both from the caller.
   core.hpp:931, 981, 1521. *)
Definition set_obj (d : nat) (p : option nat) (s : vstate) : vstate :=
  match vs_vars s d with
  | VVar _ vp => set_var d (VVar p vp) s
  | VUninit => s                (* the other member stays indeterminate *)
  end.

Section Step.
  Context (cf : config) (w : world) (objs : nat -> object).

  (* core.hpp:721-724, 768-772, 818-822, 1277-1282. *)
  Definition construct (d : nat) (p : option nat) (x : outcome boxed_from) (s : vstate) :
      vstate * outcome unit :=
    after s x (fun x => (set_var d (VVar p (box_vptr cf w x)) s, Ok tt)).

  (* The lines cited at [vop]. *)
  Definition vstep (op : vop) (s : vstate) : vstate * outcome unit :=
    match op with
    | PlainDefault d => (set_var d VUninit s, Ok tt)
    | PlainNull d | PlainAssignNull d | SmartNull d | SmartAssignNull d =>
        construct d None (Ok FromNull) s
    | PlainFromRef d o via => construct d (Some o) (acquire cf w via (objs o)) s
    | PlainFromPtr d p via =>
        construct d p (let* o := deref p in acquire cf w via (objs o)) s
    | PlainCopy d x | PlainAssign d x | SmartCopy d x | SmartAssign d x =>
        after s (read_var s x) (fun '(obj, vp) => (set_var d (VVar obj vp) s, Ok tt))
    | PlainAssignRef d o via =>
        (* obj = &other; vp = ... *)
        construct d (Some o) (acquire cf w via (objs o)) (set_obj d (Some o) s)
    | PlainAssignPtr d p via =>
        construct d p (let* o := deref p in acquire cf w via (objs o)) (set_obj d p s)
    | PlainCast d x fits =>
        after s (let* '(obj, vp) := read_var s x in
                 let* obj := cast_ptr CReference fits obj in Ok (obj, vp))
          (fun '(obj, vp) => (set_var d (VVar obj vp) s, Ok tt))
    | SmartMove d x =>
        if decide (d = x) then (s, Undef)        (* d is not constructed yet *)
        else after s (read_var s x) (fun '(obj, vp) =>
          (set_var d (VVar obj vp)
             (set_var x (VVar None (box_vptr cf w FromNull)) s), Ok tt))
    | SmartFrom d q via =>
        construct d (vs_sptrs s q) (acquire_or_null cf w objs via (vs_sptrs s q)) s
    | SmartFromMove d q via =>
        after s (acquire_or_null cf w objs via (vs_sptrs s q)) (fun x =>
          (set_sptr q None (set_var d (VVar (vs_sptrs s q) (box_vptr cf w x)) s), Ok tt))
    | SmartAssignFrom d q via =>
        (* obj = other; vp = box_vptr(acquire_vptr( *other)): no test *)
        construct d (vs_sptrs s q) (let* o := deref (vs_sptrs s q) in acquire cf w via (objs o))
          (set_obj d (vs_sptrs s q) s)
    | SmartAssignFromMove d q via =>
        after s (acquire_or_null cf w objs via (vs_sptrs s q)) (fun x =>
          (set_sptr q None (set_var d (VVar (vs_sptrs s q) (box_vptr cf w x)) s), Ok tt))
    | SmartAssignMove d x =>
        after s (read_var s x) (fun '(obj, vp) =>
          if decide (d = x) then (s, Ok tt)      (* exchange, then self-move of obj *)
          else (set_var d (VVar obj vp)
                  (set_var x (VVar None (box_vptr cf w FromNull)) s), Ok tt))
    | SmartCast d x k fits =>
        after s (let* '(obj, vp) := read_var s x in
                 let* obj := cast_ptr k fits obj in Ok (obj, vp))
          (fun '(obj, vp) => (set_var d (VVar obj vp) s, Ok tt))
    | SmartCastMove d x k fits moves =>
        (* cast(std::move(obj)), vp: the source keeps its vp; its obj is null after
           the cast when the traits move from it (C++20 shared_ptr, unique_ptr) *)
        if decide (d = x) then (s, Undef)
        else after s (let* '(obj, vp) := read_var s x in
                      let* obj' := cast_ptr k fits obj in Ok (obj, obj', vp))
          (fun '(obj, obj', vp) =>
             (set_var d (VVar obj' vp)
                (set_var x (VVar (if moves && bool_decide (obj' <> None) then None else obj) vp) s),
              Ok tt))
    | Final d p t loc poly =>
        after s
          (let* _ := require_initialized cf w in
           if cf_checks cf && poly then
             let* o := deref p in                (* Traits::peek(obj) *)
             if decide (ob_type (objs o) = t) then Ok tt
             else Err (EFinal t (ob_type (objs o)))
           else Ok tt)
          (fun _ => (set_var d (VVar p (box_vptr cf w (FromRef (RStatic loc)))) s, Ok tt))
    | SmartPtrSet q p => (set_sptr q p s, Ok tt)
    end.

  (* The argument of a method call made from a virtual_ptr (core.hpp:2475-2482). *)
  Definition var_arg (s : vstate) (x : nat) : outcome arg :=
    let* '(obj, vp) := read_var s x in
    let* v := unbox_vptr w vp in
    match obj with
    | Some o => Ok (APtr v (ob_type (objs o)))
    | None => Ok (APtr v 0)              (* the type of a null pointer: never read *)
    end.
End Step.
