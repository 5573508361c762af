(* Specification of virtual_ptrs to objects under construction and destruction: the dynamic type of an
   object is the class whose constructor or destructor runs ([class.cdtor]), so that it changes while the
   object is constructed and destroyed.  What the library does is that of ModelVirtualPtr.v. *)
From stdpp Require Import base list numbers.
From Verif Require Import Base Registry Spec ModelClasses ModelHash ModelWorld ModelCall SpecCall
  ModelVirtualPtr SpecVirtualPtr.

(* The objects of the program now, and its virtual_ptrs. *)
Definition scene : Type := (nat -> object) * vstate.

(* The program does something with virtual_ptrs, or the classes of objects change; the objects are
   always like [Q]. *)
Inductive goes (cf : config) (ti : N -> N) (R : registrations) (w : world) (Q : (nat -> object) -> Prop) :
    scene -> scene -> Prop :=
  | goes_none objs s : Q objs -> goes cf ti R w Q (objs, s) (objs, s)
  | goes_op c objs s op s' o :
      goes cf ti R w Q c (objs, s) -> vstep cf w objs op s = (s', o) -> op_ok cf ti R objs op o ->
      goes cf ti R w Q c (objs, s')
  | goes_change c objs s objs' :
      goes cf ti R w Q c (objs, s) -> Q objs' -> goes cf ti R w Q c (objs', s).

(* The objects are of registered classes, and the v-table pointers embedded in them are those of the
   classes that they have (C24). *)
Definition objects_ok (ti : N -> N) (R : registrations) (w : world) (objs : nat -> object) : Prop :=
  (forall o, known R (ob_type (objs o))) /\ inplace_ok ti R w objs.

(* There is no virtual_ptr to [o]. *)
Definition unseen (o : nat) (s : vstate) : Prop := forall x b, vs_vars s x <> VVar (Some o) b.

(* The arguments are the same, but the types of objects to which virtual_ptrs point. *)
Inductive same_tables : arg -> arg -> Prop :=
  | same_arg a : same_tables a a
  | same_ptr v t t' : same_tables (APtr v t) (APtr v t').

(* A virtual_ptr made of an object of [objs0], which is of [objs] when it is used. *)
Definition stale (cf : config) (X : run) (R : registrations) (w : world) (objs0 objs : nat -> object)
    (o : nat) (mid : N) (m : method_record) (f g : fptr) : Prop :=
  program_ok cf (r_env X) R /\ initialized_by cf X false R w /\
  objects_ok (e_ti (r_env X)) R w objs0 /\ objects_ok (e_ti (r_env X)) R w objs /\
  call cf w mid m [AObject (ob_type (objs0 o))] = Ok (Calls f) /\
  call cf w mid m [AObject (ob_type (objs o))] = Ok (Calls g) /\ f <> g /\
  exists s0 s a, no_vars s0 /\ vstep cf w objs0 (PlainFromRef 0 o false) s0 = (s, Ok tt) /\
    var_arg w objs s 0 = Ok a /\ call cf w mid m [a] = Ok (Calls f).
