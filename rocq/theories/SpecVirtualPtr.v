(* Specification vocabulary about virtual_ptrs: what a program does with them, and
   what is expected of them. *)
From stdpp Require Import base list numbers.
From Verif Require Import Base Registry Spec ModelClasses ModelHash ModelWorld ModelCall SpecCall
  ModelLife ModelVirtualPtr.

(* No virtual_ptr exists yet. *)
Definition no_vars (s : vstate) : Prop := forall x, vs_vars s x = VUninit.

(* The operation returned, or the error handler threw. *)
Definition ends (o : outcome unit) : Prop := o = Ok tt \/ exists e, o = Err e.

(* The operation assigns a reference, a raw pointer or a smart pointer lvalue. *)
Definition assigns_lvalue (op : vop) : bool :=
  match op with
  | PlainAssignRef _ _ _ | PlainAssignPtr _ _ _ | SmartAssignFrom _ _ _ => true
  | _ => false
  end.

(* The operation reads the v-table pointer embedded in an object. *)
Definition reads_inplace (op : vop) : bool :=
  match op with
  | PlainFromRef _ _ via | PlainFromPtr _ _ via | PlainAssignRef _ _ via | PlainAssignPtr _ _ via
  | SmartFrom _ _ via | SmartFromMove _ _ via | SmartAssignFrom _ _ via
  | SmartAssignFromMove _ _ via => via
  | _ => false
  end.

(* The operation may leave an empty smart virtual_ptr with the v-table pointer of
   the object it lost or did not get: a moving or dynamic cast, final_virtual_ptr of
   a null pointer. *)
Definition casts_away (op : vop) : bool :=
  match op with
  | SmartCastMove _ _ _ _ _ => true
  | SmartCast _ _ CDynamic _ => true
  | Final _ None _ _ _ => true
  | _ => false
  end.

(* The v-table pointer of class [k]. *)
Definition vptr_of (ti : N -> N) (R : registrations) (w : world) (k : N) (v : vptr) : Prop :=
  exists cr, first_record ti R k = Some cr /\ v = w_static w (cr_static_vptr cr).

(* Type [t] was registered. *)
Definition known (R : registrations) (t : N) : Prop := t ∈ map cr_type (reg_classes R).

(* final_virtual_ptr is used as documented: [loc] is the static_vptr of the static
   type, and unless the library checks it, the object is of that class. *)
Definition final_ok (cf : config) (ti : N -> N) (R : registrations) (objs : nat -> object)
    (op : vop) : Prop :=
  match op with
  | Final _ p t loc poly =>
      (exists cr, first_record ti R (ti t) = Some cr /\ cr_static_vptr cr = loc) /\
      (cf_checks cf && poly = false -> forall o, p = Some o -> ti (ob_type (objs o)) = ti t)
  | _ => True
  end.

(* The v-table pointers embedded in objects of registered classes are right. *)
Definition inplace_ok (ti : N -> N) (R : registrations) (w : world) (objs : nat -> object) : Prop :=
  forall o b, known R (ob_type (objs o)) -> ob_inplace (objs o) = Some b ->
    exists v, unbox_vptr w b = Ok v /\ vptr_of ti R w (ti (ob_type (objs o))) v.

Section Uses.
  Context (cf : config) (ti : N -> N) (R : registrations) (w : world) (objs : nat -> object).

  (* What is asked of one operation in a program. *)
  Record op_ok (op : vop) (o : outcome unit) : Prop := {
    oo_ends : ends o;
    oo_final : final_ok cf ti R objs op;
    oo_inplace : reads_inplace op = true -> cf_indirect cf = false;
    oo_throw : assigns_lvalue op = true -> o = Ok tt
  }.

  (* The program reaches [s] by operations satisfying [P]. *)
  Inductive reaches (P : vop -> Prop) : vstate -> Prop :=
    | reaches_start s : no_vars s -> reaches P s
    | reaches_step s op s' o :
        reaches P s -> P op -> vstep cf w objs op s = (s', o) -> op_ok op o -> reaches P s'.
End Uses.

(* The present state comes from initialize() with the present registrations. *)
Definition coherent (cf : config) (ti : N -> N) (p : process) : Prop :=
  exists X n2216, e_ti (r_env X) = ti /\ program_ok cf (r_env X) (pr_regs p) /\
    initialized_by cf X n2216 (pr_regs p) (pr_world p).

(* The objects whose v-table pointer the operation looks up. *)
Definition looks_up (s : vstate) (op : vop) : list nat :=
  match op with
  | PlainFromRef _ o _ | PlainAssignRef _ o _ => [o]
  | PlainFromPtr _ p _ | PlainAssignPtr _ p _ | Final _ p _ _ _ =>
      match p with Some o => [o] | None => [] end
  | SmartFrom _ q _ | SmartFromMove _ q _ | SmartAssignFrom _ q _ | SmartAssignFromMove _ q _ =>
      match vs_sptrs s q with Some o => [o] | None => [] end
  | _ => []
  end.

(* Registrations in which the static_vptr of class [k] is the variable [addr k]. *)
Definition at_address (ti : N -> N) (addr : N -> nat) (R : registrations) : Prop :=
  forall cr, cr ∈ reg_classes R -> cr_static_vptr cr = addr (ti (cr_type cr)).

(* A program that registers, unregisters, initializes, finalizes, and makes
   virtual_ptrs of objects of classes registered at that time. *)
Inductive vlife (cf : config) (ti : N -> N) (addr : N -> nat) (objs : nat -> object) :
    process -> vstate -> Prop :=
  | vlife_start s : no_vars s -> vlife cf ti addr objs process0 s
  | vlife_event p s ev p' r :
      vlife cf ti addr objs p s -> step cf ev p = Ok (p', r) ->
      at_address ti addr (pr_regs p') -> vlife cf ti addr objs p' s
  | vlife_op p s op s' o :
      vlife cf ti addr objs p s -> coherent cf ti p ->
      Forall (fun o => known (pr_regs p) (ob_type (objs o))) (looks_up s op) ->
      vstep cf (pr_world p) objs op s = (s', o) -> op_ok cf ti (pr_regs p) objs op o ->
      vlife cf ti addr objs p s'.

(* The first argument is the second, or a virtual_ptr to it. *)
Inductive through (cf : config) (ti : N -> N) (R : registrations) (w : world) : arg -> arg -> Prop :=
  | through_same a : through cf ti R w a a
  | through_ptr v t : known R t -> passes cf ti R w (APtr v t) (ti t) ->
      through cf ti R w (APtr v t) (AObject t).

(* The operation makes [d] from the pointer [src]. *)
Definition stores (s : vstate) (op : vop) (d : nat) (src : option nat) : Prop :=
  match op with
  | SmartNull d' | SmartAssignNull d' => d' = d /\ src = None
  | SmartFrom d' q _ | SmartFromMove d' q _ | SmartAssignFrom d' q _
  | SmartAssignFromMove d' q _ => d' = d /\ src = vs_sptrs s q
  | _ => False
  end.

(* The operation moves from [x] to another virtual_ptr [d]. *)
Definition moves_to (op : vop) (d x : nat) : Prop :=
  (op = SmartMove d x \/ op = SmartAssignMove d x) /\ d <> x.

(* [x] is a null virtual_ptr with a null v-table pointer. *)
Definition is_null (w : world) (s : vstate) (x : nat) : Prop :=
  exists b, vs_vars s x = VVar None b /\ unbox_vptr w b = Ok VNull.
