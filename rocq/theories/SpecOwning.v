(* What users expect of smart pointers and of virtual_ptrs to them: an object exists as long as
   it has an owner, whatever the program does with them, and whatever is thrown. *)
From stdpp Require Import base list numbers.
From Verif Require Import Base Registry ModelClasses ModelHash ModelWorld ModelCall ModelVirtualPtr
  ModelArguments SpecArguments ModelOwning.

Definition alive (s : ostate) (o : nat) : Prop := hp_alive (os_heap s) o = true.

(* The object a variable points to. *)
Definition points (s : ostate) (x : nat) : option nat := look (os_heap s) x ≫= target.

(* A smart pointer, and a virtual_ptr to one; plain virtual_ptr. *)
Definition smart (s : ostate) (x : nat) (k : ownership) : Prop :=
  exists p, look (os_heap s) x = Some (Content (HSmart k p) None).
Definition smart_vptr (s : ostate) (x : nat) (k : ownership) : Prop :=
  exists p vp, look (os_heap s) x = Some (Content (HSmart k p) (Some vp)).
Definition plain_vptr (s : ostate) (x : nat) : Prop :=
  exists p vp, look (os_heap s) x = Some (Content (HRaw p) (Some vp)).

Section Allowed.
  Context (cf : config) (w : world) (embedded : nat -> option box).

  (* The look-up of the v-table pointer of an object of that type succeeds or reports an error:
     see C18, C19 and C24. *)
  Definition searched (s : ostate) (via : bool) (o : nat) : Prop :=
    acquire cf w via (Object (nth o (os_types s) 0%N) (embedded o)) <> Undef /\
    acquire cf w via (Object (nth o (os_types s) 0%N) (embedded o)) <> Diverge.
  Definition found (s : ostate) (via : bool) (q : nat) : Prop :=
    forall o, points s q = Some o -> searched s via o.

  (* The program compiles, and does not use a variable that is gone, dereference a null pointer,
     or static_cast to a class that the object does not have. *)
  Definition allowed (s : ostate) (op : own_op) : Prop :=
    match op with
    | OCreate _ _ | OMake _ _ _ _ _ | ONull _ => True
    | ODestroy x => look (os_heap s) x <> None
    | OFinal q t loc poly move =>
        exists k, smart s q k /\ (move = false -> k <> Unique) /\ (poly = true -> points s q <> None)
    | OCopy x => exists k, k <> Unique /\ (smart s x k \/ smart_vptr s x k)
    | OMove x => exists k, smart s x k \/ smart_vptr s x k
    | OFrom q via => exists k, k <> Unique /\ smart s q k /\ found s via q
    | OFromMove q via => exists k, smart s q k /\ found s via q
    | OAssignNull d => exists k, smart_vptr s d k
    | OAssignFrom d q via =>
        exists k, k <> Unique /\ smart_vptr s d k /\ smart s q k /\ points s q <> None /\ found s via q
    | OAssignFromMove d q via => exists k, smart_vptr s d k /\ smart s q k /\ found s via q
    | OAssign d x => exists k, k <> Unique /\ smart_vptr s d k /\ smart_vptr s x k
    | OAssignMove d x => exists k, smart_vptr s d k /\ smart_vptr s x k
    | OCast x dynamic fits =>
        exists k, k <> Unique /\ smart_vptr s x k /\ (dynamic = false -> fits = true) /\
          (points s x = None -> k = Intrusive -> dynamic = false)
    | OCastMove x dynamic fits =>
        exists k, smart_vptr s x k /\ (dynamic = false -> fits = true) /\
          (points s x = None -> k <> Unique /\ (k = Intrusive -> dynamic = false))
    | OPlain o via => alive s o /\ searched s via o
    | OPlainAssign d o via => plain_vptr s d /\ alive s o /\ searched s via o
    end.
End Allowed.

(* Nothing yet. *)
Definition start : ostate := OState (Heap [] (fun _ => false)) [].

(* The states a program reaches, whatever was thrown, and whatever became of the registry
   between the operations. *)
Inductive reached (cf : config) (cxx20 : bool) : ostate -> Prop :=
  | reached_start : reached cf cxx20 start
  | reached_step s w embedded op s' r :
      reached cf cxx20 s -> allowed cf w embedded s op ->
      ostep cf w embedded cxx20 op s = Ok (s', r) -> reached cf cxx20 s'.

(* An object exists exactly as long as it has an owner. *)
Record orderly (s : ostate) : Prop := {
  or_healthy : healthy (os_heap s);
  or_alive : forall o, alive s o <-> exists x, owner (os_heap s) x o;
  or_known : forall o, alive s o -> o < length (os_types s)
}.

(* The variable that is read. *)
Definition source (op : own_op) : option nat :=
  match op with
  | OFinal q _ _ _ _ | OFrom q _ | OFromMove q _ | OAssignFrom _ q _ | OAssignFromMove _ q _ => Some q
  | OCopy x | OMove x | OAssign _ x | OAssignMove _ x | OCast x _ _ | OCastMove x _ _ => Some x
  | _ => None
  end.

(* Does the operation move from it? *)
Definition empties (cxx20 : bool) (s : ostate) (op : own_op) : Prop :=
  match op with
  | OFinal _ _ _ _ move => move = true
  | OMove _ | OFromMove _ _ | OAssignFromMove _ _ _ | OAssignMove _ _ => True
  | OCastMove x _ fits =>
      fits = true /\ points s x <> None /\
      (smart_vptr s x Unique \/ smart_vptr s x Shared /\ cxx20 = true)
  | _ => False
  end.

(* The variable that is assigned, if it is not a new one. *)
Definition destination (op : own_op) : option nat :=
  match op with
  | OAssignNull d | OAssignFrom d _ _ | OAssignFromMove d _ _ | OAssign d _ | OAssignMove d _
  | OPlainAssign d _ _ => Some d
  | _ => None
  end.

(* The object it is to point to; a new object has the next number. *)
Definition given (s : ostate) (op : own_op) : option nat :=
  match op with
  | OCreate _ _ | OMake _ _ _ _ _ => Some (length (os_types s))
  | OCast x _ fits | OCastMove x _ fits => if fits then points s x else None
  | OPlain o _ | OPlainAssign _ o _ => Some o
  | _ => source op ≫= points s
  end.

(* What the variables are after an operation that did not throw. *)
Definition effect (cxx20 : bool) (s : ostate) (op : own_op) (s' : ostate) : Prop :=
  match op with
  | ODestroy x =>
      look (os_heap s') x = None /\ forall y, y <> x -> look (os_heap s') y = look (os_heap s) y
  | _ =>
      exists y,
        match destination op with Some d => y = d | None => look (os_heap s) y = None end /\
        look (os_heap s') y <> None /\ points s' y = given s op /\
        forall x, x <> y ->
          (source op = Some x -> empties cxx20 s op -> look (os_heap s') x <> None /\ points s' x = None) /\
          (~ (source op = Some x /\ empties cxx20 s op) -> look (os_heap s') x = look (os_heap s) x)
  end.

(* The dynamic types of objects do not change. *)
Definition types_kept (s s' : ostate) : Prop := exists l, os_types s' = os_types s ++ l.

(* Assignments from an object or from a smart pointer by const reference. *)
Definition assigns_first (op : own_op) : Prop :=
  match op with OAssignFrom _ _ _ | OPlainAssign _ _ _ => True | _ => False end.

(* An operation that throws had no effect. *)
Definition unwound (s s' : ostate) : Prop :=
  (forall x, look (os_heap s') x = look (os_heap s) x) /\ (forall o, alive s' o <-> alive s o).

(* What make_shared_virtual, make_unique_virtual and make_boost_intrusive_virtual are for. *)
Record made (w : world) (k : ownership) (t : N) (loc : nat) (s s' : ostate) (y o : nat) : Prop := {
  md_new : ~ alive s o /\ look (os_heap s) y = None;
  md_exists : alive s' o /\ os_types s' !! o = Some t;
  md_owner : forall x, owner (os_heap s') x o <-> x = y;
  md_vptr : exists b vp, look (os_heap s') y = Some (Content (HSmart k (Some (o, b))) (Some vp)) /\
    unbox_vptr w vp = Ok (w_static w loc);
  md_others : forall x, x <> y -> look (os_heap s') x = look (os_heap s) x;
  md_objects : forall o', o' <> o -> alive s' o' <-> alive s o'
}.
