(* Specification of programs with several threads. *)
From stdpp Require Import base list numbers list_numbers.
From Verif Require Import Base Registry ModelClasses ModelMethods ModelTables ModelHash ModelWorld ModelCall
  ModelErrors SpecReads ModelThreads.

(* What an operation gives when nothing else happens. *)
Definition alone (cf : config) (w : world) (o : op) : outcome answer :=
  match o with
  | OpCall mid m args => let* r := call cf w mid m (map (unboxed w) args) in Ok (Called r)
  | OpNext mid m loc args => let* r := call_next w mid m loc (map (unboxed w) args) in Ok (Called r)
  | OpHasNext m loc => Ok (Has (has_next w m loc))
  | OpPoint t =>
      let* r := acquire_vptr cf w t in
      Ok (Pointed (if cf_indirect cf then r else RElem (vref_value w r)))
  | OpInitialize X n2216 R => let* r := snd (initialize cf X n2216 R w) in Ok (Initialized r)
  end.

(* The world after it. *)
Definition afterwards (cf : config) (w : world) (o : op) : world :=
  match o with OpInitialize X n2216 R => fst (initialize cf X n2216 R w) | _ => w end.

(* What a thread does depends on what it got so far; it may end. *)
Definition program := list (outcome answer) -> option op.

Record thread := Thread {
  th_answers : list (outcome answer);
  th_current : option (code answer)      (* what remains of the operation in progress *)
}.

Definition state : Type := world * list thread.
Definition start (w : world) (ps : list program) : state := (w, map (fun _ => Thread [] None) ps).

(* Thread [i] makes a step. *)
Inductive step (cf : config) (ps : list program) : state -> nat -> state -> Prop :=
  | step_begin w ths i p l o :
      ps !! i = Some p -> ths !! i = Some (Thread l None) -> p l = Some o ->
      step cf ps (w, ths) i (w, <[i := Thread l (Some (get_op cf o))]> ths)
  | step_read w ths i l x k :
      ths !! i = Some (Thread l (Some (Read x k))) ->
      step cf ps (w, ths) i (w, <[i := Thread l (Some (k (contents w x)))]> ths)
  | step_look w ths i l k :
      ths !! i = Some (Thread l (Some (Look k))) ->
      step cf ps (w, ths) i (w, <[i := Thread l (Some (k w))]> ths)
  | step_update w ths i l ls f k :
      ths !! i = Some (Thread l (Some (Update ls f k))) ->
      step cf ps (w, ths) i (f w, <[i := Thread l (Some k)]> ths)
  | step_finish w ths i l r :
      ths !! i = Some (Thread l (Some (Done r))) ->
      step cf ps (w, ths) i (w, <[i := Thread (l ++ [r]) None]> ths).

(* Steps of these threads, in this order. *)
Inductive steps (cf : config) (ps : list program) : state -> list nat -> state -> Prop :=
  | steps_none s : steps cf ps s [] s
  | steps_more s i s' l s'' : step cf ps s i s' -> steps cf ps s' l s'' -> steps cf ps s (i :: l) s''.

(* The next access of a thread is to [l]; it is a write to [l]. *)
Definition accesses (t : thread) (l : location) : Prop :=
  match th_current t with
  | Some (Read l' _) => l = l'
  | Some (Update ls _ _) => ls l = true
  | _ => False
  end.
Definition writes (t : thread) (l : location) : Prop :=
  match th_current t with Some (Update ls _ _) => ls l = true | _ => False end.

(* A data race: two threads are about to access the same location, and one of them writes it. *)
Definition race (s : state) : Prop :=
  exists i j t t' l, i <> j /\ snd s !! i = Some t /\ snd s !! j = Some t' /\ writes t l /\ accesses t' l.

(* A call of a method, which has virtual parameters, of next or has_next, or the making of a
   virtual_ptr: not of initialize(). *)
Definition is_call (o : op) : Prop :=
  match o with OpCall _ m _ => mr_vp m <> [] | OpInitialize _ _ _ => False | _ => True end.

(* No thread does anything else. *)
Definition calls_only (ps : list program) : Prop :=
  forall i p l o, ps !! i = Some p -> p l = Some o -> is_call o.

(* Methods have virtual parameters (C44). *)
Definition virtual_calls (ps : list program) : Prop :=
  forall i p l mid m args, ps !! i = Some p -> p l = Some (OpCall mid m args) -> mr_vp m <> [].

(* Each of the answers is what the operation that the thread asked for gives when it is alone. *)
Definition answers_right (cf : config) (w : world) (p : program) (l : list (outcome answer)) : Prop :=
  forall n r, l !! n = Some r -> exists o, p (take n l) = Some o /\ r = alone cf w o.

(* How many variables an operation reads: those of the call (C45), and one for each argument that is
   an indirect virtual_ptr. *)
Definition indirect_args (args : list targ) : nat :=
  sum_list (map (fun a => match a with TPtr (RStatic _) _ => 1 | _ => 0 end) args).
Definition op_reads (cf : config) (o : op) : nat :=
  match o with
  | OpCall _ m args => call_reads cf m (map (unboxed world0) args) + indirect_args args
  | OpNext _ _ _ _ => 1
  | OpHasNext _ _ => 2
  | OpPoint _ => object_reads cf
  | OpInitialize _ _ _ => 0
  end.

(* How many of the steps are those of thread [i]. *)
Fixpoint steps_of (i : nat) (l : list nat) : nat :=
  match l with [] => 0 | j :: l => (if decide (j = i) then 1 else 0) + steps_of i l end.
