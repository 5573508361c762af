(* Two threads that call methods, and one that runs initialize() meanwhile. *)
From stdpp Require Import base list numbers list_numbers.
From Verif Require Import Base Registry Spec ModelClasses ModelMethods ModelTables ModelHash ModelWorld ModelCall
  ModelErrors SpecCall ProofDispatch ExamplesModel ExamplesDispatch SpecReads ExamplesReads ModelThreads SpecThreads.

(* ---- steps, computed: a thread that has nothing to do is passed over ---- *)
Definition step1 (cf : config) (ps : list program) (s : SpecThreads.state) (i : nat) : option SpecThreads.state :=
  let '(w, ths) := s in
  match ths !! i with
  | Some (Thread l None) =>
      match ps !! i with
      | Some p => match p l with
                  | Some o => Some (w, <[i := Thread l (Some (get_op cf o))]> ths)
                  | None => None
                  end
      | None => None
      end
  | Some (Thread l (Some (Read x k))) => Some (w, <[i := Thread l (Some (k (contents w x)))]> ths)
  | Some (Thread l (Some (Look k))) => Some (w, <[i := Thread l (Some (k w))]> ths)
  | Some (Thread l (Some (Update ls f k))) => Some (f w, <[i := Thread l (Some k)]> ths)
  | Some (Thread l (Some (Done r))) => Some (w, <[i := Thread (l ++ [r]) None]> ths)
  | None => None
  end.

Lemma step1_step cf ps s i s' : step1 cf ps s i = Some s' -> step cf ps s i s'.
Proof.
  destruct s as [w ths]. unfold step1.
  destruct (ths !! i) as [[l [[r|x k|k|ls f k]|]]|] eqn:Ht; intros H; try discriminate H.
  - injection H as <-. by apply step_finish.
  - injection H as <-. by apply step_read.
  - injection H as <-. by apply step_look.
  - injection H as <-. by eapply step_update.
  - destruct (ps !! i) as [p|] eqn:Hp; [|discriminate H]. destruct (p l) as [o|] eqn:Ho; [|discriminate H].
    injection H as <-. by eapply step_begin.
Qed.

Fixpoint perform (cf : config) (ps : list program) (s : SpecThreads.state) (l : list nat) : SpecThreads.state :=
  match l with
  | [] => s
  | i :: l => match step1 cf ps s i with Some s' => perform cf ps s' l | None => perform cf ps s l end
  end.
Fixpoint performed (cf : config) (ps : list program) (s : SpecThreads.state) (l : list nat) : list nat :=
  match l with
  | [] => []
  | i :: l => match step1 cf ps s i with Some s' => i :: performed cf ps s' l | None => performed cf ps s l end
  end.
Lemma perform_steps cf ps l : forall s, steps cf ps s (performed cf ps s l) (perform cf ps s l).
Proof.
  induction l as [|i l IH]; intros s; simpl; [constructor|].
  destruct (step1 cf ps s i) as [s'|] eqn:H; [|apply IH].
  econstructor; [by apply step1_step|apply IH].
Qed.

Definition raceb (s : SpecThreads.state) (i j : nat) (l : location) : bool :=
  negb (Nat.eqb i j) &&
  match snd s !! i with
  | Some (Thread _ (Some (Update ls _ _))) => ls l
  | _ => false
  end &&
  match snd s !! j with
  | Some (Thread _ (Some (Read l' _))) => bool_decide (l = l')
  | _ => false
  end.
Lemma raceb_race s i j l : raceb s i j l = true -> race s.
Proof.
  unfold raceb. rewrite !andb_true_iff, negb_true_iff, Nat.eqb_neq. intros [[Hij Hi] Hj].
  destruct (snd s !! i) as [[a [[]|]]|] eqn:Ei; try discriminate Hi.
  destruct (snd s !! j) as [[a' [[]|]]|] eqn:Ej; try discriminate Hj.
  apply bool_decide_eq_true in Hj as <-. eexists i, j, _, _, l. split; [exact Hij|]. split; [exact Ei|]. by split.
Qed.

(* ---- two threads: one meets a Dog and a Chimera, then pokes a Chimera; the other makes a
   virtual_ptr to a Cat and pokes it ---- *)
Definition meets : program := fun l =>
  match l with
  | [] => Some (OpCall 2 meet [TObject 2; TObject 4])
  | [_] => Some (OpCall 1 poke [TOther 9; TObject 4])
  | _ => None
  end%N.
Definition pokes : program := fun l =>
  match l with
  | [] => Some (OpPoint 3)
  | [Ok (Pointed r)] => Some (OpCall 1 poke [TPtr r 3])
  | _ => None
  end%N.
Definition both : list program := [meets; pokes].

Lemma both_calls : calls_only both.
Proof.
  intros i p l o Hp Ho. destruct i as [|[|i]]; simpl in Hp; simplify_eq.
  - destruct l as [|r [|r' l]]; simpl in Ho; simplify_eq; discriminate.
  - destruct l as [|r [|r' l]]; simpl in Ho; simplify_eq; [done| |].
    + destruct r as [[]| | |]; simplify_eq. discriminate.
    + destruct r as [[]| | |]; simplify_eq.
Qed.

(* In turn. *)
Definition in_turn : list nat := flat_map (fun _ => [0; 1]) (seq 0 60).
Example both_answers : map th_answers (snd (perform cf0 both (start w0 both) in_turn)) =
  [[Ok (Called (Calls 24)); Err (EAmbiguousCall 1 2 (types_of [9; 4]))];
   [Ok (Pointed (RElem (VPtr 0 14))); Ok (Called (Calls 13))]]%N.
Proof. by_compute. Qed.

Lemma answers_lookup {T} (f : thread -> T) (ths : list thread) (i : nat) x :
  map f ths !! i = Some x -> exists t, ths !! i = Some t /\ f t = x.
Proof. rewrite list_lookup_fmap. destruct (ths !! i) as [t|]; simpl; intros [= <-]. by exists t. Qed.

Example both_right : exists l s t t',
  calls_only both /\ steps cf0 both (start w0 both) l s /\
  snd s !! 0 = Some t /\ snd s !! 1 = Some t' /\
  th_answers t = [Ok (Called (Calls 24)); Err (EAmbiguousCall 1 2 (types_of [9; 4]))]%N /\
  th_answers t' = [Ok (Pointed (RElem (VPtr 0 14))); Ok (Called (Calls 13))]%N.
Proof.
  destruct (answers_lookup th_answers (snd (perform cf0 both (start w0 both) in_turn)) 0
    [Ok (Called (Calls 24)); Err (EAmbiguousCall 1 2 (types_of [9; 4]))]%N) as (t & H1 & H2).
  { rewrite both_answers. reflexivity. }
  destruct (answers_lookup th_answers (snd (perform cf0 both (start w0 both) in_turn)) 1
    [Ok (Pointed (RElem (VPtr 0 14))); Ok (Called (Calls 13))]%N) as (t' & H3 & H4).
  { rewrite both_answers. reflexivity. }
  exists (performed cf0 both (start w0 both) in_turn), (perform cf0 both (start w0 both) in_turn), t, t'.
  split; [exact both_calls|]. split; [apply perform_steps|]. exact (conj H1 (conj H3 (conj H2 H4))).
Qed.

Example both_dispatch : exists l s t,
  calls_only both /\ program_ok cf0 env0 R0 /\ bases_first id R0 /\ initialized_by cf0 run0 false R0 w0 /\
  steps cf0 both (start w0 both) l s /\ snd s !! 0 = Some t /\
  th_answers t !! 0 = Some (Ok (Called (Calls 24)))%N /\
  meets (take 0 (th_answers t)) = Some (OpCall 2 meet [TObject 2; TObject 4])%N /\
  call_ok cf0 id R0 w0 meet (map (unboxed w0) [TObject 2; TObject 4]%N) [2; 4]%N /\ functions_ok meet /\
  together (map (unboxed w0) [TObject 2; TObject 4]%N) /\
  settled id R0 (mr_overriders meet) (candidate id R0 (mr_overriders meet) [2; 4]%N).
Proof.
  destruct both_right as (l & s & t & _ & H1 & H2 & H3 & _ & H4 & _). exists l, s, t.
  split; [exact H1|]. split; [exact R0_program|]. split; [exact R0_bases_first|]. split; [exact R0_initialized|].
  split; [exact H2|]. split; [exact H3|]. rewrite H4. split; [reflexivity|]. split; [reflexivity|].
  split; [apply (meet_call 2 4)%N; simpl; tauto|]. split; [exact meet_functions|].
  split; [apply (objects_together [2; 4]%N)|].
  apply candidates_settled. apply (meet_transitive 2 4)%N; simpl; tauto.
Qed.

(* How many steps it may take. *)
Example both_reads :
  op_reads cf0 (OpCall 2 meet [TObject 2; TObject 4])%N = 21 /\
  op_reads fast (OpCall 1 poke [TPtr (RElem (VPtr 0 14)) 3])%N = 2 /\
  op_reads cf0 (OpPoint 3)%N = 7.
Proof. repeat split; by_compute. Qed.

Example both_waits : exists l s t l' s',
  calls_only both /\ steps cf0 both (start w0 both) l s /\ snd s !! 0 = Some t /\
  th_current t <> None /\
  meets (th_answers t) = Some (OpCall 2 meet [TObject 2; TObject 4])%N /\ steps cf0 both s l' s' /\
  op_reads cf0 (OpCall 2 meet [TObject 2; TObject 4])%N + 2 <= steps_of 0 l'.
Proof.
  set (s := perform cf0 both (start w0 both) [0; 1; 0; 1; 1; 1]).
  assert (Ht : map (fun t => (th_answers t, bool_decide (th_current t = None))) (snd s) !! 0 = Some ([], false)) by by_compute.
  destruct (answers_lookup _ _ _ _ Ht) as (t & H1 & H2). injection H2 as H2 H3.
  exists (performed cf0 both (start w0 both) [0; 1; 0; 1; 1; 1]), s, t, (performed cf0 both s in_turn), (perform cf0 both s in_turn).
  split; [exact both_calls|]. split; [apply perform_steps|]. split; [exact H1|].
  split; [apply bool_decide_eq_false in H3; exact H3|].
  split; [rewrite H2; reflexivity|]. split; [apply perform_steps|].
  apply Nat.leb_le. by_compute.
Qed.

(* ---- a call, and initialize() once more with the same registrations ---- *)
Definition interrupted : program := fun l =>
  match l with [] => Some (OpCall 1 poke [TObject 2]) | _ => None end%N.
Definition again : program := fun l =>
  match l with [] => Some (OpInitialize run0 false R0) | _ => None end.
Definition two : list program := [interrupted; again].

(* The call is about to read the v-table pointer of the object; initialize() is about to write it. *)
Definition at_race : list nat := repeat 0 8 ++ repeat 1 5.
(* The call has read it; then initialize() runs. *)
Definition at_undefined : list nat := repeat 0 9 ++ repeat 1 20 ++ repeat 0 20.

Lemma two_races : exists (cf : config) (X : run) (R : registrations) (w : world) (mid : N) (m : method_record)
    (t : N) (f : fptr) (call init : program),
  program_ok cf (r_env X) R /\ bases_first (e_ti (r_env X)) R /\ initialized_by cf X false R w /\
  call [] = Some (OpCall mid m [TObject t]) /\ init [] = Some (OpInitialize X false R) /\
  alone cf w (OpCall mid m [TObject t]) = Ok (Called (Calls f)) /\
  alone cf (afterwards cf w (OpInitialize X false R)) (OpCall mid m [TObject t]) = Ok (Called (Calls f)) /\
  (exists l s, steps cf [call; init] (start w [call; init]) l s /\ race s) /\
  (exists l s th, steps cf [call; init] (start w [call; init]) l s /\ snd s !! 0 = Some th /\
    th_answers th = [Undef]).
Proof.
  exists cf0, run0, R0, w0, 1%N, poke, 2%N, 12%N, interrupted, again.
  split; [exact R0_program|]. split; [exact R0_bases_first|]. split; [exact R0_initialized|].
  split; [reflexivity|]. split; [reflexivity|]. split; [by_compute|]. split; [by_compute|]. split.
  - exists (performed cf0 two (start w0 two) at_race), (perform cf0 two (start w0 two) at_race).
    split; [apply perform_steps|]. apply (raceb_race _ 1 0 (LVector 1)). by_compute.
  - destruct (answers_lookup th_answers (snd (perform cf0 two (start w0 two) at_undefined)) 0 [Undef])
      as (t & H1 & H2); [by_compute|].
    exists (performed cf0 two (start w0 two) at_undefined), (perform cf0 two (start w0 two) at_undefined), t.
    split; [apply perform_steps|]. exact (conj H1 H2).
Qed.

Lemma two_virtual : virtual_calls two.
Proof.
  intros i p l mid m args Hp Ho. destruct i as [|[|i]]; simpl in Hp; simplify_eq.
  - destruct l; simpl in Ho; simplify_eq. discriminate.
  - destruct l; simpl in Ho; simplify_eq.
Qed.

Example two_writes : exists l s s',
  virtual_calls two /\ steps cf0 two (start w0 two) l s /\ step cf0 two s 1 s' /\
  contents (fst s') (LVector 1) <> contents (fst s) (LVector 1).
Proof.
  set (s := perform cf0 two (start w0 two) at_race).
  assert (H : match step1 cf0 two s 1 with
              | Some s' => match contents (fst s') (LVector 1), contents (fst s) (LVector 1) with
                           | CVptr (Some (VPtr a _)), CVptr (Some (VPtr b _)) => negb (Nat.eqb a b)
                           | _, _ => false end
              | None => false end = true) by by_compute.
  destruct (step1 cf0 two s 1) as [s'|] eqn:E; [|discriminate H].
  exists (performed cf0 two (start w0 two) at_race), s, s'.
  split; [exact two_virtual|]. split; [apply perform_steps|]. split; [by apply step1_step|].
  intros Heq. rewrite Heq in H.
  destruct (contents (fst s) (LVector 1)) as [| | | |[[|a o]|]| | |]; try discriminate H.
  by rewrite Nat.eqb_refl in H.
Qed.
