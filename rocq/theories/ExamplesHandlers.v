(* Programs that make mistakes. *)
From stdpp Require Import base list numbers relations.
From Verif Require Import Base Registry Spec ModelClasses ModelMethods ModelTables ModelHash
  ModelWorld ModelCall SpecCall ModelLife SpecLife ModelVirtualPtr SpecVirtualPtr ModelErrors SpecErrors
  ProofBase ProofNext ProofHandlers Decide ExamplesModel ExamplesDispatch ExamplesNext ExamplesVptr ExamplesReport ExamplesLife
  ExamplesVirtualPtr.

(* Handler 1 throws 99 on every error, handler 2 returns. *)
Definition users0 (k : nat) (e : error) : option N := if decide (k = 1) then Some 99%N else None.
Definition S0 : setup := Setup cf0 PolicyDefault true users0 1 objs0.

Definition start (R : registrations) : list action :=
  [Lives (Registers R); SetsHandler (HUser 1); Lives (Initializes run0 false)].
Definition started (R : registrations) (w : world) : program :=
  Program (Process R w) (HUser 1) (VState (fun _ => VUninit) (fun _ => None)).
Definition start_steps (R : registrations) : list deed :=
  [Deed (Lives (Registers R)) [] (Returns VUnit);
   Deed (SetsHandler (HUser 1)) [] (Returns (VHandler HDefault));
   Deed (Lives (Initializes run0 false)) [] (Returns VUnit)].

Lemma start_executes S R : su_odr S <= 1 -> succeedsb (su_config S) false R = true ->
  executes S (start_steps R) (started R (state (su_config S) false R)).
Proof.
  intros Ho Hs. apply (perform_executes S (start R) [] program0); [constructor|].
  unfold start. cbn [perform]. unfold act at 1, attempt at 1, lives at 1. simpl.
  unfold act at 1, attempt at 1, lives at 1. simpl. rewrite decide_False by lia.
  unfold started, state. unfold succeedsb in Hs.
  destruct (initialize (su_config S) run0 false R world0) as [w [rep| | |]]; try discriminate.
  reflexivity.
Qed.

Lemma start_in_place R : handler_in_place (start_steps R) (HUser 1).
Proof.
  apply (in_place_other [_; _]); [discriminate|]. apply (in_place_set [_]).
Qed.

Lemma S0_executes : executes S0 (start_steps R1) (started R1 w1).
Proof. apply start_executes; [simpl; lia|by_compute]. Qed.

Lemma types_lists l : length l <= 16 ->
  lists_types (bad_call_types (map AObject l)) (map AObject l).
Proof. intros H. apply bad_types_lists. rewrite map_length. exact H. Qed.

Lemma mistakes_example :
  executes S0 (start_steps R1) (started R1 w1) /\
  handler_in_place (start_steps R1) (HUser 1) /\
  mistake S0 (start_steps R1) (started R1 w1) (CallsMethod 3 purr [AObject 2%N])
    (ENoOverrider 3 1 (types_of [2%N])) /\
  mistake S0 (start_steps R1) (started R1 w1) (CallsMethod 1 poke [AObject 4%N])
    (EAmbiguousCall 1 1 (types_of [4%N])) /\
  mistake S0 (start_steps R1) (started R1 w1)
    (CallsMethod 3 purr [AOther 5%N; AObject 23%N]) (EMissingClass 23) /\
  mistake S0 (start_steps R1) (started R1 w1)
    (CallsNext 3 purr (or_next (ovr [3] 31)%N) [AObject 4%N]) (ENoOverrider 3 1 (types_of [4%N])) /\
  mistake S0 (start_steps R1) (started R1 w1) (Points (Final 0 (Some 0) 3 3 true)) (EFinal 3 4) /\
  mistake S0 [] program0 (CallsMethod 3 purr [AObject 2%N]) ENotInitialized /\
  mistake S0 [] program0 (Points (PlainFromRef 0 0 false)) ENotInitialized.
Proof.
  assert (Hno : ~ initialized_in []).
  { intros (b & ? & ? & ? & ? & ? & Heq & _). destruct b; discriminate. }
  destruct report_example as (HP & _ & _ & Htr & Hv2 & Hs2 & Hv4 & Hs4).
  assert (HI : initialized_by cf0 run0 false R1 w1) by (apply R1_initialized).
  assert (Hc2 : call_ok cf0 id R1 w1 purr [AObject 2%N] [2%N]) by (apply purr_call; simpl; auto).
  assert (Hc4 : call_ok cf0 id R1 w1 poke [AObject 4%N] [4%N])
    by (apply (call_check cf0 R1 w1 poke [4%N] 4); [discriminate|left|by_compute..]).
  split; [apply S0_executes|]. split; [apply start_in_place|].
  generalize dependent w1. intros w HI Hc2 Hc4.
  split.
  { apply (mistake_no_overrider S0 _ (started R1 w) run0 3 purr [AObject 2%N] [2%N]).
    - exact HP.
    - apply R1_bases_first.
    - exact HI.
    - exact Hc2.
    - apply functions_check; by_compute.
    - left. reflexivity.
    - simpl. lia.
    - intros o Ho Ha. apply elem_of_list_lookup in Ho as [i Hi]. apply (Hs2 i). exists o. auto.
    - apply (types_lists [2%N]). simpl. lia.
    - reflexivity.
    - apply (bad_types_rest [AObject 2%N]). }
  split.
  { apply (mistake_ambiguous S0 _ (started R1 w) run0 1 poke [AObject 4%N] [4%N]).
    - exact HP.
    - apply R1_bases_first.
    - exact HI.
    - exact Hc4.
    - apply functions_check; by_compute.
    - left. reflexivity.
    - simpl. lia.
    - apply Htr; [left|exact Hv4].
    - exact Hs4.
    - apply (types_lists [4%N]). simpl. lia.
    - reflexivity.
    - apply (bad_types_rest [AObject 4%N]). }
  split.
  { apply (mistake_unknown_object S0 _ (started R1 w) run0 false 3 purr [AOther 5%N] 23%N []).
    - exact HP.
    - exact HI.
    - reflexivity.
    - right. split; reflexivity.
    - by_decide.
    - by_decide.
    - repeat constructor. }
  split.
  { apply (mistake_no_next S0 _ (started R1 w) run0 3 purr 0 (ovr [3] 31)%N [AObject 4%N]).
    - exact HP.
    - exact HI.
    - right. left.
    - reflexivity.
    - apply signatures_uniqueb_spec. by_compute.
    - intros args _. destruct HP as [_ Hac Har _ _ _]. apply uni_pointwise; [exact Har|right; left|reflexivity].
    - apply functions_check. by_compute.
    - simpl. lia.
    - apply (selects_next_check id R1 4); by_compute.
    - apply (types_lists [4%N]). simpl. lia.
    - reflexivity.
    - apply (bad_types_rest [AObject 4%N]). }
  split.
  { apply (mistake_final S0 _ (started R1 w) run0 false 0 0 3%N 3); [exact HI|reflexivity|].
    simpl. discriminate. }
  split; constructor; try reflexivity; exact Hno.
Qed.

Lemma proper_example :
  proper S0 (started R1 w1) (CallsMethod 3 purr [AOther 7; AObject 4]%N) 31%N /\
  proper S0 (started R_greet w_greet)
    (CallsNext 5 greet (or_next (ovr [4; 4] 24)%N) [AObject 4; AObject 4]%N) 23%N.
Proof.
  split.
  - destruct report_example as (HP & _ & _ & Htr & _).
    assert (HI : initialized_by cf0 run0 false R1 w1) by (apply R1_initialized).
    assert (Hc : call_ok cf0 id R1 w1 purr [AOther 7; AObject 4]%N [4%N]).
    { destruct (purr_call 4%N) as [H1 H2 H3]; [simpl; auto|]. split; [exact H1|exact H2|exact H3]. }
    assert (Hv := ca_valid _ _ _ _ _ _ _ Hc). simpl in Hv.
    generalize dependent w1. intros w HI Hc.
    apply (proper_call S0 (started R1 w) run0 3 purr [AOther 7; AObject 4]%N [4%N] 0 (ovr [3] 31)%N).
    + exact HP.
    + apply R1_bases_first.
    + exact HI.
    + exact Hc.
    + apply functions_check; by_compute.
    + left. reflexivity.
    + apply Htr; [right; left|exact Hv].
    + apply (selects_check id R1 4); by_compute.
    + reflexivity.
  - destruct greet_example as (HP & HI & Hm & Ho & Hu & Hf & Hpw & Hs & _).
    generalize dependent w_greet. intros w HI.
    apply (proper_next S0 (started R_greet w) run0 5 greet 3 (ovr [4; 4] 24)%N [AObject 4; AObject 4]%N
      2 (ovr [2; 2] 23)%N); try assumption. reflexivity.
Qed.

Lemma throws_example : exists t pg a es en e,
  executes S0 (t ++ [Deed a es en]) pg /\ handler_in_place t (HUser 1) /\
  es = [Entered 1 e] /\ en = Throws (ThrownUser 99).
Proof.
  destruct mistakes_example as (He & Hp & Hm & _).
  destruct (mistake_handled S0 _ _ _ _ _ He Hp Hm) as (pg' & es & en & Ha & Hh).
  exists (start_steps R1), pg', (CallsMethod 3 purr [AObject 2%N]), es, en,
    (ENoOverrider 3 1 (types_of [2%N])).
  split; [econstructor; [exact He| |exact Ha]|split; [exact Hp|]].
  { intros st [= <-]. discriminate. }
  apply handled_user in Hh as [H1 H2]; [|reflexivity]. split; [exact H1|exact H2].
Qed.

Lemma set_example : exists t pg es en,
  executes S0 (t ++ [Deed (SetsHandler HEmpty) es en]) pg /\ handler_in_place t (HUser 1).
Proof.
  exists (start_steps R1). destruct mistakes_example as (He & Hp & _).
  eexists _, _, _. split; [|exact Hp]. econstructor; [exact He| |reflexivity].
  intros st [= <-]. discriminate.
Qed.

Lemma abort_example : exists t pg, executes S0 t pg /\
  t = [] ++ Deed (CallsMethod 3 purr [AObject 2%N]) [Written ENotInitialized] Aborts :: [].
Proof.
  exists [Deed (CallsMethod 3 purr [AObject 2%N]) [Written ENotInitialized] Aborts], program0.
  split; [|reflexivity]. apply (executes_step S0 [] program0); [constructor|discriminate|reflexivity].
Qed.

(* A method with a non-virtual parameter. *)
Lemma arity_wrong : exists cf X R w mid m all args n ts,
  program_ok cf (r_env X) R /\ bases_first (e_ti (r_env X)) R /\
  initialized_by cf X false R w /\ call_ok cf (e_ti (r_env X)) R w m all args /\ functions_ok m /\
  call cf w mid m all = Err (ENoOverrider mid n ts) /\ n <> length (virtual_args all).
Proof.
  exists cf0, run0, R1, w1, 3%N, purr, [AObject 2%N; AOther 9%N], [2%N], 2,
    (Some 2%N :: Some 9%N :: repeat None 14).
  split; [apply R1_program|]. split; [apply R1_bases_first|]. split; [apply R1_initialized|].
  split.
  { destruct (purr_call 2%N) as [H1 H2 H3]; [simpl; auto|]. split; [exact H1| |exact H3]. exact H2. }
  split; [apply functions_check; by_compute|].
  split; [by_compute|discriminate].
Qed.

Lemma bad_call_example :
  call cf0 w1 3 purr [AObject 2%N] = Err (ENoOverrider 3 1 (types_of [2%N])) /\
  call cf0 w1 1 poke [AOther 6; AObject 4; AOther 8]%N = Err (EAmbiguousCall 1 3 (types_of [6; 4; 8]%N)).
Proof. split; by_compute. Qed.

(* The overrider of purr calls its next. *)
Lemma bad_next_example :
  call_next w1 3 purr (or_next (ovr [3] 31)%N) [AObject 4%N] = Err (ENoOverrider 3 1 (types_of [4%N])).
Proof. by_compute. Qed.

Lemma call_errors_example :
  call cf0 w1 3 purr [AObject 23%N] = Err (EMissingClass 23) /\
  call cf0 world0 3 purr [AObject 2%N] = Err ENotInitialized.
Proof. split; by_compute. Qed.
