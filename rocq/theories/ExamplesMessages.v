(* Texts of errors. *)
From Coq Require Import Ascii.
From stdpp Require Import base list numbers strings.
From Verif Require Import Base Registry Spec ModelClasses ModelMethods ModelTables ModelHash
  ModelWorld ModelCall SpecCall ModelLife SpecLife ModelVirtualPtr SpecVirtualPtr ModelErrors SpecErrors
  ModelOptions SpecOptions ModelMessages SpecMessages ProofMessages
  ProofBase ProofNext ProofHandlers Decide ExamplesModel ExamplesDispatch ExamplesNext ExamplesVptr ExamplesReport ExamplesLife
  ExamplesVirtualPtr ExamplesHandlers.

Definition names8 (t : N) : string :=
  if (t =? 0)%N then "Registry" else if (t =? 1)%N then "Animal" else if (t =? 2)%N then "Dog"
  else if (t =? 3)%N then "Cat" else if (t =? 4)%N then "CatDog" else "Bear".

(* The handler is the default one, or that of throw_error_handler. *)
Definition S_written : setup := Setup cf0 PolicyDefault true users0 1 objs0.
Definition S_silent : setup := Setup cf0 PolicyDefault false users0 1 objs0.
Definition S_throw : setup := Setup cf0 PolicyThrow true users0 1 objs0.

Definition begun (w : world) : program :=
  Program (Process R1 w) HDefault (VState (fun _ => VUninit) (fun _ => None)).
Definition begun_steps : list deed :=
  [Deed (Lives (Registers R1)) [] (Returns VUnit); Deed (Lives (Initializes run0 false)) [] (Returns VUnit)].

Lemma begin_executes S R w rep : su_odr S <= 1 ->
  initialize (su_config S) run0 false R world0 = (w, Ok rep) ->
  executes S [Deed (Lives (Registers R)) [] (Returns VUnit); Deed (Lives (Initializes run0 false)) [] (Returns VUnit)]
    (Program (Process R w) HDefault (VState (fun _ => VUninit) (fun _ => None))).
Proof.
  intros Ho Hi.
  apply (perform_executes S [Lives (Registers R); Lives (Initializes run0 false)] [] program0); [constructor|].
  cbn [perform]. unfold act at 1, attempt at 1, lives at 1. simpl.
  unfold act at 1, attempt at 1, lives at 1. simpl. rewrite decide_False by lia.
  rewrite Hi. reflexivity.
Qed.

Lemma begun_executes S : su_config S = cf0 -> su_odr S = 1 -> executes S begun_steps (begun w1).
Proof.
  intros Hc Ho. destruct report_example as (_ & _ & Hi & _). rewrite <- Hc in Hi.
  eapply begin_executes; [lia|exact Hi].
Qed.

Lemma begun_in_place : handler_in_place begun_steps HDefault.
Proof.
  apply (in_place_other [_]); [discriminate|]. apply (in_place_other []); [discriminate|]. constructor.
Qed.

Lemma begun_mistakes S : su_config S = cf0 -> su_objs S = objs0 ->
  mistake S begun_steps (begun w1) (Points (Final 0 (Some 0) 3 3 true)) (EFinal 3 4) /\
  mistake S begun_steps (begun w1) (CallsMethod 3 purr [AOther 5%N; AObject 23%N]) (EMissingClass 23) /\
  mistake S begun_steps (begun w1) (CallsMethod 3 purr [AObject 2%N]) (ENoOverrider 3 1 (types_of [2%N])) /\
  mistake S begun_steps (begun w1)
    (CallsNext 3 purr (or_next (ovr [3] 31)%N) [AObject 4%N]) (ENoOverrider 3 1 (types_of [4%N])).
Proof.
  intros Hc Ho. destruct S as [cf p o us odr objs]. simpl in Hc, Ho. subst cf objs.
  destruct report_example as (HP & _ & _ & Htr & Hv2 & Hs2 & Hv4 & Hs4).
  assert (HI : initialized_by cf0 run0 false R1 w1) by (apply R1_initialized).
  assert (Hc2 : call_ok cf0 id R1 w1 purr [AObject 2%N] [2%N]) by (apply purr_call; simpl; auto).
  generalize dependent w1. intros w HI Hc2.
  split; [|split; [|split]].
  - apply (mistake_final (Setup cf0 p o us odr objs0) begun_steps (begun w) run0 false 0 0 3%N 3); [exact HI|reflexivity|].
    simpl. discriminate.
  - apply (mistake_unknown_object (Setup cf0 p o us odr objs0) begun_steps (begun w) run0 false 3 purr [AOther 5%N] 23%N []).
    + exact HP.
    + exact HI.
    + reflexivity.
    + right. split; reflexivity.
    + by_decide.
    + by_decide.
    + repeat constructor.
  - apply (mistake_no_overrider (Setup cf0 p o us odr objs0) begun_steps (begun w) run0 3 purr [AObject 2%N] [2%N]).
    + exact HP.
    + apply R1_bases_first.
    + exact HI.
    + exact Hc2.
    + apply functions_check; by_compute.
    + left. reflexivity.
    + simpl. lia.
    + intros ov Hov Ha. apply elem_of_list_lookup in Hov as [i Hi]. apply (Hs2 i). exists ov. auto.
    + apply (types_lists [2%N]). simpl. lia.
    + reflexivity.
    + apply (bad_types_rest [AObject 2%N]).
  - apply (mistake_no_next (Setup cf0 p o us odr objs0) begun_steps (begun w) run0 3 purr 0 (ovr [3] 31)%N [AObject 4%N]).
    + exact HP.
    + exact HI.
    + right. left.
    + reflexivity.
    + apply signatures_uniqueb_spec. by_compute.
    + intros args _. destruct HP as [_ Hac Har _ _ _]. apply uni_pointwise; [exact Har|right; left|reflexivity].
    + apply functions_check. by_compute.
    + simpl. lia.
    + apply (selects_next_check id R1 4); by_compute.
    + apply (types_lists [4%N]). simpl. lia.
    + reflexivity.
    + apply (bad_types_rest [AObject 4%N]).
Qed.

Lemma written_example :
  executes S_written begun_steps (begun w1) /\ handler_in_place begun_steps HDefault /\
  su_policy S_written = PolicyDefault /\ su_output S_written = true /\
  mistake S_written begun_steps (begun w1) (Points (Final 0 (Some 0) 3 3 true)) (EFinal 3 4) /\
  describe names8 0 (EFinal 3 4) =
    Ok "invalid call to final construct: static type = Cat, dynamic type = CatDog" /\
  mistake S_written begun_steps (begun w1) (CallsMethod 3 purr [AOther 5%N; AObject 23%N]) (EMissingClass 23) /\
  written names8 0 true [Written (EMissingClass 23)] = Ok ("unknown class Bear" +:+ newline).
Proof.
  destruct (begun_mistakes S_written) as (H1 & H2 & _); [reflexivity..|].
  split; [by apply begun_executes|]. split; [apply begun_in_place|]. repeat split; auto.
Qed.

Lemma thrown_example :
  executes S_throw begun_steps (begun w1) /\ handler_in_place begun_steps HDefault /\
  su_policy S_throw = PolicyThrow /\
  mistake S_throw begun_steps (begun w1) (CallsMethod 3 purr [AOther 5%N; AObject 23%N]) (EMissingClass 23) /\
  what names8 0 (ThrownError (EMissingClass 23)) = Some (Ok "unknown class Bear").
Proof.
  destruct (begun_mistakes S_throw) as (H1 & H2 & _); [reflexivity..|].
  split; [by apply begun_executes|]. split; [apply begun_in_place|]. repeat split; auto.
Qed.

(* A search that fails. *)
Lemma search_text :
  exists w', program_ok cf0 env17 R_17 /\ world_ok world0 /\
    initialize cf0 run17 false R_17 world0 = (w', Err (ESearch 400000 32)) /\
    describe names8 0 (ESearch 400000 32) =
      Ok ("could not find hash factors after 400000s using 32 buckets" +:+ newline).
Proof.
  destruct (search_fails world0) as [w' Hw]; [apply world0_start|]. exists w'.
  split; [apply program17; by_compute|]. split; [apply world0_start|]. split; [exact Hw|]. by_compute.
Qed.

Lemma names8_plain : plain_names names8 /\ forall t, one_line (names8 t).
Proof.
  enough (forall c t, c = "|"%char \/ c = "="%char \/ c = "010"%char -> ~ occurs c (names8 t)) as H.
  { split; [intros t; split|intros t]; apply H; auto. }
  intros c t Hc. unfold names8.
  repeat case_match; destruct Hc as [->|[->| ->]]; by apply occurs_dec_false.
Qed.

Lemma kinds_example :
  describe names8 0 (EMissingBase 1 4) = Ok "missing base Animal -<| CatDog" /\
  describe names8 0 EOdrViolation = Ok "conflicting definitions of Registry" /\
  describe names8 0 ENotInitialized = Ok "not initialized" /\
  kind_of (EMissingBase 1 4) = kind_of (EMissingBase 2 4) /\ plain_names names8.
Proof. repeat split; apply names8_plain. Qed.

Lemma line_example : (forall t, one_line (names8 t)) /\ kind_of (EMissingBase 1 4) <> KSearch /\
  describe names8 0 (EMissingBase 1 4) = Ok "missing base Animal -<| CatDog".
Proof. split; [apply names8_plain|]. done. Qed.

Lemma line_refuted : exists cf X R w w' e s,
  program_ok cf (r_env X) R /\ world_ok w /\ initialize cf X false R w = (w', Err e) /\
  (forall t, one_line (names8 t)) /\ describe names8 0 e = Ok s /\ ~ one_line s.
Proof.
  destruct search_text as (w' & HP & Hw & Hi & Hd).
  exists cf0, run17, R_17, world0, w', (ESearch 400000 32),
    ("could not find hash factors after 400000s using 32 buckets" +:+ newline).
  split; [exact HP|]. split; [exact Hw|]. split; [exact Hi|]. split; [apply names8_plain|].
  split; [exact Hd|]. intros H. apply H. by exists "could not find hash factors after 400000s using 32 buckets", "".
Qed.

Lemma calls_refuted : exists S t pg a a' e e' s,
  executes S t pg /\ mistake S t pg a e /\ mistake S t pg a' e' /\ e <> e' /\
  describe names8 0 e = Ok s /\ describe names8 0 e' = Ok s.
Proof.
  destruct (begun_mistakes S_written) as (_ & _ & H1 & H2); [reflexivity..|].
  exists S_written, begun_steps, (begun w1), (CallsMethod 3 purr [AObject 2%N]),
    (CallsNext 3 purr (or_next (ovr [3] 31)%N) [AObject 4%N]),
    (ENoOverrider 3 1 (types_of [2%N])), (ENoOverrider 3 1 (types_of [4%N])), "not implemented".
  split; [by apply begun_executes|]. split; [exact H1|]. split; [exact H2|].
  split; [intros H; vm_compute in H; discriminate H|]. done.
Qed.

Lemma default_name_example :
  default_name 255 = Ok "type_id(ff)" /\ default_name 4096 = Ok "type_id(1000)" /\
  (255 < 2 ^ 64)%N.
Proof. repeat split. Qed.

(* fast_perfect_hash, and a policy of the program that has two errors. *)
Lemma wrapped_example : exists w',
  program_ok cf0 env17 R_17 /\ world_ok world0 /\
  own_errors cf0 [None; Some [KOther 0; KOther 1]; Some [KSearch]; None] /\
  initialize cf0 run17 false R_17 world0 = (w', Err (ESearch 400000 32)) /\
  wrap (error_variant [None; Some [KOther 0; KOther 1]; Some [KSearch]; None]) KSearch = Some 9.
Proof.
  destruct search_text as (w' & HP & Hw & Hi & _). exists w'.
  split; [exact HP|]. split; [exact Hw|]. split; [|split; [exact Hi|by_compute]].
  split; [|by_compute]. simpl. repeat (apply Forall_cons_2; [eauto|]). apply Forall_nil_2.
Qed.

Lemma wrapped_call_example :
  own_errors cf0 [Some [KSearch]] /\ length [AObject 2%N] <= 16 /\
  call cf0 w1 3 purr [AObject 2%N] = Err (ENoOverrider 3 1 (types_of [2%N])).
Proof.
  split; [split; [simpl; apply Forall_cons_2; [eauto|apply Forall_nil_2]|by_compute]|]. split; [simpl; lia|by_compute].
Qed.
