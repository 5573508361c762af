(* Programs made of units with and without runtime checks. *)
From stdpp Require Import base list numbers.
From Verif Require Import Base Registry Spec ModelClasses ModelHash ModelWorld ModelCall SpecCall
  ModelLife SpecLife ModelPolicies ModelVirtualPtr ModelErrors SpecErrors ModelOdr SpecOdr ProofOdr
  Decide ExamplesModel ExamplesDispatch ExamplesNext ExamplesReport ExamplesLife ExamplesHandlers.

(* test/mix_release_debug, with a library that does not use the registry. *)
Definition mixed : list translation_unit := [Includes false; Without; Includes true].
Definition uniform : list translation_unit := [Includes true; Without; Includes true; Includes true].

Lemma mixed_conflict : conflict defines_default mixed.
Proof.
  apply conflict_default. split; repeat (apply elem_of_cons; (left; reflexivity) || right).
Qed.

Lemma mixed_example : conflict defines_default mixed /\
  act (setup_of mixed n_default S0) (Lives (Initializes run0 false)) program0 = Ok (program0, [Written EOdrViolation], Aborts).
Proof. split; [exact mixed_conflict|reflexivity]. Qed.

Definition fresh1 : ModelErrors.program :=
  ModelErrors.Program (Process R1 world0) HDefault (VState (fun _ => VUninit) (fun _ => None)).

Lemma uniform_example :
  ~ conflict defines_default uniform /\
  history (su_config S0) [(Registers R1, Done)] (pg_process fresh1) /\
  program_ok (su_config S0) (r_env run0) (pr_regs (pg_process fresh1)) /\
  exists pg', act (setup_of uniform n_default S0) (Lives (Initializes run0 false)) fresh1
    = Ok (pg', [], Returns VUnit).
Proof.
  split.
  { rewrite conflict_default. intros [_ H].
    repeat (apply elem_of_cons in H as [H|H]; [discriminate H|]). by apply elem_of_nil in H. }
  split; [apply (history_step _ [] process0); [constructor|reflexivity]|].
  split; [exact R1_program|].
  assert (Hs : succeedsb cf0 false R1 = true) by by_compute. unfold succeedsb in Hs.
  unfold act, attempt, lives, ModelLife.step, fresh1. cbn [pg_process pr_regs pr_world su_config setup_of S0].
  rewrite decide_False by (intros Hlt; vm_compute in Hlt; lia).
  destruct (initialize cf0 run0 false R1 world0) as [w [rep| | |]]; try discriminate. eexists. reflexivity.
Qed.

(* initialize<indirect_registry>() goes on. *)
Lemma indirect_witness : exists us S pg X pg',
  conflict defines_indirect us /\
  act (setup_of us n_indirect S) (Lives (Initializes X false)) pg = Ok (pg', [], Returns VUnit).
Proof.
  assert (Hs : succeedsb cf0 false R1 = true) by by_compute. unfold succeedsb in Hs.
  destruct (initialize cf0 run0 false R1 world0) as [w [rep| | |]] eqn:Hi; try discriminate Hs.
  exists mixed, S0, fresh1, run0. eexists. split.
  - destruct mixed_conflict as (u & v & ps & qs & Hu & Hv & H1 & H2 & Hne).
    exists u, v, (ps ++ [p_indirect_vptr]), (qs ++ [p_indirect_vptr]).
    split; [exact Hu|]. split; [exact Hv|]. split; [by constructor|]. split; [by constructor|].
    intros Heq%app_inj_tail. by apply Hne, Heq.
  - unfold act, attempt, lives, ModelLife.step, fresh1. cbn [pg_process pr_regs pr_world su_config setup_of S0].
    rewrite decide_False by (intros Hlt; vm_compute in Hlt; lia). rewrite Hi. reflexivity.
Qed.

Lemma order_example : Permutation mixed [Includes true; Includes false; Without].
Proof.
  unfold mixed. etransitivity; [apply Permutation_cons_append|]. simpl.
  etransitivity; [apply Permutation_cons_append|]. reflexivity.
Qed.
