(* Examples about what a registry has allocated. *)
From stdpp Require Import base list numbers.
From Verif Require Import Base Registry Spec ModelClasses ModelMethods ModelSlots ModelTables ModelHash
  ModelWorld ModelCall SpecCall ModelLife SpecLife ProofBase ProofWorld ProofLife Decide
  ExamplesModel ExamplesDispatch ExamplesVptr ExamplesLife.

(* Two successful calls of initialize(), with other registrations; then finalize(). *)
Definition evs_twice := [Registers R0; Initializes run0 false; Registers R1; Initializes run0 false].

Lemma finalizes_next cf h p : history cf h p ->
  history cf (h ++ [(Finalizes, Done)]) (Process (pr_regs p) (finalize cf (pr_world p))).
Proof. intros Hh. econstructor; [exact Hh|reflexivity]. Qed.

Lemma released_state cf h p : history cf h p -> w_initialized (pr_world p) = true ->
  bool_decide (w_heap (pr_world p) 0 = None) = true ->
  bool_decide (w_heap (pr_world p) 1 = None) = false ->
  (0 <? length (w_vec (pr_world p)) + length (w_map (pr_world p))) = true ->
  exists h p p', history cf h p /\ live h /\ history cf (h ++ [(Finalizes, Done)]) p' /\
    w_heap (pr_world p) 0 = None /\ w_heap (pr_world p) 1 <> None /\ ~ holds_nothing (pr_world p) /\
    (w_vec (pr_world p) <> [] \/ w_map (pr_world p) <> []).
Proof.
  intros Hh Hl H0 H1 Hn. apply bool_decide_eq_true in H0. apply bool_decide_eq_false in H1.
  exists h, p, (Process (pr_regs p) (finalize cf (pr_world p))).
  split; [exact Hh|]. split; [apply (history_live _ _ _ Hh), Hl|]. split; [apply finalizes_next, Hh|].
  split; [exact H0|]. split; [exact H1|]. split; [intros [H _]; apply H1, H|].
  destruct (w_vec (pr_world p)); [|left; discriminate].
  destruct (w_map (pr_world p)); [discriminate|right; discriminate].
Qed.

Lemma released_example : forall cf, cf = cf0 \/ cf = cf_map \/ cf = cf_vector ->
  exists h p p', history cf h p /\ live h /\ history cf (h ++ [(Finalizes, Done)]) p' /\
    w_heap (pr_world p) 0 = None /\ w_heap (pr_world p) 1 <> None /\ ~ holds_nothing (pr_world p) /\
    (w_vec (pr_world p) <> [] \/ w_map (pr_world p) <> []).
Proof.
  intros cf Hcf. apply (released_state cf (fst (played cf evs_twice)) (snd (played cf evs_twice)));
    [apply played_history| | | |]; destruct Hcf as [->|[->| ->]]; by_compute.
Qed.

Lemma ids_R1 cr : cr ∈ reg_classes R1 -> (cr_type cr <= 4)%N.
Proof.
  assert (H : Forall (fun cr => (cr_type cr <=? 4)%N = true) (reg_classes R1))
    by (repeat constructor).
  rewrite stdpp.list.Forall_forall in H. intros Hcr. apply N.leb_le, (H cr Hcr).
Qed.

Lemma bounded_state cf h p : program_ok cf env0 R1 -> history cf h p -> pr_regs p = R1 ->
  w_initialized (pr_world p) = true ->
  match snd (initialize cf run0 false R1 (pr_world p)) with Ok _ => true | _ => false end = true ->
  exists h p w' rep, program_ok cf env0 R1 /\ history cf h p /\ pr_regs p = R1 /\ live h /\
    initialize cf run0 false R1 (pr_world p) = (w', Ok rep) /\ length (reg_classes R1) = 4 /\
    (forall cr, cr ∈ reg_classes R1 -> cr_type cr <= 4)%N.
Proof.
  intros HP Hh HR Hl Hi. destruct (initialize cf run0 false R1 (pr_world p)) as [w' r] eqn:Heq.
  cbn [snd] in Hi. destruct r as [rep|e| |]; try discriminate Hi. exists h, p, w', rep.
  split; [exact HP|]. split; [exact Hh|]. split; [exact HR|].
  split; [apply (history_live _ _ _ Hh), Hl|]. split; [exact Heq|]. split; [reflexivity|exact ids_R1].
Qed.

Lemma bounded_example : forall cf, cf = cf0 \/ cf = cf_map \/ cf = cf_vector ->
  exists h p w' rep, program_ok cf env0 R1 /\ history cf h p /\ pr_regs p = R1 /\ live h /\
    initialize cf run0 false R1 (pr_world p) = (w', Ok rep) /\ length (reg_classes R1) = 4 /\
    (forall cr, cr ∈ reg_classes R1 -> cr_type cr <= 4)%N.
Proof.
  intros cf Hcf. apply (bounded_state cf (fst (played cf evs_twice)) (snd (played cf evs_twice)));
    [destruct Hcf as [->|[->| ->]]; apply program_check; by_compute|apply played_history| | |];
    destruct Hcf as [->|[->| ->]]; by_compute.
Qed.
