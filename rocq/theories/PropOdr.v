(* Detection of conflicting definitions of default_registry. *)
From stdpp Require Import base list numbers.
From Verif Require Import Base Registry Spec ModelClasses ModelHash ModelWorld ModelCall SpecCall
  ModelLife SpecLife ModelPolicies ModelVirtualPtr ModelErrors SpecErrors ModelOdr SpecOdr ProofOdr
  ExamplesModel ExamplesDispatch ExamplesHandlers ExamplesOdr.

(* If two units define default_registry with different policies, initialize() signals
   odr_violation, changes nothing, and does not return. *)
Theorem C51_detected : forall us S pg X n2216,
  conflict defines_default us ->
  exists es en, act (setup_of us n_default S) (Lives (Initializes X n2216)) pg = Ok (pg, es, en) /\
    handled (setup_of us n_default S) (pg_handler pg) EOdrViolation es en.
Proof. exact odr_detected. Qed.
Print Assumptions C51_detected.

Example C51_detected_example : conflict defines_default mixed /\
  act (setup_of mixed n_default S0) (Lives (Initializes run0 false)) program0
    = Ok (program0, [Written EOdrViolation], Aborts).
Proof. exact mixed_example. Qed.

(* Otherwise it does not signal odr_violation. *)
Theorem C51_no_false_alarm : forall us S hist pg X pg' es en,
  ~ conflict defines_default us ->
  history (su_config S) hist (pg_process pg) ->
  program_ok (su_config S) (r_env X) (pr_regs (pg_process pg)) ->
  act (setup_of us n_default S) (Lives (Initializes X false)) pg = Ok (pg', es, en) ->
  (exists v, en = Returns v /\ es = []) \/
  (exists e, e <> EOdrViolation /\ handled (setup_of us n_default S) (pg_handler pg) e es en).
Proof. exact odr_no_false_alarm. Qed.
Print Assumptions C51_no_false_alarm.

Example C51_no_false_alarm_example :
  ~ conflict defines_default uniform /\
  history (su_config S0) [(Registers R1, Done)] (pg_process fresh1) /\
  program_ok (su_config S0) (r_env run0) (pr_regs (pg_process fresh1)) /\
  exists pg', act (setup_of uniform n_default S0) (Lives (Initializes run0 false)) fresh1
    = Ok (pg', [], Returns VUnit).
Proof. exact uniform_example. Qed.

(* The order in which the units are initialized does not matter. *)
Theorem C51_order : forall us vs name S a pg,
  Permutation us vs -> act (setup_of us name S) a pg = act (setup_of vs name S) a pg.
Proof. exact odr_order. Qed.
Print Assumptions C51_order.

Example C51_order_example : Permutation mixed [Includes true; Includes false; Without].
Proof. exact order_example. Qed.

(* Not so for indirect_registry. *)
Theorem C51_indirect_refuted : exists us S pg X pg',
  conflict defines_indirect us /\
  act (setup_of us n_indirect S) (Lives (Initializes X false)) pg = Ok (pg', [], Returns VUnit).
Proof. exact indirect_witness. Qed.
Print Assumptions C51_indirect_refuted.
