(* Properties of what a registry has allocated. *)
From stdpp Require Import base list numbers.
From Verif Require Import Base Registry Spec ModelClasses ModelHash ModelWorld ModelCall SpecCall
  ModelLife SpecLife ProofRelease ExamplesModel ExamplesDispatch ExamplesVptr ExamplesRelease.

(* C49: whatever happened before, including calls of initialize() that failed, nothing
   is kept after finalize(). *)
Theorem C49_finalize_releases : forall cf h r p,
  history cf (h ++ [(Finalizes, r)]) p -> holds_nothing (pr_world p).
Proof. exact finalize_releases. Qed.
Print Assumptions C49_finalize_releases.

Example C49_finalize_releases_example : forall cf, cf = cf0 \/ cf = cf_map \/ cf = cf_vector ->
  exists h p p', history cf h p /\ live h /\ history cf (h ++ [(Finalizes, Done)]) p' /\
    w_heap (pr_world p) 0 = None /\ w_heap (pr_world p) 1 <> None /\ ~ holds_nothing (pr_world p) /\
    (w_vec (pr_world p) <> [] \/ w_map (pr_world p) <> []).
Proof. exact released_example. Qed.

(* C49: at any time there is at most one set of dispatch tables, and there is one
   exactly when the registry is initialized: initialize() again and again does not
   accumulate them. *)
Theorem C49_one_set_of_tables : forall cf h p, history cf h p ->
  (forall b1 b2, w_heap (pr_world p) b1 <> None -> w_heap (pr_world p) b2 <> None -> b1 = b2) /\
  ((exists b, w_heap (pr_world p) b <> None) <-> live h).
Proof. exact one_buffer. Qed.
Print Assumptions C49_one_set_of_tables.

Example C49_one_set_of_tables_example : forall cf, cf = cf0 \/ cf = cf_map \/ cf = cf_vector ->
  exists h p p', history cf h p /\ live h /\ history cf (h ++ [(Finalizes, Done)]) p' /\
    w_heap (pr_world p) 0 = None /\ w_heap (pr_world p) 1 <> None /\ ~ holds_nothing (pr_world p) /\
    (w_vec (pr_world p) <> [] \/ w_map (pr_world p) <> []).
Proof. exact released_example. Qed.

(* C49: what the policies keep after initialize() is limited by the present
   registrations, whatever was registered before: one entry per class in vptr_map,
   20 elements per class in a hashed vptr_vector and in the table that checks it, as many
   elements as the greatest type id in one that is not hashed. *)
Theorem C49_tables_bounded : forall cf X n2216 R, program_ok cf (r_env X) R ->
  forall h p w' rep top, history cf h p -> pr_regs p = R ->
  (forall cr, cr ∈ reg_classes R -> cr_type cr <= top)%N ->
  initialize cf X n2216 R (pr_world p) = (w', Ok rep) ->
  tables_bounded cf (length (reg_classes R)) top w'.
Proof. exact initialize_bounded. Qed.
Print Assumptions C49_tables_bounded.

Example C49_tables_bounded_example : forall cf, cf = cf0 \/ cf = cf_map \/ cf = cf_vector ->
  exists h p w' rep, program_ok cf env0 R1 /\ history cf h p /\ pr_regs p = R1 /\ live h /\
    initialize cf run0 false R1 (pr_world p) = (w', Ok rep) /\ length (reg_classes R1) = 4 /\
    (forall cr, cr ∈ reg_classes R1 -> cr_type cr <= 4)%N.
Proof. exact bounded_example. Qed.
