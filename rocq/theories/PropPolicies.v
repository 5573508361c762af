(* C28: registry::with and registry::without.
   Each theorem is followed by an example that meets its hypotheses. *)
From stdpp Require Import base numbers sets list.
From Verif Require Import ModelWorld ModelPolicies SpecPolicies ProofPolicies ExamplesPolicies.

(* A registry made by with<Ps...> finds, in the categories of the Ps, the last of
   them, and what it found before in the others. *)
Theorem C28_with_policy :
  forall is_base category (l ps : list N) (c : N),
    policy_types is_base category ->
    ModelPolicies.policy is_base (with_ is_base category l ps) c =
    match latest category ps c with
    | Some p => if is_base c p then Some p else None
    | None => ModelPolicies.policy is_base l c
    end.
Proof. exact (fun is_base category l ps c HT => with_policy is_base category HT l ps c). Qed.
Print Assumptions C28_with_policy.

(* It contains the new policies, and the old ones of the other categories. *)
Theorem C28_with_members :
  forall is_base category (l ps : list N) (q : N),
    policy_types is_base category ->
    q ∈ with_ is_base category l ps <->
    latest category ps q = Some q \/ (q ∈ l /\ forall p, p ∈ ps -> category p <> category q).
Proof. exact (fun is_base category l ps q HT => with_members is_base category HT l ps q). Qed.
Print Assumptions C28_with_members.

Theorem C28_with_unique :
  forall is_base category (l ps : list N),
    policy_types is_base category -> one_per_category category l ->
    NoDup (map category ps) -> (forall p, p ∈ ps -> p ∉ l) ->
    one_per_category category (with_ is_base category l ps).
Proof. exact (fun is_base category l ps HT => with_unique is_base category HT l ps). Qed.
Print Assumptions C28_with_unique.

(* default_registry::with<throw_error_handler, runtime_checks> *)
Example C28_with_example :
  policy_types std_is_base std_category /\ one_per_category std_category default_registry /\
  NoDup (map std_category [p_throw_error_handler; p_runtime_checks]) /\
  (forall p, p ∈ [p_throw_error_handler; p_runtime_checks] -> p ∉ default_registry) /\
  ModelPolicies.policy std_is_base
    (with_ std_is_base std_category default_registry [p_throw_error_handler; p_runtime_checks])
    p_error_handler = Some p_throw_error_handler.
Proof. exact with_example. Qed.

(* with<P> when P is already there: P is added a second time, and the result is
   another registry. *)
Theorem C28_with_unique_refuted :
  exists is_base category (l : list N) (p : N),
    policy_types is_base category /\ one_per_category category l /\ p ∈ l /\
    with_ is_base category l [p] <> l /\ ~ one_per_category category (with_ is_base category l [p]).
Proof. exact with_duplicates. Qed.
Print Assumptions C28_with_unique_refuted.

(* without<Cs...> removes the policies of these categories and keeps the others, in
   the same order. *)
Theorem C28_without :
  forall is_base category (l cs : list N),
    policy_types is_base category ->
    without is_base category l cs = filter (fun q => category q ∉ map category cs) l /\
    (forall c, ModelPolicies.policy is_base (without is_base category l cs) c =
       if decide (category c ∈ map category cs) then None else ModelPolicies.policy is_base l c) /\
    (one_per_category category l -> one_per_category category (without is_base category l cs)).
Proof.
  exact (fun is_base category l cs HT =>
    conj (without_filter is_base category HT l cs)
    (conj (without_policy is_base category HT l cs) (without_unique is_base category HT l cs))).
Qed.
Print Assumptions C28_without.

Example C28_without_example :
  policy_types std_is_base std_category /\
  ModelPolicies.policy std_is_base default_registry p_type_hash = Some p_fast_perfect_hash /\
  ModelPolicies.policy std_is_base (without std_is_base std_category default_registry [p_type_hash])
    p_type_hash = None.
Proof. exact without_example. Qed.

(* For the dispatch code: adding or removing a policy of the library changes what
   that policy controls and nothing else. *)
Theorem C28_config :
  forall l : list N,
    let cf := config_of l in
    config_of (with_ std_is_base std_category l [p_indirect_vptr]) =
      Config (cf_vptr cf) (cf_hash cf) true (cf_checks cf) /\
    config_of (with_ std_is_base std_category l [p_runtime_checks]) =
      Config (cf_vptr cf) (cf_hash cf) (cf_indirect cf) true /\
    config_of (with_ std_is_base std_category l [p_vptr_vector]) =
      Config VptrVector (cf_hash cf) (cf_indirect cf) (cf_checks cf) /\
    config_of (with_ std_is_base std_category l [p_vptr_map]) =
      Config VptrMap (cf_hash cf) (cf_indirect cf) (cf_checks cf) /\
    config_of (with_ std_is_base std_category l [p_fast_perfect_hash]) =
      Config (cf_vptr cf) true (cf_indirect cf) (cf_checks cf) /\
    (forall p, p ∈ [p_std_rtti; p_static_rtti; p_default_error_handler; p_throw_error_handler;
                    p_stderr_output] ->
       config_of (with_ std_is_base std_category l [p]) = cf).
Proof.
  exact (fun l => conj (with_indirect l) (conj (with_checks l) (conj (with_vptr l _ (or_introl eq_refl))
    (conj (with_vptr l _ (or_intror eq_refl)) (conj (with_hash l) (with_others l)))))).
Qed.
Print Assumptions C28_config.

Example C28_config_example :
  indirect_registry = default_registry ++ [p_indirect_vptr] /\
  config_of indirect_registry = Config VptrVector true true false.
Proof. exact (conj indirect_is (eq_refl (config_of indirect_registry))). Qed.

Theorem C28_config_without :
  forall l : list N,
    let cf := config_of l in
    config_of (without std_is_base std_category l [p_type_hash]) =
      Config (cf_vptr cf) false (cf_indirect cf) (cf_checks cf) /\
    config_of (without std_is_base std_category l [p_vptr]) =
      Config VptrNone (cf_hash cf) (cf_indirect cf) (cf_checks cf) /\
    config_of (without std_is_base std_category l [p_indirect_vptr]) =
      Config (cf_vptr cf) (cf_hash cf) false (cf_checks cf) /\
    config_of (without std_is_base std_category l [p_runtime_checks]) =
      Config (cf_vptr cf) (cf_hash cf) (cf_indirect cf) false /\
    config_of (without std_is_base std_category l [p_error_handler]) = cf /\
    config_of (without std_is_base std_category l [p_output]) = cf.
Proof. exact (fun l => conj (without_hash l) (without_others l)). Qed.
Print Assumptions C28_config_without.

Example C28_config_without_example :
  without std_is_base std_category default_registry [p_type_hash] =
    [p_std_rtti; p_vptr_vector; p_default_error_handler; p_stderr_output] /\
  config_of (without std_is_base std_category default_registry [p_type_hash]) =
    Config VptrVector false false false.
Proof. exact (conj eq_refl eq_refl). Qed.
