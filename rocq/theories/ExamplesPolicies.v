(* The policies of the library. *)
From stdpp Require Import base numbers sets list.
From Verif Require Import ModelWorld ModelPolicies SpecPolicies ProofPolicies.

Lemma default_unique : one_per_category std_category default_registry.
Proof. apply (bool_decide_unpack (NoDup (map std_category default_registry))). vm_compute. exact I. Qed.

Example indirect_is : indirect_registry = default_registry ++ [p_indirect_vptr].
Proof. vm_compute. reflexivity. Qed.
Example throwing_is :
  with_ std_is_base std_category default_registry [p_throw_error_handler; p_runtime_checks] =
  [p_std_rtti; p_vptr_vector; p_fast_perfect_hash; p_throw_error_handler; p_stderr_output;
   p_runtime_checks].
Proof. vm_compute. reflexivity. Qed.
Example no_hash_is :
  without std_is_base std_category
    (with_ std_is_base std_category default_registry [p_vptr_map]) [p_type_hash] =
  [p_std_rtti; p_vptr_map; p_default_error_handler; p_stderr_output].
Proof. vm_compute. reflexivity. Qed.

Lemma with_example :
  policy_types std_is_base std_category /\ one_per_category std_category default_registry /\
  NoDup (map std_category [p_throw_error_handler; p_runtime_checks]) /\
  (forall p, p ∈ [p_throw_error_handler; p_runtime_checks] -> p ∉ default_registry) /\
  ModelPolicies.policy std_is_base
    (with_ std_is_base std_category default_registry [p_throw_error_handler; p_runtime_checks])
    p_error_handler = Some p_throw_error_handler.
Proof.
  split; [apply std_policies|]. split; [apply default_unique|].
  split; [apply (bool_decide_unpack (NoDup (map std_category [p_throw_error_handler; p_runtime_checks])));
          vm_compute; exact I|].
  split; [|vm_compute; reflexivity].
  intros p Hp. repeat (apply elem_of_cons in Hp as [->|Hp]); [..|inversion Hp];
    [apply (bool_decide_unpack (p_throw_error_handler ∉ default_registry))
    |apply (bool_decide_unpack (p_runtime_checks ∉ default_registry))]; vm_compute; exact I.
Qed.

Lemma without_example :
  policy_types std_is_base std_category /\
  ModelPolicies.policy std_is_base default_registry p_type_hash = Some p_fast_perfect_hash /\
  ModelPolicies.policy std_is_base (without std_is_base std_category default_registry [p_type_hash])
    p_type_hash = None.
Proof. split; [apply std_policies|]. split; vm_compute; reflexivity. Qed.

(* default_registry::with<default_error_handler> *)
Lemma with_duplicates :
  exists is_base category l p,
    policy_types is_base category /\ one_per_category category l /\ p ∈ l /\
    with_ is_base category l [p] <> l /\ ~ one_per_category category (with_ is_base category l [p]).
Proof.
  exists std_is_base, std_category, default_registry, p_default_error_handler.
  split; [apply std_policies|]. split; [apply default_unique|].
  split; [apply (bool_decide_unpack (p_default_error_handler ∈ default_registry)); vm_compute; exact I|].
  split; [discriminate|].
  apply (bool_decide_unpack (~ NoDup (map std_category
    (with_ std_is_base std_category default_registry [p_default_error_handler])))).
  vm_compute. exact I.
Qed.
