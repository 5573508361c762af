(* What a conflict is, independently of the model's variables. *)
From stdpp Require Import base list numbers.
From Verif Require Import Base ModelPolicies ModelOdr.

(* [u] defines default_registry, with the runtime_checks policy or without. *)
Inductive defines_default : translation_unit -> list N -> Prop :=
  | defines_checked :
      defines_default (Includes true)
        [p_std_rtti; p_vptr_vector; p_fast_perfect_hash; p_default_error_handler; p_stderr_output;
         p_runtime_checks]
  | defines_unchecked :
      defines_default (Includes false)
        [p_std_rtti; p_vptr_vector; p_fast_perfect_hash; p_default_error_handler; p_stderr_output].

(* indirect_registry has the policies of default_registry, and indirect_vptr. *)
Inductive defines_indirect : translation_unit -> list N -> Prop :=
  | defines_as_default u ps : defines_default u ps -> defines_indirect u (ps ++ [p_indirect_vptr]).

(* Two units disagree. *)
Definition conflict (defines : translation_unit -> list N -> Prop) (us : list translation_unit) : Prop :=
  exists u v ps qs, u ∈ us /\ v ∈ us /\ defines u ps /\ defines v qs /\ ps <> qs.
