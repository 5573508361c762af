(* What is assumed of policies and registries (preamble.hpp:911-918). *)
From stdpp Require Import base list numbers.

Section Policies.
  Context (is_base : N -> N -> bool) (category : N -> N).

  (* "Policy must contain a category alias to its root base class." *)
  Record policy_types : Prop := {
    pt_refl : forall p, is_base p p = true;
    pt_root : forall p, is_base (category p) p = true;
    pt_category : forall p q, is_base p q = true -> category p = category q
  }.

  (* "The registry may contain at most one policy per category." *)
  Definition one_per_category (l : list N) : Prop := NoDup (map category l).

  (* The last of these policies in the category of [c]. *)
  Definition latest (ps : list N) (c : N) : option N :=
    list.last (filter (fun p => category p = category c) ps).
End Policies.
