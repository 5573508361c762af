(* Concrete uses of static_list. *)
From stdpp Require Import base list numbers.
From Verif Require Import Base ModelStaticList SpecStaticList ProofStaticList.

(* Two lists: nodes are removed at the front, in the middle and at the end, pushed
   again, also on the other list, and the first list is emptied and reused. *)
Definition list_ops : list list_op :=
  [LPush 0 5; LPush 0 6; LPush 0 7; LPush 0 8; LPush 1 9; LRemove 0 6; LRemove 0 5; LRemove 0 8;
   LPush 0 6; LPush 1 5; LPush 0 8; LRemove 1 9; LClear 0; LPush 0 7; LPush 1 8; LPush 0 9].

Lemma list_ops_valid : ops_valid list_ops contents0.
Proof.
  unfold list_ops. cbn [ops_valid op_valid]. repeat split;
    first [ intros [|[|j]]; vm_compute; intros H; repeat (inversion H as [|? ? ? H0]; subst; clear H; rename H0 into H)
          | apply elem_of_list_lookup; first [ exists 0; reflexivity | exists 1; reflexivity | exists 2; reflexivity ] ].
Qed.

Lemma list_ops_example : ops_valid list_ops contents0 /\
  (ops_contents list_ops contents0 0, ops_contents list_ops contents0 1, ops_contents list_ops contents0 2)
  = ([7; 9], [5; 8], []).
Proof. split; [apply list_ops_valid|reflexivity]. Qed.

Lemma push_twice_example : ops_valid list_ops contents0 /\ 8 ∈ ops_contents list_ops contents0 1.
Proof. split; [apply list_ops_valid|]. vm_compute. right. left. Qed.

Lemma remove_absent_example : ops_valid list_ops contents0 /\
  forall j, 6 ∉ ops_contents list_ops contents0 j.
Proof.
  split; [apply list_ops_valid|].
  intros [|[|j]]; vm_compute; intros H; repeat (inversion H as [|? ? ? H0]; subst; clear H; rename H0 into H).
Qed.
