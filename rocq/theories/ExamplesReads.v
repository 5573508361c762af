(* What the bounds of PropReads mean. *)
From stdpp Require Import base list numbers list_numbers.
From Verif Require Import Base Registry Spec ModelClasses ModelHash ModelWorld ModelCall SpecCall
  ExamplesModel ExamplesDispatch SpecReads.

(* Two Animals by reference, with and without checks; one virtual_ptr without checks. *)
Definition fast := Config VptrVector true false false.
Example reads_examples :
  call_reads cf0 meet (map AObject [2; 4]%N) = 21 /\
  call_reads fast meet (map AObject [2; 4]%N) = 12 /\
  call_reads fast poke [AOther 0; APtr (VPtr 0 0) 2]%N = 2.
Proof. repeat split; by_compute. Qed.

Example meet_reads :
  mr_vp meet <> [] /\ length (virtual_args (map AObject [2; 4]%N)) = length (mr_vp meet) /\
  call cf0 w0 2 meet (map AObject [2; 4]%N) = Ok (Calls 24)%N.
Proof. split; [discriminate|]. split; by_compute. Qed.

Example poke_pointer :
  cf_checks fast = false /\ mr_vp poke <> [] /\ (forall t, AObject t ∉ [AOther 0; APtr (VPtr 0 0) 2]%N) /\
  table_reads poke = 2.
Proof.
  split; [reflexivity|]. split; [discriminate|]. split; [|reflexivity].
  intros t Ht. apply elem_of_cons in Ht as [Ht|Ht]; [discriminate|].
  apply elem_of_list_singleton in Ht. discriminate.
Qed.

Global Instance location_eq_dec : EqDecision location.
Proof. solve_decision. Defined.

Global Instance vector_inj : Inj (=) (=) LVector.
Proof. intros x y Hxy. by injection Hxy. Qed.

(* A function of a whole table has no bound. *)
Definition table_world (v : list vptr) : world :=
  World (fun _ => None) 0 None (fun _ => VNull) (fun _ => []) (fun _ => None) v [] [] hash_state0 false.

Lemma table_unbounded n : ~ reads_at_most n w_vec (table_world (repeat VNull (n + 1))).
Proof.
  intros (L & HL & Hf).
  assert (Hk : exists k, k < n + 1 /\ LVector k ∉ L).
  { destruct (decide (Forall (fun k => LVector k ∈ L) (seq 0 (n + 1)))) as [Hall|Hnot].
    - exfalso. assert (Hs : map LVector (seq 0 (n + 1)) ⊆+ L).
      { apply NoDup_submseteq.
        - apply (NoDup_fmap_2 LVector), NoDup_seq.
        - intros l Hl. apply elem_of_list_fmap in Hl as (k & -> & Hk).
          rewrite Forall_forall in Hall. by apply Hall. }
      apply submseteq_length in Hs. rewrite map_length, seq_length in Hs. lia.
    - apply not_Forall_Exists in Hnot; [|intros k; apply _]. apply list.Exists_exists in Hnot as (k & Hk & Hn).
      exists k. apply elem_of_seq in Hk. split; [lia|exact Hn]. }
  destruct Hk as (k & Hk & Hn).
  specialize (Hf (table_world (<[k := VPtr 0 0]> (repeat VNull (n + 1))))). simpl in Hf.
  assert (Hne : <[k := VPtr 0 0]> (repeat VNull (n + 1)) !! k = repeat VNull (n + 1) !! k).
  { f_equal. apply Hf. intros l Hl. destruct l as [| | | | |j| | | | | | | | |]; try reflexivity; simpl.
    - rewrite list_lookup_insert_ne; [reflexivity|]. intros ->. contradiction.
    - by rewrite insert_length. }
  rewrite list_lookup_insert in Hne by (rewrite repeat_length; lia).
  assert (Hr : repeat VNull (n + 1) !! k = Some VNull).
  { clear -Hk. revert k Hk. induction (n + 1) as [|j IH]; intros k Hk; [lia|].
    destruct k; [reflexivity|]. simpl. apply IH. lia. }
  congruence.
Qed.
