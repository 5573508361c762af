(* Bit sets: proofs about the first part of ModelSlots.v. *)
From stdpp Require Import base list numbers list_numbers.
From Verif Require Import Base ModelClasses ModelMethods ModelSlots ProofBase.

Lemma bit_resize b n i : length b <= n -> bit (resize n false b) i = bit b i.
Proof.
  intros H. unfold bit. rewrite resize_spec, take_ge by lia.
  destruct (decide (i < length b)) as [Hi|Hi].
  - rewrite lookup_app_l by exact Hi. reflexivity.
  - rewrite lookup_app_r by lia. rewrite (lookup_ge_None_2 b) by lia.
    destruct (replicate _ _ !! _) as [x|] eqn:Hx; [|reflexivity].
    apply lookup_replicate_1 in Hx as [-> _]. reflexivity.
Qed.

Lemma bit_insert b i j : i < length b -> bit (<[i := true]> b) j = bit b j || bool_decide (i = j).
Proof.
  intros Hi. unfold bit. case_bool_decide as Hij.
  - subst. rewrite list_lookup_insert by exact Hi. simpl. rewrite orb_true_r. reflexivity.
  - rewrite list_lookup_insert_ne by exact Hij. rewrite orb_false_r. reflexivity.
Qed.

Lemma bit_ge b i : length b <= i -> bit b i = false.
Proof. intros H. unfold bit. rewrite lookup_ge_None_2 by exact H. reflexivity. Qed.

Lemma bit_lt b i : bit b i = true -> i < length b.
Proof.
  intros H. destruct (decide (i < length b)) as [|Hge]; [assumption|].
  rewrite bit_ge in H by lia. discriminate.
Qed.

Lemma merge_into_spec a b i : bit (merge_into a b) i = bit a i || bit b i.
Proof.
  unfold merge_into.
  set (b0 := if decide _ then _ else _).
  assert (Hlen : length a <= length b0).
  { unfold b0. case_decide; [rewrite resize_length; lia|lia]. }
  assert (Hbit : forall j, bit b0 j = bit b j).
  { intros j. unfold b0. case_decide; [apply bit_resize; lia|reflexivity]. }
  pose (P := fun (l : list nat) (x : bitset) => length x = length b0 /\
    forall j, bit x j = (bit a j && bool_decide (j ∈ l)) || bit b j).
  assert (G : P (seq 0 (length a))
    (foldl (fun b i => if bit a i then <[i := true]> b else b) b0 (seq 0 (length a)))).
  { apply foldl_inv_prefix; unfold P.
    - split; [reflexivity|]. intros j. rewrite Hbit.
      rewrite bool_decide_eq_false_2 by (intros H; inversion H).
      rewrite andb_false_r. reflexivity.
    - intros l1 k l2 x Hl [IHl IH].
      assert (Hk : k < length a).
      { assert (k ∈ seq 0 (length a)) as H%elem_of_seq by (rewrite Hl, elem_of_app; right; left).
        lia. }
      assert (Hdec : forall j, bool_decide (j ∈ l1 ++ [k]) =
                bool_decide (j ∈ l1) || bool_decide (k = j)).
      { intros j. rewrite <- bool_decide_or. apply bool_decide_ext.
        rewrite elem_of_app, elem_of_list_singleton. intuition congruence. }
      destruct (bit a k) eqn:Hak.
      + split; [rewrite insert_length; exact IHl|]. intros j.
        rewrite bit_insert by lia. rewrite IH, Hdec.
        destruct (decide (k = j)) as [<-|Hkj];
          [rewrite Hak, (bool_decide_eq_true_2 (k = k)) by reflexivity;
           destruct (bool_decide (k ∈ l1)), (bit b k)
          |rewrite (bool_decide_eq_false_2 (k = j)) by exact Hkj;
           destruct (bit a j), (bool_decide (j ∈ l1)), (bit b j)]; reflexivity.
      + split; [exact IHl|]. intros j. rewrite IH, Hdec.
        destruct (decide (k = j)) as [<-|Hkj];
          [rewrite Hak, (bool_decide_eq_true_2 (k = k)) by reflexivity;
           destruct (bool_decide (k ∈ l1)), (bit b k)
          |rewrite (bool_decide_eq_false_2 (k = j)) by exact Hkj;
           destruct (bit a j), (bool_decide (j ∈ l1)), (bit b j)]; reflexivity. }
  destruct G as [_ G]. rewrite G. case_bool_decide as Hi; [rewrite andb_true_r; reflexivity|].
  rewrite (bit_ge a i); [reflexivity|]. rewrite elem_of_seq in Hi. lia.
Qed.

Lemma set_bit_spec m i j : bit (set_bit m i) j = bit m j || bool_decide (i = j).
Proof.
  unfold set_bit. case_decide as H.
  - rewrite bit_insert by (rewrite resize_length; lia). rewrite bit_resize by lia. reflexivity.
  - apply bit_insert. lia.
Qed.

Lemma first_free_spec b : bit b (first_free b) = false.
Proof.
  induction b as [|[] b IH]; [reflexivity| |reflexivity].
  exact IH.
Qed.

Lemma first_free_least b i : i < first_free b -> bit b i = true.
Proof.
  revert i. induction b as [|[] b IH]; intros i Hi; simpl in Hi; try lia.
  destruct i as [|i]; [reflexivity|]. apply IH. lia.
Qed.

Lemma find_first_spec b i :
  bit b i = true -> exists f, find_first b = Some f /\ f <= i.
Proof.
  revert i. induction b as [|[] b IH]; intros i Hi.
  - rewrite bit_ge in Hi by (simpl; lia). discriminate.
  - exists 0. simpl. split; [reflexivity|lia].
  - destruct i as [|i]; [discriminate|].
    destruct (IH i Hi) as (f & Hf & Hle). simpl. rewrite Hf. exists (S f). split; [reflexivity|lia].
Qed.

Lemma merge_into_nil a b : merge_into a b = [] -> a = [] /\ b = [].
Proof.
  unfold merge_into. set (b0 := if decide _ then _ else _). intros H.
  assert (Hlen : length (foldl (fun b i => if bit a i then <[i := true]> b else b) b0
                   (seq 0 (length a))) = length b0).
  { apply (foldl_inv (fun x => length x = length b0)); [reflexivity|].
    intros k x _ Hx. destruct (bit a k); [rewrite insert_length|]; exact Hx. }
  rewrite H in Hlen. simpl in Hlen. unfold b0 in Hlen. case_decide as Hd.
  - rewrite resize_length in Hlen. lia.
  - destruct b; [|discriminate]. simpl in Hd. destruct a; [auto|simpl in Hd; lia].
Qed.
