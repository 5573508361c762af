(* Proofs about static_list. *)
From stdpp Require Import base list numbers.
From Verif Require Import Base ModelStaticList SpecStaticList ProofBase.
Notation last := list.last.

Section Linked.
  (* The nodes of [l] are linked in order; the first one points back to the last. *)
  Definition linked (P N : nat -> option nat) (l : list nat) : Prop :=
    forall k a, l !! k = Some a ->
      N a = l !! S k /\ P a = match k with 0 => last l | S k' => l !! k' end.

  Lemma linked_ext P N P' N' l :
    (forall a, a ∈ l -> P' a = P a /\ N' a = N a) -> linked P N l -> linked P' N' l.
  Proof.
    intros He Hl k a Hk. destruct (He a) as [-> ->]; [|apply Hl; exact Hk].
    apply elem_of_list_lookup. eauto.
  Qed.

  Lemma nodup_eq (l : list nat) i j a : NoDup l -> l !! i = Some a -> l !! j = Some a -> i = j.
  Proof. intros H. apply NoDup_lookup. exact H. Qed.

  Lemma linked_push P N l f z n :
    linked P N l -> NoDup l -> n ∉ l -> l !! 0 = Some f -> last l = Some z -> N n = None ->
    linked (upd (upd P n (Some z)) f (Some n)) (upd N z (Some n)) (l ++ [n]).
  Proof.
    intros Hl Hnd Hn Hf Hz HNn k a Hk. rewrite last_lookup in Hz.
    assert (Hne : 0 < length l) by (apply lookup_lt_Some in Hf; exact Hf).
    destruct (decide (k < length l)) as [Hlt|Hge].
    - rewrite lookup_app_l in Hk by exact Hlt. destruct (Hl k a Hk) as [H1 H2].
      assert (Han : a <> n) by (intros ->; apply Hn, elem_of_list_lookup; eauto).
      split.
      + destruct (decide (a = z)) as [->|Haz].
        * rewrite upd_eq. assert (k = pred (length l)) as -> by (eapply nodup_eq; eauto).
          rewrite lookup_app_r by lia. replace (_ - _) with 0 by lia. reflexivity.
        * rewrite upd_ne by exact Haz. rewrite H1.
          assert (k <> pred (length l)) by (intros ->; congruence).
          rewrite lookup_app_l by lia. reflexivity.
      + destruct (decide (a = f)) as [->|Haf].
        * rewrite upd_eq. assert (k = 0) as -> by (eapply nodup_eq; eauto).
          rewrite last_snoc. reflexivity.
        * rewrite !upd_ne by assumption. rewrite H2. destruct k as [|k]; [congruence|].
          rewrite lookup_app_l by lia. reflexivity.
    - rewrite lookup_app_r in Hk by lia.
      assert (k = length l) as ->.
      { apply lookup_lt_Some in Hk as Hk'. simpl in Hk'. lia. }
      rewrite Nat.sub_diag in Hk. injection Hk as <-.
      assert (Hzn : z ∈ l) by (apply elem_of_list_lookup; eauto).
      assert (Hfn : f ∈ l) by (apply elem_of_list_lookup; eauto).
      split.
      + rewrite upd_ne by (intros ->; contradiction). rewrite HNn. symmetry.
        apply lookup_ge_None. rewrite app_length. simpl. lia.
      + rewrite upd_ne by (intros ->; contradiction). rewrite upd_eq.
        destruct (length l) as [|m] eqn:E; [lia|].
        rewrite lookup_app_l by lia. symmetry. exact Hz.
  Qed.

  Lemma linked_one P N n : N n = None -> linked (upd P n (Some n)) N [n].
  Proof.
    intros Hn [|k] a Hk; [|discriminate]. injection Hk as <-. rewrite upd_eq. auto.
  Qed.

  Lemma filter_delete (l : list nat) j n : NoDup l -> l !! j = Some n ->
    filter (fun x => x <> n) l = delete j l.
  Proof.
    revert j. induction l as [|x l IH]; intros j Hnd Hj; [discriminate|].
    inversion Hnd as [|? ? Hx Hnd']; subst. destruct j as [|j]; simpl in Hj.
    - injection Hj as ->. rewrite filter_cons_False by auto. simpl.
      clear -Hx. induction l as [|y l IH]; [reflexivity|].
      rewrite filter_cons_True by (intros ->; apply Hx; left). f_equal. apply IH.
      intros H. apply Hx. right. exact H.
    - rewrite filter_cons_True; [|intros ->; apply Hx, elem_of_list_lookup; eauto].
      simpl. f_equal. apply IH; assumption.
  Qed.

  Lemma lookup_del (l : list nat) j k : delete j l !! k = if decide (k < j) then l !! k else l !! S k.
  Proof.
    case_decide; [apply lookup_delete_lt; assumption|apply lookup_delete_ge; lia].
  Qed.

  Lemma last_del (l : list nat) j : j < length l ->
    last (delete j l) = if decide (S j = length l) then match j with 0 => None | S j' => l !! j' end
                        else last l.
  Proof.
    intros Hj. rewrite !last_lookup, length_delete by (apply lookup_lt_is_Some; exact Hj).
    case_decide as Hd.
    - destruct j as [|j].
      + apply lookup_ge_None. rewrite length_delete by (apply lookup_lt_is_Some; exact Hj). lia.
      + rewrite lookup_delete_lt by lia. f_equal. lia.
    - rewrite lookup_delete_ge by lia. f_equal. lia.
  Qed.

  (* The updates made by remove, depending on the position of the node. *)
  Lemma linked_remove P N l j n P' N' :
    linked P N l -> NoDup l -> l !! j = Some n ->
    (forall k a, l !! k = Some a -> k <> j ->
       N' a = (if decide (S k = j) then l !! S j else N a) /\
       P' a = (if decide (k = 0) then (if decide (S j = length l) then match j with 0 => None | S j' => l !! j' end
                                       else last l)
               else if decide (k = S j) then match j with 0 => last l | S j' => l !! j' end else P a)) ->
    linked P' N' (delete j l).
  Proof.
    intros Hl Hnd Hj HU k a Hk.
    assert (Hjl : j < length l) by (apply lookup_lt_Some in Hj; exact Hj).
    rewrite lookup_del in Hk. rewrite lookup_del, last_del by exact Hjl.
    case_decide as Hkj.
    - destruct (HU k a Hk) as [H1 H2]; [lia|]. destruct (Hl k a Hk) as [H3 H4].
      rewrite H1, H2, H3, H4. split.
      + destruct (decide (S k = j)) as [E|E].
        * rewrite decide_False by lia. rewrite E. reflexivity.
        * rewrite decide_True by lia. reflexivity.
      + destruct k as [|k]; simpl; [reflexivity|].
        rewrite decide_False by lia. rewrite lookup_delete_lt by lia. reflexivity.
    - destruct (HU (S k) a Hk) as [H1 H2]; [lia|]. destruct (Hl (S k) a Hk) as [H3 H4].
      rewrite H1, H2, H3, H4. split.
      + rewrite !decide_False by lia. reflexivity.
      + simpl. destruct (decide (S k = S j)) as [E|E].
        * injection E as ->. destruct j as [|j].
          -- rewrite decide_False; [reflexivity|]. apply lookup_lt_Some in Hk. lia.
          -- rewrite lookup_delete_lt by lia. reflexivity.
        * destruct k as [|k]; [lia|]. rewrite lookup_delete_ge by lia. reflexivity.
  Qed.
End Linked.

Record rep (s : links) (c : contents) : Prop := {
  rp_first : forall i, ls_first s i = head (c i);
  rp_nodup : forall i, NoDup (c i);
  rp_disj : forall i j n, n ∈ c i -> n ∈ c j -> i = j;
  rp_linked : forall i, linked (ls_prev s) (ls_next s) (c i);
  rp_out : forall n, (forall i, n ∉ c i) -> ls_prev s n = None /\ ls_next s n = None
}.

Lemma rep0 : rep links0 contents0.
Proof.
  split; simpl; auto.
  - intros i. constructor.
  - intros i j n H. apply elem_of_nil in H. contradiction.
  - intros i k a H. discriminate.
Qed.

Lemma rep_change s c i l' s' :
  rep s c ->
  (forall j, ls_first s' j = if decide (j = i) then head l' else ls_first s j) ->
  (forall n, n ∉ c i -> n ∉ l' -> ls_prev s' n = ls_prev s n /\ ls_next s' n = ls_next s n) ->
  NoDup l' ->
  linked (ls_prev s') (ls_next s') l' ->
  (forall n, n ∈ l' -> n ∈ c i \/ forall j, n ∉ c j) ->
  (forall n, n ∈ c i -> n ∉ l' -> ls_prev s' n = None /\ ls_next s' n = None) ->
  rep s' (fun j => if decide (j = i) then l' else c j).
Proof.
  intros [R1 R2 R3 R4 R5] H1 H2 H3 H4 H5 H6.
  assert (Hno : forall j n, j <> i -> n ∈ c j -> n ∉ l').
  { intros j n Hj Hn Hl. destruct (H5 n Hl) as [H|H]; [|exact (H j Hn)].
    apply Hj. eapply R3; eassumption. }
  split.
  - intros j. rewrite H1. case_decide; auto.
  - intros j. case_decide; auto.
  - intros j k n Hj Hk. destruct (decide (j = i)), (decide (k = i)); subst; eauto.
    + exfalso. eapply Hno; eassumption.
    + exfalso. eapply Hno; eassumption.
  - intros j. case_decide as Hj; [exact H4|]. eapply linked_ext; [|apply R4].
    intros a Ha. apply H2; [|eapply Hno; eassumption].
    intros Hi. apply Hj. eapply R3; eassumption.
  - intros n Hn. assert (Hl : n ∉ l').
    { specialize (Hn i). rewrite decide_True in Hn by reflexivity. exact Hn. }
    destruct (decide (n ∈ c i)) as [Hi|Hi]; [apply H6; assumption|].
    destruct (H2 n Hi Hl) as [-> ->]. apply R5. intros j Hj.
    destruct (decide (j = i)) as [->|E]; [contradiction|].
    specialize (Hn j). rewrite decide_False in Hn by exact E. contradiction.
Qed.

Lemma push_back_rep s c i n : rep s c -> (forall j, n ∉ c j) ->
  exists s', push_back i n s = Ok s' /\ rep s' (op_contents (LPush i n) c).
Proof.
  intros HR Hn. destruct HR as [R1 R2 R3 R4 R5] eqn:E. clear E.
  destruct (R5 n Hn) as [HP HN]. unfold push_back. rewrite HP, HN, R1. simpl.
  destruct (c i) as [|f l] eqn:Ec.
  - simpl. eexists. split; [reflexivity|]. simpl.
    apply (rep_change s c); simpl.
    + exact HR.
    + intros j. unfold upd. case_decide; reflexivity.
    + intros m _ Hm. rewrite upd_ne; [auto|]. intros ->. apply Hm. left.
    + apply NoDup_singleton.
    + apply linked_one. exact HN.
    + intros m Hm. apply elem_of_list_singleton in Hm as ->. auto.
    + intros m Hm. rewrite Ec in Hm. apply elem_of_nil in Hm. contradiction.
  - assert (Hf : ls_prev s f = last (c i)) by (apply (R4 i 0); rewrite Ec; reflexivity).
    destruct (last (c i)) as [z|] eqn:Ez.
    2: { apply last_None in Ez. congruence. }
    simpl. rewrite Hf. simpl. eexists. split; [reflexivity|].
    change (f :: l ++ [n]) with ((f :: l) ++ [n]). rewrite <-Ec.
    assert (Hz : z ∈ c i).
    { rewrite last_lookup in Ez. apply elem_of_list_lookup. eauto. }
    assert (Hfi : f ∈ c i) by (rewrite Ec; left).
    apply (rep_change s c); simpl.
    + exact HR.
    + intros j. case_decide as Hj; [|reflexivity]. subst j. rewrite R1, Ec. reflexivity.
    + intros m Hm Hm'. rewrite !upd_ne; auto; intros ->; try contradiction.
      apply Hm'. apply elem_of_app. right. left.
    + apply NoDup_app. split; [apply R2|]. split; [|apply NoDup_singleton].
      intros x Hx Hx'. apply elem_of_list_singleton in Hx' as ->. exact (Hn i Hx).
    + apply linked_push; auto. rewrite Ec. reflexivity.
    + intros m Hm. apply elem_of_app in Hm as [Hm|Hm]; [auto|].
      apply elem_of_list_singleton in Hm as ->. auto.
    + intros m Hm Hm'. exfalso. apply Hm'. apply elem_of_app. auto.
Qed.

Lemma remove_rep s c i n : rep s c -> n ∈ c i ->
  exists s', remove i n s = Ok s' /\ rep s' (op_contents (LRemove i n) c).
Proof.
  intros HR Hn. destruct HR as [R1 R2 R3 R4 R5] eqn:E. clear E.
  apply elem_of_list_lookup in Hn as Hj. destruct Hj as [j Hj].
  assert (Hjl : j < length (c i)) by (apply lookup_lt_Some in Hj; exact Hj).
  destruct (R4 i j n Hj) as [HN HP].
  destruct (lookup_lt_is_Some_2 (c i) 0) as [f Hf]; [lia|].
  destruct (lookup_lt_is_Some_2 (c i) (pred (length (c i)))) as [z Hz]; [lia|].
  destruct (R4 i 0 f Hf) as [_ HPf]. simpl in HPf.
  assert (Hlast : last (c i) = Some z) by (rewrite last_lookup; exact Hz).
  assert (Hu := fun a b x => nodup_eq (c i) a b x (R2 i)).
  assert (Hhead : forall s' j', ls_first s' j' = (if decide (j' = i) then delete j (c i) !! 0 else ls_first s j')
                  -> ls_first s' j' = (if decide (j' = i) then head (delete j (c i)) else ls_first s j')).
  { intros s' j' ->. rewrite head_lookup. reflexivity. }
  assert (Hfin : forall s',
    (forall j', ls_first s' j' = if decide (j' = i) then delete j (c i) !! 0 else ls_first s j') ->
    (forall m, m ∉ c i -> ls_prev s' m = ls_prev s m /\ ls_next s' m = ls_next s m) ->
    (ls_prev s' n = None /\ ls_next s' n = None) ->
    linked (ls_prev s') (ls_next s') (delete j (c i)) ->
    rep s' (op_contents (LRemove i n) c)).
  { intros s' F1 F2 F3 F4. simpl. rewrite (filter_delete _ j) by auto.
    apply (rep_change s c); auto.
    - rewrite <-(filter_delete _ j n) by auto. apply list.NoDup_filter, R2.
    - intros m Hm. left. rewrite <-(filter_delete _ j n) in Hm by auto.
      apply elem_of_list_filter in Hm as [_ Hm]. exact Hm.
    - intros m Hm Hm'. rewrite <-(filter_delete _ j n) in Hm' by auto.
      destruct (decide (m = n)) as [->|Hmn]; [exact F3|].
      exfalso. apply Hm', elem_of_list_filter. auto. }
  assert (Hin : forall k x, c i !! k = Some x -> x ∈ c i) by (intros; apply elem_of_list_lookup; eauto).
  unfold remove. rewrite R1, head_lookup, Hf. cbn [deref obind].
  rewrite HP, HN, HPf, Hlast.
  destruct (decide (Some n = Some z)) as [En|En].
  - injection En as <-. assert (j = pred (length (c i))) as Ej by eauto.
    destruct (decide (n = f)) as [Ef|Ef].
    + subst f. assert (j = 0) as -> by eauto.
      eexists. split; [reflexivity|]. apply Hfin; simpl.
      * intros j'. unfold upd. case_decide; [|reflexivity].
        rewrite lookup_del. simpl. symmetry. apply lookup_ge_None. lia.
      * intros m Hm. rewrite !upd_ne; auto; intros ->; contradiction.
      * rewrite !upd_eq. auto.
      * eapply linked_remove; eauto. intros k a Hk Hk0. apply lookup_lt_Some in Hk. lia.
    + assert (j <> 0) by (intros ->; congruence). destruct j as [|j]; [lia|].
      destruct (lookup_lt_is_Some_2 (c i) j) as [p Hp]; [lia|]. rewrite Hp. simpl.
      assert (Hnp : n <> p) by (intros ->; assert (S j = j) by eauto; lia).
      eexists. split; [reflexivity|]. apply Hfin; simpl.
      * intros j'. case_decide; [|reflexivity]. subst j'. rewrite R1, head_lookup, lookup_del. reflexivity.
      * intros m Hm. rewrite !upd_ne; auto; intros ->; apply Hm; eauto.
      * split; repeat (rewrite upd_ne by assumption); rewrite upd_eq; reflexivity.
      * eapply linked_remove; eauto. intros k a Hk Hk0.
        assert (Han : a <> n) by (intros ->; eauto).
        apply lookup_lt_Some in Hk as Hkl.
        rewrite (decide_True (P := S (S j) = length (c i))) by lia.
        rewrite (decide_False (P := k = S (S j))) by lia. split.
        -- destruct (decide (S k = S j)) as [Ek|Ek].
           ++ injection Ek as ->. assert (a = p) as -> by congruence. rewrite upd_eq. symmetry.
              apply lookup_ge_None. lia.
           ++ rewrite upd_ne by (intros ->; apply Ek; f_equal; eauto). rewrite upd_ne by exact Han. reflexivity.
        -- destruct (decide (k = 0)) as [->|Ek].
           ++ assert (a = f) as -> by congruence. rewrite upd_eq. auto.
           ++ rewrite upd_ne by (intros ->; apply Ek; eauto). rewrite upd_ne by exact Han. reflexivity.
  - assert (Hjz : S j <> length (c i)).
    { intros E. apply En. rewrite <-Hz, <-Hj. f_equal. lia. }
    destruct (lookup_lt_is_Some_2 (c i) (S j)) as [m Hm]; [lia|]. rewrite Hm.
    assert (Hnm : n <> m) by (intros ->; assert (S j = j) by eauto; lia).
    destruct (decide (n = f)) as [Ef|Ef].
    + subst f. assert (j = 0) as -> by eauto. simpl.
      eexists. split; [reflexivity|]. apply Hfin; simpl.
      * intros j'. unfold upd. case_decide; [|reflexivity].
        rewrite lookup_del. simpl. auto.
      * intros x Hx. rewrite !upd_ne; auto; intros ->; apply Hx; eauto.
      * split; repeat (rewrite upd_ne by assumption); rewrite upd_eq; reflexivity.
      * eapply linked_remove; eauto. intros k a Hk Hk0.
        assert (Han : a <> n) by (intros ->; eauto).
        rewrite (decide_False (P := S k = 0)) by lia.
        rewrite (decide_False (P := k = 0)) by lia. split.
        -- rewrite upd_ne by exact Han. reflexivity.
        -- destruct (decide (k = 1)) as [->|Ek].
           ++ assert (a = m) as -> by congruence. rewrite upd_eq. auto.
           ++ rewrite upd_ne by (intros ->; apply Ek; eauto). rewrite upd_ne by exact Han. reflexivity.
    + assert (j <> 0) by (intros ->; congruence). destruct j as [|j]; [lia|].
      destruct (lookup_lt_is_Some_2 (c i) j) as [p Hp]; [lia|]. rewrite Hp. simpl.
      assert (Hnp : n <> p) by (intros ->; assert (S j = j) by eauto; lia).
      eexists. split; [reflexivity|]. apply Hfin; simpl.
      * intros j'. case_decide; [|reflexivity]. subst j'. rewrite R1, head_lookup, lookup_del. reflexivity.
      * intros x Hx. rewrite !upd_ne; auto; intros ->; apply Hx; eauto.
      * split; repeat (rewrite upd_ne by assumption); rewrite upd_eq; reflexivity.
      * eapply linked_remove; eauto. intros k a Hk Hk0.
        assert (Han : a <> n) by (intros ->; eauto).
        rewrite (decide_False (P := S (S j) = length (c i))) by lia. split.
        -- destruct (decide (S k = S j)) as [Ek|Ek].
           ++ injection Ek as ->. assert (a = p) as -> by congruence. rewrite upd_eq. auto.
           ++ rewrite upd_ne by (intros ->; apply Ek; f_equal; eauto). rewrite upd_ne by exact Han. reflexivity.
        -- destruct (decide (k = 0)) as [->|Ek0].
           ++ rewrite !upd_ne; [|exact Han|].
              ** assert (a = f) as -> by congruence. congruence.
              ** intros ->. assert (0 = S (S j)) by eauto. lia.
           ++ destruct (decide (k = S (S j))) as [->|Ek].
              ** assert (a = m) as -> by congruence. rewrite upd_eq. auto.
              ** rewrite upd_ne by (intros ->; apply Ek; eauto). rewrite upd_ne by exact Han. reflexivity.
Qed.

Lemma clear_loop_nodes l : forall fuel s,
  NoDup l -> (forall k a, l !! k = Some a -> ls_next s a = l !! S k) -> length l <= fuel ->
  exists s', clear_loop fuel (head l) s = Ok s' /\ ls_first s' = ls_first s /\
    (forall a, a ∈ l -> ls_prev s' a = None /\ ls_next s' a = None) /\
    (forall a, a ∉ l -> ls_prev s' a = ls_prev s a /\ ls_next s' a = ls_next s a).
Proof.
  induction l as [|x l IH]; intros fuel s Hnd HN Hf; simpl.
  - destruct fuel; simpl; eexists; (split; [reflexivity|]); repeat split; auto;
      apply elem_of_nil in H; contradiction.
  - inversion Hnd as [|? ? Hx Hnd']; subst. destruct fuel as [|fuel]; simpl in Hf; [lia|].
    simpl. assert (Hx0 : ls_next s x = head l).
    { rewrite (HN 0 x) by reflexivity. simpl. rewrite head_lookup. reflexivity. }
    rewrite Hx0. destruct (IH fuel (set_next (set_prev s x None) x None)) as (s' & H1 & H2 & H3 & H4).
    + exact Hnd'.
    + intros k a Hk. simpl. rewrite upd_ne; [apply (HN (S k)); exact Hk|].
      intros ->. apply Hx, elem_of_list_lookup. eauto.
    + lia.
    + exists s'. split; [exact H1|]. split; [exact H2|]. split.
      * intros a Ha. apply elem_of_cons in Ha as [->|Ha]; [|auto].
        destruct (H4 x Hx) as [-> ->]. simpl. rewrite !upd_eq. auto.
      * intros a Ha. apply not_elem_of_cons in Ha as [Ha Ha'].
        destruct (H4 a Ha') as [-> ->]. simpl. rewrite !upd_ne by exact Ha. auto.
Qed.

Lemma clear_rep fuel s c i : rep s c -> length (c i) <= fuel ->
  exists s', clear fuel i s = Ok s' /\ rep s' (op_contents (LClear i) c).
Proof.
  intros HR Hf. destruct HR as [R1 R2 R3 R4 R5] eqn:E. clear E.
  unfold clear. rewrite R1.
  destruct (clear_loop_nodes (c i) fuel (set_first s i None)) as (s' & H1 & H2 & H3 & H4).
  - apply R2.
  - intros k a Hk. apply (R4 i k a Hk).
  - exact Hf.
  - exists s'. split; [exact H1|]. apply (rep_change s c); auto.
    + intros j. rewrite H2. simpl. unfold upd. case_decide; reflexivity.
    + intros n Hn _. apply (H4 n Hn).
    + constructor.
    + intros k a Hk. discriminate.
    + intros n Hn. apply elem_of_nil in Hn. contradiction.
Qed.

Lemma step_rep fuel op s c : rep s c -> op_valid op c -> (forall i, length (c i) <= fuel) ->
  exists s', list_step fuel op s = Ok s' /\ rep s' (op_contents op c).
Proof.
  intros HR Hv Hf. destruct op as [i n|i n|i]; simpl in Hv.
  - apply push_back_rep; assumption.
  - apply remove_rep; assumption.
  - apply clear_rep; auto.
Qed.

Lemma op_length op c i b : (forall i, length (c i) <= b) -> length (op_contents op c i) <= S b.
Proof.
  intros Hb. destruct op as [j n|j n|j]; simpl; case_decide; subst; try (specialize (Hb i); lia).
  - rewrite app_length. simpl. specialize (Hb j). lia.
  - pose proof (filter_length (fun x => x <> n) (c j)). specialize (Hb j). lia.
  - simpl. lia.
Qed.

Lemma run_rep fuel ops : forall s c b, rep s c -> ops_valid ops c ->
  (forall i, length (c i) <= b) -> b + length ops <= fuel ->
  exists s', list_run fuel ops s = Ok s' /\ rep s' (ops_contents ops c) /\
    (forall i, length (ops_contents ops c i) <= fuel).
Proof.
  induction ops as [|op ops IH]; intros s c b HR Hv Hb Hf; simpl in *.
  - exists s. split; [reflexivity|]. split; [exact HR|]. intros i. specialize (Hb i). lia.
  - destruct Hv as [Hv Hvs].
    destruct (step_rep fuel op s c HR Hv) as (s1 & H1 & HR1).
    { intros i. specialize (Hb i). lia. }
    destruct (IH s1 (op_contents op c) (S b)) as (s2 & H2 & HR2 & Hl2); auto.
    { intros i. apply op_length. exact Hb. }
    { lia. }
    exists s2. split; [|auto]. unfold list_run. simpl. rewrite H1. exact H2.
Qed.

Lemma iterate_drop s l : (forall k a, l !! k = Some a -> ls_next s a = l !! S k) ->
  forall fuel, length l <= fuel -> iterate fuel s (head l) = Ok l.
Proof.
  induction l as [|x l IH]; intros HN fuel Hf; [destruct fuel; reflexivity|].
  destruct fuel as [|fuel]; simpl in Hf; [lia|]. simpl.
  rewrite (HN 0 x) by reflexivity. simpl. rewrite <-head_lookup, IH; [reflexivity| |lia].
  intros k a Hk. apply (HN (S k)). exact Hk.
Qed.

Lemma elements_rep s c i fuel : rep s c -> length (c i) <= fuel -> elements fuel i s = Ok (c i).
Proof.
  intros [R1 R2 R3 R4 R5] Hf. unfold elements. rewrite R1. apply iterate_drop; [|exact Hf].
  intros k a Hk. apply (R4 i k a Hk).
Qed.

Lemma lists_right ops fuel : ops_valid ops contents0 -> length ops <= fuel ->
  exists s, list_run fuel ops links0 = Ok s /\
    forall i, elements fuel i s = Ok (ops_contents ops contents0 i) /\
              size fuel i s = Ok (length (ops_contents ops contents0 i)) /\
              (empty i s = true <-> ops_contents ops contents0 i = []).
Proof.
  intros Hv Hf.
  destruct (run_rep fuel ops links0 contents0 0 rep0 Hv) as (s & H1 & HR & Hl); [simpl; auto|lia|].
  exists s. split; [exact H1|]. intros i.
  pose proof (elements_rep s _ i fuel HR (Hl i)) as He.
  split; [exact He|]. unfold size. rewrite He. split; [reflexivity|].
  unfold empty. rewrite (rp_first _ _ HR). destruct (ops_contents ops contents0 i); simpl; split; congruence.
Qed.

(* What goes wrong otherwise. *)
Lemma push_twice ops fuel i j n : ops_valid ops contents0 -> length ops <= fuel ->
  n ∈ ops_contents ops contents0 j -> list_run fuel (ops ++ [LPush i n]) links0 = Undef.
Proof.
  intros Hv Hf Hn.
  destruct (run_rep fuel ops links0 contents0 0 rep0 Hv) as (s & H1 & HR & Hl); [simpl; auto|lia|].
  unfold list_run in *. rewrite foldM_app, H1. simpl. unfold push_back.
  apply elem_of_list_lookup in Hn as [k Hk].
  destruct (rp_linked _ _ HR j k n Hk) as [_ HP].
  assert (exists p, ls_prev s n = Some p) as [p ->]; [|reflexivity].
  rewrite HP. destruct k as [|k].
  - destruct (last _) eqn:E; [eauto|]. apply last_None in E. rewrite E in Hk. discriminate.
  - apply lookup_lt_is_Some_2. apply lookup_lt_Some in Hk. lia.
Qed.

Lemma remove_absent ops fuel i n : ops_valid ops contents0 -> length ops <= fuel ->
  (forall j, n ∉ ops_contents ops contents0 j) ->
  list_run fuel (ops ++ [LRemove i n]) links0 = Undef.
Proof.
  intros Hv Hf Hn.
  destruct (run_rep fuel ops links0 contents0 0 rep0 Hv) as (s & H1 & HR & Hl); [simpl; auto|lia|].
  unfold list_run in *. rewrite foldM_app, H1. simpl. unfold remove.
  destruct (rp_out _ _ HR n Hn) as [HP HN]. rewrite HP, HN, (rp_first _ _ HR).
  destruct (ops_contents ops contents0 i) as [|f l] eqn:E; [reflexivity|]. simpl.
  destruct (rp_linked _ _ HR i 0 f) as [_ HPf]; [rewrite E; reflexivity|].
  rewrite HPf. destruct (decide (Some n = _)) as [Ez|Ez].
  - exfalso. apply (Hn i). symmetry in Ez. simpl in Ez. rewrite last_lookup in Ez.
    apply elem_of_list_lookup. eauto.
  - destruct (decide (n = f)) as [->|Ef]; [|reflexivity].
    exfalso. apply (Hn i). rewrite E. left.
Qed.
