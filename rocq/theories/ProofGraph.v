(* The class graph computed by augment_classes against the specification. *)
From stdpp Require Import base list numbers relations.
From Verif Require Import Base Registry Spec ModelClasses ProofBase ProofClasses.

(* Ranks bounded by the number of classes. *)
Definition squash (n : nat) (r : nat -> nat) (c : nat) : nat :=
  length (filter (fun d => r d < r c) (seq 0 n)).

Lemma squash_le n r c : squash n r c <= n.
Proof.
  unfold squash. etransitivity; [apply filter_length|]. rewrite seq_length. reflexivity.
Qed.

Lemma squash_lt n r c d : d < n -> r d < r c -> squash n r d < squash n r c.
Proof.
  intros Hd Hr. unfold squash.
  assert (Hsub : d :: filter (fun x => r x < r d) (seq 0 n) ⊆+ filter (fun x => r x < r c) (seq 0 n)).
  { apply NoDup_submseteq.
    - constructor.
      + rewrite elem_of_list_filter. intros [? _]. lia.
      + apply NoDup_filter, NoDup_seq.
    - intros x. rewrite elem_of_cons, !elem_of_list_filter, elem_of_seq.
      intros [->|[? ?]]; lia. }
  apply submseteq_length in Hsub. simpl in Hsub. lia.
Qed.

Lemma map_split {A B} (f : A -> B) l l1 y l2 :
  map f l = l1 ++ y :: l2 ->
  exists k1 x k2, l = k1 ++ x :: k2 /\ map f k1 = l1 /\ f x = y /\ map f k2 = l2.
Proof.
  revert l1. induction l as [|x l IH]; intros [|z l1] H; simpl in H; try discriminate.
  - injection H as H1 H2. exists [], x, l. auto.
  - injection H as H1 H2. destruct (IH l1 H2) as (k1 & x' & k2 & -> & <- & <- & <-).
    exists (x :: k1), x', k2. simpl. rewrite H1. auto.
Qed.

Section Graph.
  Context (E : env) (R : registrations).
  Notation crs := (reg_classes R).
  Notation ti := (e_ti E).

  Record graph_ok (g : graph) : Prop := {
    go_classes : classes_ok ti crs (g_classes g) (g_map g);
    go_reg : bases_registered ti R;
    go_rank : exists rk : nat -> nat,
      (forall c d, irel E (g_map g) crs c d -> rk d < rk c) /\ (forall c, rk c <= g_n g);
    go_td : forall c, c < g_n g -> NoDup (g_td g c) /\
      forall x, x ∈ g_td g c <-> rtc (irel E (g_map g) crs) x c;
    go_td_sound : forall c x, x ∈ g_td g c -> rtc (irel E (g_map g) crs) x c;
    go_db : forall c b, b ∈ g_db g c -> tc (irel E (g_map g) crs) c b;
    go_db_nodup : forall c, NoDup (g_db g c);
    go_db_closure : forall c b, tc (irel E (g_map g) crs) c b ->
      tc (fun x y => y ∈ g_db g x) c b;
    go_dd : forall b x, x ∈ g_dd g b <-> x < g_n g /\ b ∈ g_db g x;
    go_dd_nodup : forall b, NoDup (g_dd g b);
    go_tb : forall c b, b ∈ g_tb g c -> tc (irel E (g_map g) crs) c b;
    go_tb_complete : ibases_first E (g_map g) crs ->
      forall c b, tc (irel E (g_map g) crs) c b -> b ∈ g_tb g c;
    go_marks : forall x, g_mark g x <= g_class_mark g
  }.

  Lemma raw_pairs_elem t b :
    (t, b) ∈ raw_pairs crs <-> exists cr, cr ∈ crs /\ cr_type cr = t /\ b ∈ cr_bases cr.
  Proof.
    unfold raw_pairs. rewrite elem_of_list_In, in_flat_map. split.
    - intros (cr & Hcr & Hin). apply elem_of_list_In in Hcr.
      apply in_map_iff in Hin as (b' & Heq & Hb). injection Heq as <- <-.
      apply elem_of_list_In in Hb. eauto.
    - intros (cr & Hcr & <- & Hb). exists cr. apply elem_of_list_In in Hcr.
      split; [exact Hcr|]. apply in_map_iff. exists b. apply elem_of_list_In in Hb. auto.
  Qed.

  Section Classes.
    Context (cs : list class_entry) (cm : class_map) (HC : classes_ok ti crs cs cm).

    Lemma irel_base_pair c d :
      irel E cm crs c d <->
      exists a b, cm a = Some c /\ cm b = Some d /\ base_pair ti R a b /\ a <> b.
    Proof.
      split.
      - intros (t & b & Hin & Hc & Hd & Hne). exists (ti t), (ti b).
        split; [exact Hc|]. split; [exact Hd|]. split.
        + apply raw_pairs_elem in Hin as (cr & Hcr & <- & Hb). exists cr, b. auto.
        + intros Heq. congruence.
      - intros (a & b & Ha & Hb & (cr & t & Hcr & Ht & <- & <-) & Hne).
        exists (cr_type cr), t. split; [apply raw_pairs_elem; eauto|].
        split; [exact Ha|]. split; [exact Hb|].
        intros ->. apply Hne. eapply co_inj; eauto.
    Qed.

    Lemma irel_lt c d : irel E cm crs c d -> c < length cs /\ d < length cs.
    Proof.
      intros (t & b & _ & Hc & Hd & _). split; eapply co_lt; eauto.
    Qed.

    Lemma tc_irel_lt c d : tc (irel E cm crs) c d -> c < length cs /\ d < length cs.
    Proof.
      induction 1 as [c d H|c d e H _ IH]; [apply irel_lt; exact H|].
      apply irel_lt in H. tauto.
    Qed.

    Lemma rtc_irel_lt c d : rtc (irel E cm crs) c d -> d < length cs -> c < length cs.
    Proof.
      intros [->|H]%rtc_tc ?; [assumption|]. apply tc_irel_lt in H. tauto.
    Qed.

    (* Inheritance between classes and between indices. *)
    Lemma derives_irel a b c d :
      cm a = Some c -> cm b = Some d -> bases_registered ti R ->
      derives ti R a b <-> rtc (irel E cm crs) c d.
    Proof.
      intros Ha Hb Hreg. split.
      - intros H. revert c Ha. induction H as [x|x y z Hxy _ IH]; intros c Ha.
        + assert (c = d) as -> by congruence. constructor.
        + assert (exists e, cm y = Some e) as (e & He).
          { destruct Hxy as (cr & t & Hcr & Ht & _ & <-).
            apply (co_dom _ _ _ _ HC). eapply Hreg; eauto. }
          destruct (decide (x = y)) as [->|Hne]; [auto|].
          eapply rtc_l; [|apply (IH Hb _ He)].
          apply irel_base_pair. exists x, y. auto.
      - intros H. revert a Ha. induction H as [c|c e f Hce _ IH]; intros a Ha.
        + assert (a = b) as -> by (eapply co_inj; eauto). constructor.
        + apply irel_base_pair in Hce as (a' & b' & Ha' & Hb' & Hp & _).
          assert (a = a') as -> by (eapply co_inj; eauto).
          eapply rtc_l; [exact Hp|]. apply IH; auto.
    Qed.

    Lemma ibases_first_of : acyclic ti R -> bases_first ti R -> ibases_first E cm crs.
    Proof.
      intros [rank Hrank] Hbf t a u b c d e Hta Hub Ht Ha Hcd Hu Hb Hde.
      assert (Hud : ti u = ti a) by (eapply co_inj; eauto).
      assert (Hpairs : pairs ti R = map (fun p => (ti (fst p), ti (snd p))) (raw_pairs crs)).
      { unfold pairs, raw_pairs. generalize crs. intros l.
        induction l as [|cr l IH]; [reflexivity|]. simpl.
        rewrite map_app, <- IH, map_map. reflexivity. }
      assert (Hin : forall t b, (t, b) ∈ raw_pairs crs -> (ti t, ti b) ∈ pairs ti R).
      { intros t' b' H. rewrite Hpairs. apply elem_of_list_In, in_map_iff.
        exists (t', b'). split; [reflexivity|]. apply elem_of_list_In. exact H. }
      destruct (Hbf (ti t) (ti a) (ti b)) as [Hp|(l1 & l2 & Hl & Hnot)].
      - apply Hin. exact Hta.
      - congruence.
      - rewrite <- Hud. apply Hin. exact Hub.
      - rewrite <- Hud. congruence.
      - rewrite Hpairs in Hp. apply elem_of_list_In, in_map_iff in Hp as ([t' b'] & Heq & Hp).
        apply elem_of_list_In in Hp. injection Heq as Hq1 Hq2.
        destruct (decide (c = e)) as [->|Hce].
        + exfalso.
          assert (H1 : irel E cm crs e d) by (exists t, a; auto).
          assert (H2 : irel E cm crs d e) by (exists u, b; auto).
          apply irel_base_pair in H1 as (x1 & y1 & Hx1 & Hy1 & H1 & N1).
          apply irel_base_pair in H2 as (x2 & y2 & Hx2 & Hy2 & H2 & N2).
          assert (x1 = y2) as -> by (eapply co_inj; eauto).
          assert (y1 = x2) as -> by (eapply co_inj; eauto).
          apply Hrank in H1; [|assumption]. apply Hrank in H2; [|assumption]. lia.
        + left. exists t', b'. rewrite Hq1, Hq2. auto.
      - right. rewrite Hpairs in Hl.
        apply map_split in Hl as (k1 & [t' a'] & k2 & Hk & _ & Heq & <-).
        simpl in Heq. injection Heq as Hq1 Hq2.
        exists k1, t', a', k2. rewrite Hq1, Hq2. do 3 (split; [assumption|]).
        intros u' b' Hin' [Hu' Hb']. apply Hnot. apply elem_of_list_In, in_map_iff.
        exists (u', b'). simpl. split; [|apply elem_of_list_In; exact Hin'].
        f_equal; eapply co_inj; eauto.
    Qed.
    (* A rank on indices, bounded by their number. *)
    Lemma index_rank :
      acyclic ti R ->
      exists rk : nat -> nat,
        (forall c d, irel E cm crs c d -> rk d < rk c) /\ forall c, rk c <= length cs.
    Proof.
      intros [rank Hrank].
      pose (name := fun i => match cs !! i with
                             | Some e => match head (ce_type_ids e) with
                                         | Some t => ti t | None => 0%N end
                             | None => 0%N end).
      assert (Hname : forall a i, cm a = Some i -> name i = a).
      { intros a i Ha. assert (Hi := co_lt _ _ _ _ HC _ _ Ha).
        apply lookup_lt_is_Some in Hi as [e He]. unfold name. rewrite He.
        destruct (co_entry _ _ _ _ HC i e He) as (a' & cr & Ha' & _ & _ & _ & Hhd & _ & Hids).
        rewrite Hhd. assert (a' = a) as -> by (eapply co_inj; eauto).
        assert (Hin : cr_type cr ∈ ce_type_ids e).
        { destruct (ce_type_ids e); [discriminate|]. injection Hhd as ->. left. }
        apply Hids in Hin as (cr' & _ & _ & Hti). exact Hti. }
      exists (squash (length cs) (fun i => rank (name i))). split.
      - intros c d Hcd. pose proof (irel_lt _ _ Hcd) as [_ Hd].
        apply squash_lt; [exact Hd|].
        apply irel_base_pair in Hcd as (a & b & Ha & Hb & Hp & Hne).
        rewrite (Hname _ _ Ha), (Hname _ _ Hb). auto.
      - intros c. apply squash_le.
    Qed.
  End Classes.

  Lemma raw_registered cs cm t b :
    classes_ok ti crs cs cm -> bases_registered ti R -> (t, b) ∈ raw_pairs crs ->
    is_Some (cm (ti t)) /\ is_Some (cm (ti b)).
  Proof.
    intros HC Hreg Hin. apply raw_pairs_elem in Hin as (cr & Hcr & <- & Hb). split.
    - apply (co_dom _ _ _ _ HC). eauto.
    - apply (co_dom _ _ _ _ HC). eapply Hreg; eauto.
  Qed.

  Theorem augment_classes_ok :
    env_ok E -> acyclic ti R -> bases_registered ti R ->
    exists g, augment_classes E crs = Ok g /\ graph_ok g.
  Proof.
    intros HE Hac Hreg. unfold augment_classes.
    destruct (add_classes ti crs) as [cs cm] eqn:Hadd.
    pose proof (add_classes_ok _ _ _ _ Hadd) as HC.
    destruct (index_rank cs cm HC Hac) as (rk & Hrk & Hrkn).
    assert (Hraw : forall t b, (t, b) ∈ raw_pairs crs ->
              is_Some (cm (ti t)) /\ is_Some (cm (ti b))).
    { intros t b. apply raw_registered with cs; assumption. }
    rewrite collect_all_raw.
    2: { intros cr Hcr. apply (co_dom _ _ _ _ HC). eauto. }
    destruct (walk_total E (length cs) cm crs rk Hraw Hrk Hrkn) as (w & Hw & Hwok).
    rewrite Hw. cbn [obind].
    pose proof (dedup_all_ok (length cs) w (wo_marks _ _ _ _ _ Hwok)) as Hdd.
    set (w1 := dedup_all (length cs) w) in *.
    destruct (direct_all E (length cs) w1) as [w2 db] eqn:Hdir.
    assert (Hd : direct_ok (seq 0 (length cs)) w1 (w2, db)).
    { rewrite <- Hdir. apply direct_all_ok; [exact HE|apply Hdd|].
      intros c Hc. apply (do_nodup _ _ _ Hdd). apply elem_of_seq. lia. }
    destruct Hd as [Dtb Dmk _ Dnd Dsub Dcov]. simpl in *.
    assert (Htb : forall c x, x ∈ wk_tb w1 c -> tc (irel E cm crs) c x).
    { intros c x Hx. apply (wo_sound _ _ _ _ _ Hwok). apply Hdd. exact Hx. }
    assert (Hdb : forall c b, b ∈ db c -> tc (irel E cm crs) c b) by auto.
    destruct (derived_all_ok (length cs) db Dnd) as [Hddnd Hddel].
    assert (Htcrk : forall c d, tc (irel E cm crs) c d -> rk d < rk c).
    { intros c d. apply tc_irel_rank. exact Hrk. }
    (* closure of the direct bases *)
    assert (Hclos1 : forall m c b, rk c < m -> b ∈ wk_tb w1 c -> tc (fun x y => y ∈ db x) c b).
    { induction m as [|m IH]; intros c b Hm Hb; [lia|].
      assert (Hc : c < length cs) by (apply Htb, (tc_irel_lt _ _ HC) in Hb; tauto).
      destruct (Dcov c b) as [Hin|(d & Hd & Hbd)]; [apply elem_of_seq; lia|exact Hb| |].
      - constructor. exact Hin.
      - apply tc_l with d; [exact Hd|]. apply IH; [|exact Hbd].
        apply Hdb, Htcrk in Hd. lia. }
    assert (Hclos : forall c b, tc (irel E cm crs) c b -> tc (fun x y => y ∈ db x) c b).
    { induction 1 as [c d H|c d e H _ IH].
      - apply (Hclos1 (S (rk c))); [lia|]. apply Hdd.
        destruct H as (t & b & Hin & Hc & Hd & Hne).
        eapply (wo_direct _ _ _ _ _ Hwok); eauto.
      - eapply tc_transitive; [|exact IH]. apply (Hclos1 (S (rk c))); [lia|]. apply Hdd.
        destruct H as (t & b & Hin & Hc & Hd & Hne).
        eapply (wo_direct _ _ _ _ _ Hwok); eauto. }
    destruct (transitive_derived_all_ok E (derived_all (length cs) db)
                (fun c => length cs - rk c) HE) with (n := length cs) as (td & Htd & Htdany & Htdok).
    { intros x y Hy. apply Hddel in Hy as [_ Hy]. apply Hdb, Htcrk in Hy.
      specialize (Hrkn y). lia. }
    { intros x. lia. }
    assert (Hsound : forall c x, rtc (down (derived_all (length cs) db)) c x ->
              rtc (irel E cm crs) x c).
    { clear -Hddel Hdb. intros c. apply rtc_ind_r; [constructor|].
      intros y z _ Hyz IH. unfold down in Hyz. apply Hddel in Hyz as [_ Hyz].
      apply Hdb, tc_rtc in Hyz. etransitivity; eauto. }
    rewrite Htd. cbn [obind]. eexists. split; [reflexivity|].
    split; simpl.
    - exact HC.
    - exact Hreg.
    - exists rk. auto.
    - intros c Hc. destruct (Htdok c Hc) as [Hnd Hel]. split; [exact Hnd|].
      intros x. rewrite Hel. split.
      + apply Hsound.
      + intros [->|Hx]%rtc_tc; [constructor|].
        apply Hclos, tc_rtc in Hx.
        assert (Hlt : forall y z, z ∈ db y -> y < length cs).
        { intros y z Hz. apply Hdb, (tc_irel_lt _ _ HC) in Hz. tauto. }
        clear -Hx Hddel Hlt. induction Hx as [x|x y z Hxy _ IH]; [constructor|].
        eapply rtc_r; [exact IH|]. unfold down. apply Hddel. eauto.
    - intros c x Hx. destruct (Htdany c) as [Hnil|[_ Hel]].
      + rewrite Hnil in Hx. inversion Hx.
      + apply Hsound, Hel. exact Hx.
    - exact Hdb.
    - exact Dnd.
    - exact Hclos.
    - exact Hddel.
    - exact Hddnd.
    - intros c b Hb. rewrite Dtb in Hb. auto.
    - intros Hbf c b Hcb. rewrite Dtb. apply Hdd.
      eapply (walk_complete E (length cs) cm crs rk Hraw Hrk Hrkn); eauto.
    - exact Dmk.
  Qed.
End Graph.
