(* assign_slots: proofs about ModelSlots.v. *)
From stdpp Require Import base list numbers list_numbers relations.
From Verif Require Import Base Registry Spec ModelClasses ModelMethods ModelSlots
  ProofBase ProofClasses ProofGraph ProofMethods ProofBits.

Section Slots.
  Context (E : env) (R : registrations) (g : graph) (cms : list cmethod) (u : vp_map).
  Context (HE : env_ok E) (HG : graph_ok E R g) (HU : uses_ok cms u).
  Notation n := (g_n g).
  Notation rel := (irel E (g_map g) (reg_classes R)).
  Notation le := (rtc rel).

  (* The lists of transitive bases are complete. *)
  Definition tb_complete : Prop := forall c b, tc rel c b -> b ∈ g_tb g c.

  (* ---- facts about the graph ---- *)

  Lemma u_class mp X Y : mp ∈ u X -> mp ∈ u Y -> X = Y.
  Proof.
    destruct mp as [mi p]. intros HX HY.
    apply HU in HX as (m & Hm & Hp). apply HU in HY as (m' & Hm' & Hp'). congruence.
  Qed.

  Lemma u_nodup X : NoDup (u X).
  Proof. apply HU. Qed.

  Lemma td_le c x : c < n -> x ∈ g_td g c <-> le x c.
  Proof. intros Hc. apply (go_td _ _ _ HG c Hc). Qed.

  Lemma le_lt z x : le z x -> x < n -> z < n.
  Proof. apply rtc_irel_lt. apply HG. Qed.

  Lemma le_lt' z x : le z x -> z < n -> x < n.
  Proof.
    intros [->|H]%rtc_tc ?; [assumption|].
    apply (tc_irel_lt _ _ _ _ (go_classes _ _ _ HG)) in H. tauto.
  Qed.

  Lemma db_lt c b : b ∈ g_db g c -> c < n /\ b < n.
  Proof.
    intros H. apply (go_db _ _ _ HG) in H.
    apply (tc_irel_lt _ _ _ _ (go_classes _ _ _ HG)) in H. exact H.
  Qed.

  Lemma le_db z x : le z x <-> rtc (fun x y => y ∈ g_db g x) z x.
  Proof.
    split.
    - intros [->|H]%rtc_tc; [constructor|].
      apply tc_rtc, (go_db_closure _ _ _ HG). exact H.
    - induction 1 as [z|z y x H _ IH]; [constructor|].
      etransitivity; [|exact IH]. apply tc_rtc, (go_db _ _ _ HG). exact H.
  Qed.

  Lemma down_le c x : c < n -> rtc (down (g_dd g)) c x <-> le x c.
  Proof.
    intros Hc. rewrite le_db. split.
    - intros H. revert x H. apply rtc_ind_r; [constructor|].
      intros y z _ Hyz IH. apply (go_dd _ _ _ HG) in Hyz as [_ Hyz].
      eapply rtc_l; eauto.
    - induction 1 as [x|x y z Hxy H IH]; [constructor|].
      eapply rtc_r; [apply IH; exact Hc|].
      unfold down. apply (go_dd _ _ _ HG). split; [|exact Hxy]. apply db_lt in Hxy. tauto.
  Qed.

  Lemma le_antisym x y : le x y -> le y x -> x = y.
  Proof.
    destruct (go_rank _ _ _ HG) as (rk & Hrk & _).
    intros [->|H]%rtc_tc; [reflexivity|]. intros [->|H']%rtc_tc; [reflexivity|].
    apply (tc_irel_rank _ _ _ rk Hrk) in H. apply (tc_irel_rank _ _ _ rk Hrk) in H'. lia.
  Qed.

  Lemma root_exists z : z < n -> exists r, r < n /\ g_db g r = [] /\ le z r.
  Proof.
    destruct (go_rank _ _ _ HG) as (rk & Hrk & _).
    assert (G : forall m z, rk z < m -> z < n -> exists r, r < n /\ g_db g r = [] /\ le z r).
    { induction m as [|m IH]; intros z' Hm Hz; [lia|].
      destruct (g_db g z') as [|p l] eqn:Hdb.
      - exists z'. split; [exact Hz|]. split; [exact Hdb|constructor].
      - assert (Hp : p ∈ g_db g z') by (rewrite Hdb; left).
        assert (Htc := go_db _ _ _ HG _ _ Hp).
        assert (Hr := tc_irel_rank _ _ _ rk Hrk _ _ Htc).
        destruct (IH p) as (r & Hr1 & Hr2 & Hr3); [lia|apply db_lt in Hp; tauto|].
        exists r. split; [exact Hr1|]. split; [exact Hr2|].
        etransitivity; [apply tc_rtc; exact Htc|exact Hr3]. }
    apply (G (S (rk z))). lia.
  Qed.

  Definition mi_below (r : nat) : Prop := Exists (fun c => 1 < length (g_db g c)) (g_td g r).
  Definition tree_root (r : nat) : Prop := r < n /\ g_db g r = [] /\ ~ mi_below r.
  Definition lattice_root (r : nat) : Prop := r < n /\ g_db g r = [] /\ mi_below r.

  Lemma root_le r x : g_db g r = [] -> le r x -> x = r.
  Proof.
    intros Hr H. apply le_db in H. inversion H as [|? y ? Hy]; subst; [reflexivity|].
    rewrite Hr in Hy. inversion Hy.
  Qed.

  Lemma tree_single r c : tree_root r -> le c r -> length (g_db g c) <= 1.
  Proof.
    intros (Hr & _ & Hno) Hc. destruct (decide (length (g_db g c) <= 1)) as [|Hgt]; [assumption|].
    exfalso. apply Hno. apply Exists_exists. exists c. split; [apply td_le; auto|lia].
  Qed.

  (* In a tree, everything above a class is below the root. *)
  Lemma tree_chain r z x : tree_root r -> le z r -> le z x -> le x r.
  Proof.
    intros Hr Hz. pose proof Hz as Hz0. apply le_db in Hz.
    induction Hz as [z|z y r Hy Hyr IH]; intros Hx.
    - apply root_le in Hx as ->; [constructor|]. apply Hr.
    - apply le_db in Hx. inversion Hx as [|? y' ? Hy' Hx']; subst.
      + exact Hz0.
      + assert (y' = y) as ->.
        { pose proof (tree_single r z Hr Hz0) as Hs.
          destruct (g_db g z) as [|a [|b l]] eqn:Hdb; simpl in Hs; [inversion Hy| |lia].
          apply elem_of_list_singleton in Hy, Hy'. congruence. }
        apply IH; [exact Hr| |apply le_db; exact Hx'].
        apply le_db. exact Hyr.
  Qed.

  Lemma tree_lattice_disjoint r r' z :
    tree_root r -> lattice_root r' -> le z r -> le z r' -> False.
  Proof.
    intros Hr (Hr' & Hdb & Hmi) Hz Hz'.
    pose proof (tree_chain r z r' Hr Hz Hz') as H.
    apply root_le in H as ->; [|exact Hdb].
    destruct Hr as (_ & _ & Hno). auto.
  Qed.

  (* ---- trees ---- *)

  (* First slot used by a class in a tree: the number of (method, parameter) pairs
     of its strict bases. *)
  Inductive tree_at : nat -> nat -> Prop :=
    | ta_root r : g_db g r = [] -> tree_at r 0
    | ta_step c p b : g_db g c = [p] -> tree_at p b -> tree_at c (b + length (u p)).

  Lemma tree_at_fun c b b' : tree_at c b -> tree_at c b' -> b = b'.
  Proof.
    intros H. revert b'. induction H as [r Hr|c p b Hc Hp IH]; intros b' H';
      inversion H' as [? Hr'|? p' b0 Hc' Hp']; subst; try congruence.
    rewrite Hc in Hc'. injection Hc' as <-. f_equal. auto.
  Qed.

  Definition slot_of (s : slot_state) (mp : nat * nat) : nat := s_slots s (fst mp) (snd mp).

  Definition tree_good (s : slot_state) (X : nat) : Prop :=
    exists b, tree_at X b /\
      (forall i mp, u X !! i = Some mp -> slot_of s mp = b + i) /\
      s_first s X = 0 /\ length (s_vtbl s X) = b + length (u X).

  Lemma set_slot_eq sl mp v : set_slot sl mp v (fst mp) (snd mp) = v.
  Proof. unfold set_slot. rewrite !upd_eq. reflexivity. Qed.

  Lemma set_slot_ne sl mp v mp' : mp' <> mp -> set_slot sl mp v (fst mp') (snd mp') =
    sl (fst mp') (snd mp').
  Proof.
    intros H. unfold set_slot. destruct mp as [a b], mp' as [a' b']. simpl.
    destruct (decide (a' = a)) as [->|Ha]; [|rewrite upd_ne by exact Ha; reflexivity].
    rewrite upd_eq. apply upd_ne. congruence.
  Qed.

  Lemma number_slots l sl base :
    NoDup l ->
    let r := foldl (fun '(sl, next) mp => (set_slot sl mp next, S next)) (sl, base) l in
    snd r = base + length l /\
    (forall i mp, l !! i = Some mp -> fst r (fst mp) (snd mp) = base + i) /\
    (forall mp, mp ∉ l -> fst r (fst mp) (snd mp) = sl (fst mp) (snd mp)).
  Proof.
    intros Hnd. simpl. revert Hnd.
    induction l as [|mp l IH] using rev_ind; intros Hnd.
    - simpl. split; [lia|]. split; [intros i mp Hi; rewrite lookup_nil in Hi; discriminate|auto].
    - rewrite foldl_app. apply NoDup_app in Hnd as (Hnd & Hd & _).
      destruct (IH Hnd) as (I1 & I2 & I3).
      destruct (foldl _ _ l) as [sl1 nx]. simpl in *. subst nx.
      rewrite app_length. simpl. split; [lia|]. split.
      + intros i mp' Hi. apply lookup_app_Some in Hi as [Hi|[Hge Hi]].
        * rewrite set_slot_ne; [auto|]. intros ->.
          apply (Hd mp); [eapply elem_of_list_lookup_2; eauto|left].
        * destruct (i - length l) as [|k] eqn:Hk; [|destruct k; discriminate].
          injection Hi as <-. rewrite set_slot_eq. lia.
      + intros mp' Hn. rewrite not_elem_of_app, elem_of_list_singleton in Hn.
        rewrite set_slot_ne by tauto. apply I3. tauto.
  Qed.

  Section Fuel.
    Context (ck : nat -> nat).
    Context (Hck : forall x y, y ∈ g_dd g x -> ck y < ck x).

    Lemma tree_visit fuel cls b s :
      ck cls < fuel -> cls < n -> tree_at cls b ->
      (forall x, le x cls -> length (g_db g x) <= 1) ->
      exists s', assign_tree_slots (g_dd g) u fuel cls b s = Ok s' /\
        (forall X, le X cls -> tree_good s' X) /\
        (forall X, tree_good s X -> tree_good s' X) /\
        s_used s' = s_used s /\ s_reserved s' = s_reserved s /\ s_mark s' = s_mark s /\
        (forall X, ~ le X cls -> s_first s' X = s_first s X /\ s_vtbl s' X = s_vtbl s X) /\
        (forall mp, (forall X, le X cls -> mp ∉ u X) -> slot_of s' mp = slot_of s mp).
    Proof.
      revert cls b s. induction fuel as [|fuel IH]; intros cls b s Hf Hc Hta Hsingle; [lia|].
      cbn [assign_tree_slots].
      pose proof (number_slots (u cls) (s_slots s) b (u_nodup cls)) as Hnum.
      destruct (foldl _ _ (u cls)) as [sl next]. simpl in Hnum.
      destruct Hnum as (-> & Hin & Hout).
      set (s1 := SlotState _ _ _ _ _ _).
      assert (H1 : tree_good s1 cls).
      { exists b. split; [exact Hta|]. split; [exact Hin|]. simpl. rewrite !upd_eq.
        split; [reflexivity|]. rewrite resize_length. reflexivity. }
      assert (H2 : forall X, tree_good s X -> tree_good s1 X).
      { intros X (b' & Hta' & Hs' & Hf' & Hv'). destruct (decide (X = cls)) as [->|Hne]; [exact H1|].
        exists b'. split; [exact Hta'|]. simpl. split.
        - intros i mp Hi. unfold slot_of. simpl. rewrite Hout; [apply Hs'; exact Hi|].
          intros Hm. apply Hne. apply (u_class mp); [|exact Hm].
          eapply elem_of_list_lookup_2; eauto.
        - rewrite !upd_ne by exact Hne. auto. }
      destruct (foldM_inv_prefix
        (fun pre s2 =>
          (forall X d, d ∈ pre -> le X d -> tree_good s2 X) /\
          (forall X, tree_good s1 X -> tree_good s2 X) /\
          s_used s2 = s_used s /\ s_reserved s2 = s_reserved s /\ s_mark s2 = s_mark s /\
          (forall X, ~ le X cls -> s_first s2 X = s_first s X /\ s_vtbl s2 X = s_vtbl s X) /\
          (forall mp, (forall X, le X cls -> mp ∉ u X) -> slot_of s2 mp = slot_of s mp))
        (fun pd s => assign_tree_slots (g_dd g) u fuel pd (b + length (u cls)) s)
        (g_dd g cls) s1) as (s' & Hok & I1 & I2 & I3 & I4 & I5 & I6 & I7).
      - split; [intros X d Hd; inversion Hd|]. split; [auto|].
        do 3 (split; [reflexivity|]). split.
        + intros X HX. simpl. rewrite !upd_ne; [auto|intros ->; apply HX; constructor..].
        + intros mp Hm. unfold slot_of. simpl. apply Hout. apply Hm. constructor.
      - intros l1 d l2 s2 Hl (I1 & I2 & I3 & I4 & I5 & I6 & I7).
        assert (Hd : d ∈ g_dd g cls) by (rewrite Hl, elem_of_app; right; left).
        pose proof Hd as Hd'. apply (go_dd _ _ _ HG) in Hd' as [Hdn Hdb].
        assert (Hdle : le d cls) by (apply tc_rtc, (go_db _ _ _ HG); exact Hdb).
        assert (Hrk := Hck _ _ Hd).
        assert (Hdb1 : g_db g d = [cls]).
        { pose proof (Hsingle d Hdle) as Hlen.
          destruct (g_db g d) as [|a [|? ?]]; simpl in Hlen; [inversion Hdb| |lia].
          apply elem_of_list_singleton in Hdb as ->. reflexivity. }
        destruct (IH d (b + length (u cls)) s2) as (s3 & Hok3 & J1 & J2 & J3 & J4 & J5 & J6 & J7).
        + lia.
        + exact Hdn.
        + apply ta_step; assumption.
        + intros x Hx. apply Hsingle. etransitivity; eauto.
        + exists s3. split; [exact Hok3|]. split.
          { intros X d' [Hin'|Hin']%elem_of_app HX; [apply J2; eauto|].
            apply elem_of_list_singleton in Hin' as ->. auto. }
          split; [auto|]. split; [congruence|]. split; [congruence|]. split; [congruence|]. split.
          * intros X HX. destruct (J6 X) as [-> ->]; [|auto].
            intros HX'. apply HX. etransitivity; eauto.
          * intros mp Hm. rewrite J7; [auto|]. intros X HX. apply Hm. etransitivity; eauto.
      - exists s'. split; [exact Hok|]. split.
        + intros X HX. apply down_le in HX; [|exact Hc].
          apply rtc_inv in HX as [<-|(d & Hd & HX)]; [auto|].
          apply (I1 X d Hd). apply down_le; [|exact HX].
          apply (go_dd _ _ _ HG) in Hd. tauto.
        + split; [auto|]. auto.
    Qed.

    (* ---- lattices ---- *)

    Context (k : nat).   (* class_mark *)

    Definition assigned (s : slot_state) (mp : nat * nat) : Prop :=
      exists X, mp ∈ u X /\ s_mark s X = k.

    Record lattice_inv (asg : nat * nat -> Prop) (s : slot_state) : Prop := {
      li_used : forall X mp Z, mp ∈ u X -> asg mp -> X < n -> le Z X ->
        bit (s_used s Z) (slot_of s mp) = true;
      li_reserved : tb_complete -> forall X mp Z W, mp ∈ u X -> asg mp -> X < n -> le Z X ->
        tc rel Z W -> bit (s_reserved s W) (slot_of s mp) = true;
      li_sep : tb_complete -> forall X1 X2 mp1 mp2 Z, mp1 <> mp2 -> asg mp1 -> asg mp2 ->
        mp1 ∈ u X1 -> mp2 ∈ u X2 -> X1 < n -> X2 < n -> le Z X1 -> le Z X2 ->
        slot_of s mp1 <> slot_of s mp2
    }.

    (* merging a set into the reserved slots of a list of classes *)
    Lemma merge_list (b : bitset) l (r : nat -> bitset) :
      let r' := foldl (fun r base => upd r base (merge_into b (r base))) r l in
      (forall W i, bit (r W) i = true -> bit (r' W) i = true) /\
      (forall W i, W ∈ l -> bit b i = true -> bit (r' W) i = true).
    Proof.
      simpl. induction l as [|x l IH] using rev_ind; simpl.
      - split; [auto|]. intros W i HW. inversion HW.
      - rewrite foldl_app. destruct IH as [IH1 IH2]. simpl. split.
        + intros W i Hi. destruct (decide (W = x)) as [->|HW].
          * rewrite upd_eq, merge_into_spec, (IH1 _ _ Hi). apply orb_true_r.
          * rewrite upd_ne by exact HW. auto.
        + intros W i HW Hi. destruct (decide (W = x)) as [->|HWx].
          * rewrite upd_eq, merge_into_spec, Hi. reflexivity.
          * rewrite upd_ne by exact HWx. apply IH2; [|exact Hi].
            apply elem_of_app in HW as [HW|HW]; [exact HW|].
            apply elem_of_list_singleton in HW. contradiction.
    Qed.

    Lemma lattice_slot_spec cls s mp :
      cls < n ->
      let s' := lattice_slot E g cls s mp in
      (forall Z i, bit (s_used s Z) i = true -> bit (s_used s' Z) i = true) /\
      (forall W i, bit (s_reserved s W) i = true -> bit (s_reserved s' W) i = true) /\
      bit (s_used s cls) (slot_of s' mp) = false /\
      bit (s_reserved s cls) (slot_of s' mp) = false /\
      (forall Z, le Z cls -> bit (s_used s' Z) (slot_of s' mp) = true) /\
      (forall Z W, le Z cls -> W ∈ g_tb g Z -> bit (s_reserved s' W) (slot_of s' mp) = true) /\
      (forall Z, ~ le Z cls -> s_used s' Z = s_used s Z) /\
      (forall mp', mp' <> mp -> slot_of s' mp' = slot_of s mp') /\
      s_mark s' = s_mark s /\ s_first s' = s_first s /\ s_vtbl s' = s_vtbl s.
    Proof.
      intros Hc. simpl. unfold lattice_slot.
      set (un := merge_into (s_reserved s cls) (s_used s cls)).
      set (slot := first_free un).
      set (used := upd (s_used s) cls (set_bit (s_used s cls) slot)).
      set (res0 := upd (s_reserved s) cls (set_bit (s_reserved s cls) slot)).
      set (res1 := foldl _ res0 (g_tb g cls)).
      pose proof (first_free_spec un) as Hfree. fold slot in Hfree.
      unfold un in Hfree. rewrite merge_into_spec in Hfree.
      apply orb_false_iff in Hfree as [Hfr Hfu].
      assert (Hu0 : forall Z i, bit (s_used s Z) i = true -> bit (used Z) i = true).
      { intros Z i Hi. unfold used, upd. case_decide; [|exact Hi].
        subst. rewrite set_bit_spec, Hi. reflexivity. }
      assert (Hucls : bit (used cls) slot = true).
      { unfold used. rewrite upd_eq, set_bit_spec, bool_decide_eq_true_2 by reflexivity.
        apply orb_true_r. }
      assert (Hr0 : forall W i, bit (s_reserved s W) i = true -> bit (res0 W) i = true).
      { intros W i Hi. unfold res0, upd. case_decide; [|exact Hi].
        subst. rewrite set_bit_spec, Hi. reflexivity. }
      destruct (merge_list (used cls) (g_tb g cls) res0) as [Hr1 Hr1'].
      fold res1 in Hr1, Hr1'.
      set (step := fun '(us, r) covariant =>
        if decide (cls = covariant) then (us, r)
        else
          let us := upd us covariant (merge_into (us cls) (us covariant)) in
          let r := foldl (fun r base => upd r base (merge_into (us cls) (r base)))
                     r (g_tb g covariant) in
          (us, r)).
      pose (P := fun (pre : list nat) (x : (nat -> bitset) * (nat -> bitset)) =>
        (forall Z i, bit (used Z) i = true -> bit (fst x Z) i = true) /\
        fst x cls = used cls /\
        (forall W i, bit (res1 W) i = true -> bit (snd x W) i = true) /\
        (forall Z, Z ∈ pre -> bit (fst x Z) slot = true) /\
        (forall Z W, Z ∈ pre -> W ∈ g_tb g Z -> bit (snd x W) slot = true) /\
        (forall Z, Z <> cls -> Z ∉ pre -> fst x Z = used Z)).
      assert (G : P (e_iter E cls (g_td g cls)) (foldl step (used, res1) (e_iter E cls (g_td g cls)))).
      { apply foldl_inv_prefix; unfold P.
        - simpl. split; [auto|]. split; [reflexivity|]. split; [auto|].
          split; [intros Z HZ; inversion HZ|]. split; [intros Z W HZ; inversion HZ|]. auto.
        - intros l1 Z l2 [us r] Hl (I1 & I2 & I3 & I4 & I5 & I6). simpl in *.
          case_decide as HZ.
          + subst Z. simpl. split; [exact I1|]. split; [exact I2|]. split; [exact I3|]. split.
            { intros Z [HZ|HZ]%elem_of_app; [auto|]. apply elem_of_list_singleton in HZ as ->.
              auto. }
            split.
            { intros Z W [HZ|HZ]%elem_of_app HW; [eauto|].
              apply elem_of_list_singleton in HZ as ->. auto. }
            intros Z HZ HZ'. apply I6; [exact HZ|]. intros H. apply HZ'.
            rewrite elem_of_app. auto.
          + assert (Hcls : upd us Z (merge_into (us cls) (us Z)) cls = used cls).
            { rewrite upd_ne by exact HZ. exact I2. }
            rewrite Hcls. simpl.
            destruct (merge_list (used cls) (g_tb g Z) r) as [M1 M2].
            split.
            { intros Y i Hi. unfold upd. case_decide; [|auto].
              subst. rewrite merge_into_spec, (I1 _ _ Hi). apply orb_true_r. }
            split; [exact Hcls|]. split; [auto|]. split.
            { intros Y HY. unfold upd. case_decide as HYZ.
              - subst. rewrite merge_into_spec, I2, Hucls. reflexivity.
              - apply elem_of_app in HY as [HY|HY]; [auto|].
                apply elem_of_list_singleton in HY. contradiction. }
            split.
            { intros Y W [HY|HY]%elem_of_app HW; [eauto|].
              apply elem_of_list_singleton in HY as ->. auto. }
            intros Y HY HY'. rewrite not_elem_of_app, elem_of_list_singleton in HY'.
            rewrite upd_ne by tauto. apply I6; tauto. }
      destruct (foldl step _ _) as [us r] eqn:Hfold. unfold P in G. simpl in G.
      unfold slot_of. simpl.
      destruct G as (I1 & I2 & I3 & I4 & I5 & I6).
      assert (Hiter : forall Z, Z ∈ e_iter E cls (g_td g cls) <-> le Z cls).
      { intros Z. rewrite (proj1 HE). apply td_le. exact Hc. }
      rewrite set_slot_eq.
      split; [auto|]. split; [auto|]. split; [exact Hfu|]. split; [exact Hfr|]. split.
      { intros Z HZ. apply I4, Hiter. exact HZ. }
      split.
      { intros Z W HZ HW. apply (I5 Z W); [apply Hiter; exact HZ|exact HW]. }
      split.
      { intros Z HZ. rewrite I6.
        - unfold used. apply upd_ne. intros ->. apply HZ. constructor.
        - intros ->. apply HZ. constructor.
        - intros H. apply HZ, Hiter. exact H. }
      split; [|auto]. intros mp' Hne. apply set_slot_ne. exact Hne.
    Qed.

    Lemma lattice_slot_inv asg cls s mp :
      lattice_inv asg s -> cls < n -> mp ∈ u cls -> ~ asg mp ->
      lattice_inv (fun x => asg x \/ x = mp) (lattice_slot E g cls s mp).
    Proof.
      intros [Lu Lr Ls] Hc Hmp Hna.
      pose proof (lattice_slot_spec cls s mp Hc) as
        (Mu & Mr & Fu & Fr & Nu & Nr & Ku & Ks & _).
      set (s' := lattice_slot E g cls s mp) in *.
      assert (Hold : forall mp', asg mp' -> slot_of s' mp' = slot_of s mp').
      { intros mp' Ha. apply Ks. intros ->. auto. }
      split.
      - intros X mp' Z Hu [Ha| ->] HX HZ.
        + rewrite Hold by exact Ha. apply Mu. eauto.
        + assert (X = cls) as -> by (eapply u_class; eauto). auto.
      - intros Htb X mp' Z W Hu [Ha| ->] HX HZ HW.
        + rewrite Hold by exact Ha. apply Mr. eauto.
        + assert (X = cls) as -> by (eapply u_class; eauto). eapply Nr; eauto.
      - assert (Hnew : tb_complete -> forall X2 mp2 Z, asg mp2 -> mp2 ∈ u X2 -> X2 < n ->
            le Z cls -> le Z X2 -> slot_of s' mp <> slot_of s' mp2).
        { intros Htb X2 mp2 Z Ha2 Hu2 HX2 HZ HZ2 Heq.
          rewrite (Hold mp2 Ha2) in Heq. rewrite Heq in Fu, Fr.
          apply rtc_tc in HZ as [->|HZ].
          - rewrite (Lu X2 mp2 cls) in Fu; auto. discriminate.
          - rewrite (Lr Htb X2 mp2 Z cls) in Fr; auto. discriminate. }
        intros Htb X1 X2 mp1 mp2 Z Hne [Ha1| ->] [Ha2| ->] Hu1 Hu2 HX1 HX2 HZ1 HZ2.
        + rewrite !Hold by assumption. eauto.
        + assert (X2 = cls) as -> by (eapply u_class; eauto).
          intros Heq. symmetry in Heq. revert Heq. eapply Hnew; eauto.
        + assert (X1 = cls) as -> by (eapply u_class; eauto). eapply Hnew; eauto.
        + contradiction.
    Qed.

    Lemma lattice_inv_ext (P Q : nat * nat -> Prop) s :
      (forall mp, Q mp -> P mp) -> lattice_inv P s -> lattice_inv Q s.
    Proof.
      intros H [L1 L2 L3]. split; intros; [eapply L1|eapply L2|eapply L3]; eauto.
    Qed.

    (* All the pairs of a class. *)
    Lemma lattice_class cls s :
      cls < n -> lattice_inv (assigned s) s -> s_mark s cls <> k ->
      let s0 := SlotState (s_slots s) (s_used s) (s_reserved s)
                  (upd (s_mark s) cls k) (s_first s) (s_vtbl s) in
      let s' := foldl (lattice_slot E g cls) s0 (u cls) in
      lattice_inv (assigned s') s' /\
      s_mark s' = upd (s_mark s) cls k /\ s_first s' = s_first s /\ s_vtbl s' = s_vtbl s /\
      (forall mp, mp ∉ u cls -> slot_of s' mp = slot_of s mp) /\
      (forall Z, ~ le Z cls -> s_used s' Z = s_used s Z).
    Proof.
      intros Hc HL Hm. simpl.
      set (s0 := SlotState _ _ _ _ _ _).
      assert (Hnot : forall mp, mp ∈ u cls -> ~ assigned s mp).
      { intros mp Hmp (X & HX & Hk). assert (X = cls) as -> by (eapply u_class; eauto).
        contradiction. }
      assert (G : lattice_inv (fun mp => assigned s mp \/ mp ∈ u cls)
                    (foldl (lattice_slot E g cls) s0 (u cls)) /\
        s_mark (foldl (lattice_slot E g cls) s0 (u cls)) = upd (s_mark s) cls k /\
        s_first (foldl (lattice_slot E g cls) s0 (u cls)) = s_first s /\
        s_vtbl (foldl (lattice_slot E g cls) s0 (u cls)) = s_vtbl s /\
        (forall mp, mp ∉ u cls ->
           slot_of (foldl (lattice_slot E g cls) s0 (u cls)) mp = slot_of s mp) /\
        (forall Z, ~ le Z cls ->
           s_used (foldl (lattice_slot E g cls) s0 (u cls)) Z = s_used s Z)).
      { apply (foldl_inv_prefix (fun pre s1 =>
          lattice_inv (fun mp => assigned s mp \/ mp ∈ pre) s1 /\
          s_mark s1 = upd (s_mark s) cls k /\ s_first s1 = s_first s /\
          s_vtbl s1 = s_vtbl s /\ (forall mp, mp ∉ pre -> slot_of s1 mp = slot_of s mp) /\
          (forall Z, ~ le Z cls -> s_used s1 Z = s_used s Z))).
        - split; [|auto].
          destruct HL as [L1 L2 L3].
          assert (Hx : forall mp, assigned s mp \/ mp ∈ [] -> assigned s mp).
          { intros mp [?|H]; [assumption|inversion H]. }
          split; simpl.
          + intros X mp Z Hu Ha. apply (L1 X mp Z Hu). auto.
          + intros Htb X mp Z W Hu Ha. apply (L2 Htb X mp Z W Hu). auto.
          + intros Htb X1 X2 mp1 mp2 Z Hne Ha1 Ha2. apply (L3 Htb X1 X2 mp1 mp2 Z Hne); auto.
        - intros l1 mp l2 s1 Hl (I1 & I2 & I3 & I4 & I5 & I6).
          assert (Hmp : mp ∈ u cls) by (rewrite Hl, elem_of_app; right; left).
          assert (Hnl1 : mp ∉ l1).
          { pose proof (u_nodup cls) as Hnd. rewrite Hl in Hnd.
            apply NoDup_app in Hnd as (_ & Hd & _). intros Hin. apply (Hd mp Hin). left. }
          pose proof (lattice_slot_spec cls s1 mp Hc) as
            (_ & _ & _ & _ & _ & _ & Ku & Ks & K1 & K2 & K3).
          split.
          { eapply lattice_inv_ext; [|apply (lattice_slot_inv _ cls s1 mp I1 Hc Hmp)].
            - intros mp'. rewrite elem_of_app, elem_of_list_singleton. tauto.
            - intros [Ha|Ha]; [apply (Hnot mp Hmp Ha)|auto]. }
          split; [congruence|]. split; [congruence|]. split; [congruence|]. split.
          { intros mp' Hn. rewrite not_elem_of_app, elem_of_list_singleton in Hn.
            rewrite Ks by tauto. apply I5. tauto. }
          intros Z HZ. rewrite Ku by exact HZ. auto. }
      destruct G as (G1 & G2 & G3 & G4 & G5 & G6).
      split; [|auto]. eapply lattice_inv_ext; [|exact G1].
      intros mp (X & HX & Hk). rewrite G2 in Hk.
      destruct (decide (X = cls)) as [->|Hne]; [auto|].
      rewrite upd_ne in Hk by exact Hne. left. exists X. auto.
    Qed.

    Record lattice_frame (cls : nat) (s s' : slot_state) : Prop := {
      lf_marked : forall X, s_mark s X = k -> s_mark s' X = k;
      lf_new : forall X, s_mark s' X = k -> s_mark s X <> k ->
        le X cls /\ forall Y, Y ∈ g_dd g X -> s_mark s' Y = k;
      lf_first : s_first s' = s_first s;
      lf_vtbl : s_vtbl s' = s_vtbl s;
      lf_slots : forall mp, (forall X, le X cls -> s_mark s X <> k -> mp ∉ u X) ->
        slot_of s' mp = slot_of s mp;
      lf_used : forall Z, ~ le Z cls -> s_used s' Z = s_used s Z
    }.

    Lemma lattice_visit fuel cls s :
      ck cls < fuel -> cls < n -> lattice_inv (assigned s) s ->
      exists s', assign_lattice_slots E g u k fuel cls s = Ok s' /\
        lattice_inv (assigned s') s' /\ s_mark s' cls = k /\ lattice_frame cls s s'.
    Proof.
      revert cls s. induction fuel as [|fuel IH]; intros cls s Hf Hc HL; [lia|].
      cbn [assign_lattice_slots]. case_decide as Hm.
      { exists s. split; [reflexivity|]. split; [exact HL|]. split; [exact Hm|].
        split; auto. intros X HX HnX. contradiction. }
      pose proof (lattice_class cls s Hc HL Hm) as (C1 & C2 & C3 & C4 & C5 & C6).
      set (s1 := foldl _ _ _) in *.
      assert (Hle : forall d, d ∈ g_dd g cls -> le d cls).
      { intros d Hd. apply (go_dd _ _ _ HG) in Hd as [_ Hd].
        apply tc_rtc, (go_db _ _ _ HG). exact Hd. }
      destruct (foldM_inv_prefix
        (fun pre s2 =>
          lattice_inv (assigned s2) s2 /\
          (forall d, d ∈ pre -> s_mark s2 d = k) /\
          (forall X, s_mark s1 X = k -> s_mark s2 X = k) /\
          (forall X, s_mark s2 X = k -> s_mark s1 X <> k ->
             le X cls /\ forall Y, Y ∈ g_dd g X -> s_mark s2 Y = k) /\
          s_first s2 = s_first s /\ s_vtbl s2 = s_vtbl s /\
          (forall mp, (forall X, le X cls -> s_mark s X <> k -> mp ∉ u X) ->
             slot_of s2 mp = slot_of s mp) /\
          (forall Z, ~ le Z cls -> s_used s2 Z = s_used s Z))
        (assign_lattice_slots E g u k fuel) (g_dd g cls) s1)
        as (s' & Hok & I1 & I2 & I3 & I4 & I5 & I6 & I7 & I8).
      - split; [exact C1|]. split; [intros d Hd; inversion Hd|]. split; [auto|].
        split; [intros X HX HnX; contradiction|].
        split; [exact C3|]. split; [exact C4|]. split; [|exact C6].
        intros mp Hmp. apply C5. apply Hmp; [constructor|exact Hm].
      - intros l1 d l2 s2 Hl (I1 & I2 & I3 & I4 & I5 & I6 & I7 & I8).
        assert (Hd : d ∈ g_dd g cls) by (rewrite Hl, elem_of_app; right; left).
        assert (Hdn : d < n) by (apply (go_dd _ _ _ HG) in Hd; tauto).
        assert (Hrk := Hck _ _ Hd).
        destruct (IH d s2 ltac:(lia) Hdn I1) as (s3 & Hok3 & J1 & J2 & [F1 F2 F3 F4 F5 F6]).
        exists s3. split; [exact Hok3|]. split; [exact J1|]. split.
        { intros d' [Hin|Hin]%elem_of_app; [auto|].
          apply elem_of_list_singleton in Hin as ->. exact J2. }
        split; [auto|]. split.
        { intros X HX HnX. destruct (decide (s_mark s2 X = k)) as [H2|H2].
          - destruct (I4 X H2 HnX) as [Hl1 Hy]. split; [exact Hl1|]. auto.
          - destruct (F2 X HX H2) as [Hl1 Hy]. split; [|exact Hy].
            etransitivity; [exact Hl1|auto]. }
        split; [congruence|]. split; [congruence|]. split.
        { intros mp Hmp. rewrite F5; [auto|]. intros X HX HnX. apply Hmp.
          - etransitivity; [exact HX|auto].
          - intros Hk. apply HnX, I3. rewrite C2. unfold upd. case_decide; auto. }
        intros Z HZ. rewrite F6; [auto|]. intros HZ'. apply HZ. etransitivity; [exact HZ'|auto].
      - assert (Hcm : s_mark s1 cls = k) by (rewrite C2; apply upd_eq).
        exists s'. split; [exact Hok|]. split; [exact I1|]. split; [auto|].
        split.
        + intros X HX. apply I3. rewrite C2. unfold upd. case_decide; auto.
        + intros X HX HnX. destruct (decide (X = cls)) as [->|Hne].
          * split; [constructor|]. intros Y HY. auto.
          * apply I4; [exact HX|]. rewrite C2, upd_ne; auto.
        + exact I5.
        + exact I6.
        + exact I7.
        + exact I8.
    Qed.

    (* ---- the loop over the roots ---- *)

    Record roots_inv (pre : list nat) (s : slot_state) : Prop := {
      ri_lattice : lattice_inv (assigned s) s;
      ri_tree : forall r X, r ∈ pre -> tree_root r -> le X r -> tree_good s X;
      ri_marked : forall r X, r ∈ pre -> lattice_root r -> le X r -> s_mark s X = k;
      ri_closed : forall X Y, s_mark s X = k -> Y ∈ g_dd g X -> s_mark s Y = k;
      ri_under : forall X, s_mark s X = k -> exists r, lattice_root r /\ le X r;
      ri_used : forall X, s_used s X <> [] -> exists r, lattice_root r /\ le X r
    }.

    Context (Hckn : forall x, ck x <= n).

    Lemma assign_root_ok pre r s :
      r < n -> roots_inv pre s ->
      exists s', assign_root E g u k r s = Ok s' /\ roots_inv (pre ++ [r]) s'.
    Proof.
      intros Hr [RL RT RM RC RU RS]. unfold assign_root.
      destruct (g_db g r) as [|p l] eqn:Hdb.
      2: { exists s. split; [reflexivity|]. split; auto.
           - intros r' X [Hin|Hin]%elem_of_app Ht; [eauto|].
             apply elem_of_list_singleton in Hin as ->. destruct Ht as (_ & Ht & _). congruence.
           - intros r' X [Hin|Hin]%elem_of_app Ht; [eauto|].
             apply elem_of_list_singleton in Hin as ->. destruct Ht as (_ & Ht & _). congruence. }
      case_decide as Hmi.
      - (* lattice *)
        assert (Hlat : lattice_root r) by (split; [exact Hr|split; [exact Hdb|exact Hmi]]).
        destruct (lattice_visit (S n) r s) as (s' & Hok & L1 & L2 & [F1 F2 F3 F4 F5 F6]).
        { specialize (Hckn r). lia. }
        { exact Hr. }
        { exact RL. }
        exists s'. split; [exact Hok|].
        assert (Hcl : forall X Y, s_mark s' X = k -> Y ∈ g_dd g X -> s_mark s' Y = k).
        { intros X Y HX HY. destruct (decide (s_mark s X = k)) as [H|H].
          - apply F1. eauto.
          - destruct (F2 X HX H) as [_ H2]. auto. }
        split.
        + exact L1.
        + intros r' X [Hin|Hin]%elem_of_app Ht HX.
          * destruct (RT r' X Hin Ht HX) as (b & B1 & B2 & B3 & B4). exists b.
            split; [exact B1|]. rewrite F3, F4. split; [|auto].
            intros i mp Hi. rewrite F5; [auto|]. intros Y HY _ HmY.
            assert (Y = X) as ->.
            { apply (u_class mp); [exact HmY|]. eapply elem_of_list_lookup_2; eauto. }
            eapply tree_lattice_disjoint; eauto.
          * apply elem_of_list_singleton in Hin as ->. destruct Ht as (_ & _ & Ht). contradiction.
        + intros r' X [Hin|Hin]%elem_of_app Ht HX; [apply F1; eauto|].
          apply elem_of_list_singleton in Hin as ->.
          apply down_le in HX; [|exact Hr]. clear -HX Hcl L2. revert X HX.
          apply rtc_ind_r; [exact L2|]. intros y z _ Hyz IH. eapply Hcl; eauto.
        + exact Hcl.
        + intros X HX. destruct (decide (s_mark s X = k)) as [H|H]; [auto|].
          destruct (F2 X HX H) as [H2 _]. eauto.
        + intros X HX. destruct (decide (X ∈ g_td g r)) as [H|H].
          * exists r. split; [exact Hlat|]. apply td_le; assumption.
          * rewrite F6 in HX; [auto|]. intros HX'. apply H. apply td_le; assumption.
      - (* tree *)
        assert (Htree : tree_root r) by (split; [exact Hr|split; [exact Hdb|exact Hmi]]).
        destruct (tree_visit (S n) r 0 s) as (s' & Hok & T1 & T2 & T3 & T4 & T5 & T6 & T7).
        { specialize (Hckn r). lia. }
        { exact Hr. }
        { apply ta_root. exact Hdb. }
        { intros x Hx. eapply tree_single; eauto. }
        exists s'. split; [exact Hok|].
        assert (Hsame : forall mp, assigned s mp -> slot_of s' mp = slot_of s mp).
        { intros mp (X & HX & Hk). apply T7. intros Y HY HmY.
          assert (X = Y) as -> by (eapply u_class; eauto).
          destruct (RU Y Hk) as (r' & Hr' & HY'). eapply tree_lattice_disjoint; eauto. }
        assert (Hasg : forall mp, assigned s' mp -> assigned s mp).
        { intros mp (X & HX & Hk). rewrite T5 in Hk. exists X. auto. }
        split.
        + destruct RL as [L1 L2 L3]. split.
          * intros X mp Z Hu Ha. rewrite T3, Hsame by auto. eauto.
          * intros Htb X mp Z W Hu Ha. rewrite T4, Hsame by auto. eauto.
          * intros Htb X1 X2 mp1 mp2 Z Hne Ha1 Ha2. rewrite !Hsame by auto. eauto.
        + intros r' X [Hin|Hin]%elem_of_app Ht HX; [eauto|].
          apply elem_of_list_singleton in Hin as ->. auto.
        + intros r' X [Hin|Hin]%elem_of_app Ht HX; rewrite T5; [eauto|].
          apply elem_of_list_singleton in Hin as ->. destruct Ht as (_ & _ & Ht). contradiction.
        + rewrite T5. exact RC.
        + rewrite T5. exact RU.
        + rewrite T3. exact RS.
    Qed.
  End Fuel.

  (* ---- v-table allocation ---- *)

  Lemma allocate_ok (l : list nat) s :
    NoDup l ->
    let s' := foldl allocate_vtbl s l in
    s_slots s' = s_slots s /\ s_used s' = s_used s /\
    (forall X, s_used s X = [] -> s_first s' X = s_first s X /\ s_vtbl s' X = s_vtbl s X) /\
    (forall X, X ∈ l -> s_used s X <> [] ->
       s_first s' X = default 0 (find_first (s_used s X)) /\
       length (s_vtbl s' X) = length (s_used s X) - s_first s' X).
  Proof.
    intros Hnd. simpl. revert Hnd.
    induction l as [|c l IH] using rev_ind; intros Hnd.
    - simpl. split; [reflexivity|]. split; [reflexivity|]. split; [auto|].
      intros X HX. inversion HX.
    - apply NoDup_app in Hnd as (Hnd & Hd & _). destruct (IH Hnd) as (I1 & I2 & I3 & I4).
      rewrite foldl_app. simpl. set (s1 := foldl allocate_vtbl s l) in *.
      unfold allocate_vtbl. destruct (s_used s1 c) as [|b bs] eqn:Huc.
      + split; [exact I1|]. split; [exact I2|]. split; [exact I3|].
        intros X [HX|HX]%elem_of_app Hne; [auto|].
        apply elem_of_list_singleton in HX as ->. rewrite I2 in Huc. contradiction.
      + simpl s_slots. simpl s_used. simpl s_first. simpl s_vtbl.
        split; [exact I1|]. split; [exact I2|].
        assert (Hcu : s_used s c = b :: bs) by (rewrite <- I2; exact Huc).
        split.
        * intros X HX. assert (X <> c) by congruence. rewrite !upd_ne by assumption. auto.
        * intros X HX Hne. destruct (decide (X = c)) as [->|HXc].
          -- rewrite !upd_eq. rewrite resize_length, Hcu. auto.
          -- rewrite !upd_ne by assumption. apply I4; [|exact Hne].
             apply elem_of_app in HX as [HX|HX]; [exact HX|].
             apply elem_of_list_singleton in HX. contradiction.
  Qed.

  (* ---- result ---- *)

  Record slots_ok (s : slot_state) : Prop := {
    so_range : forall X mp Z, mp ∈ u X -> X < n -> le Z X ->
      s_first s Z <= slot_of s mp < s_first s Z + length (s_vtbl s Z);
    so_sep : tb_complete -> forall X1 X2 mp1 mp2 Z, mp1 <> mp2 -> mp1 ∈ u X1 -> mp2 ∈ u X2 ->
      X1 < n -> X2 < n -> le Z X1 -> le Z X2 -> slot_of s mp1 <> slot_of s mp2
  }.

  (* Two classes above a class of a tree are one above the other. *)
  Lemma tree_comparable r z x y :
    tree_root r -> le z r -> le z x -> le z y -> le x y \/ le y x.
  Proof.
    intros Hr Hzr Hzx. revert y. apply le_db in Hzx.
    induction Hzx as [z|z w x Hw Hwx IH]; intros y Hzy; [auto|].
    apply le_db in Hzy. inversion Hzy as [|? w' ? Hw' Hwy]; subst.
    - right. apply le_db. eapply rtc_l; eauto.
    - assert (w' = w) as ->.
      { pose proof (tree_single r z Hr Hzr) as Hs.
        destruct (g_db g z) as [|a [|b l]]; simpl in Hs; [inversion Hw| |lia].
        apply elem_of_list_singleton in Hw, Hw'. congruence. }
      apply IH; [|apply le_db; exact Hwy].
      eapply tree_chain; [exact Hr|exact Hzr|].
      apply tc_rtc, (go_db _ _ _ HG). exact Hw.
  Qed.

  (* Slots of a strict base come before. *)
  Lemma tree_at_le z x bz bx :
    tree_at z bz -> tree_at x bx -> le z x -> z <> x -> bx + length (u x) <= bz.
  Proof.
    intros Hz Hx Hle Hne. apply le_db in Hle. revert bz Hz.
    induction Hle as [z|z w x Hw Hwx IH]; intros bz Hz; [contradiction|].
    inversion Hz as [? Hr|? p b Hp Hta]; subst.
    - rewrite Hr in Hw. inversion Hw.
    - rewrite Hp in Hw. apply elem_of_list_singleton in Hw as ->.
      destruct (decide (p = x)) as [->|Hpx].
      + assert (b = bx) as -> by (eapply tree_at_fun; eauto). lia.
      + specialize (IH Hx Hpx b Hta). lia.
  Qed.

  Theorem assign_slots_ok : exists s, assign_slots E g u = Ok s /\ slots_ok s.
  Proof.
    destruct (go_rank _ _ _ HG) as (rk & Hrk & Hrkn).
    set (ck := fun c => n - rk c).
    assert (Hck : forall x y, y ∈ g_dd g x -> ck y < ck x).
    { intros x y Hy. apply (go_dd _ _ _ HG) in Hy as [_ Hy]. apply (go_db _ _ _ HG) in Hy.
      apply (tc_irel_rank _ _ _ rk Hrk) in Hy. specialize (Hrkn y). unfold ck. lia. }
    assert (Hckn : forall x, ck x <= n) by (intros x; unfold ck; lia).
    set (k := S (g_class_mark g)).
    unfold assign_slots. fold k.
    destruct (foldM_inv_prefix (fun pre s => roots_inv k pre s) (assign_root E g u k)
                (seq 0 n) (slot_state0 (g_mark g))) as (s1 & Hok & RI).
    - assert (Hmk : forall X, g_mark g X <> k).
      { intros X. pose proof (go_marks _ _ _ HG X). unfold k. lia. }
      split.
      + split.
        * intros X mp Z _ (Y & _ & Hk). exfalso. apply (Hmk Y Hk).
        * intros _ X mp Z W _ (Y & _ & Hk). exfalso. apply (Hmk Y Hk).
        * intros _ X1 X2 mp1 mp2 Z _ (Y & _ & Hk). exfalso. apply (Hmk Y Hk).
      + intros r X Hr. inversion Hr.
      + intros r X Hr. inversion Hr.
      + intros X Y Hk. exfalso. apply (Hmk X Hk).
      + intros X Hk. exfalso. apply (Hmk X Hk).
      + intros X Hne. simpl in Hne. contradiction.
    - intros l1 r l2 s Hl Hs. apply (assign_root_ok ck Hck k Hckn); [|exact Hs].
      assert (r ∈ seq 0 n) as H%elem_of_seq by (rewrite Hl, elem_of_app; right; left). lia.
    - rewrite Hok. cbn [obind]. eexists. split; [reflexivity|].
      pose proof (allocate_ok (seq 0 n) s1 (NoDup_seq 0 n)) as (A1 & A2 & A3 & A4).
      set (s2 := foldl allocate_vtbl s1 (seq 0 n)) in *.
      assert (Hslot : forall mp, slot_of s2 mp = slot_of s1 mp).
      { intros mp. unfold slot_of. rewrite A1. reflexivity. }
      destruct RI as [RL RT RM RC RU RS].
      (* each class is below a tree root or below a lattice root *)
      assert (Hcases : forall Z, Z < n ->
        (exists r, r ∈ seq 0 n /\ tree_root r /\ le Z r) \/
        (exists r, r ∈ seq 0 n /\ lattice_root r /\ le Z r)).
      { intros Z HZ. destruct (root_exists Z HZ) as (r & Hr & Hdb & HZr).
        assert (Hin : r ∈ seq 0 n) by (apply elem_of_seq; lia).
        destruct (decide (mi_below r)) as [Hmi|Hmi]; [right|left]; exists r;
          (split; [exact Hin|split; [|exact HZr]]); (split; [exact Hr|split; [exact Hdb|exact Hmi]]). }
      split.
      + intros X mp Z Hmp HX HZ. rewrite Hslot.
        assert (HZn : Z < n) by (eapply le_lt; eauto).
        destruct (Hcases Z HZn) as [(r & Hin & Hr & HZr)|(r & Hin & Hr & HZr)].
        * assert (Hu : s_used s1 Z = []).
          { destruct (s_used s1 Z) eqn:Hu; [reflexivity|].
            destruct (RS Z) as (r' & Hr' & HZr'); [rewrite Hu; discriminate|].
            exfalso. eapply tree_lattice_disjoint; eauto. }
          destruct (A3 Z Hu) as [-> ->].
          destruct (RT r Z Hin Hr HZr) as (bz & B1 & B2 & B3 & B4).
          assert (HXr : le X r) by (eapply tree_chain; eauto).
          destruct (RT r X Hin Hr HXr) as (bx & C1 & C2 & C3 & C4).
          apply elem_of_list_lookup in Hmp as [i Hi].
          rewrite (C2 i mp Hi), B3, B4. apply lookup_lt_Some in Hi.
          destruct (decide (Z = X)) as [->|Hne].
          -- assert (bz = bx) as -> by (eapply tree_at_fun; eauto). lia.
          -- pose proof (tree_at_le Z X bz bx B1 C1 HZ Hne). lia.
        * assert (HXr : exists r', r' ∈ seq 0 n /\ lattice_root r' /\ le X r').
          { destruct (Hcases X HX) as [(r' & Hin' & Hr' & HXr')|H]; [|exact H].
            exfalso. apply (tree_lattice_disjoint r' r Z Hr' Hr); [|exact HZr].
            transitivity X; assumption. }
          destruct HXr as (r' & Hin' & Hr' & HXr').
          assert (Hbit : bit (s_used s1 Z) (slot_of s1 mp) = true).
          { apply (li_used _ _ RL X mp Z Hmp); auto. exists X. split; [exact Hmp|]. eauto. }
          assert (Hne : s_used s1 Z <> []).
          { intros Hnil. rewrite Hnil in Hbit. discriminate. }
          destruct (A4 Z) as [Hf Hv]; [apply elem_of_seq; lia|exact Hne|].
          destruct (find_first_spec _ _ Hbit) as (f & Hff & Hfle).
          rewrite Hff in Hf. simpl in Hf. rewrite Hv, Hf.
          apply bit_lt in Hbit. lia.
      + intros Htb X1 X2 mp1 mp2 Z Hne Hmp1 Hmp2 HX1 HX2 HZ1 HZ2. rewrite !Hslot.
        assert (HZn : Z < n) by (eapply le_lt; eauto).
        destruct (Hcases Z HZn) as [(r & Hin & Hr & HZr)|(r & Hin & Hr & HZr)].
        * assert (H1 : le X1 r) by (apply (tree_chain r Z X1); assumption).
          assert (H2 : le X2 r) by (apply (tree_chain r Z X2); assumption).
          destruct (RT r X1 Hin Hr H1) as (b1 & B1 & B2 & _).
          destruct (RT r X2 Hin Hr H2) as (b2 & C1 & C2 & _).
          apply elem_of_list_lookup in Hmp1 as [i Hi], Hmp2 as [j Hj].
          rewrite (B2 i mp1 Hi), (C2 j mp2 Hj).
          pose proof (lookup_lt_Some _ _ _ Hi). pose proof (lookup_lt_Some _ _ _ Hj).
          destruct (decide (X1 = X2)) as [->|HX].
          -- assert (b1 = b2) as -> by (eapply tree_at_fun; eauto).
             assert (i <> j) by congruence. lia.
          -- destruct (tree_comparable r Z X1 X2 Hr HZr HZ1 HZ2) as [H12|H12].
             ++ pose proof (tree_at_le X1 X2 b1 b2 B1 C1 H12 HX). lia.
             ++ pose proof (tree_at_le X2 X1 b2 b1 C1 B1 H12 ltac:(congruence)). lia.
        * assert (Hasg : forall X mp, mp ∈ u X -> X < n -> le Z X -> assigned k s1 mp).
          { intros X mp Hmp HX HZ. exists X. split; [exact Hmp|].
            destruct (Hcases X HX) as [(r' & Hin' & Hr' & HXr')|(r' & Hin' & Hr' & HXr')].
            - exfalso. apply (tree_lattice_disjoint r' r Z Hr' Hr); [|exact HZr].
              transitivity X; assumption.
            - eauto. }
          eapply (li_sep _ _ RL Htb X1 X2 mp1 mp2 Z); eauto.
  Qed.
End Slots.
