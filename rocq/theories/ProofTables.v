(* build_dispatch_tables: proofs about ModelTables.v. *)
From stdpp Require Import base list numbers list_numbers relations sorting.
From Verif Require Import Base Registry Spec ModelClasses ModelMethods ModelSlots ModelTables
  ProofBase ProofClasses ProofGraph ProofMethods ProofBits ProofSlots ProofSelect.

(* ---- the order of the keys of group_map ---- *)

Lemma msb_lt_irrefl a : msb_lt a a = false.
Proof. induction a as [|x a IH]; simpl; [reflexivity|]. rewrite eqb_reflx. exact IH. Qed.

Lemma msb_lt_trans a b c : msb_lt a b = true -> msb_lt b c = true -> msb_lt a c = true.
Proof.
  revert b c. induction a as [|x a IH]; intros [|y b] [|z c]; simpl; try discriminate.
  destruct x, y, z; simpl; try discriminate; eauto.
Qed.

Lemma msb_lt_total a b : length a = length b -> a <> b -> msb_lt a b = true \/ msb_lt b a = true.
Proof.
  revert b. induction a as [|x a IH]; intros [|y b]; simpl; intros Hl Hne;
    try discriminate; [contradiction|].
  destruct x, y; simpl; auto; apply IH; try lia; congruence.
Qed.

Lemma bitset_lt_total a b :
  length a = length b -> a <> b -> bitset_lt a b = true \/ bitset_lt b a = true.
Proof.
  intros Hl Hne. apply msb_lt_total; [rewrite !rev_length; exact Hl|].
  intros H. apply Hne. rewrite <- (rev_involutive a), H. apply rev_involutive.
Qed.

Notation keys gm := (map fst (gm : group_map)).
Notation blt := (fun a b : list bool => bitset_lt a b = true).

Lemma blt_not_in mask l : StronglySorted blt (mask :: l) -> mask ∉ l.
Proof.
  intros [_ H]%StronglySorted_inv Hin.
  assert (bitset_lt mask mask = true) as Hlt.
  { rewrite Forall_forall in H. apply H. exact Hin. }
  unfold bitset_lt in Hlt. rewrite msb_lt_irrefl in Hlt. discriminate.
Qed.

Lemma blt_nodup l : StronglySorted blt l -> NoDup l.
Proof.
  induction l as [|a l IH]; intros H; constructor.
  - apply blt_not_in. exact H.
  - apply IH. apply StronglySorted_inv in H. tauto.
Qed.

Lemma keys_elem (gm : group_map) k : k ∈ keys gm <-> exists gp, (k, gp) ∈ gm.
Proof.
  rewrite elem_of_list_fmap. split.
  - intros ([k' gp] & -> & H). eauto.
  - intros (gp & H). exists (k, gp). auto.
Qed.

Lemma group_insert_spec mask c ab (gm : group_map) :
  StronglySorted blt (keys gm) -> (forall k, k ∈ keys gm -> length k = length mask) ->
  StronglySorted blt (keys (group_insert mask c ab gm)) /\
  (forall k gp, (k, gp) ∈ group_insert mask c ab gm <->
     (k <> mask /\ (k, gp) ∈ gm) \/
     (k = mask /\ ((exists gp0, (mask, gp0) ∈ gm /\ gp = group_add c ab gp0) \/
                   (mask ∉ keys gm /\ gp = group_add c ab (Group [] false))))).
Proof.
  induction gm as [|[k0 gp0] gm IH]; intros Hs Hlen.
  - simpl. split; [repeat constructor|]. intros k gp. rewrite elem_of_list_singleton. split.
    + intros [= -> ->]. right. split; [reflexivity|]. right. split; [|reflexivity].
      apply not_elem_of_nil.
    + intros [[_ H]|[-> [(gp0 & H & _)|[_ ->]]]]; [inversion H|inversion H|reflexivity].
  - pose proof (blt_not_in k0 (keys gm) Hs) as Hk0.
    apply StronglySorted_inv in Hs as [Hs Hall]. cbn [group_insert].
    destruct (decide (mask = k0)) as [<-|Hne].
    + split; [constructor; assumption|]. intros k gp. rewrite !elem_of_cons. split.
      * intros [[= -> ->]|H].
        -- right. split; [reflexivity|]. left. exists gp0. split; [left|]; reflexivity.
        -- left. split; [|auto]. intros ->. apply Hk0. apply keys_elem. eauto.
      * intros [[Hne [[= -> ->]|H]]|[-> [(gp1 & H & ->)|[Hn _]]]].
        -- contradiction.
        -- auto.
        -- left. rewrite elem_of_cons in H. destruct H as [[= ->]|H]; [reflexivity|].
           exfalso. apply Hk0, keys_elem. eauto.
        -- exfalso. apply Hn. left.
    + assert (Hl0 : length k0 = length mask) by (apply Hlen; left).
      destruct (bitset_lt mask k0) eqn:Hlt.
      * assert (Hs' : StronglySorted blt (mask :: k0 :: keys gm)).
        { constructor; [constructor; assumption|]. constructor; [exact Hlt|].
          eapply List.Forall_impl; [|exact Hall]. intros k Hk. eapply msb_lt_trans; eauto. }
        split; [exact Hs'|]. pose proof (blt_not_in _ _ Hs') as Hnm.
        intros k gp. rewrite !elem_of_cons. split.
        -- intros [[= -> ->]|H].
           ++ right. split; [reflexivity|]. right. split; [exact Hnm|reflexivity].
           ++ left. split; [|exact H]. intros ->.
              apply Hnm. change (mask ∈ keys ((k0, gp0) :: gm)). apply keys_elem. exists gp.
              rewrite elem_of_cons. exact H.
        -- intros [[_ H]|[-> [(gp1 & H & _)|[_ ->]]]]; auto.
           exfalso. apply Hnm. change (mask ∈ keys ((k0, gp0) :: gm)). apply keys_elem. eauto.
      * assert (Hgt : bitset_lt k0 mask = true).
        { destruct (bitset_lt_total mask k0) as [H|H]; congruence. }
        destruct IH as [I1 I2]; [exact Hs|intros k Hk; apply Hlen; right; exact Hk|].
        split.
        -- cbn [map fst]. constructor; [exact I1|].
           apply Forall_forall. intros k Hk. apply keys_elem in Hk as (gp & Hk).
           apply I2 in Hk as [[_ Hk]|[-> _]]; [|exact Hgt].
           rewrite Forall_forall in Hall. apply Hall. apply keys_elem. eauto.
        -- intros k gp. rewrite !elem_of_cons, I2. split.
           ++ intros [[= -> ->]|[[Hk H]|[-> H]]].
              ** left. split; [congruence|auto].
              ** left. auto.
              ** right. split; [reflexivity|]. destruct H as [(gp1 & H & ->)|[H ->]].
                 --- left. exists gp1. split; [right; exact H|reflexivity].
                 --- right. split; [|reflexivity]. rewrite keys_elem in *.
                     intros (gp1 & [[= Heq _]|H1]%elem_of_cons); [congruence|]. apply H. eauto.
           ++ intros [[Hk [[= -> ->]|H]]|[-> H]]; [auto|auto|].
              right. right. split; [reflexivity|]. destruct H as [(gp1 & H & ->)|[H ->]].
              ** left. exists gp1. split; [|reflexivity].
                 apply elem_of_cons in H as [[= Heq _]|H]; [congruence|exact H].
              ** right. split; [|reflexivity]. intros Hin. apply H. right. exact Hin.
Qed.

Section Groups.
  Context (E : env) (g : graph) (HE : env_ok E).

  (* The overriders whose class in position [dim] is a base of [c]. *)
  Definition mask_at (m : cmethod) (dim c : nat) : bitset :=
    map (fun o => match ov_vp o !! dim with Some v => is_base_of g v c | None => false end)
      (m_ovs m).

  Lemma class_mask_ok m dim c :
    (forall o, o ∈ m_ovs m -> dim < length (ov_vp o)) -> class_mask g m dim c = Ok (mask_at m dim c).
  Proof.
    intros H. apply mapM_total. intros o Ho. apply H in Ho.
    apply lookup_lt_is_Some in Ho as [v Hv]. rewrite Hv.
    apply obind_ok. exists v. split; [apply at_ok; exact Hv|reflexivity].
  Qed.

  Lemma mask_at_length m dim c : length (mask_at m dim c) = length (m_ovs m).
  Proof. apply map_length. Qed.

  Record groups_ok (m : cmethod) (dim vp : nat) (gm : group_map) : Prop := {
    gr_nodup : NoDup (keys gm);
    gr_classes : forall k gp, (k, gp) ∈ gm -> gp_classes gp <> [] /\
      forall c, c ∈ gp_classes gp <-> c ∈ g_td g vp /\ mask_at m dim c = k;
    gr_mask : forall c, c ∈ g_td g vp -> mask_at m dim c ∈ keys gm
  }.

  Lemma dim_groups_ok m dim vp :
    (forall o, o ∈ m_ovs m -> dim < length (ov_vp o)) ->
    exists gm, dim_groups E g m dim vp = Ok gm /\ groups_ok m dim vp gm.
  Proof.
    intros Hdim. unfold dim_groups.
    destruct (foldM_inv_prefix (fun pre gm =>
        StronglySorted blt (keys gm) /\
        (forall k, k ∈ keys gm -> length k = length (m_ovs m)) /\
        (forall k gp, (k, gp) ∈ gm -> gp_classes gp <> [] /\
           forall c, c ∈ gp_classes gp <-> c ∈ pre /\ mask_at m dim c = k) /\
        (forall c, c ∈ pre -> mask_at m dim c ∈ keys gm))
      (fun c gm => let* mask := class_mask g m dim c in
         Ok (group_insert mask c (ce_abstract_at g c) gm))
      (e_iter E vp (g_td g vp)) []) as (gm & Hok & I1 & I2 & I3 & I4).
    - split; [constructor|]. split; [intros k H; inversion H|].
      split; [intros k gp H; inversion H|intros c H; inversion H].
    - intros l1 c l2 gm Hl (I1 & I2 & I3 & I4).
      rewrite class_mask_ok by exact Hdim. cbn [obind]. eexists. split; [reflexivity|].
      set (mask := mask_at m dim c). set (ab := ce_abstract_at g c).
      destruct (group_insert_spec mask c ab gm I1) as [S1 S2].
      { intros k Hk. rewrite (I2 k Hk). symmetry. apply mask_at_length. }
      assert (Hk : forall k, k ∈ keys (group_insert mask c ab gm) <-> k = mask \/ k ∈ keys gm).
      { intros k. rewrite !keys_elem. split.
        - intros (gp & Hin). apply S2 in Hin as [[_ Hin]|[-> _]]; eauto.
        - intros H. destruct (decide (k = mask)) as [->|Hne].
          + destruct (decide (mask ∈ keys gm)) as [Hin|Hin].
            * apply keys_elem in Hin as (gp & Hin). exists (group_add c ab gp). apply S2.
              right. split; [reflexivity|]. left. eauto.
            * exists (group_add c ab (Group [] false)). apply S2.
              right. split; [reflexivity|]. right. auto.
          + destruct H as [?|(gp & Hin)]; [contradiction|]. exists gp. apply S2. left. auto. }
      split; [exact S1|]. split.
      { intros k [->|Hin]%Hk; [apply mask_at_length|auto]. }
      split.
      { intros k gp Hin. apply S2 in Hin as [[Hne Hin]|[-> [(gp0 & Hin & ->)|[Hn ->]]]].
        - destruct (I3 k gp Hin) as [J1 J2]. split; [exact J1|]. intros x. rewrite J2.
          rewrite elem_of_app, elem_of_list_singleton. split; [tauto|].
          intros [[?| ->] Hx]; [auto|]. exfalso. apply Hne. symmetry. exact Hx.
        - destruct (I3 mask gp0 Hin) as [J1 J2]. cbn [gp_classes group_add].
          split; [intros H; apply app_eq_nil in H as [_ H]; discriminate|].
          intros x. rewrite !elem_of_app, !elem_of_list_singleton, J2. split.
          + intros [[? ?]| ->]; auto.
          + intros [[?| ->] ?]; auto.
        - cbn [gp_classes group_add]. split; [discriminate|].
          intros x. rewrite app_nil_l, elem_of_app, !elem_of_list_singleton. split.
          + intros ->. auto.
          + intros [[Hx| ->] Hm]; [|reflexivity]. exfalso. apply Hn. rewrite <- Hm. auto. }
      intros x [Hx| ->%elem_of_list_singleton]%elem_of_app; apply Hk; auto.
    - exists gm. split; [exact Hok|].
      assert (Hiter : forall c, c ∈ e_iter E vp (g_td g vp) <-> c ∈ g_td g vp).
      { intros c. rewrite (proj1 HE vp (g_td g vp)). reflexivity. }
      split.
      + apply blt_nodup. exact I1.
      + intros k gp Hin. destruct (I3 k gp Hin) as [J1 J2]. split; [exact J1|].
        intros c. rewrite J2, Hiter. reflexivity.
      + intros c Hc. apply I4, Hiter. exact Hc.
  Qed.

  Lemma groups_of m dim vp gm c :
    groups_ok m dim vp gm -> c ∈ g_td g vp ->
    exists gi gp, gm !! gi = Some (mask_at m dim c, gp) /\ c ∈ gp_classes gp.
  Proof.
    intros [G1 G2 G3] Hc. pose proof (G3 c Hc) as Hk. apply keys_elem in Hk as (gp & Hin).
    pose proof Hin as Hin'. apply elem_of_list_lookup in Hin' as (gi & Hgi).
    exists gi, gp. split; [exact Hgi|]. apply (G2 _ _ Hin). split; [exact Hc|reflexivity].
  Qed.

  Lemma groups_unique m dim vp gm gi gi' k k' gp gp' c :
    groups_ok m dim vp gm -> gm !! gi = Some (k, gp) -> gm !! gi' = Some (k', gp') ->
    c ∈ gp_classes gp -> c ∈ gp_classes gp' -> gi = gi'.
  Proof.
    intros [G1 G2 G3] H1 H2 Hc1 Hc2.
    apply (G2 k gp) in Hc1 as [_ <-]; [|eapply elem_of_list_lookup_2; eauto].
    apply (G2 k' gp') in Hc2 as [_ <-]; [|eapply elem_of_list_lookup_2; eauto].
    assert (Hk : forall i k gp, gm !! i = Some (k, gp) -> keys gm !! i = Some k).
    { intros i k gp0 Hi. change (map fst gm) with (fst <$> gm).
      rewrite list_lookup_fmap, Hi. reflexivity. }
    eapply NoDup_lookup; [exact G1|eapply Hk; exact H1|].
    eapply Hk. exact H2.
  Qed.

  (* ---- the cells ---- *)

  Fixpoint tbl_size (gs : list group_map) : nat :=
    match gs with [] => 1 | gm :: gs => length gm * tbl_size gs end.

  Fixpoint tbl_index (gs : list group_map) (is : list nat) : nat :=
    match gs, is with
    | gm :: gs, i :: is => i * tbl_size gs + tbl_index gs is
    | _, _ => 0
    end.

  (* Indices and keys of a tuple of groups. *)
  Definition tuple (gs : list group_map) (is : list nat) (ks : list bitset) : Prop :=
    length is = length gs /\ length ks = length gs /\
    forall d gm, gs !! d = Some gm -> exists i k gp,
      is !! d = Some i /\ ks !! d = Some k /\ gm !! i = Some (k, gp).

  Definition and_masks (mask : bitset) (ks : list bitset) : bitset :=
    foldl (zip_with andb) mask ks.

  Lemma tuple_cons gm gs i is k ks :
    tuple (gm :: gs) (i :: is) (k :: ks) <->
    (exists gp, gm !! i = Some (k, gp)) /\ tuple gs is ks.
  Proof.
    unfold tuple. simpl. split.
    - intros (H1 & H2 & H). split.
      + destruct (H 0 gm eq_refl) as (i' & k' & gp & [= ->] & [= ->] & Hg). eauto.
      + split; [lia|]. split; [lia|]. intros d gm' Hd. apply (H (S d) gm' Hd).
    - intros ((gp & Hg) & H1 & H2 & H). split; [lia|]. split; [lia|].
      intros [|d] gm' Hd; simpl in *; [|auto]. injection Hd as <-. exists i, k, gp. auto.
  Qed.

  Lemma tuple_nil is ks : tuple [] is ks -> is = [] /\ ks = [].
  Proof. intros (H1 & H2 & _). apply nil_length_inv in H1, H2. auto. Qed.

  Lemma tuple_cons_inv gm gs is ks :
    tuple (gm :: gs) is ks -> exists i is' k ks', is = i :: is' /\ ks = k :: ks' /\
      (exists gp, gm !! i = Some (k, gp)) /\ tuple gs is' ks'.
  Proof.
    intros H. pose proof H as (H1 & H2 & _).
    destruct is as [|i is], ks as [|k ks]; try discriminate.
    apply tuple_cons in H. eexists _, _, _, _. eauto.
  Qed.

  Lemma tbl_index_lt gs is ks : tuple gs is ks -> tbl_index gs is < tbl_size gs.
  Proof.
    revert is ks. induction gs as [|gm gs IH]; intros is ks H; [simpl; lia|].
    apply tuple_cons_inv in H as (i & is' & k & ks' & -> & -> & (gp & Hg) & H).
    apply IH in H. apply lookup_lt_Some in Hg. simpl. nia.
  Qed.

  Lemma tbl_index_surj gs j :
    j < tbl_size gs -> exists is ks, tuple gs is ks /\ tbl_index gs is = j.
  Proof.
    revert j. induction gs as [|gm gs IH]; intros j Hj; simpl in *.
    - exists [], []. split; [|lia]. split; [reflexivity|]. split; [reflexivity|].
      intros d gm Hd. rewrite lookup_nil in Hd. discriminate.
    - assert (Hs : tbl_size gs <> 0) by nia.
      destruct (IH (j mod tbl_size gs)) as (is & ks & Ht & Hi).
      { apply Nat.mod_upper_bound. exact Hs. }
      assert (Hq : j / tbl_size gs < length gm).
      { apply Nat.div_lt_upper_bound; [exact Hs|]. lia. }
      apply lookup_lt_is_Some in Hq as [[k gp] Hg].
      exists (j / tbl_size gs :: is), (k :: ks). split.
      + apply tuple_cons. eauto.
      + simpl. rewrite Hi. rewrite (Nat.div_mod j (tbl_size gs)) at 3 by exact Hs. lia.
  Qed.

  Definition build_rest (n2216 : bool) (m : cmethod) (rest : list group_map) (mask : bitset) :
      outcome (list cell) :=
    match rest with
    | [] => let* c := build_cell g n2216 m mask in Ok [c]
    | _ :: _ => build_dispatch_table g n2216 m rest mask
    end.

  Lemma build_cons n2216 m gm rest mask :
    build_dispatch_table g n2216 m (gm :: rest) mask =
    foldM (fun (kg : bitset * group) cells =>
        let* cs := build_rest n2216 m rest (zip_with andb mask (fst kg)) in Ok (cells ++ cs))
      gm [].
  Proof.
    cbn [build_dispatch_table]. apply foldM_ext. intros [k gp] cells _.
    destruct rest; cbn [build_rest]; [|reflexivity].
    rewrite obind_assoc. reflexivity.
  Qed.

  Lemma build_rest_ok n2216 m gs mask cells :
    build_rest n2216 m gs mask = Ok cells ->
    length cells = tbl_size gs /\
    forall is ks, tuple gs is ks -> exists c,
      cells !! tbl_index gs is = Some c /\ build_cell g n2216 m (and_masks mask ks) = Ok c.
  Proof.
    revert mask cells. induction gs as [|gm gs IH]; intros mask cells Hb.
    - cbn [build_rest] in Hb. apply obind_ok in Hb as (c & Hc & [= <-]).
      split; [reflexivity|]. intros is ks H. apply tuple_nil in H as [-> ->].
      exists c. split; [reflexivity|exact Hc].
    - cbn [build_rest] in Hb. rewrite build_cons in Hb.
      pose proof (foldM_inv_prefix_ok
        (fun pre cells => length cells = length pre * tbl_size gs /\
          forall i k gp is ks, pre !! i = Some (k, gp) -> tuple gs is ks -> exists c,
            cells !! (i * tbl_size gs + tbl_index gs is) = Some c /\
            build_cell g n2216 m (and_masks (zip_with andb mask k) ks) = Ok c)
        _ _ _ _ Hb) as [H1 H2].
      + split; [reflexivity|]. intros i k gp is ks Hi. rewrite lookup_nil in Hi. discriminate.
      + intros l1 [k0 gp0] l2 cs cs' Hl [I1 I2] Hstep.
        apply obind_ok in Hstep as (r & Hr & [= <-]). simpl in Hr.
        destruct (IH _ _ Hr) as [R1 R2]. split.
        { rewrite !app_length, I1, R1. simpl. lia. }
        intros i k gp is ks Hi Ht. pose proof (tbl_index_lt _ _ _ Ht) as Hlt.
        apply lookup_app_Some in Hi as [Hi|[Hge Hi]].
        * destruct (I2 i k gp is ks Hi Ht) as (c & Hc & Hbc). exists c. split; [|exact Hbc].
          rewrite lookup_app_l; [exact Hc|]. apply lookup_lt_Some in Hc. exact Hc.
        * destruct (i - length l1) as [|j] eqn:Hj; [|destruct j; discriminate].
          injection Hi as <- <-. assert (i = length l1) as -> by lia.
          destruct (R2 is ks Ht) as (c & Hc & Hbc). exists c. split; [|exact Hbc].
          rewrite lookup_app_r by lia. rewrite I1.
          replace (length l1 * tbl_size gs + tbl_index gs is - length l1 * tbl_size gs)
            with (tbl_index gs is) by lia. exact Hc.
      + split; [exact H1|]. intros is ks Ht.
        apply tuple_cons_inv in Ht as (i & is' & k & ks' & -> & -> & (gp & Hg) & Ht).
        apply (H2 i k gp is' ks' Hg Ht).
  Qed.

  Lemma build_table_ok n2216 m gs mask cells :
    build_dispatch_table g n2216 m gs mask = Ok cells ->
    length cells = tbl_size gs /\
    forall is ks, tuple gs is ks -> exists c,
      cells !! tbl_index gs is = Some c /\ build_cell g n2216 m (and_masks mask ks) = Ok c.
  Proof.
    destruct gs as [|gm gs]; [discriminate|]. intros H. apply build_rest_ok. exact H.
  Qed.

  Lemma build_rest_total n2216 m gs mask :
    (forall mask, exists c, build_cell g n2216 m mask = Ok c) ->
    exists cells, build_rest n2216 m gs mask = Ok cells.
  Proof.
    intros Hc. revert mask. induction gs as [|gm gs IH]; intros mask.
    - cbn [build_rest]. destruct (Hc mask) as [c ->]. cbn. eauto.
    - cbn [build_rest]. rewrite build_cons.
      destruct (foldM_inv (fun _ : list cell => True)
        (fun (kg : bitset * group) cells =>
          let* cs := build_rest n2216 m gs (zip_with andb mask (fst kg)) in Ok (cells ++ cs))
        gm []) as (cells & Hok & _); [exact I| |eauto].
      intros [k gp] cells _ _. simpl. destruct (IH (zip_with andb mask k)) as [r ->].
      cbn. eauto.
  Qed.

  Lemma build_table_total n2216 m gs mask :
    gs <> [] -> (forall mask, exists c, build_cell g n2216 m mask = Ok c) ->
    exists cells, build_dispatch_table g n2216 m gs mask = Ok cells.
  Proof.
    intros Hne Hc. destruct gs as [|gm gs]; [contradiction|].
    apply (build_rest_total n2216 m (gm :: gs) mask Hc).
  Qed.

  (* ---- v-table entries ---- *)

  Notation quad := (nat * nat * nat * nat)%type.  (* method, parameter, group, class *)
  Definition q_entry (q : quad) : vtbl_entry := let '(mi, dim, gi, _) := q in VtblEntry mi dim gi.
  Definition q_class (q : quad) : nat := let '(_, _, _, c) := q in c.
  Definition q_slot (s : slot_state) (q : quad) : nat :=
    let '(mi, dim, _, _) := q in s_slots s mi dim.
  Definition set_q (s : slot_state) (q : quad) (vt : vtbl_map) : outcome vtbl_map :=
    let '(mi, dim, gi, c) := q in set_entry s mi dim gi c vt.

  Lemma set_q_ok s q vt vt' :
    set_q s q vt = Ok vt' <->
    s_first s (q_class q) <= q_slot s q /\
    q_slot s q - s_first s (q_class q) < length (vt (q_class q)) /\
    vt' = upd vt (q_class q) (<[q_slot s q - s_first s (q_class q) := q_entry q]> (vt (q_class q))).
  Proof.
    destruct q as [[[mi dim] gi] c]. unfold set_q, set_entry, q_slot, q_class, q_entry.
    repeat case_decide; split; try discriminate; try (intros (? & ? & ?); lia).
    - intros [= <-]. split; [lia|]. split; [assumption|reflexivity].
    - intros (_ & _ & ->). reflexivity.
  Qed.

  Lemma writes_ok s W vt vt' :
    foldM (set_q s) W vt = Ok vt' ->
    (forall c, length (vt' c) = length (vt c)) /\
    (forall q, q ∈ W -> s_first s (q_class q) <= q_slot s q /\
       q_slot s q - s_first s (q_class q) < length (vt (q_class q))) /\
    (forall c j e, vt' c !! j = Some e -> vt c !! j = Some e \/
       exists q, q ∈ W /\ q_class q = c /\ q_entry q = e) /\
    (forall q, q ∈ W ->
       (forall q', q' ∈ W -> q_class q' = q_class q -> q_slot s q' = q_slot s q ->
          q_entry q' = q_entry q) ->
       vt' (q_class q) !! (q_slot s q - s_first s (q_class q)) = Some (q_entry q)).
  Proof.
    intros Hf. apply (foldM_inv_prefix_ok (fun W vt' =>
      (forall c, length (vt' c) = length (vt c)) /\
      (forall q, q ∈ W -> s_first s (q_class q) <= q_slot s q /\
         q_slot s q - s_first s (q_class q) < length (vt (q_class q))) /\
      (forall c j e, vt' c !! j = Some e -> vt c !! j = Some e \/
         exists q, q ∈ W /\ q_class q = c /\ q_entry q = e) /\
      (forall q, q ∈ W ->
         (forall q', q' ∈ W -> q_class q' = q_class q -> q_slot s q' = q_slot s q ->
            q_entry q' = q_entry q) ->
         vt' (q_class q) !! (q_slot s q - s_first s (q_class q)) = Some (q_entry q)))
      _ _ _ _ Hf).
    - split; [reflexivity|]. split; [intros q H; inversion H|]. split; [auto|].
      intros q H; inversion H.
    - intros l1 q0 l2 v1 v2 Hl (I1 & I2 & I3 & I4) Hq.
      apply set_q_ok in Hq as (Q1 & Q2 & ->). rewrite I1 in Q2.
      split.
      { intros c. destruct (decide (c = q_class q0)) as [->|Hne].
        - rewrite upd_eq, insert_length. apply I1.
        - rewrite upd_ne by exact Hne. apply I1. }
      split.
      { intros q [Hq| ->%elem_of_list_singleton]%elem_of_app; auto. }
      split.
      { intros c j e He. destruct (decide (c = q_class q0)) as [->|Hne].
        - rewrite upd_eq in He. apply list_lookup_insert_Some in He as [(<- & <- & _)|[_ He]].
          + right. exists q0. split; [apply elem_of_app; right; left|auto].
          + destruct (I3 _ _ _ He) as [?|(q & Hq & H)]; [auto|].
            right. exists q. split; [apply elem_of_app; auto|exact H].
        - rewrite upd_ne in He by exact Hne.
          destruct (I3 _ _ _ He) as [?|(q & Hq & H)]; [auto|].
          right. exists q. split; [apply elem_of_app; auto|exact H]. }
      intros q Hq Hun.
      assert (Hc0 : q_class q0 = q_class q -> q_slot s q0 = q_slot s q -> q_entry q0 = q_entry q).
      { apply Hun. apply elem_of_app. right. left. }
      destruct (decide (q_class q = q_class q0)) as [Hcc|Hcc].
      + rewrite Hcc, upd_eq.
        destruct (decide (q_slot s q = q_slot s q0)) as [Hss|Hss].
        * rewrite Hss. rewrite list_lookup_insert; [rewrite Hc0; auto|].
          rewrite I1. exact Q2.
        * apply elem_of_app in Hq as [Hq| ->%elem_of_list_singleton]; [|contradiction].
          destruct (I2 q Hq) as [Hr1 Hr2].
          rewrite list_lookup_insert_ne; [|rewrite <- Hcc in *; lia].
          rewrite <- Hcc. apply I4; [exact Hq|].
          intros q' Hq'. apply Hun. apply elem_of_app. auto.
      + rewrite upd_ne by exact Hcc.
        apply elem_of_app in Hq as [Hq| ->%elem_of_list_singleton]; [|contradiction].
        apply I4; [exact Hq|]. intros q' Hq'. apply Hun. apply elem_of_app. auto.
  Qed.

  Lemma writes_total s W vt :
    (forall q, q ∈ W -> s_first s (q_class q) <= q_slot s q /\
       q_slot s q - s_first s (q_class q) < length (vt (q_class q))) ->
    exists vt', foldM (set_q s) W vt = Ok vt'.
  Proof.
    intros H.
    destruct (foldM_inv (fun vt' : vtbl_map => forall c, length (vt' c) = length (vt c))
      (set_q s) W vt) as (vt' & Hok & _); [reflexivity| |eauto].
    intros q vt1 Hq H1. destruct (H q Hq) as [Q1 Q2].
    eexists. split; [apply set_q_ok; rewrite H1; eauto|].
    intros c. destruct (decide (c = q_class q)) as [->|Hne].
    - rewrite upd_eq, insert_length. apply H1.
    - rewrite upd_ne by exact Hne. apply H1.
  Qed.

  (* The writes of one method. *)
  Definition group_writes (mi dim : nat) (ig : nat * (bitset * group)) : list quad :=
    map (fun c => (mi, dim, fst ig, c)) (gp_classes (snd (snd ig))).
  Definition dim_writes (mi : nat) (dg : nat * group_map) : list quad :=
    flat_map (group_writes mi (fst dg)) (imap pair (snd dg)).
  Definition method_writes (mi : nat) (gs : list group_map) : list quad :=
    flat_map (dim_writes mi) (imap pair gs).

  Lemma set_method_writes s mi gs vt :
    foldM (set_dim s mi) (imap pair gs) vt = foldM (set_q s) (method_writes mi gs) vt.
  Proof.
    unfold method_writes. rewrite foldM_flat_map. apply foldM_ext. intros dg vt1 _.
    unfold set_dim, dim_writes. rewrite foldM_flat_map. apply foldM_ext. intros ig vt2 _.
    unfold set_group, group_writes. rewrite foldM_map. reflexivity.
  Qed.

  Lemma elem_of_imap_pair {A} (l : list A) i x : (i, x) ∈ imap pair l <-> l !! i = Some x.
  Proof.
    rewrite elem_of_lookup_imap. split.
    - intros (j & y & [= -> ->] & H). exact H.
    - intros H. exists i, x. auto.
  Qed.

  Lemma method_writes_elem mi gs q :
    q ∈ method_writes mi gs <->
    exists dim gm gi k gp c, q = (mi, dim, gi, c) /\ gs !! dim = Some gm /\
      gm !! gi = Some (k, gp) /\ c ∈ gp_classes gp.
  Proof.
    unfold method_writes. rewrite elem_of_list_In, in_flat_map. split.
    - intros ([dim gm] & H1 & H2). apply elem_of_list_In, elem_of_imap_pair in H1.
      unfold dim_writes in H2. apply in_flat_map in H2 as ([gi [k gp]] & H2 & H3).
      apply elem_of_list_In, elem_of_imap_pair in H2.
      unfold group_writes in H3. apply in_map_iff in H3 as (c & <- & Hc).
      apply elem_of_list_In in Hc. eauto 12.
    - intros (dim & gm & gi & k & gp & c & -> & H1 & H2 & Hc). exists (dim, gm).
      split; [apply elem_of_list_In, elem_of_imap_pair; exact H1|].
      apply in_flat_map. exists (gi, (k, gp)).
      split; [apply elem_of_list_In, elem_of_imap_pair; exact H2|].
      apply in_map_iff. exists c. split; [reflexivity|]. apply elem_of_list_In. exact Hc.
  Qed.

  (* What is known of the table of a method. *)
  Record table_ok (n2216 : bool) (m : cmethod) (gs : list group_map) (t : table) : Prop := {
    to_groups : mapM (fun dv => dim_groups E g m (fst dv) (snd dv)) (imap pair (m_vp m)) = Ok gs;
    to_strides : t_strides t = strides (map length gs);
    to_cells : build_dispatch_table g n2216 m (rev gs) (repeat true (length (m_ovs m)))
      = Ok (t_cells t);
    to_report : t_report t = Report
      (if decide (1 < length (m_vp m)) then foldl Nat.mul 1 (map length gs) else 0)
      (count_cells is_not_implemented (t_cells t)) (count_cells cl_ambiguous (t_cells t))
  }.

  Definition all_writes (gss : list (list group_map)) : list quad :=
    flat_map (fun ig => method_writes (fst ig) (snd ig)) (imap pair gss).

  Lemma all_writes_snoc gss gs :
    all_writes (gss ++ [gs]) = all_writes gss ++ method_writes (length gss) gs.
  Proof.
    unfold all_writes. rewrite imap_app, flat_map_app. f_equal. simpl.
    rewrite Nat.add_0_r. apply app_nil_r.
  Qed.

  Lemma all_writes_elem gss q :
    q ∈ all_writes gss <->
    exists mi gs dim gm gi k gp c, q = (mi, dim, gi, c) /\ gss !! mi = Some gs /\
      gs !! dim = Some gm /\ gm !! gi = Some (k, gp) /\ c ∈ gp_classes gp.
  Proof.
    unfold all_writes. rewrite elem_of_list_In, in_flat_map. split.
    - intros ([mi gs] & H1 & H2). apply elem_of_list_In, elem_of_imap_pair in H1.
      apply elem_of_list_In, method_writes_elem in H2
        as (dim & gm & gi & k & gp & c & -> & H2 & H3 & Hc). eauto 14.
    - intros (mi & gs & dim & gm & gi & k & gp & c & -> & H1 & H2 & H3 & Hc).
      exists (mi, gs). split; [apply elem_of_list_In, elem_of_imap_pair; exact H1|].
      apply elem_of_list_In, method_writes_elem. eauto 10.
  Qed.

  Lemma imap_pair_prefix {A} (l : list A) l1 i x l2 :
    imap pair l = l1 ++ (i, x) :: l2 -> l1 = imap pair (take i l) /\ i = length l1 /\ l !! i = Some x.
  Proof.
    intros H. destruct (imap_pair_split _ _ _ _ _ H) as (H1 & H2 & _).
    split; [|split; [symmetry; exact H2|exact H1]]. subst i.
    apply list_eq. intros j. rewrite list_lookup_imap.
    destruct (decide (j < length l1)) as [Hj|Hj].
    - rewrite lookup_take by exact Hj.
      assert (Hl : imap pair l !! j = l1 !! j) by (rewrite H, lookup_app_l by exact Hj; reflexivity).
      rewrite <- Hl, list_lookup_imap. reflexivity.
    - rewrite lookup_ge_None_2 by lia. rewrite lookup_take_ge by lia. reflexivity.
  Qed.

  Lemma build_tables_ok n2216 ms s T :
    build_dispatch_tables E g n2216 ms s = Ok T ->
    exists gss, length gss = length ms /\ length (tb_tables T) = length ms /\
      (forall mi m, ms !! mi = Some m -> exists gs t,
         gss !! mi = Some gs /\ tb_tables T !! mi = Some t /\ table_ok n2216 m gs t) /\
      foldM (set_q s) (all_writes gss) (s_vtbl s) = Ok (tb_vtbl T) /\
      tb_report T = foldl accumulate (Report 0 0 0) (tb_tables T).
  Proof.
    unfold build_dispatch_tables. intros H. apply obind_ok in H as ([ts vt] & H & [= <-]). simpl.
    pose proof (foldM_inv_prefix_ok (fun pre (acc : list table * vtbl_map) =>
      exists gss, length gss = length pre /\ length (fst acc) = length pre /\
        (forall mi m, (mi, m) ∈ pre -> mi < length pre -> exists gs t,
           gss !! mi = Some gs /\ fst acc !! mi = Some t /\ table_ok n2216 m gs t) /\
        foldM (set_q s) (all_writes gss) (s_vtbl s) = Ok (snd acc)) _ _ _ _ H) as HI.
    destruct HI as (gss & G1 & G2 & G3 & G4).
    - exists []. split; [reflexivity|]. split; [reflexivity|]. split; [|reflexivity].
      intros mi m Hin. inversion Hin.
    - intros l1 [mi m] l2 [ts1 vt1] acc Hl (gss & G1 & G2 & G3 & G4) Hb. simpl in *.
      apply imap_pair_prefix in Hl as (Hl1 & Hmi & Hm).
      unfold build_method in Hb. apply obind_ok in Hb as (gs & Hgs & Hb).
      apply obind_ok in Hb as (vt2 & Hvt & Hb). apply obind_ok in Hb as (cells & Hcells & [= <-]).
      simpl. exists (gss ++ [gs]). rewrite !app_length. simpl.
      split; [lia|]. split; [lia|]. split.
      + intros mi' m' [Hin|Hin]%elem_of_app Hlt.
        * assert (Hlt' : mi' < length l1).
          { rewrite Hl1 in Hin. apply elem_of_imap_pair in Hin.
            apply lookup_lt_Some in Hin. rewrite take_length in Hin. lia. }
          destruct (G3 mi' m' Hin Hlt') as (gs' & t' & K1 & K2 & K3).
          exists gs', t'. rewrite !lookup_app_l by (eapply lookup_lt_Some; eauto). auto.
        * apply elem_of_list_singleton in Hin. injection Hin as -> ->.
          eexists gs, _. rewrite !lookup_app_r by lia.
          rewrite G1, G2, Hmi, Nat.sub_diag. simpl.
          split; [reflexivity|]. split; [reflexivity|]. split; simpl; auto.
      + rewrite all_writes_snoc, foldM_app, G4. cbn [obind].
        rewrite <- set_method_writes, G1, <- Hmi. exact Hvt.
    - rewrite imap_length in *. exists gss. split; [exact G1|]. split; [exact G2|].
      split; [|auto]. intros mi m Hm. apply G3; [apply elem_of_imap_pair; exact Hm|].
      eapply lookup_lt_Some; eauto.
  Qed.

  Lemma build_tables_total n2216 ms s :
    (forall m, m ∈ ms -> m_vp m <> [] /\
       (forall o, o ∈ m_ovs m -> length (ov_vp o) = length (m_vp m)) /\
       forall mask, exists c, build_cell g n2216 m mask = Ok c) ->
    (forall mi m dim vp c, ms !! mi = Some m -> m_vp m !! dim = Some vp -> c ∈ g_td g vp ->
       s_first s c <= s_slots s mi dim < s_first s c + length (s_vtbl s c)) ->
    exists T, build_dispatch_tables E g n2216 ms s = Ok T.
  Proof.
    intros Hms Hrange. unfold build_dispatch_tables.
    destruct (foldM_inv (fun acc : list table * vtbl_map =>
        forall c, length (snd acc c) = length (s_vtbl s c))
      (build_method E g n2216 s) (imap pair ms) ([], s_vtbl s)) as ([ts vt] & Hok & _).
    - reflexivity.
    - intros [mi m] [ts vt] Hin Hlen. simpl in Hlen. apply elem_of_imap_pair in Hin.
      assert (Hin' : m ∈ ms) by (eapply elem_of_list_lookup_2; eauto).
      destruct (Hms m Hin') as (Hne & Har & Hcell).
      unfold build_method.
      assert (Hgs : exists gs, mapM (fun dv => dim_groups E g m (fst dv) (snd dv))
                (imap pair (m_vp m)) = Ok gs /\ length gs = length (m_vp m) /\
                forall dim vp gm, m_vp m !! dim = Some vp -> gs !! dim = Some gm ->
                  groups_ok m dim vp gm).
      { assert (Hg : exists gs, Forall2 (fun dv gm => dim_groups E g m (fst dv) (snd dv) = Ok gm)
                (imap pair (m_vp m)) gs).
        { assert (Hall : forall l, (forall dv, dv ∈ l -> dv ∈ imap pair (m_vp m)) ->
            exists gs, Forall2 (fun dv gm => dim_groups E g m (fst dv) (snd dv) = Ok gm) l gs).
          { induction l as [|[d v] l IH]; intros Hl; [exists []; constructor|].
            destruct IH as [gs IH]; [intros dv Hdv; apply Hl; right; exact Hdv|].
            destruct (dim_groups_ok m d v) as (gm & Hgm & _).
            - intros o Ho. rewrite (Har o Ho).
              assert (H : (d, v) ∈ imap pair (m_vp m)) by (apply Hl; left).
              apply elem_of_imap_pair in H. eapply lookup_lt_Some; eauto.
            - exists (gm :: gs). constructor; [exact Hgm|exact IH]. }
          apply Hall. auto. }
        destruct Hg as [gs Hg]. exists gs. split; [apply mapM_ok; exact Hg|].
        split; [rewrite <- (Forall2_length _ _ _ Hg), imap_length; reflexivity|].
        intros dim vp gm Hvp Hgm.
        assert (Hi : imap pair (m_vp m) !! dim = Some (dim, vp)).
        { rewrite list_lookup_imap, Hvp. reflexivity. }
        pose proof (Forall2_lookup_lr _ _ _ _ _ _ Hg Hi Hgm) as Hd. simpl in Hd.
        destruct (dim_groups_ok m dim vp) as (gm' & Hgm' & Hgr).
        - intros o Ho. rewrite (Har o Ho). eapply lookup_lt_Some; eauto.
        - congruence. }
      destruct Hgs as (gs & Hgs & Hgl & Hgr). rewrite Hgs. cbn [obind].
      rewrite set_method_writes.
      destruct (writes_total s (method_writes mi gs) vt) as (vt' & Hvt).
      { intros q Hq. apply method_writes_elem in Hq
          as (dim & gm & gi & k & gp & c & -> & H1 & H2 & Hc). unfold q_class, q_slot.
        assert (Hd : dim < length (m_vp m)) by (rewrite <- Hgl; eapply lookup_lt_Some; eauto).
        apply lookup_lt_is_Some in Hd as [vp Hvp].
        pose proof (Hgr dim vp gm Hvp H1) as [_ G2 _].
        assert (Hctd : c ∈ g_td g vp).
        { apply (G2 k gp); [eapply elem_of_list_lookup_2; eauto|exact Hc]. }
        destruct (Hrange mi m dim vp c Hin Hvp Hctd). rewrite Hlen. lia. }
      rewrite Hvt. cbn [obind].
      destruct (build_table_total n2216 m (rev gs) (repeat true (length (m_ovs m)))) as (cells & Hcells).
      { intros Hnil. apply (f_equal length) in Hnil. rewrite rev_length in Hnil. simpl in Hnil.
        destruct (m_vp m); [contradiction|]. simpl in Hgl. lia. }
      { exact Hcell. }
      rewrite Hcells. cbn [obind]. eexists. split; [reflexivity|]. simpl.
      destruct (writes_ok _ _ _ _ Hvt) as (Hl & _). intros c. rewrite Hl. apply Hlen.
    - rewrite Hok. cbn. eauto.
  Qed.

  Lemma table_groups n2216 m gs t :
    table_ok n2216 m gs t ->
    (forall o, o ∈ m_ovs m -> length (ov_vp o) = length (m_vp m)) ->
    length gs = length (m_vp m) /\
    forall dim vp gm, m_vp m !! dim = Some vp -> gs !! dim = Some gm -> groups_ok m dim vp gm.
  Proof.
    intros [Hg _ _ _] Har. apply mapM_ok in Hg.
    split; [rewrite <- (Forall2_length _ _ _ Hg), imap_length; reflexivity|].
    intros dim vp gm Hvp Hgm.
    assert (Hi : imap pair (m_vp m) !! dim = Some (dim, vp)).
    { rewrite list_lookup_imap, Hvp. reflexivity. }
    pose proof (Forall2_lookup_lr _ _ _ _ _ _ Hg Hi Hgm) as Hd. simpl in Hd.
    destruct (dim_groups_ok m dim vp) as (gm' & Hgm' & Hgr).
    - intros o Ho. rewrite (Har o Ho). eapply lookup_lt_Some; eauto.
    - congruence.
  Qed.
End Groups.
