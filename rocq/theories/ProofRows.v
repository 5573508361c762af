(* The rows of the dispatch tables: groups of classes accepted by the same
   overriders. *)
From stdpp Require Import base list numbers list_numbers relations.
From Verif Require Import Base Registry Spec ModelClasses ModelMethods ModelSlots ModelTables
  ModelHash ModelWorld ModelCall SpecCall
  ProofBase ProofClasses ProofGraph ProofMethods ProofBits ProofSlots ProofSelect ProofTables
  ProofCompile ProofErrors ProofEntries ProofWrite ProofHash ProofWorld ProofCall ProofCells
  ProofDispatch ProofBehaviour ProofReport.

Lemma bit_ext (a b : bitset) :
  length a = length b -> (forall i, bit a i = true <-> bit b i = true) -> a = b.
Proof.
  intros Hl H. apply list_eq. intros i. specialize (H i). unfold bit in H.
  destruct (a !! i) as [x|] eqn:Ha, (b !! i) as [y|] eqn:Hb; try reflexivity.
  - destruct x, y; try reflexivity; destruct H as [H1 H2];
      [specialize (H1 eq_refl)|specialize (H2 eq_refl)]; discriminate.
  - apply lookup_lt_Some in Ha. apply lookup_ge_None in Hb. lia.
  - apply lookup_lt_Some in Hb. apply lookup_ge_None in Ha. lia.
Qed.

Section Rows.
  Context (E : env) (R : registrations).
  Context (HE : env_ok E) (Hac : acyclic (e_ti E) R) (Har : arity_ok R).
  Context (n2216 : bool) (cp : compiled) (Hcp : compile E n2216 R = Ok cp).
  Notation g := (cp_graph cp).
  Notation ti := (e_ti E).

  Lemma mask_same_row mr m d a b c c' :
    method_ok E g mr m -> g_map g a = Some c -> g_map g b = Some c' ->
    mask_at g m d c = mask_at g m d c' <-> same_row ti R mr d a b.
  Proof.
    intros Hm Ha Hb. pose proof (compile_inv E R HE Hac n2216 cp Hcp) as HCI.
    pose proof (co_graph _ _ _ _ HCI) as HG.
    assert (K : forall a c, g_map g a = Some c -> forall i,
      bit (mask_at g m d c) i = true <->
      exists o v, mr_overriders mr !! i = Some o /\ or_vp o !! d = Some v /\ derives ti R a (ti v)).
    { clear a b c c' Ha Hb. intros a c Ha i. rewrite bit_mask_at. split.
      - intros (o' & x & Ho' & Hx & Hin).
        destruct (Forall2_lookup_r _ _ _ _ _ (mo_ovs _ _ _ _ Hm) Ho') as (o & Ho & Hok).
        destruct (Forall2_lookup_r _ _ _ _ _ (oo_vp _ _ _ _ Hok) Hx) as (v & Hv & Hvm).
        exists o, v. split; [exact Ho|]. split; [exact Hv|].
        apply (map_td E R g HG _ _ _ _ Ha Hvm). exact Hin.
      - intros (o & v & Ho & Hv & Hd).
        destruct (Forall2_lookup_l _ _ _ _ _ (mo_ovs _ _ _ _ Hm) Ho) as (o' & Ho' & Hok).
        destruct (Forall2_lookup_l _ _ _ _ _ (oo_vp _ _ _ _ Hok) Hv) as (x & Hx & Hvm).
        exists o', x. split; [exact Ho'|]. split; [exact Hx|].
        apply (map_td E R g HG _ _ _ _ Ha Hvm). exact Hd. }
    split.
    - intros Heq o v Ho Hv. apply elem_of_list_lookup in Ho as [i Ho].
      assert (H1 := K a c Ha i). assert (H2 := K b c' Hb i). rewrite Heq in H1. split; intros Hd.
      + destruct (proj1 H2) as (o2 & v2 & Ho2 & Hv2 & Hd2); [apply H1; eauto|]. congruence.
      + destruct (proj1 H1) as (o2 & v2 & Ho2 & Hv2 & Hd2); [apply H2; eauto|]. congruence.
    - intros Hr. apply bit_ext; [rewrite !mask_at_length; reflexivity|]. intros i.
      rewrite (K a c Ha), (K b c' Hb). split; intros (o & v & Ho & Hv & Hd); exists o, v;
        (split; [exact Ho|]; split; [exact Hv|]); apply (Hr o v); auto;
        eapply elem_of_list_lookup_2; eauto.
  Qed.

  (* One representative for each group. *)
  Lemma group_representatives mi mr m gs t d v gm :
    has_table E R n2216 cp mi mr m gs t -> mr_vp mr !! d = Some v -> gs !! d = Some gm ->
    exists reps, length reps = length gm /\ row_representatives ti R mr d v reps.
  Proof.
    intros HT Hv Hgm. pose proof (compile_inv E R HE Hac n2216 cp Hcp) as HCI.
    pose proof (co_graph _ _ _ _ HCI) as HG. pose proof (go_classes _ _ _ HG) as HC.
    pose proof (ht_ok _ _ _ _ _ _ _ _ _ HT) as Hmok.
    destruct (Forall2_lookup_l _ _ _ _ _ (mo_vp _ _ _ _ Hmok) Hv) as (vp & Hvp & Hvm).
    pose proof (ht_groups _ _ _ _ _ _ _ _ _ HT d vp gm Hvp Hgm) as Hgr.
    assert (G : exists reps, Forall2 (fun r (kg : bitset * group) =>
      exists c, g_map g r = Some c /\ c ∈ gp_classes (snd kg)) reps gm).
    { assert (Hcl : forall kg, kg ∈ gm -> exists r c, g_map g r = Some c /\ c ∈ gp_classes (snd kg)).
      { intros [k gp] Hin. destruct (gr_classes _ _ _ _ _ Hgr k gp Hin) as [Hne Hcl]. simpl.
        destruct (gp_classes gp) as [|c l]; [contradiction|].
        assert (Hc : c ∈ g_td g vp) by (apply Hcl; left).
        assert (Hcn : c < g_n g).
        { eapply (td_lt E R g HG); [exact Hc|]. eapply (co_lt _ _ _ _ HC); exact Hvm. }
        destruct (lookup_lt_is_Some_2 (g_classes g) c) as [e He]; [exact Hcn|].
        destruct (co_entry _ _ _ _ HC _ _ He) as (a & cr & Ha & _). exists a, c. split; [exact Ha|left]. }
      clear -Hcl. induction gm as [|kg gm IH]; [exists []; constructor|].
      destruct IH as [reps Hreps]; [intros x Hx; apply Hcl; right; exact Hx|].
      destruct (Hcl kg ltac:(left)) as (r & Hr). exists (r :: reps). constructor; assumption. }
    destruct G as [reps Hreps]. exists reps. split; [apply (Forall2_length _ _ _ Hreps)|]. split.
    - intros a Ha. apply elem_of_list_lookup in Ha as [i Ha].
      destruct (Forall2_lookup_l _ _ _ _ _ Hreps Ha) as ([k gp] & Hk & c & Hc & Hin).
      destruct (gr_classes _ _ _ _ _ Hgr k gp (elem_of_list_lookup_2 _ _ _ Hk)) as [_ Hcl].
      apply Hcl in Hin as [Hin _]. split.
      + apply (co_dom _ _ _ _ HC). eauto.
      + apply (map_td E R g HG _ _ _ _ Hc Hvm). exact Hin.
    - intros a Hra Hd. assert (is_Some (g_map g a)) as [c Hc] by (apply (co_dom _ _ _ _ HC); exact Hra).
      assert (Hin : c ∈ g_td g vp) by (apply (map_td E R g HG _ _ _ _ Hc Hvm); exact Hd).
      destruct (groups_of g _ _ _ _ _ Hgr Hin) as (gi & gp & Hgi & Hgc).
      destruct (Forall2_lookup_r _ _ _ _ _ Hreps Hgi) as (r & Hr & c' & Hc' & Hin').
      exists r. split; [eapply elem_of_list_lookup_2; eauto|].
      apply (mask_same_row mr m d a r c c' Hmok Hc Hc'). simpl in Hin'.
      destruct (gr_classes _ _ _ _ _ Hgr _ gp (elem_of_list_lookup_2 _ _ _ Hgi)) as [_ Hcl].
      apply Hcl in Hin' as [_ Hin']. symmetry. exact Hin'.
    - intros i j a b Ha Hb Hr.
      destruct (Forall2_lookup_l _ _ _ _ _ Hreps Ha) as ([k gp] & Hk & c & Hc & Hin).
      destruct (Forall2_lookup_l _ _ _ _ _ Hreps Hb) as ([k' gp'] & Hk' & c' & Hc' & Hin').
      apply (mask_same_row mr m d a b c c' Hmok Hc Hc') in Hr. simpl in Hin, Hin'.
      destruct (gr_classes _ _ _ _ _ Hgr _ _ (elem_of_list_lookup_2 _ _ _ Hk)) as [_ Hcl].
      destruct (gr_classes _ _ _ _ _ Hgr _ _ (elem_of_list_lookup_2 _ _ _ Hk')) as [_ Hcl'].
      apply Hcl in Hin as [_ M1]. apply Hcl' in Hin' as [_ M2].
      eapply NoDup_lookup; [apply (gr_nodup _ _ _ _ _ Hgr)| |].
      + change (map fst gm) with (fst <$> gm). rewrite list_lookup_fmap, Hk. reflexivity.
      + change (map fst gm) with (fst <$> gm). rewrite list_lookup_fmap, Hk'. simpl. congruence.
  Qed.
End Rows.

Lemma foldl_mul l n : foldl Nat.mul n l = n * foldr Nat.mul 1 l.
Proof. revert n. induction l as [|x l IH]; intros n; simpl; [lia|]. rewrite IH. lia. Qed.

Section Cells.
  Context (cf : config) (X : run) (R : registrations) (w0 w : world) (rep : method_report).
  Notation E := (r_env X).
  Notation ti := (e_ti (r_env X)).
  Context (HP : program_ok cf (r_env X) R) (Hw0 : world_ok w0).

  (* The sizes of the dimensions of a method. *)
  Definition dimensions (m : method_record) (sizes : list nat) : Prop :=
    Forall2 (fun (dv : nat * N) n =>
      exists reps, length reps = n /\ row_representatives ti R m (fst dv) (snd dv) reps)
      (imap pair (mr_vp m)) sizes.

  Lemma report_cells n2216 :
    initialize cf X n2216 R w0 = (w, Ok rep) ->
    exists sizes, Forall2 dimensions (reg_methods R) sizes /\
      rp_cells rep = sum_list (map (fun ns => if decide (1 < length ns) then foldr Nat.mul 1 ns else 0) sizes).
  Proof.
    intros Hinit. destruct HP as [HE Hac Har Hids Hn HA].
    destruct (initialize_ok_inv cf X n2216 R w0 HE Hac Har w rep Hids Hn Hw0 Hinit)
      as (cp & Hcp & -> & _).
    pose proof (compile_inv E R HE Hac n2216 cp Hcp) as HCI.
    destruct (build_tables_ok _ _ _ _ _ _ (co_tables _ _ _ _ HCI)) as (gss & L1 & L2 & Htabs & _ & Hrep).
    rewrite Hrep, accumulate_cells. simpl.
    assert (HLm : length (reg_methods R) = length (cp_methods cp)) by apply (Forall2_length _ _ _ (co_methods _ _ _ _ HCI)).
    exists (map (fun gs : list group_map => map length gs) gss). split.
    - apply Forall2_same_length_lookup_2; [rewrite map_length; lia|].
      intros mi mr ns Hmi Hns. change (map ?f ?l) with (f <$> l) in Hns. rewrite list_lookup_fmap in Hns.
      destruct (gss !! mi) as [gs|] eqn:Hgs; [|discriminate]. injection Hns as <-.
      destruct (has_table_exists E R HE Hac Har n2216 cp Hcp mi mr Hmi) as (m & gs' & t & HT).
      pose proof (ht_method _ _ _ _ _ _ _ _ _ HT) as Hm.
      destruct (Htabs mi m Hm) as (gs2 & t2 & Hgs2 & Ht2 & Htok).
      replace gs2 with gs in * by congruence.
      pose proof (to_groups _ _ _ _ _ _ (ht_tok _ _ _ _ _ _ _ _ _ HT)) as Hg2.
      rewrite (to_groups _ _ _ _ _ _ Htok) in Hg2. injection Hg2 as <-.
      pose proof (ht_length _ _ _ _ _ _ _ _ _ HT) as Hl.
      pose proof (Forall2_length _ _ _ (mo_vp _ _ _ _ (ht_ok _ _ _ _ _ _ _ _ _ HT))) as Hl2.
      unfold dimensions. apply Forall2_same_length_lookup_2; [rewrite imap_length, map_length; lia|].
      intros d dv n Hd Hnd. rewrite list_lookup_imap in Hd.
      destruct (mr_vp mr !! d) as [v|] eqn:Hv; [|discriminate]. injection Hd as <-.
      change (map ?f ?l) with (f <$> l) in Hnd. rewrite list_lookup_fmap in Hnd.
      destruct (gs !! d) as [gm|] eqn:Hgm; [|discriminate]. injection Hnd as <-. simpl.
      eapply (group_representatives E R HE Hac n2216 cp Hcp); eauto.
    - f_equal. rewrite map_map. apply list_eq. intros mi.
      change (map ?f ?l) with (f <$> l). rewrite !list_lookup_fmap.
      destruct (tb_tables (cp_tables cp) !! mi) as [t|] eqn:Ht.
      + assert (is_Some (cp_methods cp !! mi)) as [m Hm].
        { apply lookup_lt_is_Some. apply lookup_lt_Some in Ht. lia. }
        destruct (Htabs mi m Hm) as (gs & t2 & Hgs & Ht2 & Htok). replace t2 with t in * by congruence.
        rewrite Hgs. simpl. f_equal. rewrite (to_report _ _ _ _ _ _ Htok). simpl.
        assert (Hgl : length gs = length (m_vp m)).
        { destruct (has_table_exists E R HE Hac Har n2216 cp Hcp mi) with (mr := default (MethodRecord [] 0 [] 0%N 0%N 0) (reg_methods R !! mi)) as (m' & gs' & t' & HT).
          { destruct (lookup_lt_is_Some_2 (reg_methods R) mi) as [mr Hmr]; [apply lookup_lt_Some in Hm; lia|].
            rewrite Hmr. reflexivity. }
          pose proof (ht_length _ _ _ _ _ _ _ _ _ HT) as Hl. pose proof (ht_method _ _ _ _ _ _ _ _ _ HT) as Hm'.
          replace m' with m in * by congruence.
          pose proof (to_groups _ _ _ _ _ _ (ht_tok _ _ _ _ _ _ _ _ _ HT)) as Hg2.
          rewrite (to_groups _ _ _ _ _ _ Htok) in Hg2. injection Hg2 as <-. exact Hl. }
        rewrite map_length, Hgl. destruct (decide (1 < length (m_vp m))) as [Hlt|Hlt]; [|reflexivity].
        rewrite foldl_mul. lia.
      + assert (gss !! mi = None) as -> by (apply lookup_ge_None; apply lookup_ge_None in Ht; lia). reflexivity.
  Qed.

  (* Two classes have the same word in a slot of a multi-method exactly when the
     same overriders accept them. *)
  Lemma rows_shared n2216 mr d v a b ca cb :
    initialize cf X n2216 R w0 = (w, Ok rep) -> bases_first ti R ->
    mr ∈ reg_methods R -> 1 < length (mr_vp mr) -> mr_vp mr !! d = Some v ->
    first_record ti R a = Some ca -> first_record ti R b = Some cb ->
    derives ti R a (ti v) -> derives ti R b (ti v) ->
    exists slot xa xb, w_ss w (mr_slots_strides mr) !! d = Some slot /\
      read_word w (w_static w (cr_static_vptr ca)) slot = Ok xa /\
      read_word w (w_static w (cr_static_vptr cb)) slot = Ok xb /\
      (xa = xb <-> same_row ti R mr d a b).
  Proof.
    intros Hinit HB Hmr Hmulti Hv Hca Hcb Hda Hdb. destruct HP as [HE Hac Har Hids Hn HA].
    destruct (initialize_ok_inv cf X n2216 R w0 HE Hac Har w rep Hids Hn Hw0 Hinit)
      as (cp & Hcp & _ & HI & _).
    pose proof (compile_inv E R HE Hac n2216 cp Hcp) as HCI.
    pose proof (co_graph _ _ _ _ HCI) as HG. pose proof (go_classes _ _ _ HG) as HC.
    pose proof (bases_first_complete E R HE Hac n2216 cp Hcp HB) as HTc.
    apply elem_of_list_lookup in Hmr as [mi Hmi].
    destruct (has_table_exists E R HE Hac Har n2216 cp Hcp mi mr Hmi) as (m & gs & t & HT).
    pose proof (ht_ok _ _ _ _ _ _ _ _ _ HT) as Hmok. pose proof (ht_tok _ _ _ _ _ _ _ _ _ HT) as Htok.
    pose proof (ht_length _ _ _ _ _ _ _ _ _ HT) as Hgl.
    pose proof (Forall2_length _ _ _ (mo_vp _ _ _ _ Hmok)) as Hl2.
    destruct (Forall2_lookup_l _ _ _ _ _ (mo_vp _ _ _ _ Hmok) Hv) as (vp & Hvp & Hvm).
    destruct (lookup_lt_is_Some_2 gs d) as [gm Hgm]; [apply lookup_lt_Some in Hvp; lia|].
    pose proof (ht_groups _ _ _ _ _ _ _ _ _ HT d vp gm Hvp Hgm) as Hgr.
    destruct (in_written _ _ _ _ HI) as (buf & wr & gvt & Hok & _ & Hheap & Hst & Hss & _).
    assert (Hmt : zip (cp_methods cp) (tb_tables (cp_tables cp)) !! mi = Some (m, t)).
    { apply mts_lookup. split; [apply (ht_method _ _ _ _ _ _ _ _ _ HT)|apply (ht_table _ _ _ _ _ _ _ _ _ HT)]. }
    destruct (wr_table _ _ _ _ _ Hok mi m t Hmt) as (gv & Hgv & _); [lia|].
    assert (G : forall x cx, first_record ti R x = Some cx -> derives ti R x (ti v) ->
      exists c i gp y, g_map (cp_graph cp) x = Some c /\ gm !! i = Some (mask_at (cp_graph cp) m d c, gp) /\
        y = (if decide (d = 0) then WPw (VPtr buf (Z.of_nat (gv + i))) else WIdx i) /\
        read_word w (w_static w (cr_static_vptr cx)) (s_slots (cp_slots cp) mi d) = Ok y).
    { intros x cx Hcx Hd. pose proof (head_filter _ _ _ Hcx) as [Hcx1 Hcx2].
      assert (is_Some (g_map (cp_graph cp) x)) as [c Hc].
      { apply (co_dom _ _ _ _ HC). exists cx. auto. }
      assert (Hin : c ∈ g_td (cp_graph cp) vp) by (apply (map_td E R _ HG _ _ _ _ Hc Hvm); exact Hd).
      destruct (groups_of (cp_graph cp) _ _ _ _ _ Hgr Hin) as (i & gp & Hi & Hgc).
      destruct (entry_at E R HE Hac Har n2216 cp Hcp mi m t gs d vp gm c i _ gp HTc
        (ht_method _ _ _ _ _ _ _ _ _ HT) (ht_table _ _ _ _ _ _ _ _ _ HT) Htok Hvp Hgm Hin Hi Hgc) as [Hf He].
      destruct (lookup_lt_is_Some_2 (g_classes (cp_graph cp)) c) as [e Hce]; [apply (co_lt _ _ _ _ HC _ _ Hc)|].
      destruct (class_reads E R HE Hac n2216 cp Hcp HA w0 w buf wr gvt Hok Hheap Hst c e Hce _ _ Hf He) as (y & Hy & Hr).
      exists c, i, gp, y. split; [exact Hc|]. split; [exact Hi|].
      rewrite (class_static E R HE Hac n2216 cp Hcp x c e cx Hc Hce Hcx) in Hr. split; [|exact Hr].
      unfold entry_word in Hy. simpl ve_method in Hy. simpl ve_group in Hy. simpl ve_vp in Hy.
      assert (Hat : at_ (zip (cp_methods cp) (tb_tables (cp_tables cp))) mi = Ok (m, t)) by (apply at_ok; exact Hmt).
      rewrite Hat in Hy. cbn [obind] in Hy. rewrite decide_False in Hy by lia.
      destruct (decide (d = 0)); [|congruence].
      assert (Hat2 : at_ gvt mi = Ok gv) by (apply at_ok; exact Hgv).
      rewrite Hat2 in Hy. cbn [obind] in Hy. congruence. }
    destruct (G a ca Hca Hda) as (c & i & gp & xa & Ha & Hi & Hxa & Hra).
    destruct (G b cb Hcb Hdb) as (c' & j & gp' & xb & Hb & Hj & Hxb & Hrb).
    exists (s_slots (cp_slots cp) mi d), xa, xb. split.
    { rewrite <- (mo_ss _ _ _ _ Hmok). apply at_ok.
      eapply (slot_at E R HE Hac n2216 cp Hcp HA w0 w buf wr gvt Hok Hss mi m t Hmt).
      apply lookup_lt_Some in Hvp. exact Hvp. }
    split; [exact Hra|]. split; [exact Hrb|].
    rewrite <- (mask_same_row E R HE Hac n2216 cp Hcp mr m d a b c c' Hmok Ha Hb).
    assert (Hij : xa = xb <-> i = j).
    { rewrite Hxa, Hxb. destruct (decide (d = 0)).
      - split; [intros [= H]; lia|intros ->; reflexivity].
      - split; [congruence|intros ->; reflexivity]. }
    rewrite Hij. split.
    - intros ->. congruence.
    - intros Heq. eapply NoDup_lookup; [apply (gr_nodup _ _ _ _ _ Hgr)| |].
      + change (map fst gm) with (fst <$> gm). rewrite list_lookup_fmap, Hi. reflexivity.
      + change (map fst gm) with (fst <$> gm). rewrite list_lookup_fmap, Hj, Heq. reflexivity.
  Qed.
End Cells.

(* Arguments that the same overriders accept in each position are treated alike. *)
Lemma rows_alike cf X R w n2216 mr all1 all2 args1 args2 :
  program_ok cf (r_env X) R -> bases_first (e_ti (r_env X)) R ->
  initialized_by cf X n2216 R w ->
  call_ok cf (e_ti (r_env X)) R w mr all1 args1 -> call_ok cf (e_ti (r_env X)) R w mr all2 args2 ->
  length (mr_vp mr) = 1 \/ (together all1 /\ together all2) ->
  (forall d a b, args1 !! d = Some a -> args2 !! d = Some b -> same_row (e_ti (r_env X)) R mr d a b) ->
  exists f, resolve cf w mr all1 = Ok f /\ resolve cf w mr all2 = Ok f.
Proof.
  intros HP HB (w0 & rep & Hw & Hinit) [Hm Hv1 Ha1] [_ Hv2 Ha2] Htog Hrows.
  destruct (dispatch_cell cf X R w0 w rep HP HB Hw n2216 Hinit mr all1 args1 Hm Hv1 Ha1)
    as (cp & mi & m & t & gs & cs & is & Hcp & Hcm & Hmi & Hmok & Htok & Hcs & Htd & Hin & Hres);
    [intros; destruct Htog as [?|[? _]]; [contradiction|assumption]|].
  destruct (dispatch_cell cf X R w0 w rep HP HB Hw n2216 Hinit mr all2 args2 Hm Hv2 Ha2)
    as (cp' & mi' & m' & t' & gs' & cs' & is' & Hcp' & Hcm' & Hmi' & Hmok' & Htok' & Hcs' & Htd' & Hin' & Hres');
    [intros; destruct Htog as [?|[_ ?]]; [contradiction|assumption]|].
  assert (cp' = cp) as -> by congruence.
  destruct HP as [HE Hac Har Hids Hn HA].
  assert (mi' = mi) as ->.
  { eapply (NoDup_lookup (map mr_slots_strides (reg_methods R)));
      [apply (ad_slots _ _ HA)| |]; rewrite list_lookup_fmap;
      [rewrite Hmi'|rewrite Hmi]; reflexivity. }
  assert (m' = m) as -> by congruence.
  assert (Hao : forall o, o ∈ mr_overriders mr -> length (or_vp o) = length (mr_vp mr))
    by (apply Har; exact Hm).
  destruct (cell_at _ _ HE mr m Hmok Hao n2216 gs t cs is Htok Htd Hin) as (c & Hc & Hb).
  destruct (cell_at _ _ HE mr m Hmok Hao n2216 gs' t' cs' is' Htok' Htd' Hin') as (c' & Hc' & Hb').
  assert (Hmasks : arg_masks (cp_graph cp) m cs = arg_masks (cp_graph cp) m cs').
  { pose proof (Forall2_length _ _ _ Hcs) as L1. pose proof (Forall2_length _ _ _ Hcs') as L2.
    pose proof (Forall2_length _ _ _ Ha1) as L3. pose proof (Forall2_length _ _ _ Ha2) as L4.
    unfold arg_masks. apply list_eq. intros d. rewrite !list_lookup_imap.
    destruct (cs !! d) as [x|] eqn:Hx, (cs' !! d) as [y|] eqn:Hy; simpl.
    - f_equal. destruct (Forall2_lookup_r _ _ _ _ _ Hcs Hx) as (a & Hda & Hxa).
      destruct (Forall2_lookup_r _ _ _ _ _ Hcs' Hy) as (b & Hdb & Hyb).
      apply (mask_same_row _ R HE Hac n2216 cp Hcp mr m d a b x y Hmok Hxa Hyb). eauto.
    - apply lookup_lt_Some in Hx. apply lookup_ge_None in Hy. lia.
    - apply lookup_lt_Some in Hy. apply lookup_ge_None in Hx. lia.
    - reflexivity. }
  rewrite Hmasks, Hb' in Hb. injection Hb as ->.
  destruct (Hres _ Hc) as (f & Hf & Hr). destruct (Hres' _ Hc') as (f' & Hf' & Hr').
  exists f. split; [exact Hr|]. congruence.
Qed.
