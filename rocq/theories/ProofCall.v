(* A call reads the cell of the dispatch table that corresponds to the classes of
   its arguments. *)
From stdpp Require Import base list numbers list_numbers relations.
From Verif Require Import Base Registry Spec ModelClasses ModelMethods ModelSlots ModelTables
  ModelHash ModelWorld ModelCall SpecCall
  ProofBase ProofClasses ProofGraph ProofMethods ProofBits ProofSlots ProofSelect ProofTables
  ProofCompile ProofErrors ProofEntries ProofWrite ProofHash ProofWorld.

Lemma head_filter {A} (P : A -> Prop) `{forall x, Decision (P x)} l x :
  head (filter P l) = Some x -> x ∈ l /\ P x.
Proof.
  intros Hh. assert (Hx : x ∈ filter P l).
  { destruct (filter P l); [discriminate|]. injection Hh as ->. left. }
  apply elem_of_list_filter in Hx. tauto.
Qed.

Section Addresses.
  Context (E : env) (R : registrations).
  Context (HE : env_ok E) (Hac : acyclic (e_ti E) R) (Har : arity_ok R).
  Context (n2216 : bool) (cp : compiled) (Hcp : compile E n2216 R = Ok cp).
  Context (HA : addresses_ok (e_ti E) R).
  Notation g := (cp_graph cp).

  Lemma static_nodup : NoDup (map ce_static_vptr (g_classes g)).
  Proof.
    pose proof (go_classes _ _ _ (co_graph _ _ _ _ (compile_inv E R HE Hac n2216 cp Hcp))) as HC.
    apply NoDup_alt. intros i j x Hi Hj. change (map ?f ?l) with (f <$> l) in Hi, Hj.
    rewrite list_lookup_fmap in Hi, Hj.
    destruct (g_classes g !! i) as [e1|] eqn:H1; [|discriminate].
    destruct (g_classes g !! j) as [e2|] eqn:H2; [|discriminate].
    simpl in Hi, Hj. injection Hi as Hi. injection Hj as Hj.
    destruct (co_entry _ _ _ _ HC _ _ H1) as (a1 & c1 & M1 & F1 & S1 & _).
    destruct (co_entry _ _ _ _ HC _ _ H2) as (a2 & c2 & M2 & F2 & S2 & _).
    apply head_filter in F1 as [F1 T1]. apply head_filter in F2 as [F2 T2].
    assert (a1 = a2).
    { rewrite <- T1, <- T2. apply (ad_static _ _ HA); [exact F1|exact F2|congruence]. }
    congruence.
  Qed.

  Lemma ss_nodup : NoDup (map m_ss (cp_methods cp)).
  Proof.
    pose proof (co_methods _ _ _ _ (compile_inv E R HE Hac n2216 cp Hcp)) as HM.
    replace (map m_ss (cp_methods cp)) with (map mr_slots_strides (reg_methods R)); [apply (ad_slots _ _ HA)|].
    induction HM as [|mr m l l' H _ IH]; [reflexivity|]. simpl. f_equal; [|exact IH].
    symmetry. apply (mo_ss _ _ _ _ H).
  Qed.

  Lemma next_nodup : NoDup (next_locs cp).
  Proof.
    pose proof (co_methods _ _ _ _ (compile_inv E R HE Hac n2216 cp Hcp)) as HM.
    replace (next_locs cp) with (flat_map (fun m => map or_next (mr_overriders m)) (reg_methods R));
      [apply (ad_next _ _ HA)|].
    unfold next_locs. induction HM as [|mr m l l' H _ IH]; [reflexivity|]. simpl. f_equal; [|exact IH].
    pose proof (mo_ovs _ _ _ _ H) as HO. clear -HO.
    induction HO as [|o o' l l' H _ IH]; [reflexivity|]. simpl. f_equal; [|exact IH].
    symmetry. apply (oo_next _ _ _ _ H).
  Qed.

  Lemma bases_first_complete : bases_first (e_ti E) R -> tb_complete E R g.
  Proof.
    intros HB. pose proof (co_graph _ _ _ _ (compile_inv E R HE Hac n2216 cp Hcp)) as HG.
    intros c b H. apply (go_tb_complete _ _ _ HG); [|exact H].
    eapply ibases_first_of; [apply (go_classes _ _ _ HG)|exact Hac|exact HB].
  Qed.

  (* The class record whose v-table pointer variable is used. *)
  Lemma class_static a c e cr :
    g_map g a = Some c -> g_classes g !! c = Some e -> first_record (e_ti E) R a = Some cr ->
    ce_static_vptr e = cr_static_vptr cr.
  Proof.
    intros Ha He Hcr.
    pose proof (go_classes _ _ _ (co_graph _ _ _ _ (compile_inv E R HE Hac n2216 cp Hcp))) as HC.
    destruct (co_entry _ _ _ _ HC _ _ He) as (a' & cr' & M & F & S & _).
    rewrite (co_inj _ _ _ _ HC _ _ _ M Ha) in F. unfold first_record in Hcr. congruence.
  Qed.
End Addresses.

Section Resolve.
  Context (E : env) (R : registrations).
  Context (HE : env_ok E) (Hac : acyclic (e_ti E) R) (Har : arity_ok R).
  Context (n2216 : bool) (cp : compiled) (Hcp : compile E n2216 R = Ok cp).
  Context (HA : addresses_ok (e_ti E) R) (HT : tb_complete E R (cp_graph cp)).
  Context (cf : config) (w0 w : world) (HI : installed cf cp w0 w).
  Notation g := (cp_graph cp).
  Notation s := (cp_slots cp).
  Notation T := (cp_tables cp).
  Notation mts := (zip (cp_methods cp) (tb_tables (cp_tables cp))).

  Section Written.
  Context (buf : nat) (wr : written) (gvt : list nat).
  Context (Hok : written_ok cp buf w0 wr gvt) (Hheap : w_heap w buf = Some (wr_words wr))
    (Hstat : w_static w = wr_static wr) (Hss : w_ss w = wr_ss wr).

  Lemma read_buf off i k y :
    (off + Z.of_nat i)%Z = Z.of_nat k -> wr_words wr !! k = Some y ->
    read_word w (VPtr buf off) i = Ok y.
  Proof.
    intros Hk Hy. unfold read_word. rewrite Hheap. simpl. rewrite Hk.
    rewrite decide_False by lia. rewrite Nat2Z.id. apply at_ok. exact Hy.
  Qed.

  (* Reading the v-table of a class. *)
  Lemma class_reads c e :
    g_classes g !! c = Some e -> forall slot x, s_first s c <= slot ->
      tb_vtbl T c !! (slot - s_first s c) = Some x ->
      exists y, entry_word cp buf gvt x = Ok y /\
        read_word w (w_static w (ce_static_vptr e)) slot = Ok y.
  Proof.
    intros He slot x Hs Hx. destruct (wr_class _ _ _ _ _ Hok c e He) as (it & _ & Hst & Hw).
    specialize (Hst (static_nodup E R HE Hac n2216 cp Hcp HA)).
    destruct (Hw _ _ Hx) as (y & Hy & Hr). exists y. split; [exact Hy|].
    rewrite Hstat, Hst. eapply read_buf; [|exact Hr]. lia.
  Qed.

  Lemma arg_reads a k c :
    passes cf (e_ti E) R w a k -> g_map g k = Some c ->
    exists v, arg_vptr cf w a = Ok v /\ forall slot x, s_first s c <= slot ->
      tb_vtbl T c !! (slot - s_first s c) = Some x ->
      exists y, entry_word cp buf gvt x = Ok y /\ read_word w v slot = Ok y.
  Proof.
    intros Hp Hc.
    pose proof (go_classes _ _ _ (co_graph _ _ _ _ (compile_inv E R HE Hac n2216 cp Hcp))) as HC.
    destruct (lookup_lt_is_Some_2 (g_classes g) c) as [e He]; [apply (co_lt _ _ _ _ HC _ _ Hc)|].
    exists (w_static w (ce_static_vptr e)). split; [|apply class_reads; exact He].
    destruct Hp as [t Hk Ht|v t cr Hcr ->].
    - apply elem_of_list_fmap in Ht as (cr & Ht & Hin).
      destruct (type_id_class _ _ _ HC t cr Hin (eq_sym Ht)) as (c' & e' & Hc' & He' & Hid).
      assert (c' = c) as -> by congruence. assert (e' = e) as -> by congruence.
      destruct (in_vptr _ _ _ _ HI Hk e t) as (r & Hr & Hv & _).
      { eapply elem_of_list_lookup_2; eauto. }
      { exact Hid. }
      unfold arg_vptr, acquire_vptr, require_initialized. rewrite (in_init _ _ _ _ HI).
      rewrite decide_False by (intros [_ ?]; discriminate). cbn [obind]. rewrite Hr. simpl.
      rewrite Hv. reflexivity.
    - simpl. do 2 f_equal. symmetry.
      eapply (class_static E R HE Hac n2216 cp Hcp); eauto.
  Qed.

  Lemma passes_virtual a k : passes cf (e_ti E) R w a k -> is_virtual_arg a = true.
  Proof. intros []; reflexivity. Qed.

  Section Method.
  Context (mi : nat) (m : cmethod) (t : table) (gs : list group_map).
  Context (Hm : mts !! mi = Some (m, t)) (Htok : table_ok E g n2216 m gs t)
    (Hgl : length gs = length (m_vp m)).
  Context (args : list N) (vs : list arg) (cs is : list nat).
  Context (Hcs : arg_classes g args cs) (Hvs : Forall2 (passes cf (e_ti E) R w) vs args)
    (Htd : Forall2 (fun c vp => c ∈ g_td g vp) cs (m_vp m)) (Hin : in_groups gs cs is).

  (* What the argument in position [d] contributes. *)
  Lemma arg_entry d a :
    vs !! d = Some a -> exists v i, arg_vptr cf w a = Ok v /\ is !! d = Some i /\
      exists y, entry_word cp buf gvt (VtblEntry mi d i) = Ok y /\
        read_word w v (s_slots s mi d) = Ok y.
  Proof.
    intros Ha.
    destruct (Forall2_lookup_l _ _ _ _ _ Hvs Ha) as (k & Hk & Hp).
    destruct (Forall2_lookup_l _ _ _ _ _ Hcs Hk) as (c & Hc & Hmap).
    destruct (Forall2_lookup_l _ _ _ _ _ Htd Hc) as (vp & Hvp & Hctd).
    destruct Hin as [_ Hin']. destruct (Hin' d c Hc) as (i & gm & key & gp & Hi & Hgm & Hgi & Hcg).
    apply mts_lookup in Hm as [Hm1 Hm2].
    destruct (entry_at E R HE Hac Har n2216 cp Hcp mi m t gs d vp gm c i key gp
                HT Hm1 Hm2 Htok Hvp Hgm Hctd Hgi Hcg) as [Hf He].
    destruct (arg_reads a k c Hp Hmap) as (v & Hv & Hr).
    exists v, i. split; [exact Hv|]. split; [exact Hi|]. apply Hr; assumption.
  Qed.

  Lemma mts_at : at_ mts mi = Ok (m, t).
  Proof. apply at_ok. exact Hm. Qed.

  Lemma vs_length : length vs = length (m_vp m) /\ length is = length (m_vp m).
  Proof.
    rewrite (Forall2_length _ _ _ Hvs), (Forall2_length _ _ _ Hcs), (Forall2_length _ _ _ Htd).
    split; [reflexivity|]. destruct Hin as [H _]. rewrite H. apply (Forall2_length _ _ _ Htd).
  Qed.

  Lemma ss_lookup : w_ss w (m_ss m) = method_slots s mi m ++ t_strides t.
  Proof.
    rewrite Hss. apply (wr_ss_ok _ _ _ _ _ Hok (ss_nodup E R HE Hac n2216 cp Hcp HA) _ _ _ Hm).
  Qed.

  Lemma slot_at d : d < length (m_vp m) -> at_ (w_ss w (m_ss m)) d = Ok (s_slots s mi d).
  Proof.
    intros Hd. apply at_ok. rewrite ss_lookup. unfold method_slots.
    rewrite lookup_app_l by (rewrite map_length, seq_length; exact Hd).
    change (map ?f ?l) with (f <$> l). rewrite list_lookup_fmap, lookup_seq_lt by exact Hd. reflexivity.
  Qed.

  Lemma stride_at d : 1 <= d < length (m_vp m) ->
    at_ (w_ss w (m_ss m)) (length (m_vp m) + d - 1) = Ok (prod (take d (map length gs))).
  Proof.
    intros Hd. apply at_ok. rewrite ss_lookup. unfold method_slots.
    rewrite lookup_app_r by (rewrite map_length, seq_length; lia).
    rewrite map_length, seq_length.
    replace (length (m_vp m) + d - 1 - length (m_vp m)) with (d - 1) by lia.
    rewrite (to_strides _ _ _ _ _ _ Htok), strides_lookup by (rewrite map_length; lia).
    do 3 f_equal. lia.
  Qed.

  Lemma resolve_uni_reads all c :
    length (m_vp m) = 1 -> virtual_args all = vs ->
    t_cells t !! flat_index (map length gs) is = Some c ->
    exists f, target_pf m (cl_target c) = Ok f /\
      resolve_uni cf w (w_ss w (m_ss m)) all = Ok (WPf f).
  Proof.
    intros H1 Hall Hcell. destruct vs_length as [Hlv Hli].
    destruct vs as [|a [|? ?]] eqn:Hvs_eq; simpl in Hlv; try lia.
    assert (Ha : vs !! 0 = Some a) by (rewrite Hvs_eq; reflexivity). rewrite <- Hvs_eq in *.
    destruct (arg_entry 0 a) as (v & i & Hv & Hi & y & Hy & Hr); [rewrite Hvs_eq; reflexivity|].
    assert (Hfi : flat_index (map length gs) is = i).
    { destruct gs as [|gm gs']; [simpl in Hgl; lia|]. destruct is as [|i0 [|? ?]]; simpl in Hli; try lia.
      simpl in Hi. injection Hi as ->. simpl. destruct gs'; [simpl; lia|simpl in Hgl; lia]. }
    rewrite Hfi in Hcell.
    unfold entry_word in Hy. simpl ve_method in Hy. simpl ve_group in Hy. rewrite mts_at in Hy.
    cbn [obind] in Hy. rewrite decide_True in Hy by exact H1.
    assert (Hat : at_ (t_cells t) i = Ok c) by (apply at_ok; exact Hcell).
    rewrite Hat in Hy. cbn [obind] in Hy. apply obind_ok in Hy as (f & Hf & [= <-]).
    exists f. split; [exact Hf|].
    assert (G : forall l, virtual_args l = [a] -> resolve_uni cf w (w_ss w (m_ss m)) l = Ok (WPf f)).
    { induction l as [|b l IH]; intros Hl; [discriminate|]. simpl.
      unfold virtual_args in Hl. rewrite filter_cons in Hl.
      destruct (is_virtual_arg b) eqn:Hb.
      - rewrite decide_True in Hl by reflexivity. injection Hl as -> _. rewrite Hv. cbn [obind].
        rewrite slot_at by lia. cbn [obind]. exact Hr.
      - rewrite decide_False in Hl by discriminate. apply IH. exact Hl. }
    apply G. rewrite Hall. exact Hvs_eq.
  Qed.

  Lemma resolve_next_reads gv d post :
    1 <= d < length (m_vp m) ->
    resolve_multi_next cf w (w_ss w (m_ss m)) (length (m_vp m)) d
      (VPtr buf (Z.of_nat (gv + flat_index (take d (map length gs)) (take d is))))
      (drop d vs ++ post) =
    read_word w (VPtr buf (Z.of_nat (gv + flat_index (map length gs) is))) 0.
  Proof.
    destruct vs_length as [Hlv Hli]. remember (length (m_vp m) - d) as k eqn:Hk.
    revert d Hk. induction k as [|k IH]; intros d Hk Hd; [lia|].
    destruct (lookup_lt_is_Some_2 vs d) as [a Ha]; [lia|].
    rewrite (drop_S _ _ _ Ha). rewrite <- app_comm_cons. cbn [resolve_multi_next].
    destruct (Forall2_lookup_l _ _ _ _ _ Hvs Ha) as (key & _ & Hp).
    rewrite (passes_virtual _ _ Hp).
    destruct (arg_entry d a Ha) as (v & i & Hv & Hi & y & Hy & Hr).
    rewrite Hv. cbn [obind]. rewrite slot_at by lia. cbn [obind].
    rewrite stride_at by lia. cbn [obind]. rewrite Hr. cbn [obind].
    unfold entry_word in Hy. simpl ve_method in Hy. simpl ve_group in Hy. simpl ve_vp in Hy.
    rewrite mts_at in Hy. cbn [obind] in Hy. rewrite !decide_False in Hy by lia. injection Hy as <-.
    cbn [word_i obind vptr_add].
    assert (Hfi := flat_index_take (map length gs) is d i).
    rewrite map_length in Hfi. specialize (Hfi ltac:(lia) Hi).
    replace (Z.of_nat (gv + flat_index (take d (map length gs)) (take d is)) +
             Z.of_nat (i * prod (take d (map length gs))))%Z
      with (Z.of_nat (gv + flat_index (take (S d) (map length gs)) (take (S d) is)))
      by (rewrite Hfi; lia).
    case_decide as Hlast.
    - assert (Hfull : take (S d) (map length gs) = map length gs)
        by (apply take_ge; rewrite map_length; lia).
      assert (Hfull2 : take (S d) is = is) by (apply take_ge; lia).
      rewrite Hfull, Hfull2. reflexivity.
    - replace (d + 1) with (S d) by lia. apply IH; lia.
  Qed.

  Lemma resolve_multi_reads all c :
    length (m_vp m) <> 1 -> virtual_args all = vs -> together all ->
    t_cells t !! flat_index (map length gs) is = Some c ->
    exists f, target_pf m (cl_target c) = Ok f /\
      resolve_multi_first cf w (w_ss w (m_ss m)) (length (m_vp m)) all = Ok (WPf f).
  Proof.
    intros H1 Hall Htog Hcell. destruct vs_length as [Hlv Hli].
    destruct (mts_table E R HE Hac Har n2216 cp Hcp _ _ _ Hm) as (_ & _ & _ & Hne).
    assert (Hpos : 0 < length (m_vp m)) by (destruct (m_vp m); [contradiction|simpl; lia]).
    destruct (wr_table _ _ _ _ _ Hok mi m t Hm H1) as (gv & Hgv & Hcells).
    destruct (Hcells _ _ Hcell) as (f & Hf & Hw). exists f. split; [exact Hf|].
    destruct (lookup_lt_is_Some_2 vs 0) as [a Ha]; [lia|].
    destruct (arg_entry 0 a Ha) as (v & i & Hv & Hi & y & Hy & Hr).
    unfold entry_word in Hy. simpl ve_method in Hy. simpl ve_group in Hy. simpl ve_vp in Hy.
    rewrite mts_at in Hy. cbn [obind] in Hy. rewrite decide_False in Hy by exact H1.
    rewrite decide_True in Hy by reflexivity.
    assert (Hat : at_ gvt mi = Ok gv) by (apply at_ok; exact Hgv).
    rewrite Hat in Hy. cbn [obind] in Hy. injection Hy as <-.
    destruct Htog as (pre & post & Heq & Hpre & _). rewrite Hall in Heq.
    rewrite Heq. clear Heq.
    induction pre as [|b pre IH].
    - simpl app. rewrite <- (drop_0 vs), (drop_S _ _ _ Ha), <- app_comm_cons. cbn [resolve_multi_first].
      destruct (Forall2_lookup_l _ _ _ _ _ Hvs Ha) as (key & _ & Hp).
      rewrite (passes_virtual _ _ Hp), Hv. cbn [obind]. rewrite slot_at by lia. cbn [obind].
      rewrite Hr. cbn [obind word_pw].
      assert (Hz : flat_index (take 1 (map length gs)) (take 1 is) = i).
      { destruct is as [|i0 is']; [discriminate|]. simpl in Hi. injection Hi as ->.
        destruct gs as [|gm gs']; [simpl in Hgl; lia|]. simpl. lia. }
      rewrite <- Hz. rewrite resolve_next_reads by lia.
      eapply read_buf; [|exact Hw]. lia.
    - apply Forall_cons in Hpre as [Hb Hpre]. simpl. rewrite Hb. apply IH. exact Hpre.
  Qed.

  (* The function entered by the call. *)
  Lemma resolve_reads mr all c :
    mr_slots_strides mr = m_ss m -> length (mr_vp mr) = length (m_vp m) ->
    virtual_args all = vs -> (length (m_vp m) <> 1 -> together all) ->
    t_cells t !! flat_index (map length gs) is = Some c ->
    exists f, target_pf m (cl_target c) = Ok f /\ resolve cf w mr all = Ok f.
  Proof.
    intros Hmr Hl Hall Htog Hcell. unfold resolve. rewrite Hmr, Hl.
    unfold require_initialized. rewrite (in_init _ _ _ _ HI).
    rewrite decide_False by (intros [_ ?]; discriminate). cbn [obind].
    case_decide as H1.
    - destruct (resolve_uni_reads all c H1 Hall Hcell) as (f & Hf & Hr). exists f.
      split; [exact Hf|]. rewrite Hr. reflexivity.
    - destruct (resolve_multi_reads all c H1 Hall (Htog H1) Hcell) as (f & Hf & Hr). exists f.
      split; [exact Hf|]. rewrite Hr. reflexivity.
  Qed.
  End Method.
  End Written.

  (* From the classes of the arguments to the cell. *)
  Lemma call_cell mr all args :
    mr ∈ reg_methods R -> Forall2 (passes cf (e_ti E) R w) (virtual_args all) args ->
    valid_args (e_ti E) R mr args -> (length (mr_vp mr) <> 1 -> together all) ->
    exists mi m t gs cs is, cp_methods cp !! mi = Some m /\ reg_methods R !! mi = Some mr /\
      method_ok E g mr m /\ table_ok E g n2216 m gs t /\ arg_classes g args cs /\
      Forall2 (fun c vp => c ∈ g_td g vp) cs (m_vp m) /\ in_groups gs cs is /\
      forall c, t_cells t !! flat_index (map length gs) is = Some c ->
        exists f, target_pf m (cl_target c) = Ok f /\ resolve cf w mr all = Ok f.
  Proof.
    intros Hmr Hvs Hva Htog.
    pose proof (compile_inv E R HE Hac n2216 cp Hcp) as HCI.
    pose proof (co_graph _ _ _ _ HCI) as HG. pose proof (go_classes _ _ _ HG) as HC.
    apply elem_of_list_lookup in Hmr as [mi Hmi].
    destruct (Forall2_lookup_l _ _ _ _ _ (co_methods _ _ _ _ HCI) Hmi) as (m & Hm & Hmok).
    destruct (cp_tables_ok E R HE Hac n2216 cp Hcp) as (gss & _ & _ & Htabs & _).
    destruct (Htabs mi m Hm) as (gs & t & _ & Ht & Htok).
    destruct (method_arity E R HE Hac Har n2216 cp Hcp _ _ _ Hm Hmi) as (_ & Hao & Hao' & Hne).
    destruct (table_groups E g HE _ _ _ _ Htok Hao') as [Hgl _].
    assert (Hcs : exists cs, arg_classes g args cs).
    { unfold valid_args in Hva. clear -Hva HC. induction Hva as [|a v l l' [Hr _] _ IH].
      - exists []. constructor.
      - destruct IH as [cs Hcs]. assert (is_Some (g_map g a)) as [c Hc] by (apply (co_dom _ _ _ _ HC); exact Hr).
        exists (c :: cs). constructor; assumption. }
    destruct Hcs as [cs Hcs].
    pose proof (Forall2_length _ _ _ Hcs) as L1. pose proof (Forall2_length _ _ _ Hva) as L2.
    pose proof (Forall2_length _ _ _ (mo_vp _ _ _ _ Hmok)) as L3.
    assert (Htd : Forall2 (fun c vp => c ∈ g_td g vp) cs (m_vp m)).
    { apply Forall2_same_length_lookup_2; [lia|]. intros d c vp Hc Hvp.
      destruct (Forall2_lookup_r _ _ _ _ _ Hcs Hc) as (a & Ha & Hmap).
      destruct (Forall2_lookup_l _ _ _ _ _ Hva Ha) as (v & Hv & _ & Hd).
      destruct (Forall2_lookup_r _ _ _ _ _ (mo_vp _ _ _ _ Hmok) Hvp) as (v' & Hv' & Hvmap).
      replace v' with v in * by congruence.
      apply (map_td E R g HG _ _ _ _ Hmap Hvmap). exact Hd. }
    destruct (in_groups_exist E g HE mr m Hmok Hao n2216 gs t cs Htok Htd) as [is Hin].
    exists mi, m, t, gs, cs, is. do 7 (split; [assumption|]).
    destruct (in_written _ _ _ _ HI) as (buf & wr & gvt & Hok & _ & Hheap & Hst & Hss & _).
    assert (Hmt : mts !! mi = Some (m, t)) by (apply mts_lookup; auto).
    intros c Hcell.
    eapply (resolve_reads buf wr gvt Hok Hheap Hst Hss mi m t gs Hmt Htok Hgl args
              (virtual_args all) cs is Hcs Hvs Htd Hin mr all c); auto.
    - symmetry. apply (mo_ss _ _ _ _ Hmok).
    - rewrite L3 in Htog. exact Htog.
  Qed.
End Resolve.
