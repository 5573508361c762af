(* The contents of the v-tables after the compilation stage. *)
From stdpp Require Import base list numbers list_numbers relations.
From Verif Require Import Base Registry Spec ModelClasses ModelMethods ModelSlots ModelTables
  ModelHash ModelWorld
  ProofBase ProofClasses ProofGraph ProofMethods ProofBits ProofSlots ProofSelect ProofTables
  ProofCompile ProofErrors.

Lemma elem_of_resize {A} n (x : A) l y : y ∈ resize n x l -> y = x \/ y ∈ l.
Proof.
  intros H. apply elem_of_list_lookup in H as [i Hi].
  destruct (decide (i < length l)) as [Hl|Hl].
  - right. destruct (decide (i < n)) as [Hn|Hn].
    + rewrite lookup_resize in Hi by assumption. eapply elem_of_list_lookup_2; eauto.
    + rewrite lookup_resize_old in Hi by lia. discriminate.
  - left. destruct (decide (i < n)) as [Hn|Hn].
    + rewrite lookup_resize_new in Hi by lia. congruence.
    + rewrite lookup_resize_old in Hi by lia. discriminate.
Qed.

(* Before the tables are built, all the entries have the same default value. *)
Section Default.
  Context (E : env) (g : graph) (u : vp_map).

  Definition default_entries (s : slot_state) : Prop :=
    forall Z e, e ∈ s_vtbl s Z -> e = vtbl_entry0.

  Lemma resize_default s cls k sl us r mk f :
    default_entries s ->
    default_entries (SlotState sl us r mk f
      (upd (s_vtbl s) cls (resize k vtbl_entry0 (s_vtbl s cls)))).
  Proof.
    intros H Z e. simpl. destruct (decide (Z = cls)) as [->|Hne].
    - rewrite upd_eq. intros [?|He]%elem_of_resize; [assumption|eauto].
    - rewrite upd_ne by exact Hne. apply H.
  Qed.

  Lemma tree_default dd fuel cls b s s' :
    assign_tree_slots dd u fuel cls b s = Ok s' -> default_entries s -> default_entries s'.
  Proof.
    revert cls b s s'. induction fuel as [|fuel IH]; intros cls b s s' H Hs; [discriminate|].
    simpl in H. destruct (foldl _ _ _) as [sl next].
    eapply (foldM_inv_ok default_entries); [exact H| |].
    - apply resize_default. exact Hs.
    - intros x s1 s2 _ H1 H2. cbv beta in H2. eapply IH; eauto.
  Qed.

  Lemma lattice_slot_vtbl cls s mp :
    s_vtbl (lattice_slot E g cls s mp) = s_vtbl s.
  Proof. unfold lattice_slot. destruct (foldl _ (_, _) _). reflexivity. Qed.

  Lemma lattice_default mark fuel cls s s' :
    assign_lattice_slots E g u mark fuel cls s = Ok s' -> default_entries s -> default_entries s'.
  Proof.
    revert cls s s'. induction fuel as [|fuel IH]; intros cls s s' H Hs; [discriminate|].
    simpl in H. case_decide; [injection H as <-; exact Hs|].
    eapply (foldM_inv_ok default_entries); [exact H| |].
    - apply (foldl_inv default_entries); [exact Hs|].
      intros mp s1 _ H1. unfold default_entries. rewrite lattice_slot_vtbl. exact H1.
    - intros x s1 s2 _ H1 H2. cbv beta in H2. eapply IH; eauto.
  Qed.

  Lemma slots_default s : assign_slots E g u = Ok s -> default_entries s.
  Proof.
    unfold assign_slots. intros H. apply obind_ok in H as (s1 & H1 & [= <-]).
    apply (foldl_inv default_entries).
    - eapply (foldM_inv_ok default_entries); [exact H1| |].
      + intros Z e He. inversion He.
      + intros x s2 s3 _ H2 H3. unfold assign_root in H3.
        destruct (g_db g x); [|injection H3 as <-; exact H2].
        case_decide; [eapply lattice_default|eapply tree_default]; eauto.
    - intros c s2 _ H2. unfold allocate_vtbl. destruct (s_used s2 c); [exact H2|].
      apply resize_default. exact H2.
  Qed.

  (* Without methods, the v-tables are empty. *)
  Context (Hnone : forall X, u X = []).

  Definition no_entries (s : slot_state) : Prop :=
    forall Z, s_vtbl s Z = [] /\ s_used s Z = [].

  Lemma tree_none dd fuel cls s s' :
    assign_tree_slots dd u fuel cls 0 s = Ok s' -> no_entries s -> no_entries s'.
  Proof.
    revert cls s s'. induction fuel as [|fuel IH]; intros cls s s' H Hs; [discriminate|].
    simpl in H. rewrite Hnone in H. simpl in H.
    eapply (foldM_inv_ok no_entries); [exact H| |].
    - intros Z. simpl. split; [|apply Hs]. destruct (decide (Z = cls)) as [->|Hne].
      + rewrite upd_eq. apply nil_length_inv. apply resize_length.
      + rewrite upd_ne by exact Hne. apply Hs.
    - intros x s1 s2 _ H1 H2. cbv beta in H2. eapply IH; eauto.
  Qed.

  Lemma lattice_none mark fuel cls s s' :
    assign_lattice_slots E g u mark fuel cls s = Ok s' -> no_entries s -> no_entries s'.
  Proof.
    revert cls s s'. induction fuel as [|fuel IH]; intros cls s s' H Hs; [discriminate|].
    simpl in H. case_decide; [injection H as <-; exact Hs|]. rewrite Hnone in H. simpl in H.
    eapply (foldM_inv_ok no_entries); [exact H|exact Hs|].
    intros x s1 s2 _ H1 H2. cbv beta in H2. eapply IH; eauto.
  Qed.

  Lemma slots_none s : assign_slots E g u = Ok s -> forall Z, s_vtbl s Z = [].
  Proof.
    unfold assign_slots. intros H. apply obind_ok in H as (s1 & H1 & [= <-]).
    assert (G : no_entries s1).
    { eapply (foldM_inv_ok no_entries); [exact H1| |].
      - intros Z. split; reflexivity.
      - intros x s2 s3 _ H2 H3. unfold assign_root in H3.
        destruct (g_db g x); [|injection H3 as <-; exact H2].
        case_decide; [eapply lattice_none|eapply tree_none]; eauto. }
    intros Z. apply (foldl_inv no_entries); [exact G|].
    intros c s2 _ H2. unfold allocate_vtbl. destruct (H2 c) as [_ ->]. exact H2.
  Qed.
End Default.

(* A class with a v-table entry: there is a method. *)
Lemma slots_some E g ms u s Z e :
  uses_ok ms u -> assign_slots E g u = Ok s -> e ∈ s_vtbl s Z -> ms <> [].
Proof.
  intros HU Hs He ->.
  assert (Hnone : forall X, u X = []).
  { intros X. destruct (u X) as [|[mi p] l] eqn:Hu; [reflexivity|].
    assert (H : (mi, p) ∈ u X) by (rewrite Hu; left).
    apply HU in H as (m & Hm & _). discriminate. }
  rewrite (slots_none E g u Hnone s Hs Z) in He. inversion He.
Qed.

Section Entries.
  Context (E : env) (R : registrations).
  Context (HE : env_ok E) (Hac : acyclic (e_ti E) R) (Har : arity_ok R).
  Notation ti := (e_ti E).
  Context (n2216 : bool) (cp : compiled) (Hcp : compile E n2216 R = Ok cp).
  Notation g := (cp_graph cp).
  Notation s := (cp_slots cp).
  Notation T := (cp_tables cp).

  Let HC : compile_ok E R n2216 cp := compile_inv E R HE Hac n2216 cp Hcp.
  Let HG : graph_ok E R g := co_graph _ _ _ _ HC.

  Lemma cp_uses : exists u, assign_slots E g u = Ok s /\ uses_ok (cp_methods cp) u /\
    slots_ok E R g u s.
  Proof.
    pose proof Hcp as H. unfold compile in H. apply obind_ok in H as (g0 & Hg & H).
    apply obind_ok in H as ([ms u] & Hms & H). apply obind_ok in H as (s0 & Hs & H).
    apply obind_ok in H as (t & Ht & Heq). injection Heq as Heq. subst cp. simpl in *.
    destruct (augment_classes_inv E R HE Hac g0 Hg) as [_ HG0].
    destruct (augment_methods_ok _ _ _ _ _ Hms) as (H1 & H2 & H3).
    destruct (assign_slots_ok E R g0 ms u HE HG0 H3) as (s' & Hs' & Hsok).
    replace s' with s0 in * by congruence. exists u. auto.
  Qed.

  Lemma method_arity mi m mr :
    cp_methods cp !! mi = Some m -> reg_methods R !! mi = Some mr ->
    method_ok E g mr m /\
    (forall o, o ∈ mr_overriders mr -> length (or_vp o) = length (mr_vp mr)) /\
    (forall o, o ∈ m_ovs m -> length (ov_vp o) = length (m_vp m)) /\ m_vp m <> [].
  Proof.
    intros Hm Hmr. pose proof (Forall2_lookup_lr _ _ _ _ _ _ (co_methods _ _ _ _ HC) Hmr Hm) as Hok.
    destruct (Har mr (elem_of_list_lookup_2 _ _ _ Hmr)) as [Hne Hl].
    split; [exact Hok|]. split; [exact Hl|]. split.
    - apply (ovs_arity E g mr m Hok Hl).
    - intros Hnil. pose proof (method_ok_arity _ _ _ _ Hok) as Hlen. rewrite Hnil in Hlen.
      destruct (mr_vp mr); [contradiction|discriminate].
  Qed.

  Lemma method_record_of mi m :
    cp_methods cp !! mi = Some m -> exists mr, reg_methods R !! mi = Some mr.
  Proof.
    intros Hm. destruct (Forall2_lookup_r _ _ _ _ _ (co_methods _ _ _ _ HC) Hm) as (mr & Hmr & _).
    eauto.
  Qed.

  Lemma cp_tables_ok :
    exists gss, length gss = length (cp_methods cp) /\
      length (tb_tables T) = length (cp_methods cp) /\
      (forall mi m, cp_methods cp !! mi = Some m -> exists gs t,
         gss !! mi = Some gs /\ tb_tables T !! mi = Some t /\ table_ok E g n2216 m gs t) /\
      foldM (set_q s) (all_writes gss) (s_vtbl s) = Ok (tb_vtbl T).
  Proof.
    destruct (build_tables_ok _ _ _ _ _ _ (co_tables _ _ _ _ HC)) as (gss & H1 & H2 & H3 & H4 & _).
    eauto 8.
  Qed.

  (* A v-table entry that a method call can use. *)
  Definition entry_valid (e : vtbl_entry) : Prop :=
    exists m t gs gm, cp_methods cp !! ve_method e = Some m /\
      tb_tables T !! ve_method e = Some t /\ table_ok E g n2216 m gs t /\
      gs !! ve_vp e = Some gm /\ ve_group e < length gm.

  Lemma vp_lt m mi d vp : cp_methods cp !! mi = Some m -> m_vp m !! d = Some vp -> vp < g_n g.
  Proof.
    intros Hm Hd. destruct (method_record_of mi m Hm) as (mr & Hmr).
    destruct (method_arity _ _ _ Hm Hmr) as (Hok & _).
    destruct (Forall2_lookup_r _ _ _ _ _ (mo_vp _ _ _ _ Hok) Hd) as (t & _ & Ht).
    eapply (map_lt E R g HG); eauto.
  Qed.

  Lemma groups_nonempty mi m gs t d gm :
    cp_methods cp !! mi = Some m -> table_ok E g n2216 m gs t -> gs !! d = Some gm -> 0 < length gm.
  Proof.
    intros Hm Ht Hgm. destruct (method_record_of mi m Hm) as (mr & Hmr).
    destruct (method_arity _ _ _ Hm Hmr) as (_ & _ & Ho & _).
    destruct (table_groups E g HE _ _ _ _ Ht Ho) as [Hl Hgr].
    assert (exists vp, m_vp m !! d = Some vp) as [vp Hvp].
    { apply lookup_lt_is_Some. rewrite <- Hl. eapply lookup_lt_Some; eauto. }
    destruct (groups_of g _ _ _ _ vp (Hgr d vp gm Hvp Hgm)) as (gi & gp & Hgi & _).
    - apply (proj2 (go_td _ _ _ HG vp (vp_lt _ _ _ _ Hm Hvp))). constructor.
    - apply lookup_lt_Some in Hgi. lia.
  Qed.

  Lemma all_entries_valid c e : e ∈ tb_vtbl T c -> entry_valid e.
  Proof.
    intros He. destruct cp_tables_ok as (gss & G1 & G2 & G3 & G4).
    destruct cp_uses as (u & U1 & U2 & U3).
    apply elem_of_list_lookup in He as [j Hj].
    destruct (writes_ok _ _ _ _ G4) as (_ & _ & W3 & _).
    destruct (W3 _ _ _ Hj) as [H0|(q & Hq & _ & <-)].
    - (* an entry never written: it stays as resize left it *)
      apply elem_of_list_lookup_2 in H0.
      pose proof (slots_default E g u s U1 _ _ H0) as ->.
      pose proof (slots_some E g _ u s c _ U2 U1 H0) as Hne.
      assert (exists m, cp_methods cp !! 0 = Some m) as [m Hm].
      { destruct (cp_methods cp) as [|m l]; [contradiction|]. exists m. reflexivity. }
      destruct (G3 0 m Hm) as (gs & t & Hgs & Ht & Htok).
      destruct (method_record_of 0 m Hm) as (mr & Hmr).
      destruct (method_arity _ _ _ Hm Hmr) as (_ & _ & Ho & Hvp).
      destruct (table_groups E g HE _ _ _ _ Htok Ho) as [Hl _].
      assert (exists gm, gs !! 0 = Some gm) as [gm Hgm].
      { apply lookup_lt_is_Some. rewrite Hl. destruct (m_vp m); [contradiction|]. simpl. lia. }
      exists m, t, gs, gm. split; [exact Hm|]. split; [exact Ht|]. split; [exact Htok|].
      split; [exact Hgm|]. apply (groups_nonempty 0 m gs t 0 gm Hm Htok Hgm).
    - apply all_writes_elem in Hq as (mi & gs & d & gm & gi & k & gp & c' & -> & K1 & K2 & K3 & _).
      assert (exists m, cp_methods cp !! mi = Some m) as [m Hm].
      { apply lookup_lt_is_Some. rewrite <- G1. eapply lookup_lt_Some; eauto. }
      destruct (G3 mi m Hm) as (gs' & t & Hgs & Ht & Htok).
      replace gs' with gs in * by congruence.
      exists m, t, gs, gm. simpl. split; [exact Hm|]. split; [exact Ht|]. split; [exact Htok|].
      split; [exact K2|]. eapply lookup_lt_Some; eauto.
  Qed.

  (* The entry of a (method, parameter) in the v-table of a class that can be
     passed there. *)
  Lemma entry_at mi m t gs d vp gm c i k gp :
    tb_complete E R g ->
    cp_methods cp !! mi = Some m -> tb_tables T !! mi = Some t -> table_ok E g n2216 m gs t ->
    m_vp m !! d = Some vp -> gs !! d = Some gm -> c ∈ g_td g vp ->
    gm !! i = Some (k, gp) -> c ∈ gp_classes gp ->
    s_first s c <= s_slots s mi d /\
    tb_vtbl T c !! (s_slots s mi d - s_first s c) = Some (VtblEntry mi d i).
  Proof.
    intros Htb Hm Ht Htok Hvp Hgm Hc Hi Hgc.
    destruct cp_tables_ok as (gss & G1 & G2 & G3 & G4).
    destruct cp_uses as (u & U1 & U2 & U3).
    destruct (G3 mi m Hm) as (gs' & t' & Hgs & Ht' & Htok').
    assert (gs' = gs) as ->.
    { pose proof (to_groups _ _ _ _ _ _ Htok) as H1. pose proof (to_groups _ _ _ _ _ _ Htok') as H2.
      congruence. }
    destruct (slot_range E R g _ u s mi m d vp c HG U2 U3 (co_methods _ _ _ _ HC) Hm Hvp Hc)
      as [Hr _].
    split; [exact Hr|].
    destruct (writes_ok _ _ _ _ G4) as (_ & _ & _ & W4).
    set (q := (mi, d, i, c)).
    assert (Hq : q ∈ all_writes gss).
    { apply all_writes_elem. exists mi, gs, d, gm, i, k, gp, c. auto. }
    apply (W4 q Hq).
    intros q' Hq' Hcls Hslot.
    apply all_writes_elem in Hq'
      as (mi' & gs2 & d' & gm' & gi' & k' & gp' & c' & -> & K1 & K2 & K3 & K4).
    unfold q_class, q in Hcls. simpl in Hcls. subst c'.
    unfold q_slot, q in Hslot.
    assert (exists m', cp_methods cp !! mi' = Some m') as [m' Hm'].
    { apply lookup_lt_is_Some. rewrite <- G1. eapply lookup_lt_Some; eauto. }
    destruct (G3 mi' m' Hm') as (gs3 & t3 & Hgs3 & Ht3 & Htok3).
    replace gs3 with gs2 in * by congruence.
    destruct (method_record_of mi' m' Hm') as (mr' & Hmr').
    destruct (method_arity _ _ _ Hm' Hmr') as (_ & _ & Ho' & _).
    destruct (table_groups E g HE _ _ _ _ Htok3 Ho') as [Hl' Hgr'].
    assert (exists vp', m_vp m' !! d' = Some vp') as [vp' Hvp'].
    { apply lookup_lt_is_Some. rewrite <- Hl'. eapply lookup_lt_Some; eauto. }
    assert (Hc' : c ∈ g_td g vp').
    { destruct (gr_classes _ _ _ _ _ (Hgr' d' vp' gm' Hvp' K2) k' gp') as [_ Hx];
        [eapply elem_of_list_lookup_2; eauto|]. apply Hx in K4. tauto. }
    assert (Hmp : (mi', d') = (mi, d)).
    { destruct (decide ((mi', d') = (mi, d))) as [|Hne]; [assumption|]. exfalso.
      apply (so_sep _ _ _ _ _ U3 Htb vp' vp (mi', d') (mi, d) c Hne).
      - apply (proj2 (U2 vp')). exists m'. auto.
      - apply (proj2 (U2 vp)). exists m. auto.
      - exact (vp_lt m' mi' d' vp' Hm' Hvp').
      - exact (vp_lt m mi d vp Hm Hvp).
      - apply (go_td_sound _ _ _ HG). exact Hc'.
      - apply (go_td_sound _ _ _ HG). exact Hc.
      - exact Hslot. }
    injection Hmp as -> ->. unfold q_entry, q. f_equal.
    replace gs2 with gs in * by congruence. replace gm' with gm in * by congruence.
    replace m' with m in * by congruence.
    eapply (groups_unique g); [apply (Hgr' d vp gm Hvp Hgm)|exact K3|exact Hi|exact K4|exact Hgc].
  Qed.
End Entries.
