(* next and has_next. *)
From stdpp Require Import base list numbers list_numbers relations.
From Verif Require Import Base Registry Spec ModelClasses ModelMethods ModelSlots ModelTables
  ModelHash ModelWorld ModelCall SpecCall
  ProofBase ProofClasses ProofGraph ProofMethods ProofBits ProofSlots ProofSelect ProofTables
  ProofCompile ProofErrors ProofEntries ProofWrite ProofHash ProofWorld ProofCall ProofCells
  ProofDispatch ProofBehaviour.

Section SpecNext.
  Context (ti : N -> N) (R : registrations) (Hac : acyclic ti R).
  Notation derives := (derives ti R).

  Lemma pointwise_transitive ovs cand :
    pointwise ti R ovs cand -> transitive_dominance ti R ovs cand.
  Proof.
    intros HP i j k a b c Ha Hb Hc Ci Cj Ck D1 D2.
    pose proof (HP i j a b Ha Hb Ci Cj D1) as Pab. pose proof (HP j k b c Hb Hc Cj Ck D2) as Pbc.
    destruct D1 as [(p & x & y & Hx & Hy & Dxy & Nxy) _].
    pose proof (Forall2_length _ _ _ Pab) as L1. pose proof (Forall2_length _ _ _ Pbc) as L2.
    assert (Pac : forall q u v, or_vp a !! q = Some u -> or_vp c !! q = Some v ->
      exists z, or_vp b !! q = Some z /\ derives (ti u) (ti z) /\ derives (ti z) (ti v)).
    { intros q u v Hu Hv. destruct (Forall2_lookup_l _ _ _ _ _ Pab Hu) as (z & Hz & Duz).
      destruct (Forall2_lookup_l _ _ _ _ _ Pbc Hz) as (v' & Hv' & Dzv).
      replace v' with v in * by congruence. eauto. }
    split.
    - destruct (Forall2_lookup_l _ _ _ _ _ Pbc Hy) as (z & Hz & Dyz).
      exists p, x, z. split; [exact Hx|]. split; [exact Hz|]. split; [etransitivity; eauto|].
      intros Heq. rewrite <- Heq in Dyz. apply Nxy. eapply derives_antisym; eauto.
    - intros (q & v & u & Hv & Hu & Dvu & Nvu). destruct (Pac q u v Hu Hv) as (z & _ & D & D').
      apply Nvu. eapply derives_antisym; eauto. etransitivity; eauto.
  Qed.

  Lemma comparable_pointwise m args :
    arity_ok R -> m ∈ reg_methods R ->
    comparable ti R (mr_overriders m) (candidate ti R (mr_overriders m) args) ->
    pointwise ti R (mr_overriders m) (candidate ti R (mr_overriders m) args).
  Proof.
    intros Har Hm Hc i j a b Ha Hb Ci Cj [_ Hn]. destruct (Har m Hm) as [_ Hlen].
    apply Forall2_same_length_lookup_2.
    { rewrite !Hlen by (eapply elem_of_list_lookup_2; eauto). reflexivity. }
    intros p x y Hx Hy. destruct (Hc i j a b Ha Hb Ci Cj p x y Hx Hy) as [D|D]; [exact D|].
    destruct (decide (ti x = ti y)) as [->|Hne]; [constructor|].
    destruct Hn. exists p, y, x. split; [exact Hy|]. split; [exact Hx|]. split; [exact D|congruence].
  Qed.

  Lemma uni_pointwise m args :
    arity_ok R -> m ∈ reg_methods R -> length (mr_vp m) = 1 ->
    pointwise ti R (mr_overriders m) (candidate ti R (mr_overriders m) args).
  Proof.
    intros Har Hm H1 i j a b Ha Hb _ _ [(p & x & y & Hx & Hy & D & _) _].
    destruct (Har m Hm) as [_ Hlen].
    pose proof (Hlen a (elem_of_list_lookup_2 _ _ _ Ha)) as La.
    pose proof (Hlen b (elem_of_list_lookup_2 _ _ _ Hb)) as Lb.
    assert (p = 0) as -> by (apply lookup_lt_Some in Hx; lia).
    apply Forall2_same_length_lookup_2; [lia|]. intros q u v Hu Hv.
    assert (q = 0) as -> by (apply lookup_lt_Some in Hu; lia). congruence.
  Qed.

  (* An overrider dominates all those that accept the arguments it names, except
     those with the same parameters. *)
  Lemma own_dominates ovs i j a b :
    ovs !! i = Some a -> ovs !! j = Some b -> unique_signature ti ovs i ->
    applicable ti R (map ti (or_vp a)) b -> j <> i -> dominates ti R a b.
  Proof.
    intros Ha Hb Hu Happ Hne. unfold applicable in Happ. rewrite Forall2_fmap_l in Happ.
    split.
    - destruct (decide (Forall2 (fun x y => ti x = ti y) (or_vp a) (or_vp b))) as [Heq|Hd].
      { exfalso. apply Hne. eapply Hu; eauto. clear -Heq. induction Heq; simpl; congruence. }
      clear -Happ Hd. revert Hd Happ. generalize (or_vp a) as l, (or_vp b) as k. intros l k Hd Happ.
      induction Happ as [|x y l k D _ IH]; [destruct Hd; constructor|].
      destruct (decide (ti x = ti y)) as [Heq|Hxy].
      + destruct IH as (p & u & v & H1 & H2 & H3).
        { intros H. apply Hd. constructor; assumption. }
        exists (S p), u, v. auto.
      + exists 0, x, y. split; [reflexivity|]. split; [reflexivity|]. split; assumption.
    - intros (p & y & x & Hy & Hx & D & Nyx).
      destruct (Forall2_lookup_l _ _ _ _ _ Happ Hx) as (y' & Hy' & D'). replace y' with y in * by congruence.
      apply Nyx. eapply derives_antisym; eauto.
  Qed.

  Lemma applicable_trans args a b :
    applicable ti R args a -> applicable ti R (map ti (or_vp a)) b -> applicable ti R args b.
  Proof.
    unfold applicable. intros H1 H2. rewrite Forall2_fmap_l in H2.
    revert H2. generalize (or_vp b). induction H1 as [|x y l k D _ IH]; intros l' H2; inversion H2; subst;
      constructor; [etransitivity; eauto|auto].
  Qed.
End SpecNext.

Section Next.
  Context (cf : config) (X : run) (R : registrations) (w : world).
  Notation E := (r_env X).
  Notation ti := (e_ti (r_env X)).
  Context (HP : program_ok cf (r_env X) R) (HW : initialized_by cf X false R w).
  Context (mr : method_record) (i : nat) (o : overrider_record).
  Context (Hmr : mr ∈ reg_methods R) (Hoi : mr_overriders mr !! i = Some o).
  Notation ovs := (mr_overriders mr).

  Lemma own_valid n2216 cp mi m gs t :
    compile E n2216 R = Ok cp -> has_table E R n2216 cp mi mr m gs t ->
    valid_args ti R mr (map ti (or_vp o)).
  Proof.
    intros Hcp HT. destruct HP as [HE Hac Har _ _ _].
    pose proof (compile_inv E R HE Hac n2216 cp Hcp) as HCI. pose proof (co_graph _ _ _ _ HCI) as HG.
    pose proof (go_classes _ _ _ HG) as HC.
    unfold valid_args. rewrite Forall2_fmap_l.
    apply Forall2_same_length_lookup_2.
    { apply (ht_arity _ _ _ _ _ _ _ _ _ HT). eapply elem_of_list_lookup_2; eauto. }
    intros p x v Hx Hv. split.
    - apply (co_named _ _ _ _ HCI). right. exists mr. split; [exact Hmr|]. right. exists o.
      split; [eapply elem_of_list_lookup_2; eauto|]. left. eapply elem_of_list_lookup_2; eauto.
    - pose proof (ht_ok _ _ _ _ _ _ _ _ _ HT) as Hmok.
      destruct (Forall2_lookup_l _ _ _ _ _ (mo_vp _ _ _ _ Hmok) Hv) as (vp & Hvp & Hvm).
      destruct (Forall2_lookup_l _ _ _ _ _ (mo_ovs _ _ _ _ Hmok) Hoi) as (o' & Ho' & Hok).
      destruct (Forall2_lookup_l _ _ _ _ _ (oo_vp _ _ _ _ Hok) Hx) as (c & Hc & Hcm).
      destruct (co_params _ _ _ _ HCI m (elem_of_list_lookup_2 _ _ _ (ht_method _ _ _ _ _ _ _ _ _ HT))
        p vp o' Hvp (elem_of_list_lookup_2 _ _ _ Ho')) as (c' & Hc' & Hor).
      replace c' with c in * by congruence. destruct Hor as [->|Htd].
      + rewrite (co_inj _ _ _ _ HC _ _ _ Hcm Hvm). constructor.
      + apply (map_td E R _ HG _ _ _ _ Hcm Hvm). exact Htd.
  Qed.

  Context (Hu : unique_signature ti ovs i).

  (* The overrider that a cell designates as next of [i] is the one that the rule selects. *)
  Lemma cell_next_selects cp mi m gs t j c tg :
    (forall args, valid_args ti R mr args -> pointwise ti R ovs (candidate ti R ovs args)) ->
    compile E false R = Ok cp -> has_table E R false cp mi mr m gs t ->
    t_cells t !! j = Some c -> cl_next c = Some (i, tg) ->
    selects_next ti R ovs i (sel_of tg) /\
    (forall sel', selects_next ti R ovs i sel' -> sel' = sel_of tg) /\
    exists f, target_pf m tg = Ok f /\ selected_fn mr (sel_of tg) = Some f.
  Proof.
    intros Hpw Hcp HT Hj Hnx. destruct HP as [HE Hac Har Hids Hn HA].
    pose proof (compile_inv E R HE Hac false cp Hcp) as HCI. pose proof (co_graph _ _ _ _ HCI) as HG.
    pose proof (ht_ok _ _ _ _ _ _ _ _ _ HT) as Hmok. pose proof (ht_arity _ _ _ _ _ _ _ _ _ HT) as Hao.
    pose proof (ht_tok _ _ _ _ _ _ _ _ _ HT) as Htok.
    assert (Hanti := base_anti E R (cp_graph cp) HG).
    set (own := map ti (or_vp o)).
    assert (Hown : valid_args ti R mr own).
    { eapply own_valid; eauto. }
    assert (Hself : candidate ti R ovs own i).
    { exists o. split; [exact Hoi|]. unfold applicable, own. rewrite Forall2_fmap_l.
      apply Forall2_same_length_lookup_2; [reflexivity|]. intros p x y Hx Hy.
      replace y with x by congruence. constructor. }
    destruct (cell_args E R HE Hac false cp Hcp _ _ _ _ _ HT j c Hj) as (args & cs & is & Hva & [A1 A2 A3] & Hidx).
    destruct (cell_selects E R (cp_graph cp) HE HG mr m Hmok Hao gs t args cs is Htok A1 A2 A3)
      as (c' & l & Hcell & Hnd & Hl & Hck).
    rewrite <- Hidx, Hj in Hcell. injection Hcell as <-.
    pose proof (ck_target _ _ _ _ Hck) as Hel. pose proof (ck_next _ _ _ _ Hck) as Hck'.
    destruct (cl_target c) as [| |i'] eqn:Ht; try congruence.
    destruct Hck' as (tg' & l' & Hnx' & Hnd' & Hl' & Hel'). rewrite Hnx in Hnx'. injection Hnx' as <- <-.
    assert (Hci : candidate ti R ovs args i) by (apply Hl; eapply elim_in; eauto).
    assert (Hlt : forall x, candidate ti R ovs args x -> exists ox, ovs !! x = Some ox) by (intros x (ox & Hox & _); eauto).
    (* overrider i dominates the others *)
    assert (Hdom : forall x ox, candidate ti R ovs args x -> x <> i -> ovs !! x = Some ox -> dominates ti R o ox).
    { intros x ox Hx Hne Hox.
      pose proof (pointwise_transitive ti R Hac _ _ (Hpw args Hva)) as Htr.
      assert (Htr' : forall x y z, x ∈ l -> y ∈ l -> z ∈ l ->
        ms_at (cp_graph cp) m x y = true -> ms_at (cp_graph cp) m y z = true -> ms_at (cp_graph cp) m x z = true).
      { intros u v z Hu' Hv Hz M1 M2. apply Hl in Hu', Hv, Hz.
        destruct (Hlt u Hu') as [ou Hou], (Hlt v Hv) as [ov Hov], (Hlt z Hz) as [oz Hoz].
        apply (ms_iff E R (cp_graph cp) HG mr m Hmok u z ou oz Hou Hoz).
        apply (ms_iff E R (cp_graph cp) HG mr m Hmok u v ou ov Hou Hov) in M1.
        apply (ms_iff E R (cp_graph cp) HG mr m Hmok v z ov oz Hov Hoz) in M2.
        apply (Htr u v z ou ov oz); auto. }
      pose proof (elim_top (ms_at (cp_graph cp) m) l _ (transitive_settled_at _ (ms_at_asym _ Hanti m) l Htr') Hel) as [_ Htop].
      destruct (top_exists (ms_at (cp_graph cp) m) (ms_at_asym _ Hanti m) l Htr' x) as (y & Hy & Hor); [apply Hl; exact Hx|].
      rewrite (Htop y Hy) in Hor. destruct Hor as [?|Hor]; [congruence|].
      apply (ms_iff E R (cp_graph cp) HG mr m Hmok i x o ox Hoi Hox). exact Hor. }
    assert (Hiff : forall x, x ∈ l' <-> next_candidate ti R ovs i x).
    { intros x. rewrite Hl', Hl. split.
      - intros [Hx Hne]. split; [exact Hne|]. exists o. split; [exact Hoi|].
        destruct (Hlt x Hx) as [ox Hox]. exists ox. split; [exact Hox|].
        unfold applicable. rewrite Forall2_fmap_l.
        apply (Hpw args Hva i x o ox Hoi Hox Hci Hx). apply (Hdom x ox Hx Hne Hox).
      - intros [Hne (o2 & Ho2 & (ox & Hox & Happ))]. split; [|exact Hne].
        replace o2 with o in * by congruence.
        exists ox. split; [exact Hox|]. destruct Hci as (o3 & Ho3 & Hci). replace o3 with o in * by congruence.
        eapply applicable_trans; eauto. }
    assert (Hsub : forall x, next_candidate ti R ovs i x -> candidate ti R ovs own x).
    { intros x [_ (o2 & Ho2 & Hx)]. replace o2 with o in * by congruence. exact Hx. }
    assert (Hsel : selects_next ti R ovs i (sel_of tg)).
    { eapply (elim_selects E R (cp_graph cp) HG mr m Hmok l'); [exact Hiff| | |exact Hel'].
      - intros x Hx. apply Hsub in Hx as (ox & Hox & _). eapply lookup_lt_Some; eauto.
      - apply transitive_settled; [exists l'; exact Hiff|].
        intros x y z a b c' Ha Hb Hc' Cx Cy Cz.
        apply (pointwise_transitive ti R Hac _ _ (Hpw own Hown) x y z a b c'); auto. }
    destruct (target_fn E (cp_graph cp) mr m Hmok tg) as (f & Hf & Hsf).
    { destruct tg as [| |k]; auto. apply elim_in, Hiff, Hsub in Hel'. destruct Hel' as (ok & Hok & _).
      eapply lookup_lt_Some; eauto. }
    split; [exact Hsel|]. split; [|exists f; auto].
    intros sel' H. eapply selects_from_unique; eauto.
  Qed.

  (* Its own cell designates an overrider as its next. *)
  Lemma own_cell_next cp mi m gs t :
    compile E false R = Ok cp -> has_table E R false cp mi mr m gs t ->
    exists tg, final_next (t_cells t) i = Some tg.
  Proof.
    intros Hcp HT. destruct HP as [HE Hac Har Hids Hn HA].
    pose proof (compile_inv E R HE Hac false cp Hcp) as HCI. pose proof (co_graph _ _ _ _ HCI) as HG.
    pose proof (ht_ok _ _ _ _ _ _ _ _ _ HT) as Hmok. pose proof (ht_arity _ _ _ _ _ _ _ _ _ HT) as Hao.
    pose proof (ht_tok _ _ _ _ _ _ _ _ _ HT) as Htok.
    assert (Hanti := base_anti E R (cp_graph cp) HG).
    set (own := map ti (or_vp o)).
    assert (Hown : valid_args ti R mr own).
    { eapply own_valid; eauto. }
    assert (Hself : candidate ti R ovs own i).
    { exists o. split; [exact Hoi|]. unfold applicable, own. rewrite Forall2_fmap_l.
      apply Forall2_same_length_lookup_2; [reflexivity|]. intros p x y Hx Hy.
      replace y with x by congruence. constructor. }
    destruct (args_at_exists E R HE Hac false cp Hcp _ _ _ _ _ HT own Hown) as (cs & is & [A1 A2 A3]).
    destruct (cell_selects E R (cp_graph cp) HE HG mr m Hmok Hao gs t own cs is Htok A1 A2 A3)
      as (c & l & Hcell & Hnd & Hl & Hck).
    assert (Ht : cl_target c = TOverrider i).
    { eapply (elim_best (ms_at (cp_graph cp) m)); [|apply (ck_target _ _ _ _ Hck)|exact Hnd|apply Hl; exact Hself|].
      { apply ms_at_asym. exact Hanti. }
      intros j Hj Hne. apply Hl in Hj. destruct Hj as (oj & Hoj & Happ).
      eapply (ms_iff E R (cp_graph cp) HG mr m Hmok); eauto. eapply own_dominates; eauto. }
    pose proof (ck_next _ _ _ _ Hck) as Hnx. rewrite Ht in Hnx.
    destruct Hnx as (tg & l' & Hnx & _).
    eapply final_next_some; [|exact Hnx]. eapply elem_of_list_lookup_2; exact Hcell.
  Qed.

  Theorem next_selects :
    (forall args, valid_args ti R mr args -> pointwise ti R ovs (candidate ti R ovs args)) ->
    exists sel f, selects_next ti R ovs i sel /\
      (forall sel', selects_next ti R ovs i sel' -> sel' = sel) /\
      selected_fn mr sel = Some f /\ w_next w (or_next o) = Some f.
  Proof.
    intros Hpw. destruct HP as [HE Hac Har Hids Hn HA]. destruct HW as (w0 & rep & Hw0 & Hi).
    destruct (initialize_ok_inv cf X false R w0 HE Hac Har w rep Hids Hn Hw0 Hi) as (cp & Hcp & _ & HI & _).
    pose proof (compile_inv E R HE Hac false cp Hcp) as HCI. pose proof (co_graph _ _ _ _ HCI) as HG.
    pose proof Hmr as Hmr'. apply elem_of_list_lookup in Hmr' as [mi Hmi].
    destruct (has_table_exists E R HE Hac Har false cp Hcp mi mr Hmi) as (m & gs & t & HT).
    pose proof (ht_ok _ _ _ _ _ _ _ _ _ HT) as Hmok. pose proof (ht_arity _ _ _ _ _ _ _ _ _ HT) as Hao.
    pose proof (ht_tok _ _ _ _ _ _ _ _ _ HT) as Htok.
    destruct (own_cell_next cp mi m gs t Hcp HT) as [tg Htg].
    destruct (final_next_in _ _ _ Htg) as (c & Hc & Hnx).
    apply elem_of_list_lookup in Hc as [j Hj].
    destruct (cell_next_selects cp mi m gs t j c tg Hpw Hcp HT Hj Hnx) as (Hsel & Huniq & f & Hf & Hsf).
    exists (sel_of tg), f. split; [exact Hsel|]. split; [exact Huniq|].
    split; [exact Hsf|].
    destruct (in_written _ _ _ _ HI) as (buf & wr & gvt & Hok & _ & _ & _ & _ & Hwn). rewrite Hwn.
    destruct (Forall2_lookup_l _ _ _ _ _ (mo_ovs _ _ _ _ Hmok) Hoi) as (o' & Ho' & Hook).
    pose proof (wr_next_ok _ _ _ _ _ Hok) as Hw.
    assert (Hmt : zip (cp_methods cp) (tb_tables (cp_tables cp)) !! mi = Some (m, t)).
    { apply mts_lookup. split; [apply (ht_method _ _ _ _ _ _ _ _ _ HT)|apply (ht_table _ _ _ _ _ _ _ _ _ HT)]. }
    specialize (Hw (next_nodup E R HE Hac false cp Hcp HA) mi m t i o' Hmt Ho').
    rewrite Htg in Hw. destruct Hw as (f' & Hf' & Hv). rewrite Hf in Hf'. injection Hf' as <-.
    rewrite <- (oo_next _ _ _ _ Hook). exact Hv.
  Qed.

  (* The overrider entered through next accepts every argument tuple accepted by
     the current one, which dominates it. *)
  Lemma selects_next_down j oj :
    acyclic ti R -> ovs !! j = Some oj -> selects_next ti R ovs i (SOverrider j) ->
    dominates ti R o oj /\ forall args, applicable ti R args o -> applicable ti R args oj.
  Proof.
    intros Hac Hj [[[Hne (o2 & Ho2 & (oj' & Hoj' & Happ))] _] _].
    replace o2 with o in * by congruence. replace oj' with oj in * by congruence. split.
    - eapply own_dominates; eauto.
    - intros args Ha. eapply applicable_trans; eauto.
  Qed.

  Theorem next_down j oj :
    (forall args, valid_args ti R mr args -> pointwise ti R ovs (candidate ti R ovs args)) ->
    functions_ok mr -> NoDup (map or_pf ovs) ->
    ovs !! j = Some oj -> w_next w (or_next o) = Some (or_pf oj) ->
    dominates ti R o oj /\ forall args, applicable ti R args o -> applicable ti R args oj.
  Proof.
    intros Hpw [_ Hf2] Hnd Hj Hn. destruct (next_selects Hpw) as (sel & f & Hs & _ & Hsf & Hv).
    rewrite Hv in Hn. injection Hn as ->.
    destruct (Hf2 oj (elem_of_list_lookup_2 _ _ _ Hj)) as [N1 N2].
    destruct sel as [| |j']; simpl in Hsf; [congruence|congruence|].
    destruct (ovs !! j') as [oj'|] eqn:Hj'; [|discriminate]. injection Hsf as Hsf.
    assert (j' = j) as ->.
    { eapply NoDup_lookup; [exact Hnd| |]; rewrite list_lookup_fmap.
      - rewrite Hj'. reflexivity.
      - rewrite Hj. simpl. rewrite Hsf. reflexivity. }
    apply (selects_next_down j oj (po_acyclic _ _ _ HP) Hj Hs).
  Qed.

  (* has_next. *)
  Theorem has_next_selects :
    (forall args, valid_args ti R mr args -> pointwise ti R ovs (candidate ti R ovs args)) ->
    functions_ok mr ->
    has_next w mr (or_next o) = true <-> exists j, selects_next ti R ovs i (SOverrider j).
  Proof.
    intros Hpw [Hf1 Hf2]. destruct (next_selects Hpw) as (sel & f & Hs & Huq & Hsf & Hv).
    unfold has_next. rewrite Hv, andb_true_iff, !negb_true_iff, !bool_decide_eq_false. split.
    - intros [H1 H2]. destruct sel as [| |j]; simpl in Hsf; [congruence|congruence|]. eauto.
    - intros (j & Hj). apply Huq in Hj as <-. simpl in Hsf.
      destruct (ovs !! j) as [oj|] eqn:Hoj; [|discriminate]. injection Hsf as <-.
      destruct (Hf2 oj (elem_of_list_lookup_2 _ _ _ Hoj)). split; congruence.
  Qed.
End Next.

Lemma next_selects_uni cf X R w :
  program_ok cf (r_env X) R -> initialized_by cf X false R w ->
  forall m i o, m ∈ reg_methods R -> mr_overriders m !! i = Some o ->
  unique_signature (e_ti (r_env X)) (mr_overriders m) i -> length (mr_vp m) = 1 ->
  exists sel f, selects_next (e_ti (r_env X)) R (mr_overriders m) i sel /\
    (forall sel', selects_next (e_ti (r_env X)) R (mr_overriders m) i sel' -> sel' = sel) /\
    selected_fn m sel = Some f /\ w_next w (or_next o) = Some f.
Proof.
  intros HP HW m i o Hm Ho Hu H1. eapply next_selects; eauto.
  intros args _. apply uni_pointwise; [apply HP|exact Hm|exact H1].
Qed.
