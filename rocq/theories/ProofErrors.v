(* The errors of the compilation stage (augment_classes, augment_methods), and
   its totality. *)
From stdpp Require Import base list numbers list_numbers relations.
From Verif Require Import Base Registry Spec ModelClasses ModelMethods ModelSlots ModelTables
  ModelHash ModelWorld
  ProofBase ProofClasses ProofGraph ProofMethods ProofBits ProofSlots ProofSelect ProofTables
  ProofCompile.

(* An outcome that is a value, or an error satisfying [P]. *)
Definition good {A} (P : error -> Prop) (x : outcome A) : Prop :=
  match x with Ok _ => True | Err e => P e | _ => False end.

Lemma good_bind {A B} P (x : outcome A) (k : A -> outcome B) :
  good P x -> (forall a, x = Ok a -> good P (k a)) -> good P (obind x k).
Proof. destruct x; simpl; auto. Qed.

Lemma good_mapM {A B} P (f : A -> outcome B) l :
  (forall x, x ∈ l -> good P (f x)) -> good P (mapM f l).
Proof.
  induction l as [|x l IH]; intros H; simpl; [exact I|].
  apply good_bind; [apply H; left|]. intros y _.
  apply good_bind; [apply IH; intros z Hz; apply H; right; exact Hz|]. intros ys _. exact I.
Qed.

Lemma good_foldM {A S} P (f : A -> S -> outcome S) l s :
  (forall x s, x ∈ l -> good P (f x s)) -> good P (foldM f l s).
Proof.
  revert s. induction l as [|x l IH]; intros s H; simpl; [exact I|].
  apply good_bind; [apply H; left|]. intros s' _.
  apply IH. intros y t Hy. apply H. right. exact Hy.
Qed.

Lemma good_weaken {A} (P Q : error -> Prop) (x : outcome A) :
  (forall e, P e -> Q e) -> good P x -> good Q x.
Proof. destruct x; simpl; auto. Qed.

Section Errors.
  Context (E : env) (R : registrations).
  Context (HE : env_ok E) (Hac : acyclic (e_ti E) R) (Har : arity_ok R).
  Notation ti := (e_ti E).
  Notation crs := (reg_classes R).

  Lemma registered_map cs cm a :
    classes_ok ti crs cs cm -> is_Some (cm a) <-> registered ti R a.
  Proof. intros HC. apply (co_dom _ _ _ _ HC). Qed.

  Lemma augment_classes_missing l1 t b l2 :
    raw_pairs crs = l1 ++ (t, b) :: l2 ->
    (forall p, p ∈ l1 -> registered ti R (ti (snd p))) -> ~ registered ti R (ti b) ->
    augment_classes E crs = Err (EMissingClass b).
  Proof.
    intros Hsplit Hl1 Hb. unfold augment_classes.
    destruct (add_classes ti crs) as [cs cm] eqn:Hadd.
    pose proof (add_classes_ok _ _ _ _ Hadd) as HC.
    destruct (index_rank E R cs cm HC Hac) as (rk & Hrk & Hrkn).
    assert (Hcls : forall t b, (t, b) ∈ raw_pairs crs -> is_Some (cm (ti t))).
    { intros t' b' Hin. apply raw_pairs_elem in Hin as (cr & Hcr & <- & _).
      apply (co_dom _ _ _ _ HC). eauto. }
    rewrite collect_all_raw.
    2: { intros cr Hcr. apply (co_dom _ _ _ _ HC). eauto. }
    rewrite Hsplit, foldM_app.
    set (crs' := map (fun p : N * N => ClassRecord (fst p) [snd p] false 0) l1).
    assert (Hraw' : raw_pairs crs' = l1).
    { unfold crs', raw_pairs. clear. induction l1 as [|[x y] l IH]; [reflexivity|].
      simpl. f_equal. exact IH. }
    destruct (walk_total E (length cs) cm crs' rk) as (w & Hw & _).
    - intros t' b' Hin. rewrite Hraw' in Hin. split.
      + apply (Hcls t' b'). rewrite Hsplit. apply elem_of_app. left. exact Hin.
      + apply (registered_map cs cm _ HC). apply (Hl1 (t', b')). exact Hin.
    - intros c d (t' & b' & Hin & H). apply Hrk. exists t', b'. split; [|exact H].
      rewrite Hraw' in Hin. rewrite Hsplit. apply elem_of_app. left. exact Hin.
    - exact Hrkn.
    - rewrite Hraw' in Hw. rewrite Hw. cbn [obind foldM]. unfold raw_step at 1. simpl.
      destruct (Hcls t b) as [c Hc]; [rewrite Hsplit; apply elem_of_app; right; left|].
      rewrite Hc. simpl. unfold collect_base.
      destruct (cm (ti b)) as [d|] eqn:Hd; [|reflexivity].
      exfalso. apply Hb, (registered_map cs cm _ HC). eauto.
  Qed.

  Lemma registered_dec a : registered ti R a \/ ~ registered ti R a.
  Proof.
    destruct (add_classes ti crs) as [cs cm] eqn:Hadd.
    pose proof (add_classes_ok _ _ _ _ Hadd) as HC.
    destruct (cm a) as [c|] eqn:Ha.
    - left. apply (registered_map cs cm _ HC). eauto.
    - right. intros H. apply (registered_map cs cm _ HC) in H as [c Hc]. congruence.
  Qed.

  Lemma augment_classes_cases :
    (bases_registered ti R /\ exists g, augment_classes E crs = Ok g /\ graph_ok E R g) \/
    (~ bases_registered ti R /\ exists cr b, cr ∈ crs /\ b ∈ cr_bases cr /\ ~ registered ti R (ti b) /\
       augment_classes E crs = Err (EMissingClass b)).
  Proof.
    assert (G : forall l : list (N * N), (forall p, p ∈ l -> registered ti R (ti (snd p))) \/
      exists l1 t b l2, l = l1 ++ (t, b) :: l2 /\
        (forall p, p ∈ l1 -> registered ti R (ti (snd p))) /\ ~ registered ti R (ti b)).
    { induction l as [|[t b] l IH]; [left; intros p Hp; inversion Hp|].
      destruct (registered_dec (ti b)) as [Hb|Hb].
      - destruct IH as [IH|(l1 & t' & b' & l2 & -> & H1 & H2)].
        + left. intros p [->|Hp]%elem_of_cons; auto.
        + right. exists ((t, b) :: l1), t', b', l2. split; [reflexivity|]. split; [|exact H2].
          intros p [->|Hp]%elem_of_cons; auto.
      - right. exists [], t, b, l. split; [reflexivity|]. split; [|exact Hb].
        intros p Hp. inversion Hp. }
    destruct (G (raw_pairs crs)) as [H|(l1 & t & b & l2 & Hs & H1 & Hb)].
    - left. assert (Hreg : bases_registered ti R).
      { intros cr t Hcr Ht. apply (H (cr_type cr, t)). apply raw_pairs_elem. eauto. }
      split; [exact Hreg|]. apply augment_classes_ok; assumption.
    - right.
      assert (Hin : (t, b) ∈ raw_pairs crs) by (rewrite Hs; apply elem_of_app; right; left).
      apply raw_pairs_elem in Hin as (cr & Hcr & Ht & Hbc). split.
      + intros Hreg. apply Hb. eapply Hreg; eauto.
      + exists cr, b. split; [exact Hcr|]. split; [exact Hbc|]. split; [exact Hb|].
        eapply augment_classes_missing; eauto.
  Qed.

  Lemma augment_classes_inv g :
    augment_classes E crs = Ok g -> bases_registered ti R /\ graph_ok E R g.
  Proof.
    intros Hg. destruct augment_classes_cases as [(H & g' & Hg' & HG)|(_ & cr & b & _ & _ & _ & He)].
    - replace g with g' by congruence. auto.
    - congruence.
  Qed.

  (* The errors, as the code reports them. *)
  Definition compile_error (e : error) : Prop :=
    match e with
    | EMissingClass t => named ti (e_void E) R t /\ ~ registered ti R (ti t)
    | EMissingBase b d =>
        all_named_registered ti (e_void E) R /\
        exists m o v w cv cw, misfit ti R m o v w /\
          first_record ti R (ti w) = Some cw /\ b = cr_type cw /\
          first_record ti R (ti v) = Some cv /\ d = cr_type cv
    | _ => False
    end.

  Section Graph.
    Context (g : graph) (HG : graph_ok E R g).
    Notation cm := (g_map g).

    Lemma map_registered a : is_Some (cm a) <-> registered ti R a.
    Proof. apply (registered_map _ _ _ (go_classes _ _ _ HG)). Qed.

    Lemma find_class_good t :
      named ti (e_void E) R t -> good compile_error (find_class E cm t).
    Proof.
      intros Ht. unfold find_class. destruct (cm (ti t)) as [c|] eqn:Hc; [exact I|].
      split; [exact Ht|]. intros H. apply map_registered in H as [c Hc']. congruence.
    Qed.

    Definition cov_of (m : method_record) : option nat :=
      if decide (ti (mr_return m) = ti (e_void E)) then None else cm (ti (mr_return m)).

    Lemma cov_covariant m : is_Some (cov_of m) <-> covariant ti (e_void E) R m.
    Proof.
      unfold cov_of, covariant. case_decide as Hd.
      - split; [intros [c Hc]; discriminate|]. intros [H _]. contradiction.
      - rewrite map_registered. tauto.
    Qed.

    Lemma augment_method_good m :
      m ∈ reg_methods R -> good compile_error (augment_method E cm m).
    Proof.
      intros Hm. unfold augment_method. fold (cov_of m). apply good_bind.
      - apply good_mapM. intros t Ht. apply find_class_good. right. eauto.
      - intros vp _. apply good_bind; [|intros ovs _; exact I].
        apply good_mapM. intros o Ho. unfold augment_overrider. apply good_bind.
        + apply good_mapM. intros t Ht. apply find_class_good. right. exists m. eauto 6.
        + intros ovp _. apply good_bind; [|intros oc _; exact I].
          destruct (cov_of m) as [c|] eqn:Hc; [|exact I].
          apply good_bind; [|intros x _; exact I].
          apply find_class_good. right. exists m. split; [exact Hm|]. right. exists o.
          split; [exact Ho|]. right. split; [|reflexivity]. apply cov_covariant. eauto.
    Qed.

    Lemma mapM_find_registered ts cs t :
      mapM (find_class E cm) ts = Ok cs -> t ∈ ts -> registered ti R (ti t).
    Proof.
      intros H Ht. apply mapM_ok in H. apply elem_of_list_lookup in Ht as [i Hi].
      destruct (Forall2_lookup_l _ _ _ _ _ H Hi) as (c & _ & Hc).
      apply find_class_ok in Hc. apply map_registered. eauto.
    Qed.

    Lemma augment_methods_registered cms :
      mapM (augment_method E cm) (reg_methods R) = Ok cms ->
      all_named_registered ti (e_void E) R.
    Proof.
      intros H t [(cr & Hcr & Ht)|(m & Hm & Hmt)].
      { eapply (go_reg _ _ _ HG); eauto. }
      apply mapM_ok in H. apply elem_of_list_lookup in Hm as [i Hi].
      destruct (Forall2_lookup_l _ _ _ _ _ H Hi) as (m' & _ & Hm').
      unfold augment_method in Hm'. fold (cov_of m) in Hm'.
      apply obind_ok in Hm' as (vp & Hvp & Hm'). apply obind_ok in Hm' as (ovs & Hovs & _).
      destruct Hmt as [Ht|(o & Ho & Ht)].
      { eapply mapM_find_registered; eauto. }
      apply mapM_ok in Hovs. apply elem_of_list_lookup in Ho as [j Hj].
      destruct (Forall2_lookup_l _ _ _ _ _ Hovs Hj) as (o' & _ & Ho').
      unfold augment_overrider in Ho'. apply obind_ok in Ho' as (ovp & Hovp & Ho').
      apply obind_ok in Ho' as (oc & Hoc & _).
      destruct Ht as [Ht|[Hcov ->]].
      { eapply mapM_find_registered; eauto. }
      apply cov_covariant in Hcov as [c Hc]. rewrite Hc in Hoc.
      apply obind_ok in Hoc as (x & Hx & _). apply find_class_ok in Hx.
      apply map_registered. eauto.
    Qed.

    Lemma class_head a c : cm a = Some c ->
      exists e cr l, g_classes g !! c = Some e /\ first_record ti R a = Some cr /\
        ce_type_ids e = cr_type cr :: l /\ ce_static_vptr e = cr_static_vptr cr.
    Proof.
      intros Hc. pose proof (co_lt _ _ _ _ (go_classes _ _ _ HG) _ _ Hc) as Hlt.
      apply lookup_lt_is_Some in Hlt as [e He].
      destruct (co_entry _ _ _ _ (go_classes _ _ _ HG) _ _ He)
        as (a' & cr & Ha' & Hfirst & Hst & _ & Hhead & _).
      replace a' with a in * by (eapply (co_inj _ _ _ _ (go_classes _ _ _ HG)); eauto).
      destruct (ce_type_ids e) as [|t l] eqn:Ht; [discriminate|]. injection Hhead as ->.
      exists e, cr, l. auto.
    Qed.

    Lemma check_base_good cms mr m p v c o o' :
      mapM (augment_method E cm) (reg_methods R) = Ok cms ->
      mr ∈ reg_methods R -> method_ok E g mr m -> mr_vp mr !! p = Some v ->
      cm (ti v) = Some c -> o ∈ mr_overriders mr -> overrider_ok E g o o' ->
      good compile_error (check_base g c p o').
    Proof.
      intros Hms Hmr HM Hv Hc Ho Hok. unfold check_base.
      destruct (Har mr Hmr) as [_ Hl]. specialize (Hl o Ho).
      assert (exists w, or_vp o !! p = Some w) as [w Hw].
      { apply lookup_lt_is_Some. rewrite Hl. eapply lookup_lt_Some; eauto. }
      destruct (Forall2_lookup_l _ _ _ _ _ (oo_vp _ _ _ _ Hok) Hw) as (x & Hx & Hwx).
      assert (Hat : at_ (ov_vp o') p = Ok x) by (apply at_ok; exact Hx).
      rewrite Hat. cbn [obind]. case_decide as Hxc; [exact I|].
      destruct (is_base_of g c x) eqn:Hb; [exact I|].
      destruct (class_head _ _ Hwx) as (ew & cw & lw & Hew & Hfw & Htw & _).
      destruct (class_head _ _ Hc) as (ev & cv & lv & Hev & Hfv & Htv & _).
      assert (H1 : at_ (g_classes g) x = Ok ew) by (apply at_ok; exact Hew).
      assert (H2 : at_ (g_classes g) c = Ok ev) by (apply at_ok; exact Hev).
      rewrite H1. cbn [obind]. rewrite H2. cbn [obind]. rewrite Htw, Htv. simpl.
      split; [eapply augment_methods_registered; eauto|].
      exists mr, o, v, w, cv, cw. split; [|auto].
      split; [exact Hmr|]. split; [exact Ho|]. exists p. split; [exact Hv|]. split; [exact Hw|].
      intros Hder. apply (map_td E R g HG _ _ _ _ Hwx Hc) in Hder.
      unfold is_base_of in Hb. apply bool_decide_eq_false in Hb. contradiction.
    Qed.

    Lemma augment_methods_good : good compile_error (augment_methods E g (reg_methods R)).
    Proof.
      unfold augment_methods. apply good_bind.
      { apply good_mapM. intros m Hm. apply augment_method_good. exact Hm. }
      intros cms Hms. apply good_bind; [|intros u _; exact I].
      apply good_foldM. intros [mi m] u Hin. apply elem_of_imap_pair in Hin.
      pose proof Hms as HF. apply mapM_ok in HF.
      destruct (Forall2_lookup_r _ _ _ _ _ HF Hin) as (mr & Hmr & Haug).
      apply augment_method_ok in Haug. apply elem_of_list_lookup_2 in Hmr.
      unfold check_method. apply good_foldM. intros [p c] u' Hp. apply elem_of_imap_pair in Hp.
      destruct (Forall2_lookup_r _ _ _ _ _ (mo_vp _ _ _ _ Haug) Hp) as (v & Hv & Hvc).
      unfold check_param. apply good_bind; [|intros [] _; exact I].
      apply good_foldM. intros o' [] Ho'. apply elem_of_list_lookup in Ho' as [j Hj].
      destruct (Forall2_lookup_r _ _ _ _ _ (mo_ovs _ _ _ _ Haug) Hj) as (o & Ho & Hok).
      apply elem_of_list_lookup_2 in Ho.
      eapply check_base_good; eauto.
    Qed.

    (* Success means that nothing had to be rejected. *)
    Lemma augment_methods_fit cms u :
      augment_methods E g (reg_methods R) = Ok (cms, u) ->
      all_named_registered ti (e_void E) R /\ forall m o v w, ~ misfit ti R m o v w.
    Proof.
      intros H. pose proof (augment_methods_ok _ _ _ _ _ H) as (HF & HP & _).
      unfold augment_methods in H. apply obind_ok in H as (cms' & Hms & H).
      split; [eapply augment_methods_registered; eauto|].
      intros m o v w (Hm & Ho & p & Hv & Hw & Hnd). apply Hnd.
      apply elem_of_list_lookup in Hm as [i Hi].
      destruct (Forall2_lookup_l _ _ _ _ _ HF Hi) as (m' & Hm' & Hok).
      destruct (Forall2_lookup_l _ _ _ _ _ (mo_vp _ _ _ _ Hok) Hv) as (c & Hc & Hvc).
      apply elem_of_list_lookup in Ho as [j Hj].
      destruct (Forall2_lookup_l _ _ _ _ _ (mo_ovs _ _ _ _ Hok) Hj) as (o' & Ho' & Hook).
      destruct (HP m' (elem_of_list_lookup_2 _ _ _ Hm') p c o' Hc (elem_of_list_lookup_2 _ _ _ Ho'))
        as (x & Hx & Hcx).
      destruct (Forall2_lookup_l _ _ _ _ _ (oo_vp _ _ _ _ Hook) Hw) as (x' & Hx' & Hwx).
      replace x' with x in * by congruence.
      apply (map_td E R g HG _ _ _ _ Hwx Hvc).
      destruct Hcx as [->|?]; [|assumption].
      apply (proj2 (go_td _ _ _ HG c (map_lt E R g HG _ _ Hvc))). constructor.
    Qed.
  End Graph.

  (* ---- the whole compilation stage ---- *)

  Record compile_ok (n2216 : bool) (cp : compiled) : Prop := {
    co_graph : graph_ok E R (cp_graph cp);
    co_methods : Forall2 (method_ok E (cp_graph cp)) (reg_methods R) (cp_methods cp);
    co_params : forall m, m ∈ cp_methods cp -> params_ok (cp_graph cp) m;
    co_uses : exists u, uses_ok (cp_methods cp) u /\
      slots_ok E R (cp_graph cp) u (cp_slots cp);
    co_tables : build_dispatch_tables E (cp_graph cp) n2216 (cp_methods cp) (cp_slots cp)
      = Ok (cp_tables cp);
    co_named : all_named_registered ti (e_void E) R;
    co_fit : forall m o v w, ~ misfit ti R m o v w
  }.

  Lemma compile_inv n2216 cp : compile E n2216 R = Ok cp -> compile_ok n2216 cp.
  Proof.
    unfold compile. intros H. apply obind_ok in H as (g & Hg & H).
    apply obind_ok in H as ([ms u] & Hms & H). apply obind_ok in H as (s & Hs & H).
    apply obind_ok in H as (t & Ht & [= <-]).
    destruct (augment_classes_inv g Hg) as [_ HG].
    destruct (augment_methods_ok _ _ _ _ _ Hms) as (H1 & H2 & H3).
    destruct (assign_slots_ok E R g ms u HE HG H3) as (s' & Hs' & Hsok).
    replace s' with s in * by congruence.
    destruct (augment_methods_fit g HG _ _ Hms) as [H4 H5].
    split; simpl; eauto.
  Qed.

  Lemma slot_range g ms u s mi m d vp c :
    graph_ok E R g -> uses_ok ms u -> slots_ok E R g u s ->
    Forall2 (method_ok E g) (reg_methods R) ms ->
    ms !! mi = Some m -> m_vp m !! d = Some vp -> c ∈ g_td g vp ->
    s_first s c <= s_slots s mi d < s_first s c + length (s_vtbl s c).
  Proof.
    intros HG HU HS HM Hm Hd Hc.
    assert (Hlt : vp < g_n g).
    { destruct (Forall2_lookup_r _ _ _ _ _ HM Hm) as (mr & _ & Hok).
      destruct (Forall2_lookup_r _ _ _ _ _ (mo_vp _ _ _ _ Hok) Hd) as (t & _ & Ht).
      eapply (map_lt E R g HG); eauto. }
    apply (so_range _ _ _ _ _ HS vp (mi, d) c).
    - apply HU. eauto.
    - exact Hlt.
    - apply (go_td_sound _ _ _ HG). exact Hc.
  Qed.

  Lemma compile_good : good compile_error (compile E false R).
  Proof.
    unfold compile.
    destruct augment_classes_cases as [(_ & g & Hg & HG)|(_ & cr & b & Hcr & Hb & Hnr & He)].
    2: { rewrite He. simpl. split; [left; eauto|exact Hnr]. }
    rewrite Hg. cbn [obind]. apply good_bind; [apply augment_methods_good; exact HG|].
    intros [ms u] Hms. destruct (augment_methods_ok _ _ _ _ _ Hms) as (H1 & H2 & H3).
    destruct (assign_slots_ok E R g ms u HE HG H3) as (s & Hs & Hsok).
    rewrite Hs. cbn [obind].
    destruct (build_tables_total E g HE false ms s) as (T & HT).
    - intros m Hm. apply elem_of_list_lookup in Hm as [i Hi].
      destruct (Forall2_lookup_r _ _ _ _ _ H1 Hi) as (mr & Hmr & Hok).
      apply elem_of_list_lookup_2 in Hmr. destruct (Har mr Hmr) as [Hne Hl]. split; [|split].
      + intros Hnil. pose proof (method_ok_arity _ _ _ _ Hok) as Hlen. rewrite Hnil in Hlen.
        destruct (mr_vp mr); [contradiction|discriminate].
      + apply (ovs_arity E g mr m Hok Hl).
      + intros mask. destruct (build_cell_ok g (base_anti E R g HG) m mask) as (c & Hc & _). eauto.
    - intros mi m d vp c Hm Hd Hc. eapply slot_range; eauto.
    - rewrite HT. exact I.
  Qed.

  (* What the outcome of the compilation stage says about the registrations. *)
  Lemma compile_cases :
    (exists cp, compile E false R = Ok cp /\ compile_ok false cp) \/
    (exists t, compile E false R = Err (EMissingClass t) /\
       named ti (e_void E) R t /\ ~ registered ti R (ti t)) \/
    (exists b d, compile E false R = Err (EMissingBase b d) /\ compile_error (EMissingBase b d)).
  Proof.
    pose proof compile_good as H.
    destruct (compile E false R) as [cp|e| |] eqn:Hc; try contradiction.
    - left. exists cp. split; [reflexivity|]. apply compile_inv. exact Hc.
    - destruct e; simpl in H; try contradiction; eauto 8.
  Qed.
End Errors.
