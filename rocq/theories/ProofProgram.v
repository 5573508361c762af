(* Proofs about programs of several translation units. *)
From stdpp Require Import base list numbers.
From Verif Require Import Base Registry Spec ModelHash ModelWorld ModelCall SpecCall ModelSignature
  SpecSignature ProofSignature ModelMacros SpecMacros ProofMacros ModelUseClasses SpecUseClasses
  ProofUseClasses ProofErrors ProofBehaviour ModelProgram SpecProgram.

(* ---- the linker ---- *)
Definition type_of_decl (m : method_decl) : method_type :=
  MethodType (md_scope m) (md_name m) (md_registry m) (ms_parameters (md_source m))
    (ms_return (md_source m)).

Definition fns_of (m : method_decl) : fptr * fptr * nat :=
  (ms_not_implemented (md_source m), ms_ambiguous (md_source m), ms_slots_strides (md_source m)).

Notation ovs_of m := (ms_overriders (md_source m)).

Lemma same_type_is m m' : same_type m m' = true <-> type_of_decl m = type_of_decl m'.
Proof.
  unfold same_type, same_method. rewrite !andb_true_iff, !bool_decide_eq_true. unfold type_of_decl. split.
  - intros ((((H1 & H2) & H3) & H4) & H5). by rewrite H1, H2, H3, H4, H5.
  - intros H. injection H as H1 H2 H3 H4 H5. repeat split; congruence.
Qed.

Lemma link_overrider_type m o : type_of_decl (link_overrider m o) = type_of_decl m /\
  fns_of (link_overrider m o) = fns_of m.
Proof. unfold link_overrider. destruct (existsb _ _); done. Qed.

Lemma link_overrider_in m o o' : o' ∈ ovs_of (link_overrider m o) -> o' ∈ ovs_of m \/ o' = o.
Proof.
  unfold link_overrider. destruct (existsb _ _); [auto|]. simpl.
  rewrite elem_of_app, elem_of_list_singleton. tauto.
Qed.

Lemma link_overrider_keeps m o : ovs_of m `prefix_of` ovs_of (link_overrider m o).
Proof. unfold link_overrider. destruct (existsb _ _); [done|]. simpl. by exists [o]. Qed.

Lemma link_overrider_pf m o : os_pf o ∈ map os_pf (ovs_of (link_overrider m o)).
Proof.
  unfold link_overrider. destruct (existsb _ _) eqn:E.
  - apply existsb_exists in E as (o' & Hin & Hpf). apply bool_decide_eq_true in Hpf. rewrite <- Hpf.
    apply elem_of_list_fmap_1. by apply elem_of_list_In.
  - simpl. rewrite map_app. apply elem_of_app. right. apply elem_of_list_singleton. reflexivity.
Qed.

Lemma link_overrider_nodup m o : NoDup (map os_pf (ovs_of m)) ->
  NoDup (map os_pf (ovs_of (link_overrider m o))).
Proof.
  intros H. unfold link_overrider. destruct (existsb _ _) eqn:E; [exact H|].
  simpl. rewrite map_app. apply NoDup_app. split; [exact H|]. split; [|apply NoDup_singleton].
  intros pf Hin Heq. apply elem_of_list_singleton in Heq as ->.
  apply elem_of_list_fmap in Hin as (o' & Hpf & Hin).
  apply not_true_iff_false in E. apply E. apply existsb_exists. exists o'.
  split; [by apply elem_of_list_In|]. by apply bool_decide_eq_true.
Qed.

Lemma link_overriders os : forall m, let m' := foldl link_overrider m os in
  type_of_decl m' = type_of_decl m /\ fns_of m' = fns_of m /\
  (forall o, o ∈ ovs_of m' -> o ∈ ovs_of m \/ o ∈ os) /\
  (forall pf, pf ∈ map os_pf (ovs_of m) \/ pf ∈ map os_pf os -> pf ∈ map os_pf (ovs_of m')) /\
  (NoDup (map os_pf (ovs_of m)) -> NoDup (map os_pf (ovs_of m'))).
Proof.
  induction os as [|o os IH]; intros m; simpl.
  - repeat split; auto. intros pf [H|H]; [exact H|by apply elem_of_nil in H].
  - destruct (IH (link_overrider m o)) as (H1 & H2 & H3 & H4 & H5).
    destruct (link_overrider_type m o) as [T1 T2]. rewrite H1, H2, T1, T2.
    repeat split; auto.
    + intros o' Ho'. apply H3 in Ho' as [Ho'|Ho']; [|right; by constructor].
      apply link_overrider_in in Ho' as [Ho'|Ho']; [by left|]. subst. right. by constructor.
    + intros pf Hpf. apply H4. destruct Hpf as [Hpf|Hpf].
      * left. destruct (link_overrider_keeps m o) as [k ->]. rewrite map_app. apply elem_of_app. by left.
      * apply elem_of_cons in Hpf as [->|Hpf]; [|by right]. left. apply link_overrider_pf.
    + intros H. by apply H5, link_overrider_nodup.
Qed.

Lemma lookup_snoc {A} (l : list A) (d : A) i x :
  (l ++ [d]) !! i = Some x -> (i < length l /\ l !! i = Some x) \/ (i = length l /\ x = d).
Proof.
  rewrite lookup_app_Some, list_lookup_singleton_Some. intros [H|(H1 & H2 & <-)].
  - left. split; [by eapply lookup_lt_Some|exact H].
  - right. split; [lia|reflexivity].
Qed.

(* What [link_method] has made of the methods [L] of the units. *)
Record linked (L ms : list method_decl) : Prop := {
  lk_from : forall k d, ms !! k = Some d -> exists d0, d0 ∈ L /\ type_of_decl d0 = type_of_decl d /\
    fns_of d0 = fns_of d;
  lk_all : forall d0, d0 ∈ L -> exists k d, ms !! k = Some d /\ type_of_decl d = type_of_decl d0;
  lk_once : forall k k' d d', ms !! k = Some d -> ms !! k' = Some d' ->
    type_of_decl d = type_of_decl d' -> k = k';
  lk_in : forall k d o, ms !! k = Some d -> o ∈ ovs_of d -> exists d0, d0 ∈ L /\
    type_of_decl d0 = type_of_decl d /\ o ∈ ovs_of d0;
  lk_pf : forall k d d0 o, ms !! k = Some d -> d0 ∈ L -> type_of_decl d0 = type_of_decl d ->
    o ∈ ovs_of d0 -> os_pf o ∈ map os_pf (ovs_of d);
  lk_nodup : (forall d0, d0 ∈ L -> NoDup (map os_pf (ovs_of d0))) ->
    forall k d, ms !! k = Some d -> NoDup (map os_pf (ovs_of d))
}.

Lemma link_method_linked L ms m : linked L ms -> linked (L ++ [m]) (link_method ms m).
Proof.
  intros [H1 H2 H3 H4 H5 H6]. unfold link_method.
  destruct (list_find (fun m' => same_type m m' = true) ms) as [[k0 m0]|] eqn:E.
  - apply list_find_Some in E as (Hk0 & Ht%same_type_is & _).
    set (m1 := foldl link_overrider m0 (ovs_of m)).
    destruct (link_overriders (ovs_of m) m0) as (T1 & T2 & T3 & T4 & T5). fold m1 in T1, T2, T3, T4, T5.
    assert (Hlen : k0 < length ms) by (by eapply lookup_lt_Some).
    assert (Hcase : forall k d, <[k0 := m1]> ms !! k = Some d ->
      (k = k0 /\ d = m1) \/ (k <> k0 /\ ms !! k = Some d)).
    { intros k d Hk. destruct (decide (k = k0)) as [-> |Hne].
      - rewrite list_lookup_insert in Hk by exact Hlen. left. split; congruence.
      - rewrite list_lookup_insert_ne in Hk by congruence. by right. }
    constructor.
    + intros k d Hk. apply Hcase in Hk as [[-> ->]|[_ Hk]].
      * destruct (H1 k0 m0 Hk0) as (d0 & Hd0 & E1 & E2). exists d0. rewrite elem_of_app. split; [by left|].
        by rewrite T1, T2.
      * destruct (H1 k d Hk) as (d0 & Hd0 & E1 & E2). exists d0. rewrite elem_of_app. auto.
    + intros d0 Hd0. assert (Hold : exists k d, ms !! k = Some d /\ type_of_decl d = type_of_decl d0).
      { apply elem_of_app in Hd0 as [Hd0|Hd0]; [by apply H2|]. apply elem_of_list_singleton in Hd0 as ->.
        exists k0, m0. by rewrite Ht. }
      destruct Hold as (k & d & Hk & Hd). destruct (decide (k = k0)) as [-> |Hne].
      * exists k0, m1. rewrite list_lookup_insert by exact Hlen. split; [done|]. rewrite T1. congruence.
      * exists k, d. rewrite list_lookup_insert_ne by congruence. done.
    + intros k k' d d' Hk Hk' Hd. apply Hcase in Hk as [[-> ->]|[Hn Hk]], Hk' as [[-> ->]|[Hn' Hk']]; try done.
      * rewrite T1 in Hd. exfalso. apply Hn'. symmetry. by eapply H3.
      * rewrite T1 in Hd. exfalso. apply Hn. by eapply H3.
      * by eapply H3.
    + intros k d o Hk Ho. apply Hcase in Hk as [[-> ->]|[_ Hk]].
      * apply T3 in Ho as [Ho|Ho].
        -- destruct (H4 k0 m0 o Hk0 Ho) as (d0 & Hd0 & E1 & E2). exists d0. rewrite elem_of_app, T1. auto.
        -- exists m. rewrite elem_of_app, elem_of_list_singleton, T1. auto.
      * destruct (H4 k d o Hk Ho) as (d0 & Hd0 & E1 & E2). exists d0. rewrite elem_of_app. auto.
    + intros k d d0 o Hk Hd0 Hd Ho. apply elem_of_app in Hd0.
      apply Hcase in Hk as [[-> ->]|[Hn Hk]].
      * apply T4. rewrite T1 in Hd. destruct Hd0 as [Hd0|Hd0]; [left; by eapply H5|].
        apply elem_of_list_singleton in Hd0 as ->. right. by apply elem_of_list_fmap_1.
      * destruct Hd0 as [Hd0|Hd0]; [by eapply H5|]. apply elem_of_list_singleton in Hd0 as ->.
        exfalso. apply Hn. eapply H3; [exact Hk|exact Hk0|congruence].
    + intros Hnd k d Hk. apply Hcase in Hk as [[-> ->]|[_ Hk]].
      * apply T5. eapply H6; [|exact Hk0]. intros d0 Hd0. apply Hnd. apply elem_of_app. by left.
      * eapply H6; [|exact Hk]. intros d0 Hd0. apply Hnd. apply elem_of_app. by left.
  - assert (Hnone : forall k d, ms !! k = Some d -> type_of_decl m <> type_of_decl d).
    { intros k d Hk Heq. apply list_find_None in E. rewrite stdpp.list.Forall_forall in E.
      apply (E d); [by eapply elem_of_list_lookup_2|]. by apply same_type_is. }
    constructor.
    + intros k d Hk. apply lookup_snoc in Hk as [[_ Hk]|[-> ->]].
      * destruct (H1 k d Hk) as (d0 & Hd0 & E1 & E2). exists d0. rewrite elem_of_app. auto.
      * exists m. rewrite elem_of_app, elem_of_list_singleton. auto.
    + intros d0 Hd0. apply elem_of_app in Hd0 as [Hd0|Hd0].
      * destruct (H2 d0 Hd0) as (k & d & Hk & Hd). exists k, d. split; [|done]. by apply lookup_app_l_Some.
      * apply elem_of_list_singleton in Hd0 as ->. exists (length ms), m. split; [|done].
        by apply list_lookup_middle.
    + intros k k' d d' Hk Hk' Hd.
      apply lookup_snoc in Hk as [[_ Hk]|[-> ->]], Hk' as [[_ Hk']|[-> ->]]; try done.
      * by eapply H3.
      * exfalso. by eapply Hnone.
      * exfalso. by eapply Hnone.
    + intros k d o Hk Ho. apply lookup_snoc in Hk as [[_ Hk]|[-> ->]].
      * destruct (H4 k d o Hk Ho) as (d0 & Hd0 & E1 & E2). exists d0. rewrite elem_of_app. auto.
      * exists m. rewrite elem_of_app, elem_of_list_singleton. auto.
    + intros k d d0 o Hk Hd0 Hd Ho. apply elem_of_app in Hd0.
      apply lookup_snoc in Hk as [[_ Hk]|[-> ->]]; destruct Hd0 as [Hd0|Hd0].
      * by eapply H5.
      * apply elem_of_list_singleton in Hd0 as ->. exfalso. by eapply Hnone.
      * exfalso. destruct (H2 d0 Hd0) as (k & d & Hk & Hdd). eapply Hnone; [exact Hk|]. congruence.
      * apply elem_of_list_singleton in Hd0 as ->. by apply elem_of_list_fmap_1.
    + intros Hnd k d Hk. apply lookup_snoc in Hk as [[_ Hk]|[-> ->]].
      * eapply H6; [|exact Hk]. intros d0 Hd0. apply Hnd. apply elem_of_app. by left.
      * apply Hnd. apply elem_of_app. right. by apply elem_of_list_singleton.
Qed.

Lemma link_linked_from L : forall L0 ms, linked L0 ms -> linked (L0 ++ L) (foldl link_method ms L).
Proof.
  induction L as [|m L IH]; intros L0 ms H; simpl; [by rewrite app_nil_r|].
  rewrite (assoc_L (++) L0 [m] L : L0 ++ m :: L = (L0 ++ [m]) ++ L). by apply IH, link_method_linked.
Qed.

Lemma link_linked us : linked (concat (map us_methods us)) (link us).
Proof.
  apply (link_linked_from _ []). constructor; try (intros k d H; discriminate H).
  - intros d0 Hd0. by apply elem_of_nil in Hd0.
  - intros k k' d d' H. discriminate H.
  - intros k d o H. discriminate H.
  - intros k d d0 o H. discriminate H.
  - intros _ k d H. discriminate H.
Qed.

(* ---- what is linked ---- *)
Section Program.
  Context (polymorphic : ty -> bool) (base_of convertible : ty -> ty -> bool).
  Context (associated : ty -> list namespace).
  Notation translate := (translate polymorphic base_of convertible associated).
  Notation overridden := (overridden convertible associated).
  Notation one_definition := (one_definition convertible associated).

  Context (P : program) (us : list unit_state).
  Context (HT : Forall2 (fun ds u => translate ds = Some u) P us).

  Lemma unit_method d0 : d0 ∈ concat (map us_methods us) -> exists ds j, ds ∈ P /\
    is_method ds j (type_of_decl d0) (fns_of d0) /\
    registered_as convertible associated ds j d0 /\
    method_source_compiles (md_registry d0) polymorphic base_of convertible (md_source d0) = true.
  Proof.
    intros H. apply in_concat_map in H as (u & Hu & Hd).
    apply elem_of_list_lookup in Hu as [n Hn].
    destruct (Forall2_lookup_r _ _ _ _ _ HT Hn) as (ds & Hds & Ht).
    destruct (translate_registered _ _ _ _ _ _ Ht) as ((js & _ & Hjs) & _ & Hc).
    pose proof (Hc d0 Hd) as Hcomp.
    apply elem_of_list_lookup in Hd as [k Hk].
    destruct (Forall2_lookup_r _ _ _ _ _ Hjs Hk) as (j & Hj & Hreg).
    exists ds, j. split; [by eapply elem_of_list_lookup_2|].
    pose proof Hreg as (os & Hds' & _). split; [exact Hds'|]. split; [exact Hreg|exact Hcomp].
  Qed.

  Lemma method_unit ds j M fns : ds ∈ P -> is_method ds j M fns -> exists d0,
    d0 ∈ concat (map us_methods us) /\ type_of_decl d0 = M /\ fns_of d0 = fns /\
    registered_as convertible associated ds j d0.
  Proof.
    intros Hds Hj. apply elem_of_list_lookup in Hds as [n Hn].
    destruct (Forall2_lookup_l _ _ _ _ _ HT Hn) as (u & Hu & Ht).
    destruct (translate_registered _ _ _ _ _ _ Ht) as ((js & Hnum & Hjs) & _ & _).
    assert (Hin : j ∈ js).
    { apply Hnum. unfold is_method in Hj. do 6 eexists. exact Hj. }
    apply elem_of_list_lookup in Hin as [k Hk].
    destruct (Forall2_lookup_l _ _ _ _ _ Hjs Hk) as (d0 & Hd0 & Hreg).
    exists d0. split.
    { apply in_concat_map. exists u. split; by eapply elem_of_list_lookup_2. }
    pose proof Hreg as (os & Hds' & _). unfold is_method in Hj. rewrite Hj in Hds'. destruct M.
    simpl in *. injection Hds' as -> -> -> -> -> ->. done.
  Qed.

  Lemma unit_overrider ds j d0 o : ds ∈ P -> is_method ds j (type_of_decl d0) (fns_of d0) ->
    registered_as convertible associated ds j d0 -> o ∈ ovs_of d0 -> exists F,
    overridden P (type_of_decl d0) F (os_pf o) (os_next o) /\ fn_parameters F = os_parameters o /\
    fn_return F = os_return o.
  Proof.
    intros Hds Hj (is & _ & Hdef & _ & Hov) Ho. apply elem_of_list_lookup in Ho as [k Hk].
    destruct (Forall2_lookup_r _ _ _ _ _ Hdef Hk) as (i & Hi & ns & name & Hd).
    exists (Function ns name (os_parameters o) (os_return o)). split; [|done].
    exists ds, i, j, (fns_of d0). split; [exact Hds|]. split; [exact Hj|]. split; [|exact Hd].
    apply Hov. by eapply elem_of_list_lookup_2.
  Qed.

  Lemma overrider_unit M F pf next : overridden P M F pf next -> exists d0,
    d0 ∈ concat (map us_methods us) /\ type_of_decl d0 = M /\
    OverriderSource (fn_parameters F) (fn_return F) pf next ∈ ovs_of d0.
  Proof.
    intros (ds & i & j & fns & Hds & Hj & Hov & Hi).
    destruct (method_unit ds j M fns Hds Hj) as (d0 & Hd0 & Ht & _ & is & _ & Hdef & _ & His).
    exists d0. split; [exact Hd0|]. split; [exact Ht|].
    apply His, elem_of_list_lookup in Hov as [k Hk].
    destruct (Forall2_lookup_l _ _ _ _ _ Hdef Hk) as (o & Ho & ns & name & Hd).
    rewrite Hi in Hd. injection Hd as _ _ -> -> -> ->. destruct o. simpl in *.
    by eapply elem_of_list_lookup_2.
  Qed.

  Lemma defined_once ds : forall u i i' ns name qs ret pf pf' next next', translate ds = Some u ->
    ds !! i = Some (Define ns name qs ret pf next) -> ds !! i' = Some (Define ns name qs ret pf' next') ->
    i = i'.
  Proof.
    induction ds as [|d ds IH] using rev_ind; [intros; discriminate|].
    intros u i i' ns name qs ret pf pf' next next' Ht Hi Hi'.
    apply translate_snoc in Ht as (u0 & Ht & Hd).
    destruct (translate_inv _ _ _ _ _ _ Ht) as [js HI].
    assert (Hno : forall i pf next pf' next', d = Define ns name qs ret pf next ->
      ds !! i = Some (Define ns name qs ret pf' next') -> False).
    { clear IH Hi Hi'. intros k q n q' n' -> Hk. simpl in Hd.
      destruct (list_find _ (us_containers u0)) as [[p c]|] eqn:Hf; [|discriminate].
      apply list_find_Some in Hf as (Hp & Hkey & _). unfold same_container in Hkey.
      rewrite !andb_true_iff, !bool_decide_eq_true in Hkey. destruct Hkey as [[[E1 E2] E3] E4].
      destruct (ct_defined c) eqn:Hdef; [discriminate|].
      destruct (in_containers _ _ _ _ _ _ _ HI c (elem_of_list_lookup_2 _ _ _ Hp)) as (k' & j & _ & _ & _ & H4).
      assert (false = true) as [=]. rewrite <- Hdef. apply H4. rewrite E1, E2, E3, E4. eauto. }
    apply lookup_snoc in Hi as [[_ Hi]|[-> Hi]], Hi' as [[_ Hi']|[-> Hi']]; [|exfalso; eauto..|reflexivity].
    by eapply IH.
  Qed.

  Context (HO : one_definition P).

  Lemma unit_nodup d0 : d0 ∈ concat (map us_methods us) -> NoDup (map os_pf (ovs_of d0)).
  Proof.
    intros Hd0. destruct (unit_method d0 Hd0) as (ds & j & Hds & Hj & Hreg & _).
    destruct Hreg as (is & _ & Hdef & Hs & Hov).
    apply elem_of_list_lookup in Hds as Hn. destruct Hn as [n Hn].
    destruct (Forall2_lookup_l _ _ _ _ _ HT Hn) as (u & Hu & Ht).
    destruct (translate_inv _ _ _ _ _ _ Ht) as [js HI].
    apply NoDup_alt. intros k k' pf Hk Hk'.
    apply list_lookup_fmap_Some in Hk as (o & Ho & ->), Hk' as (o' & Ho' & Hpf).
    destruct (Forall2_lookup_r _ _ _ _ _ Hdef Ho) as (i & Hi & ns & name & Hd).
    destruct (Forall2_lookup_r _ _ _ _ _ Hdef Ho') as (i' & Hi' & ns' & name' & Hd').
    assert (Hoi : overrides convertible associated ds i j) by (apply Hov; by eapply elem_of_list_lookup_2).
    assert (Hoi' : overrides convertible associated ds i' j) by (apply Hov; by eapply elem_of_list_lookup_2).
    assert (HF : Function ns name (os_parameters o) (os_return o)
               = Function ns' name' (os_parameters o') (os_return o')).
    { eapply (od_function _ _ _ HO (type_of_decl d0)); [| |exact Hpf].
      - exists ds, i, j, (fns_of d0). split; [exact Hds|]. split; [exact Hj|]. split; [exact Hoi|exact Hd].
      - exists ds, i', j, (fns_of d0). split; [exact Hds|]. split; [exact Hj|]. split; [exact Hoi'|exact Hd']. }
    injection HF as -> -> Hq Hr. rewrite Hq, Hr in Hd.
    assert (i = i') as -> by (eapply defined_once; eauto).
    eapply sorted_inj; eauto.
  Qed.

  Lemma link_once k d k' d' : link us !! k = Some d -> link us !! k' = Some d' ->
    (md_scope d' = md_scope d /\ md_name d' = md_name d /\ md_registry d' = md_registry d /\
     ms_parameters (md_source d') = ms_parameters (md_source d) /\
     ms_return (md_source d') = ms_return (md_source d)) <-> k' = k.
  Proof.
    intros Hk Hk'. split.
    - intros (E1 & E2 & E3 & E4 & E5). eapply (lk_once _ _ (link_linked us)); [exact Hk'|exact Hk|].
      unfold type_of_decl. by rewrite E1, E2, E3, E4, E5.
    - intros ->. rewrite Hk in Hk'. injection Hk' as <-. done.
  Qed.

  Lemma link_overridden k d : link us !! k = Some d -> forall o, o ∈ ovs_of d <-> exists F,
    overridden P (type_of_decl d) F (os_pf o) (os_next o) /\ fn_parameters F = os_parameters o /\
    fn_return F = os_return o.
  Proof.
    intros Hk o.
    assert (Hin : forall o, o ∈ ovs_of d -> exists F, overridden P (type_of_decl d) F (os_pf o) (os_next o) /\
      fn_parameters F = os_parameters o /\ fn_return F = os_return o).
    { clear o. intros o Ho. destruct (lk_in _ _ (link_linked us) k d o Hk Ho) as (d0 & Hd0 & <- & Ho').
      destruct (unit_method d0 Hd0) as (ds & j & Hds & Hj & Hreg & _). by eapply unit_overrider. }
    split; [apply Hin|].
    intros (F & HF & Ep & Er). destruct (overrider_unit _ _ _ _ HF) as (d0 & Hd0 & Ht & Ho).
    pose proof (lk_pf _ _ (link_linked us) k d d0 _ Hk Hd0 Ht Ho) as Hpf. simpl in Hpf.
    apply elem_of_list_fmap in Hpf as (o' & Hpf & Ho').
    destruct (Hin o' Ho') as (F' & HF' & Ep' & Er'). rewrite <- Hpf in HF'.
    assert (F' = F) as -> by (by eapply (od_function _ _ _ HO)).
    assert (Hn : os_next o = os_next o') by (by apply (proj1 (od_next _ _ _ HO _ _ _ _ _ _ _ _ HF HF'))).
    replace o with o'; [exact Ho'|]. destruct o, o'. simpl in *. congruence.
  Qed.

  Theorem link_registered M fns : declared P M fns -> registered_in convertible associated P (link us) M.
  Proof.
    intros (ds & j & Hds & Hj). destruct (method_unit ds j M fns Hds Hj) as (d0 & Hd0 & Ht & _).
    destruct (lk_all _ _ (link_linked us) d0 Hd0) as (k & d & Hk & Hd). rewrite Ht in Hd. clear Ht Hj. subst M.
    exists k, d. split; [exact Hk|]. split; [|split; [|split]].
    - intros k' d' Hk'. rewrite <- (link_once k d k' d' Hk Hk'). reflexivity.
    - destruct (lk_from _ _ (link_linked us) k d Hk) as (d1 & Hd1 & E1 & E2).
      destruct (unit_method d1 Hd1) as (ds1 & j1 & Hds1 & Hj1 & _). exists ds1, j1. split; [exact Hds1|].
      rewrite <- E1. unfold fns_of in *. by rewrite <- E2.
    - eapply (lk_nodup _ _ (link_linked us)); [exact unit_nodup|exact Hk].
    - by eapply link_overridden.
  Qed.

  (* And nothing else is registered. *)
  Theorem link_only d : d ∈ link us -> exists fns, declared P (type_of_decl d) fns.
  Proof.
    intros Hd. apply elem_of_list_lookup in Hd as [k Hk].
    destruct (lk_from _ _ (link_linked us) k d Hk) as (d1 & Hd1 & E1 & E2).
    destruct (unit_method d1 Hd1) as (ds1 & j1 & Hds1 & Hj1 & _). exists (fns_of d1), ds1, j1.
    by rewrite <- E1.
  Qed.
End Program.

Theorem link_correct polymorphic base_of convertible associated P us :
  Forall2 (fun ds u => translate polymorphic base_of convertible associated ds = Some u) P us ->
  one_definition convertible associated P ->
  (forall M fns, declared P M fns -> registered_in convertible associated P (link us) M) /\
  (forall d, d ∈ link us -> exists fns, declared P (MethodType (md_scope d) (md_name d) (md_registry d)
     (ms_parameters (md_source d)) (ms_return (md_source d))) fns).
Proof.
  intros HT HO. split.
  - intros M fns HM. by eapply link_registered.
  - intros d Hd. by eapply link_only.
Qed.
