(* Calls in programs of several translation units. *)
From stdpp Require Import base list numbers.
From Verif Require Import Base Registry Spec ModelClasses ModelHash ModelWorld ModelCall SpecCall ModelSignature
  SpecSignature ProofSignature ModelMacros SpecMacros ProofMacros ModelUseClasses SpecUseClasses
  ProofUseClasses ProofErrors ProofBehaviour ModelProgram SpecProgram ProofProgram ProofBase
  ProofInvariance.

Lemma NoDup_flat_map {A B} (f : A -> list B) l :
  (forall x, x ∈ l -> NoDup (f x)) ->
  (forall i j x y b, l !! i = Some x -> l !! j = Some y -> b ∈ f x -> b ∈ f y -> i = j) ->
  NoDup (flat_map f l).
Proof.
  induction l as [|x l IH]; intros H1 H2; simpl; [constructor|].
  apply NoDup_app. split; [apply H1; by left|]. split.
  - intros b Hb Hin. apply elem_of_list_In, in_flat_map in Hin as (y & Hy & Hb').
    apply elem_of_list_In, elem_of_list_lookup in Hy as [j Hj]. apply elem_of_list_In in Hb'.
    specialize (H2 0 (S j) x y b eq_refl Hj Hb Hb'). discriminate.
  - apply IH.
    + intros y Hy. apply H1. by right.
    + intros i j a b c Hi Hj Ha Hb. assert (S i = S j) by (by eapply H2). congruence.
Qed.

Lemma flat_map_perm {A B C} (f : A -> list C) (g : B -> list C) l k :
  Forall2 (fun x y => f x ≡ₚ g y) l k -> flat_map f l ≡ₚ flat_map g k.
Proof. induction 1 as [|x y l k H _ IH]; simpl; [done|]. by rewrite H, IH. Qed.

Section Calls.
  Context (polymorphic : ty -> bool) (base_of convertible : ty -> ty -> bool).
  Context (associated : ty -> list namespace).
  Notation translate := (translate polymorphic base_of convertible associated).
  Notation overridden := (overridden convertible associated).

  Context (P : program) (us : list unit_state).
  Context (HT : Forall2 (fun ds u => translate ds = Some u) P us).
  Context (HO : one_definition convertible associated P).
  Context (r : N) (HD : documented_program convertible associated P r).
  Context (static_type : nat -> ty -> N) (static_void : nat -> N).
  Context (is_base : N -> N -> bool) (abstract : N -> bool) (vptr_of : N -> nat) (key : N -> N).
  Context (ls : list listing) (cf : config) (X : run) (R : registrations) (w : world).
  Notation ti := (e_ti (r_env X)).
  Notation st := (fun u c => static_type u (TyName c)).
  Context (HL : loads r static_type static_void (link us) R).
  Context (HC : cpp_hierarchy is_base) (HI : identifies ti st key).
  Context (HR : registers is_base abstract vptr_of st ls R) (HK : complete is_base ls).
  Context (Hvptr : forall c d, vptr_of c = vptr_of d -> c = d).
  Context (Hsize : forall u c, listed ls c -> (static_type u (TyName c) < 2 ^ 64 - 1)%N).
  Context (HE : env_ok (r_env X)) (Hn : hash_size_ok cf (length (reg_classes R))).

  Lemma map_ti u cs : map ti (map (fun c => static_type u (TyName c)) cs) = map key cs.
  Proof. rewrite map_map. apply map_ext. intros c. apply (proj1 HI u c). Qed.

  (* ---- one method ---- *)
  Lemma link_compiles d o : d ∈ link us -> o ∈ ovs_of d ->
    overrider_compiles (md_registry d) base_of convertible (ms_parameters (md_source d)) (os_parameters o) = true.
  Proof.
    intros Hd Ho. apply elem_of_list_lookup in Hd as [k Hk].
    destruct (lk_in _ _ (link_linked us) k d o Hk Ho) as (d0 & Hd0 & Et & Ho0).
    destruct (unit_method _ _ _ _ _ _ HT d0 Hd0) as (_ & _ & _ & _ & _ & Hc).
    unfold type_of_decl in Et. injection Et as _ _ E1 E2 _. rewrite E1 in Hc.
    unfold method_source_compiles in Hc. rewrite E2 in Hc. apply andb_true_iff in Hc as [_ Hc].
    rewrite forallb_forall in Hc. by apply Hc, elem_of_list_In.
  Qed.

  Lemma link_arity d : d ∈ link us -> 0 < arity (ms_parameters (md_source d)).
  Proof.
    intros Hd. apply elem_of_list_lookup in Hd as [k Hk].
    destruct (lk_from _ _ (link_linked us) k d Hk) as (d0 & Hd0 & Et & _).
    destruct (unit_method _ _ _ _ _ _ HT d0 Hd0) as (_ & _ & _ & _ & _ & Hc).
    unfold type_of_decl in Et. injection Et as _ _ E1 E2 _.
    unfold method_source_compiles in Hc. rewrite E2 in Hc.
    apply andb_true_iff in Hc as [Hc _]. apply andb_true_iff in Hc as [_ Hc].
    by apply bool_decide_eq_true in Hc.
  Qed.

  Lemma classes_fun ps qs cs cs' : overrider_compiles r base_of convertible ps qs = true ->
    overrider_classes r ps qs cs -> overrider_classes r ps qs cs' -> cs = cs'.
  Proof.
    intros Hc H1 H2.
    pose proof (overrider_registers r base_of convertible (fun t => match t with TyName c => c | _ => 0%N end)
      _ _ _ H1 Hc) as E1.
    pose proof (overrider_registers r base_of convertible (fun t => match t with TyName c => c | _ => 0%N end)
      _ _ _ H2 Hc) as E2.
    rewrite E1 in E2. injection E2 as E2. by rewrite !map_id in E2.
  Qed.

  (* The records of a method and its overriders. *)
  Record described (d : method_decl) (m : method_record) (os : list overrider_source) (cs : list N)
      (ovs : list (list N)) : Prop := {
    de_perm : os ≡ₚ ovs_of d;
    de_classes : method_classes r (ms_parameters (md_source d)) cs;
    de_vp : map ti (mr_vp m) = map key cs;
    de_ovs : Forall2 (fun o cs => overrider_classes r (ms_parameters (md_source d)) (os_parameters o) cs) os ovs;
    de_takes : SpecUseClasses.takes ti key m ovs;
    de_pf : map or_pf (mr_overriders m) = map os_pf os;
    de_next : map or_next (mr_overriders m) = map os_next os;
    de_stubs : fns_of d = (mr_not_implemented m, mr_ambiguous m, mr_slots_strides m);
    de_nonempty : cs <> [];
    de_length : forall cs', cs' ∈ ovs -> length cs' = length cs
  }.

  Lemma described_of d m : d ∈ link us -> md_registry d = r -> constructs r static_type static_void d m ->
    exists os cs ovs, described d m os cs ovs.
  Proof.
    intros Hd Hr (u & os & ids & recs & Hp & Hids & Hrecs & ->).
    destruct (link_only _ _ _ _ _ _ HT d Hd) as (fns & Hdec).
    destruct (HD (type_of_decl d) fns Hr Hdec) as ((cs & Hcs) & Hoc). simpl in Hcs, Hoc.
    apply elem_of_list_lookup in Hd as Hk. destruct Hk as [k Hk].
    assert (Hall : forall o, o ∈ os -> exists cs, overrider_classes r (ms_parameters (md_source d)) (os_parameters o) cs).
    { intros o Ho. rewrite Hp in Ho.
      apply (link_overridden _ _ _ _ _ _ HT HO k d Hk) in Ho as (F & HF & <- & _). by eapply Hoc. }
    assert (Hov : exists ovs, Forall2 (fun o cs =>
      overrider_classes r (ms_parameters (md_source d)) (os_parameters o) cs) os ovs).
    { clear -Hall. induction os as [|o os IH]; [exists []; constructor|].
      destruct (Hall o) as [c Hc]; [by left|]. destruct IH as [ovs H]; [intros; apply Hall; by right|].
      exists (c :: ovs). by constructor. }
    destruct Hov as (ovs & Hov). exists os, cs, ovs.
    rewrite (method_registers r (static_type u) (static_void u) _ _ Hcs) in Hids. injection Hids as <-.
    assert (Hrec : Forall2 (fun o orec => or_pf orec = os_pf o /\ or_next orec = os_next o /\
      forall cs, overrider_classes r (ms_parameters (md_source d)) (os_parameters o) cs ->
        map ti (or_vp orec) = map key cs) os recs).
    { apply Forall2_same_length_lookup_2; [by eapply Forall2_length|]. intros i o orec Ho Horec.
      destruct (Forall2_lookup_lr _ _ _ _ _ _ Hrecs Ho Horec) as (v & Hv).
      assert (Hin : o ∈ ovs_of d) by (rewrite <- Hp; by eapply elem_of_list_lookup_2).
      pose proof (link_compiles d o Hd Hin) as Hc. rewrite Hr in Hc.
      pose proof Hv as Hv'. unfold overrider_registered in Hv'.
      apply obind_ok in Hv' as (vids & _ & Hv'). injection Hv' as <-. split; [done|]. split; [done|].
      intros cs' Hcs'. simpl.
      destruct (overrider_record_of r base_of convertible (static_type v) (static_void v) _ _ _ _ Hv Hcs' Hc)
        as [E _]. simpl in E. rewrite E. apply map_ti. }
    constructor; simpl; auto.
    - apply map_ti.
    - unfold SpecUseClasses.takes. simpl. apply Forall2_same_length_lookup_2.
      { apply Forall2_length in Hrec, Hov. congruence. }
      intros i orec c Hi Hc. destruct (Forall2_lookup_r _ _ _ _ _ Hov Hc) as (o & Ho & Hoc').
      destruct (Forall2_lookup_lr _ _ _ _ _ _ Hrec Ho Hi) as (_ & _ & H). by apply H.
    - clear -Hrec. induction Hrec as [|o orec os recs (H & _) _ IH]; simpl; [done|]. by rewrite H, IH.
    - clear -Hrec. induction Hrec as [|o orec os recs (_ & H & _) _ IH]; simpl; [done|]. by rewrite H, IH.
    - pose proof (link_arity d Hd) as Ha. rewrite (method_arity r _ _ Hcs) in Ha. intros ->. simpl in Ha. lia.
    - intros cs' Hin. apply elem_of_list_lookup in Hin as [i Hi].
      destruct (Forall2_lookup_r _ _ _ _ _ Hov Hi) as (o & _ & H).
      rewrite <- (overrider_classes_length r _ _ _ H). exact (method_arity r _ _ Hcs).
  Qed.

  (* ---- the registry ---- *)
  Lemma loaded_method m : m ∈ reg_methods R -> exists d os cs ovs,
    d ∈ link us /\ md_registry d = r /\ described d m os cs ovs.
  Proof.
    intros Hm. destruct HL as (ds & Hsub & Hall). apply elem_of_list_lookup in Hm as [k Hk].
    destruct (Forall2_lookup_r _ _ _ _ _ Hall Hk) as (d & Hd & Hc).
    assert (Hin : d ∈ filter (fun d => md_registry d = r) (link us)).
    { eapply elem_of_submseteq; [|exact Hsub]. by eapply elem_of_list_lookup_2. }
    apply elem_of_list_filter in Hin as [Hr Hin].
    destruct (described_of d m Hin Hr Hc) as (os & cs & ovs & H). eauto 10.
  Qed.

  Lemma loaded_arity : arity_ok R.
  Proof.
    intros m Hm. destruct (loaded_method m Hm) as (d & os & cs & ovs & _ & _ & HX).
    pose proof (f_equal length (de_vp _ _ _ _ _ HX)) as Hl. rewrite !map_length in Hl. split.
    - intros E. rewrite E in Hl. destruct cs; [|discriminate]. by apply (de_nonempty _ _ _ _ _ HX).
    - intros o Ho. apply elem_of_list_lookup in Ho as [i Hi].
      destruct (Forall2_lookup_l _ _ _ _ _ (de_takes _ _ _ _ _ HX) Hi) as (c & Hc & E).
      apply (f_equal length) in E. rewrite !map_length in E. rewrite E, Hl.
      apply (de_length _ _ _ _ _ HX). by eapply elem_of_list_lookup_2.
  Qed.

  Lemma loaded_ids : ids_ok R.
  Proof.
    intros cr Hcr. destruct HR as [E H]. rewrite E in Hcr.
    apply elem_of_list_In, in_flat_map in Hcr as (l & Hl & Hcr). apply elem_of_list_In in Hl, Hcr.
    rewrite (H l Hl) in Hcr. unfold use_classes in Hcr.
    apply elem_of_list_fmap in Hcr as ((c & bs) & -> & Hc). simpl. apply Hsize. exists l. split; [exact Hl|].
    unfold inheritance_map in Hc. by apply elem_of_list_fmap in Hc as (c' & [= -> _] & Hc).
  Qed.

  Lemma declared_link d : d ∈ link us -> declared P (type_of_decl d) (fns_of d).
  Proof.
    intros Hd. apply elem_of_list_lookup in Hd as [k Hk].
    destruct (lk_from _ _ (link_linked us) k d Hk) as (d1 & Hd1 & E1 & E2).
    destruct (unit_method _ _ _ _ _ _ HT d1 Hd1) as (ds1 & j1 & Hds1 & Hj1 & _). exists ds1, j1.
    rewrite <- E1, <- E2. done.
  Qed.

  Lemma link_nodup : NoDup (map type_of_decl (link us)).
  Proof.
    apply NoDup_alt. intros i j M Hi Hj.
    apply list_lookup_fmap_Some in Hi as (d & Hd & ->), Hj as (d' & Hd' & E).
    by eapply (lk_once _ _ (link_linked us)).
  Qed.

  Lemma os_next_nodup k d : link us !! k = Some d -> NoDup (map os_next (ovs_of d)).
  Proof.
    intros Hk. assert (Hpf : NoDup (map os_pf (ovs_of d))).
    { eapply (lk_nodup _ _ (link_linked us)); [|exact Hk]. intros. by eapply unit_nodup. }
    apply NoDup_alt. intros i j n Hi Hj.
    apply list_lookup_fmap_Some in Hi as (o & Ho & ->), Hj as (o' & Ho' & E).
    pose proof (elem_of_list_lookup_2 _ _ _ Ho) as Hin. pose proof (elem_of_list_lookup_2 _ _ _ Ho') as Hin'.
    apply (link_overridden _ _ _ _ _ _ HT HO k d Hk) in Hin as (F & HF & _).
    apply (link_overridden _ _ _ _ _ _ HT HO k d Hk) in Hin' as (F' & HF' & _).
    assert (HFF : F = F') by (by apply (proj2 (od_next _ _ _ HO _ _ _ _ _ _ _ _ HF HF'))). subst F'.
    assert (Epf : os_pf o = os_pf o') by (by apply (od_function _ _ _ HO _ _ _ _ _ _ _ HF HF')).
    rewrite NoDup_alt in Hpf. apply (Hpf i j (os_pf o)).
    - rewrite list_lookup_fmap, Ho. done.
    - rewrite list_lookup_fmap, Ho', Epf. done.
  Qed.

  Lemma loaded_addresses : addresses_ok ti R.
  Proof.
    destruct HL as (ds & Hsub & Hall).
    assert (Hin : forall d, d ∈ ds -> d ∈ link us /\ md_registry d = r).
    { intros d Hd. assert (H : d ∈ filter (fun d => md_registry d = r) (link us)).
      { eapply elem_of_submseteq; eauto. }
      apply elem_of_list_filter in H. tauto. }
    assert (Hnd : NoDup (map type_of_decl ds)).
    { assert (Hs : ds ⊆+ link us).
      { etransitivity; [exact Hsub|]. apply sublist_submseteq.
        clear. induction (link us) as [|d l IH]; [constructor|]. rewrite filter_cons.
        destruct (decide _); by constructor. }
      apply submseteq_Permutation in Hs as (k & Hk). pose proof link_nodup as H.
      rewrite Hk, map_app in H. by apply NoDup_app in H as (H & _). }
    assert (Htypes : forall i j d d', ds !! i = Some d -> ds !! j = Some d' ->
      type_of_decl d = type_of_decl d' -> i = j).
    { intros i j d d' Hi Hj E. rewrite NoDup_alt in Hnd. apply (Hnd i j (type_of_decl d)).
      - rewrite list_lookup_fmap, Hi. done.
      - rewrite list_lookup_fmap, Hj, E. done. }
    constructor.
    - eapply use_classes_statics; eauto.
    - apply NoDup_alt. intros i j ss Hi Hj.
      apply list_lookup_fmap_Some in Hi as (m & Hm & ->), Hj as (m' & Hm' & E).
      destruct (Forall2_lookup_r _ _ _ _ _ Hall Hm) as (d & Hd & u & os & ids & recs & _ & _ & _ & ->).
      destruct (Forall2_lookup_r _ _ _ _ _ Hall Hm') as (d' & Hd' & u' & os' & ids' & recs' & _ & _ & _ & ->).
      simpl in E. eapply Htypes; [exact Hd|exact Hd'|].
      destruct (Hin d (elem_of_list_lookup_2 _ _ _ Hd)) as [H1 _].
      destruct (Hin d' (elem_of_list_lookup_2 _ _ _ Hd')) as [H2 _].
      apply declared_link in H1, H2. unfold fns_of in H1, H2. rewrite E in H1.
      eapply (od_slots _ _ _ HO); eauto.
    - assert (Hp : flat_map (fun m => map or_next (mr_overriders m)) (reg_methods R) ≡ₚ
        flat_map (fun d => map os_next (ovs_of d)) ds).
      { symmetry. apply flat_map_perm. apply Forall2_same_length_lookup_2; [by eapply Forall2_length|].
        intros i d m Hd Hm. destruct (Hin d (elem_of_list_lookup_2 _ _ _ Hd)) as [H1 H2].
        destruct (described_of d m H1 H2 (Forall2_lookup_lr _ _ _ _ _ _ Hall Hd Hm)) as (os & cs & ovs & HX).
        rewrite (de_next _ _ _ _ _ HX). rewrite (de_perm _ _ _ _ _ HX). done. }
      rewrite Hp. apply NoDup_flat_map.
      + intros d Hd. destruct (Hin d Hd) as [H1 _]. apply elem_of_list_lookup in H1 as [k Hk].
        by eapply os_next_nodup.
      + intros i j d d' n Hi Hj Hnd1 Hnd2. eapply Htypes; [exact Hi|exact Hj|].
        destruct (Hin d (elem_of_list_lookup_2 _ _ _ Hi)) as [H1 _].
        destruct (Hin d' (elem_of_list_lookup_2 _ _ _ Hj)) as [H2 _].
        apply elem_of_list_lookup in H1 as [k Hk], H2 as [k' Hk'].
        apply elem_of_list_fmap in Hnd1 as (o & -> & Ho), Hnd2 as (o' & E & Ho').
        apply (link_overridden _ _ _ _ _ _ HT HO k d Hk) in Ho as (F & HF & _).
        apply (link_overridden _ _ _ _ _ _ HT HO k' d' Hk') in Ho' as (F' & HF' & _).
        by apply (proj2 (od_next _ _ _ HO _ _ _ _ _ _ _ _ HF HF')).
  Qed.

  Lemma loaded_program : program_ok cf (r_env X) R.
  Proof.
    constructor; auto using loaded_arity, loaded_ids, loaded_addresses.
    eapply use_classes_acyclic; eauto.
  Qed.

  Context (Hinit : initialized_by cf X false R w).

  Lemma loaded_named : all_named_registered ti (e_void (r_env X)) R.
  Proof.
    destruct loaded_program as [He Hac Har Hids Hh Had]. destruct Hinit as (w0 & rep & Hw & Hi).
    destruct (initialize_errors cf X R w0 He Hac Har Hids Hh Hw)
      as [(w' & rr & _ & H & _)|[(t & H & _)|[(b & d & H & _)|(w' & a & b & H & _)]]];
      [exact H|rewrite H in Hi; discriminate..].
  Qed.

  (* ---- a call ---- *)
  Section Call.
    Context (M : method_type) (fns : fptr * fptr * nat) (HM : declared P M fns) (HMr : mt_registry M = r).
    Context (m : method_record) (Hm : m ∈ reg_methods R) (Hss : mr_slots_strides m = snd fns).
    Context (all : list arg) (args cs : list N).
    Context (Hcs : method_classes r (mt_parameters M) cs).
    Context (Hpass : Forall2 (passes cf ti R w) (virtual_args all) (map key args)).
    Context (Hlist : Forall (listed ls) args).
    Context (Hargs : Forall2 (fun a c => is_base c a = true) args cs).

    Lemma called_described : exists d os ovs, d ∈ link us /\ type_of_decl d = M /\ described d m os cs ovs.
    Proof.
      destruct (loaded_method m Hm) as (d & os & cs0 & ovs & Hd & Hr & HX).
      pose proof (declared_link d Hd) as Hdec. rewrite (de_stubs _ _ _ _ _ HX), Hss in Hdec.
      destruct fns as [[ni amb] ss]. assert (type_of_decl d = M) as Et by (eapply (od_slots _ _ _ HO); eauto).
      exists d, os, ovs. split; [exact Hd|]. split; [exact Et|].
      replace cs with cs0; [exact HX|].
      pose proof (de_classes _ _ _ _ _ HX) as H0. rewrite <- Et in Hcs. simpl in Hcs.
      pose proof (method_registers r (fun t => match t with TyName c => c | _ => 0%N end) 0%N _ _ H0) as E1.
      pose proof (method_registers r (fun t => match t with TyName c => c | _ => 0%N end) 0%N _ _ Hcs) as E2.
      rewrite E1 in E2. injection E2 as E2. by rewrite !map_id in E2.
    Qed.

    Context (d : method_decl) (os : list overrider_source) (ovs : list (list N)).
    Context (Hd : d ∈ link us) (Et : type_of_decl d = M) (HX : described d m os cs ovs).

    Lemma call_is_ok : call_ok cf ti R w m all (map key args).
    Proof.
      constructor; [exact Hm|exact Hpass|]. unfold valid_args.
      pose proof (de_vp _ _ _ _ _ HX) as Hvp.
      change (map key args) with (key <$> args). rewrite Forall2_fmap_l.
      assert (Hnamed : forall v, v ∈ mr_vp m -> registered ti R (ti v)).
      { intros v Hv. apply loaded_named. right. exists m. auto. }
      apply Forall2_same_length_lookup_2.
      { apply Forall2_length in Hargs. apply (f_equal length) in Hvp. rewrite !map_length in Hvp. congruence. }
      intros i a v Ha Hv.
      assert (Hc : exists c, cs !! i = Some c /\ ti v = key c).
      { assert (H : map ti (mr_vp m) !! i = Some (ti v)) by (rewrite list_lookup_fmap, Hv; done).
        rewrite Hvp in H. apply list_lookup_fmap_Some in H as (c & Hc & E). eauto. }
      destruct Hc as (c & Hc & E).
      assert (Hla : listed ls a) by (by eapply Forall_lookup_1).
      assert (Hlc : listed ls c).
      { apply (registered_key is_base abstract vptr_of st ti key ls R HI HR). rewrite <- E.
        apply Hnamed. by eapply elem_of_list_lookup_2. }
      split; [by eapply registered_key|]. rewrite E.
      eapply relation; eauto; [by apply complete_documented|].
      exact (Forall2_lookup_lr _ _ _ _ _ _ Hargs Ha Hc).
    Qed.

    Lemma functions_are_ok : functions_ok m.
    Proof.
      pose proof (declared_link d Hd) as Hdec. rewrite (de_stubs _ _ _ _ _ HX) in Hdec.
      destruct (od_stubs _ _ _ HO _ _ _ _ Hdec) as [H1 H2]. split; [exact H1|].
      intros o Ho. assert (Hpf : or_pf o ∈ map os_pf os).
      { rewrite <- (de_pf _ _ _ _ _ HX). by apply elem_of_list_fmap_1. }
      apply elem_of_list_fmap in Hpf as (o' & -> & Ho'). rewrite (de_perm _ _ _ _ _ HX) in Ho'.
      apply elem_of_list_lookup in Hd as [k Hk].
      apply (link_overridden _ _ _ _ _ _ HT HO k d Hk) in Ho' as (F & HF & _). by eapply H2.
    Qed.

    Lemma overriders_registered o v : o ∈ mr_overriders m -> v ∈ or_vp o -> registered ti R (ti v).
    Proof. intros Ho Hv. apply loaded_named. right. exists m. split; [exact Hm|]. eauto. Qed.

    (* ---- overriders by address and by number ---- *)
    Lemma pf_nodup : NoDup (map os_pf os).
    Proof.
      apply elem_of_list_lookup in Hd as [k Hk].
      rewrite (de_perm _ _ _ _ _ HX). eapply (lk_nodup _ _ (link_linked us)); [|exact Hk].
      intros. by eapply unit_nodup.
    Qed.

    Definition at_pf (i : nat) (pf : fptr) : Prop := map os_pf os !! i = Some pf.

    Lemma at_pf_fun i pf pf' : at_pf i pf -> at_pf i pf' -> pf = pf'.
    Proof. unfold at_pf. congruence. Qed.
    Lemma at_pf_inj i j pf : at_pf i pf -> at_pf j pf -> i = j.
    Proof. pose proof pf_nodup as H. rewrite NoDup_alt in H. apply H. Qed.
    Lemma at_pf_ex i cs' : ovs !! i = Some cs' -> exists pf, at_pf i pf.
    Proof.
      intros H. destruct (Forall2_lookup_r _ _ _ _ _ (de_ovs _ _ _ _ _ HX) H) as (o & Ho & _).
      exists (os_pf o). unfold at_pf. by rewrite list_lookup_fmap, Ho.
    Qed.

    Lemma takes_index pf cs' : takes_classes convertible associated P M pf cs' <->
      exists i, at_pf i pf /\ ovs !! i = Some cs'.
    Proof.
      apply elem_of_list_lookup in Hd as Hk. destruct Hk as [k Hk]. split.
      - intros (F & next & HF & Hc). rewrite <- Et in HF.
        assert (Ho : OverriderSource (fn_parameters F) (fn_return F) pf next ∈ os).
        { rewrite (de_perm _ _ _ _ _ HX). apply (link_overridden _ _ _ _ _ _ HT HO k d Hk). exists F. done. }
        pose proof Ho as Hos. rewrite (de_perm _ _ _ _ _ HX) in Hos.
        apply elem_of_list_lookup in Ho as [i Hi]. exists i.
        split; [unfold at_pf; by rewrite list_lookup_fmap, Hi|].
        destruct (Forall2_lookup_l _ _ _ _ _ (de_ovs _ _ _ _ _ HX) Hi) as (c & Hci & Hc'). simpl in Hc'.
        rewrite Hci. f_equal. eapply classes_fun; [|exact Hc'|].
        + rewrite <- HMr, <- Et. exact (link_compiles d _ Hd Hos).
        + rewrite <- Et in Hc. simpl in Hc. rewrite <- HMr, <- Et. exact Hc.
      - intros (i & Hi & Hc). unfold at_pf in Hi. apply list_lookup_fmap_Some in Hi as (o & Ho & ->).
        pose proof (Forall2_lookup_lr _ _ _ _ _ _ (de_ovs _ _ _ _ _ HX) Ho Hc) as Hoc. simpl in Hoc.
        apply elem_of_list_lookup_2 in Ho. rewrite (de_perm _ _ _ _ _ HX) in Ho.
        apply (link_overridden _ _ _ _ _ _ HT HO k d Hk) in Ho as (F & HF & Ep & _).
        exists F, (os_next o). rewrite <- Et, Ep. split; [exact HF|]. simpl.
        assert (md_registry d = r) as -> by (rewrite <- HMr, <- Et; done). exact Hoc.
    Qed.

    Notation accepted := (accepted convertible associated P is_base M args).
    Notation more_specialized := (more_specialized convertible associated P is_base M).
    Notation unbeaten := (unbeaten convertible associated P is_base M args).

    Lemma accepted_index i pf : at_pf i pf -> accepted pf <-> SpecUseClasses.accepts is_base ovs args i.
    Proof.
      intros Hi. split.
      - intros (cs' & Hc & Hf). apply takes_index in Hc as (j & Hj & Hc).
        rewrite (at_pf_inj j i pf Hj Hi) in Hc. exists cs'. auto.
      - intros (cs' & Hc & Hf). exists cs'. split; [|exact Hf]. apply takes_index. eauto.
    Qed.

    Lemma accepted_at pf : accepted pf -> exists i, at_pf i pf.
    Proof. intros (cs' & Hc & _). apply takes_index in Hc as (i & Hi & _). eauto. Qed.
    Lemma accepts_at i : SpecUseClasses.accepts is_base ovs args i -> exists pf, at_pf i pf.
    Proof. intros (cs' & Hc & _). by eapply at_pf_ex. Qed.

    Lemma more_index i j pf pf' : at_pf i pf -> at_pf j pf' ->
      more_specialized pf pf' <-> SpecUseClasses.better is_base ovs i j.
    Proof.
      intros Hi Hj. split.
      - intros (c & c' & Hc & Hc' & H). apply takes_index in Hc as (i' & Hi' & Hc), Hc' as (j' & Hj' & Hc').
        rewrite (at_pf_inj i' i pf Hi' Hi) in Hc. rewrite (at_pf_inj j' j pf' Hj' Hj) in Hc'.
        exists c, c'. auto.
      - intros (c & c' & Hc & Hc' & H). exists c, c'. split; [|split; [|exact H]]; apply takes_index; eauto.
    Qed.

    Lemma unbeaten_index i pf : at_pf i pf -> unbeaten pf <-> best is_base ovs args i.
    Proof.
      intros Hi. unfold SpecProgram.unbeaten, best. rewrite (accepted_index i pf Hi).
      split; intros [H1 H2]; (split; [exact H1|]).
      - intros j Hj Hb. destruct (accepts_at j Hj) as (pf' & Hj'). apply (H2 pf').
        + by apply (accepted_index j).
        + by apply (more_index j i).
      - intros pf' Hacc Hmore. destruct (accepted_at pf' Hacc) as (j & Hj). apply (H2 j).
        + by apply (accepted_index j pf').
        + by apply (more_index j i pf' pf).
    Qed.

    Lemma best_at i : best is_base ovs args i -> exists pf, at_pf i pf.
    Proof. intros [H _]. by apply accepts_at. Qed.
    Lemma unbeaten_at pf : unbeaten pf -> exists i, at_pf i pf.
    Proof. intros [H _]. by apply accepted_at. Qed.

    Lemma unique_index i pf : at_pf i pf ->
      (unbeaten pf /\ forall pf', unbeaten pf' -> pf' = pf) <->
      (best is_base ovs args i /\ forall j, best is_base ovs args j -> j = i).
    Proof.
      intros Hi. rewrite (unbeaten_index i pf Hi). split; intros [H1 H2]; (split; [exact H1|]).
      - intros j Hj. destruct (best_at j Hj) as (pf' & Hj').
        assert (pf' = pf) as -> by (apply H2; by apply (unbeaten_index j)). by eapply at_pf_inj.
      - intros pf' Hpf'. destruct (unbeaten_at pf' Hpf') as (j & Hj).
        assert (j = i) as -> by (apply H2; by apply (unbeaten_index j pf')). by eapply at_pf_fun.
    Qed.

    Lemma settled_index : program_settled convertible associated P is_base M args ->
      better_is_settled is_base ovs args.
    Proof.
      intros Hs i j Hi Hj Hb. destruct (accepts_at i Hi) as (pf & Hpf), (accepts_at j Hj) as (pf' & Hpf').
      destruct (Hs pf pf') as (pf2 & H1 & H2).
      - by apply (accepted_index i).
      - by apply (accepted_index j).
      - by apply (more_index j i).
      - destruct (unbeaten_at pf2 H1) as (k & Hk). exists k. split.
        + by apply (unbeaten_index k pf2).
        + by apply (more_index k i pf2 pf).
    Qed.

    Lemma or_pf_at i o : mr_overriders m !! i = Some o -> at_pf i (or_pf o).
    Proof. intros H. unfold at_pf. rewrite <- (de_pf _ _ _ _ _ HX), list_lookup_fmap, H. done. Qed.

    Lemma cs_length : length cs = length args.
    Proof. apply Forall2_length in Hargs. congruence. Qed.

    Lemma vp_length : length (mr_vp m) = length args.
    Proof.
      pose proof (f_equal length (de_vp _ _ _ _ _ HX)) as H. rewrite !map_length in H. rewrite H. apply cs_length.
    Qed.

    Lemma result_of mid :
      length args = 1 \/ (together all /\ program_settled convertible associated P is_base M args) ->
      result convertible associated P is_base M args (call cf w mid m all).
    Proof.
      intros Hg. destruct loaded_program as [He Hac Har Hids Hh Had].
      destruct (use_classes_calls is_base abstract vptr_of st key ls cf X R w HC HI HR HK He Har Hids Hh Had Hinit
        mid m ovs all args call_is_ok functions_are_ok (de_takes _ _ _ _ _ HX)) as (sel & Hrule & _ & Hb).
      { rewrite vp_length. destruct Hg as [H|[H1 H2]]; [by left|right]. split; [exact H1|]. by apply settled_index. }
      inversion Hb as [mid' n ts Es Eres|mid' n ts Es Eres|i o Ho Es Eres]; subst sel; simpl in Hrule.
      - constructor. intros pf Hacc. destruct (accepted_at pf Hacc) as (i & Hi).
        apply (Hrule i). by apply (accepted_index i pf).
      - destruct Hrule as [(i & Hi) Hno]. constructor.
        + destruct (accepts_at i Hi) as (pf & Hpf). exists pf. by apply (accepted_index i).
        + intros (pf & Hu). destruct (unbeaten_at pf (proj1 Hu)) as (j & Hj).
          apply Hno. exists j. by apply (unique_index j pf).
      - pose proof (or_pf_at i o Ho) as Hat. destruct (proj2 (unique_index i _ Hat) Hrule) as [U1 U2].
        by constructor.
    Qed.

    Lemma best_called mid pf : length args = 1 \/ together all ->
      accepted pf -> (forall pf', accepted pf' -> pf' <> pf -> more_specialized pf pf') ->
      call cf w mid m all = Ok (Calls pf).
    Proof.
      intros Hg Hacc Hbest. destruct (accepted_at pf Hacc) as (i & Hi).
      assert (HB : bases_first ti R) by (by eapply complete_bases_first).
      assert (HDc : SpecUseClasses.documented is_base ls) by (by apply complete_documented).
      assert (Ho : exists o, mr_overriders m !! i = Some o /\ or_pf o = pf).
      { unfold at_pf in Hi. rewrite <- (de_pf _ _ _ _ _ HX) in Hi.
        apply list_lookup_fmap_Some in Hi as (o & Ho & ->). eauto. }
      destruct Ho as (o & Ho & <-).
      eapply (call_best cf X R w loaded_program HB mid m all (map key args) i o Hinit call_is_ok functions_are_ok).
      - rewrite vp_length. exact Hg.
      - exact Ho.
      - apply (accepted_index i _ Hi) in Hacc.
        apply (accepts_iff is_base abstract vptr_of st ti key ls R HC HI HR HDc m ovs args
          (de_takes _ _ _ _ _ HX) Hlist overriders_registered) in Hacc as (o' & Ho' & Ha). congruence.
      - intros j oj Hoj Hne Ha. pose proof (or_pf_at j oj Hoj) as Hj.
        assert (Haj : SpecUseClasses.accepts is_base ovs args j).
        { apply (accepts_iff is_base abstract vptr_of st ti key ls R HC HI HR HDc m ovs args
            (de_takes _ _ _ _ _ HX) Hlist overriders_registered). exists oj. auto. }
        assert (Hmore : more_specialized (or_pf o) (or_pf oj)).
        { apply Hbest; [by apply (accepted_index j)|]. intros E. rewrite E in Hj. apply Hne.
          by eapply at_pf_inj. }
        apply (more_index i j _ _ Hi Hj) in Hmore.
        apply (better_iff is_base abstract vptr_of st ti key ls R HC HI HR HDc m ovs
          (de_takes _ _ _ _ _ HX) overriders_registered) in Hmore as (a & b & Ha' & Hb' & Hdom). congruence.
    Qed.

    Lemma none_called mid : length args = 1 \/ together all ->
      (exists id n ts, call cf w mid m all = Err (ENoOverrider id n ts)) <-> forall pf, ~ accepted pf.
    Proof.
      intros Hg. assert (HB : bases_first ti R) by (by eapply complete_bases_first).
      assert (HDc : SpecUseClasses.documented is_base ls) by (by apply complete_documented).
      rewrite (call_no_overrider cf X R w loaded_program HB mid m all (map key args) Hinit call_is_ok
        functions_are_ok); [|rewrite vp_length; exact Hg].
      split.
      - intros H pf Hacc. destruct (accepted_at pf Hacc) as (i & Hi). apply (accepted_index i pf Hi) in Hacc.
        apply (accepts_iff is_base abstract vptr_of st ti key ls R HC HI HR HDc m ovs args
          (de_takes _ _ _ _ _ HX) Hlist overriders_registered) in Hacc as (o & Ho & Ha).
        eapply H; [|exact Ha]. by eapply elem_of_list_lookup_2.
      - intros H o Ho Ha. apply elem_of_list_lookup in Ho as [i Hi].
        apply (H (or_pf o)). apply (accepted_index i _ (or_pf_at i o Hi)).
        apply (accepts_iff is_base abstract vptr_of st ti key ls R HC HI HR HDc m ovs args
          (de_takes _ _ _ _ _ HX) Hlist overriders_registered). exists o. auto.
    Qed.
  End Call.
End Calls.

Section Started.
  Context (polymorphic : ty -> bool) (base_of convertible : ty -> ty -> bool).
  Context (associated : ty -> list namespace) (P : program) (us : list unit_state) (r : N).
  Context (static_type : nat -> ty -> N) (static_void : nat -> N).
  Context (is_base : N -> N -> bool) (abstract : N -> bool) (vptr_of : N -> nat) (key : N -> N).
  Context (ls : list listing) (cf : config) (X : run) (R : registrations) (w : world).
  Context (HS : started polymorphic base_of convertible associated P us r static_type static_void is_base
    abstract vptr_of key ls cf X R).
  Context (Hinit : initialized_by cf X false R w).
  Context (n : nat) (ns : namespace) (name : N) (qs : list ty) (M : method_type) (m : method_record).
  Context (all : list arg) (args : list N).
  Context (HC : call_in convertible associated P us r is_base key ls cf X R w n ns name qs M m all args).

  Lemma called_declared : exists fns, declared P M fns /\ mr_slots_strides m = snd fns.
  Proof.
    destruct (ci_means _ _ _ _ _ _ _ _ _ _ _ _ _ _ _ _ _ _ _ _ HC) as (ds & j & fns & Hds & Hmean & Hj).
    destruct (ci_calls _ _ _ _ _ _ _ _ _ _ _ _ _ _ _ _ _ _ _ _ HC) as (u & Hu & k & d & Hk & Hd & E).
    pose proof (Forall2_lookup_lr _ _ _ _ _ _ (st_compiles _ _ _ _ _ _ _ _ _ _ _ _ _ _ _ _ _ HS) Hds Hu) as Ht.
    destruct (translate_inv _ _ _ _ _ _ Ht) as [js HI].
    apply (locate_means _ _ ds js _ (in_numbers _ _ _ _ _ _ _ HI) (inv_heads _ _ _ _ _ _ _ HI)) in Hk.
    destruct Hk as (j' & Hj' & Hmean'). pose proof (proj2 Hmean _ (proj1 Hmean')) as Hjj.
    exists fns. split; [exists ds, j; split; [by eapply elem_of_list_lookup_2|exact Hj]|].
    destruct (Forall2_lookup_lr _ _ _ _ _ _ (in_methods _ _ _ _ _ _ _ HI) Hj' Hd) as (os & Hdj & _).
    rewrite E. unfold is_method in Hj. subst j'. rewrite Hj in Hdj. injection Hdj as _ _ _ _ _ ->. done.
  Qed.

  Ltac at_site lem :=
    destruct called_declared as (fns & Hdec & Hss);
    destruct (ci_valid _ _ _ _ _ _ _ _ _ _ _ _ _ _ _ _ _ _ _ _ HC) as (cs & Hcs & Hargs);
    pose proof (ci_registry _ _ _ _ _ _ _ _ _ _ _ _ _ _ _ _ _ _ _ _ HC) as Hr;
    pose proof (ci_used _ _ _ _ _ _ _ _ _ _ _ _ _ _ _ _ _ _ _ _ HC) as Hm;
    pose proof (ci_passes _ _ _ _ _ _ _ _ _ _ _ _ _ _ _ _ _ _ _ _ HC) as Hp;
    pose proof (ci_listed _ _ _ _ _ _ _ _ _ _ _ _ _ _ _ _ _ _ _ _ HC) as Hl;
    destruct HS as [S1 S2 S3 S4 S5 S6 S7 S8 S9 S10 S11 S12];
    assert (Hx : exists d os ovs, d ∈ link us /\ type_of_decl d = M /\ described r key X d m os cs ovs)
      by (eapply called_described; eauto);
    destruct Hx as (d & os & ovs & Hd & Et & HX);
    eapply lem; eauto.

  Theorem program_result mid :
    length args = 1 \/ (together all /\ program_settled convertible associated P is_base M args) ->
    result convertible associated P is_base M args (call cf w mid m all).
  Proof. intros Hg. at_site result_of. Qed.

  Theorem program_best mid pf : length args = 1 \/ together all ->
    accepted convertible associated P is_base M args pf ->
    (forall pf', accepted convertible associated P is_base M args pf' -> pf' <> pf ->
       more_specialized convertible associated P is_base M pf pf') ->
    call cf w mid m all = Ok (Calls pf).
  Proof. intros Hg Ha Hb. at_site best_called. Qed.

  Theorem program_none mid : length args = 1 \/ together all ->
    (exists id k ts, call cf w mid m all = Err (ENoOverrider id k ts)) <->
    forall pf, ~ accepted convertible associated P is_base M args pf.
  Proof. intros Hg. at_site none_called. Qed.
End Started.

Theorem program_well_formed polymorphic base_of convertible associated P us r static_type static_void is_base
    abstract vptr_of key ls cf X R :
  started polymorphic base_of convertible associated P us r static_type static_void is_base abstract vptr_of
    key ls cf X R ->
  program_ok cf (r_env X) R /\ bases_first (e_ti (r_env X)) R.
Proof.
  intros [S1 S2 S3 S4 S5 S6 S7 S8 S9 S10 S11 S12].
  split; [by eapply loaded_program|by eapply complete_bases_first].
Qed.
