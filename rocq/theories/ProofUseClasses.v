(* The relation registered by use_classes. *)
From stdpp Require Import base list numbers relations.
From Verif Require Import Base Registry Spec ModelClasses ModelHash ModelWorld ModelCall SpecCall
  Decide ModelUseClasses SpecUseClasses ProofInvariance ProofBehaviour.

Lemma filter_le {A} (P Q : A -> Prop) `{forall x, Decision (P x)} `{forall x, Decision (Q x)} l :
  (forall x, x ∈ l -> P x -> Q x) -> length (filter P l) <= length (filter Q l).
Proof.
  induction l as [|x l IH]; intros Hs; [simpl; lia|]. rewrite !filter_cons.
  specialize (IH (fun y Hy => Hs y (elem_of_list_further _ _ _ Hy))).
  specialize (Hs x (elem_of_list_here _ _)). case_decide; case_decide; simpl; try lia. tauto.
Qed.

Lemma filter_lt {A} (P Q : A -> Prop) `{forall x, Decision (P x)} `{forall x, Decision (Q x)} l d :
  (forall x, x ∈ l -> P x -> Q x) -> d ∈ l -> Q d -> ~ P d ->
  length (filter P l) < length (filter Q l).
Proof.
  induction l as [|x l IH]; intros Hs Hd HQ HP; [inversion Hd|]. rewrite !filter_cons.
  assert (Hs' := fun y Hy => Hs y (elem_of_list_further _ _ _ Hy)).
  specialize (Hs x (elem_of_list_here _ _)). assert (Hle := filter_le P Q l Hs').
  apply elem_of_cons in Hd as [->|Hd].
  - rewrite decide_False by exact HP. rewrite decide_True by exact HQ. simpl. lia.
  - specialize (IH Hs' Hd HQ HP). case_decide; case_decide; simpl; try lia. tauto.
Qed.

Section UseClasses.
  Context (is_base : N -> N -> bool) (abstract : N -> bool) (vptr_of : N -> nat)
          (static_type : nat -> N -> N) (ti key : N -> N) (ls : list listing) (R : registrations).
  Hypothesis HC : cpp_hierarchy is_base.
  Hypothesis HI : identifies ti static_type key.
  Hypothesis HR : registers is_base abstract vptr_of static_type ls R.

  Lemma key_inj c d : key c = key d -> c = d.
  Proof. apply (proj2 HI). Qed.

  Lemma record_iff cr : cr ∈ reg_classes R <->
    exists l c, l ∈ ls /\ c ∈ li_classes l /\
      cr = use_class_aux abstract vptr_of static_type (li_unit l) (c, bases_of is_base (li_classes l) c).
  Proof.
    destruct HR as [-> Hp]. rewrite elem_of_list_In, in_flat_map. split.
    - intros (l & Hl & Hcr). rewrite <- !elem_of_list_In in *. rewrite (Hp l Hl) in Hcr.
      unfold use_classes, inheritance_map in Hcr. rewrite map_map in Hcr.
      apply elem_of_list_fmap in Hcr as (c & -> & Hc). exists l, c. auto.
    - intros (l & c & Hl & Hc & ->). exists l. rewrite <- !elem_of_list_In. split; [exact Hl|].
      rewrite (Hp l Hl). unfold use_classes, inheritance_map. rewrite map_map.
      apply elem_of_list_fmap. exists c. auto.
  Qed.

  Lemma registered_listed k : registered ti R k <-> exists c, listed ls c /\ k = key c.
  Proof.
    unfold registered, listed. split.
    - intros (cr & Hcr & <-). apply record_iff in Hcr as (l & c & Hl & Hc & ->). simpl.
      rewrite (proj1 HI). eauto.
    - intros (c & (l & Hl & Hc) & ->).
      exists (use_class_aux abstract vptr_of static_type (li_unit l) (c, bases_of is_base (li_classes l) c)).
      split; [apply record_iff; eauto|]. simpl. apply (proj1 HI).
  Qed.

  Lemma registered_key c : registered ti R (key c) <-> listed ls c.
  Proof.
    rewrite registered_listed. split; [|eauto]. intros (d & Hd & He%key_inj). by subst.
  Qed.

  Lemma pair_iff x y : base_pair ti R x y <->
    exists c b, x = key c /\ y = key b /\ listed_together ls c b /\ is_base b c = true.
  Proof.
    unfold base_pair, listed_together. split.
    - intros (cr & t & Hcr & Ht & <- & <-). apply record_iff in Hcr as (l & c & Hl & Hc & ->).
      simpl in *. apply elem_of_list_fmap in Ht as (b & -> & Hb).
      apply elem_of_list_filter in Hb as [Hb1 Hb2]. exists c, b. rewrite !(proj1 HI). eauto 8.
    - intros (c & b & -> & -> & (l & Hl & Hc & Hb) & Hcb).
      exists (use_class_aux abstract vptr_of static_type (li_unit l) (c, bases_of is_base (li_classes l) c)),
        (static_type (li_unit l) b).
      split; [apply record_iff; eauto|]. simpl. rewrite !(proj1 HI). split; [|auto].
      apply elem_of_list_fmap. exists b. split; [reflexivity|]. apply elem_of_list_filter. auto.
  Qed.

  Lemma pair_key c b : base_pair ti R (key c) (key b) <->
    listed_together ls c b /\ is_base b c = true.
  Proof.
    rewrite pair_iff. split; [|eauto 8].
    intros (c' & b' & H1%key_inj & H2%key_inj & H). by subst.
  Qed.

  (* Every registration relation is sound. *)
  Lemma derives_sound x y : derives ti R x y -> forall c, x = key c ->
    exists b, y = key b /\ is_base b c = true /\ (listed ls c -> listed ls b).
  Proof.
    intros H. induction H as [x|x y z Hxy _ IH]; intros c ->.
    - exists c. split; [reflexivity|]. split; [apply (ch_refl _ HC)|auto].
    - apply pair_iff in Hxy as (c' & b & ->%key_inj & -> & (l & Hl & Hc & Hb) & Hcb).
      destruct (IH b eq_refl) as (d & -> & Hd & HL). exists d. split; [reflexivity|].
      split; [eapply (ch_trans _ HC); eauto|]. intros _. apply HL. exists l. auto.
  Qed.

  Definition universe : list N := flat_map li_classes ls.
  Lemma universe_listed c : c ∈ universe <-> listed ls c.
  Proof.
    unfold universe, listed. rewrite elem_of_list_In, in_flat_map.
    split; intros (l & H1 & H2); exists l; rewrite <- ?elem_of_list_In in *;
      rewrite ?elem_of_list_In; auto; split; apply elem_of_list_In; auto.
  Qed.

  (* The classes strictly between. *)
  Definition between (c b : N) : list N :=
    filter (fun d => is_base b d = true /\ is_base d c = true) universe.

  Lemma between_lt c b c' b' :
    (forall d, d ∈ between c' b' -> d ∈ between c b) ->
    (exists d, d ∈ between c b /\ d ∉ between c' b') ->
    length (between c' b') < length (between c b).
  Proof.
    intros Hsub (d & Hd & Hnd). unfold between in *. apply elem_of_list_filter in Hd as [Hd Hu].
    apply filter_lt with d; auto.
    - intros x Hx Hp. apply (fun H => proj1 (proj1 (elem_of_list_filter _ _ _) (Hsub x H))).
      apply elem_of_list_filter. auto.
    - intros Hp. apply Hnd, elem_of_list_filter. auto.
  Qed.

  Lemma in_between c b d : d ∈ between c b <->
    listed ls d /\ is_base b d = true /\ is_base d c = true.
  Proof. unfold between. rewrite elem_of_list_filter, universe_listed. tauto. Qed.

  (* "A class and its direct bases": the relation is complete. *)
  Lemma derives_complete c b : documented is_base ls -> listed ls c -> listed ls b ->
    is_base b c = true -> derives ti R (key c) (key b).
  Proof.
    intros HD. remember (length (between c b)) as n eqn:Hn.
    revert c b Hn. induction n as [n IH] using lt_wf_ind. intros c b -> Hc Hb Hcb.
    destruct (decide (c = b)) as [->|Hne]; [constructor|].
    destruct (decide (Exists (fun d => d <> c /\ d <> b) (between c b))) as [Hex|Hno].
    - apply Exists_exists in Hex as (d & Hd & Hdc & Hdb).
      apply in_between in Hd as (Hld & H1 & H2).
      transitivity (key d).
      + refine (IH _ _ c d eq_refl Hc Hld H2). apply between_lt.
        * intros x (Hx & Hx1 & Hx2)%in_between. apply in_between.
          split; [exact Hx|]. split; [eapply (ch_trans _ HC); eauto|exact Hx2].
        * exists b. split; [apply in_between; split; [exact Hb|]; split; [apply (ch_refl _ HC)|exact Hcb]|].
          intros (_ & Hx & _)%in_between. apply Hdb. apply (ch_antisym _ HC); auto.
      + refine (IH _ _ d b eq_refl Hld Hb H1). apply between_lt.
        * intros x (Hx & Hx1 & Hx2)%in_between. apply in_between.
          split; [exact Hx|]. split; [exact Hx1|eapply (ch_trans _ HC); eauto].
        * exists c. split; [apply in_between; split; [exact Hc|]; split; [exact Hcb|apply (ch_refl _ HC)]|].
          intros (_ & _ & Hx)%in_between. apply Hdc. apply (ch_antisym _ HC); auto.
    - apply rtc_once, pair_key. split; [|exact Hcb]. apply HD.
      split; [exact Hc|]. split; [exact Hb|]. split; [exact Hne|]. split; [exact Hcb|].
      intros d Hd H1 H2. destruct (decide (d = b)) as [|Hb']; [auto|].
      destruct (decide (d = c)) as [|Hc']; [auto|]. exfalso. apply Hno, Exists_exists.
      exists d. split; [apply in_between; auto|auto].
  Qed.

  Lemma relation c b : documented is_base ls -> listed ls c -> listed ls b ->
    derives ti R (key c) (key b) <-> is_base b c = true.
  Proof.
    intros HD Hc Hb. split; [|apply derives_complete; auto].
    intros H. destruct (derives_sound _ _ H c eq_refl) as (b' & He%key_inj & H1 & _). by subst.
  Qed.

  Lemma strict_relation c b : documented is_base ls -> listed ls c -> listed ls b ->
    strictly ti R (key c) (key b) <-> is_base b c = true /\ c <> b.
  Proof.
    intros HD Hc Hb. unfold strictly. rewrite relation by auto.
    split; intros [H1 H2]; (split; [exact H1|]); [congruence|]. intros He%key_inj. auto.
  Qed.

  (* The bases of a class, counted. *)
  Lemma use_classes_acyclic : acyclic ti R.
  Proof.
    (* the number of listed keys that are bases *)
    exists (fun k => length (filter (fun d => Exists (fun c => key c = k /\ is_base d c = true) universe) universe)).
    intros x y Hp Hne. apply pair_iff in Hp as (c & b & -> & -> & (l & Hl & Hc & Hb) & Hcb).
    assert (HLc : c ∈ universe) by (apply universe_listed; exists l; auto).
    assert (HLb : b ∈ universe) by (apply universe_listed; exists l; auto).
    assert (Heq : forall e, e ∈ universe ->
      filter (fun d => Exists (fun c0 => key c0 = key e /\ is_base d c0 = true) universe) universe =
      filter (fun d => is_base d e = true) universe).
    { intros e He. apply list_filter_iff. intros d. rewrite Exists_exists. split.
      - intros (x & _ & ->%key_inj & H). exact H.
      - intros H. exists e. auto. }
    rewrite (Heq c HLc), (Heq b HLb). clear Heq.
    assert (Hsub : forall d, is_base d b = true -> is_base d c = true).
    { intros d Hd. eapply (ch_trans _ HC); eauto. }
    assert (Hcn : is_base c b <> true).
    { intros H. apply Hne. f_equal. apply (ch_antisym _ HC); auto. }
    assert (Hcc : is_base c c = true) by apply (ch_refl _ HC).
    apply filter_lt with c; auto.
  Qed.

  Lemma use_classes_bases : bases_registered ti R.
  Proof.
    intros cr t Hcr Ht. apply record_iff in Hcr as (l & c & Hl & Hc & ->). simpl in Ht.
    apply elem_of_list_fmap in Ht as (b & -> & Hb). apply elem_of_list_filter in Hb as [_ Hb].
    rewrite (proj1 HI). apply registered_key. exists l. auto.
  Qed.

  Lemma use_classes_statics : (forall c d, vptr_of c = vptr_of d -> c = d) ->
    forall cr1 cr2, cr1 ∈ reg_classes R -> cr2 ∈ reg_classes R ->
      cr_static_vptr cr1 = cr_static_vptr cr2 -> ti (cr_type cr1) = ti (cr_type cr2).
  Proof.
    intros Hv cr1 cr2 H1 H2 He. apply record_iff in H1 as (l1 & c1 & _ & _ & ->).
    apply record_iff in H2 as (l2 & c2 & _ & _ & ->). simpl in *. apply Hv in He. subst.
    rewrite !(proj1 HI). reflexivity.
  Qed.

  Lemma complete_together c b : complete is_base ls -> listed ls c -> listed ls b ->
    is_base b c = true -> listed_together ls c b.
  Proof.
    intros HK (l & Hl & Hc) Hb Hcb. exists l. split; [exact Hl|]. split; [exact Hc|].
    apply (HK l c b); auto.
  Qed.

  Lemma complete_documented : complete is_base ls -> documented is_base ls.
  Proof.
    intros HK c b (Hc & Hb & _ & Hcb & _). apply complete_together; auto.
  Qed.

  Lemma complete_bases_first : complete is_base ls -> bases_first ti R.
  Proof.
    intros HK x y z Hxy _ Hyz _. left. apply pairs_spec in Hxy, Hyz. apply pairs_spec.
    apply pair_iff in Hxy as (c & a & -> & -> & (l1 & Hl1 & Hc & Ha) & Hca).
    apply pair_iff in Hyz as (a' & b & He%key_inj & -> & (l2 & Hl2 & Ha' & Hb) & Hab). subst a'.
    apply pair_key. assert (Hcb : is_base b c = true) by (eapply (ch_trans _ HC); eauto).
    split; [|exact Hcb]. apply complete_together; auto; [exists l1|exists l2]; auto.
  Qed.

  (* ---- the selection rule ---- *)
  Section Select.
    Context (HD : documented is_base ls) (m : method_record) (ovs : list (list N)) (args : list N).
    Hypothesis HT : takes ti key m ovs.
    Hypothesis HA : Forall (listed ls) args.
    Hypothesis HO : forall o v, o ∈ mr_overriders m -> v ∈ or_vp o -> registered ti R (ti v).

    Lemma takes_lookup i o ps : mr_overriders m !! i = Some o -> ovs !! i = Some ps ->
      map ti (or_vp o) = map key ps /\ Forall (listed ls) ps.
    Proof.
      intros Ho Hps. assert (H : map ti (or_vp o) = map key ps) by (exact (Forall2_lookup_lr _ _ _ i o ps HT Ho Hps)).
      split; [exact H|]. apply list.Forall_forall. intros p Hp.
      apply registered_key. assert (Hk : key p ∈ map ti (or_vp o)).
      { rewrite H. apply elem_of_list_fmap. eauto. }
      apply elem_of_list_fmap in Hk as (v & -> & Hv). apply (HO o); [|exact Hv].
      eapply elem_of_list_lookup_2; eauto.
    Qed.

    Lemma both i : (exists o, mr_overriders m !! i = Some o) <-> exists ps, ovs !! i = Some ps.
    Proof.
      split; intros (x & Hx).
      - destruct (Forall2_lookup_l _ _ _ _ _ HT Hx) as (y & Hy & _). eauto.
      - destruct (Forall2_lookup_r _ _ _ _ _ HT Hx) as (y & Hy & _). eauto.
    Qed.

    Lemma accepts_iff i : candidate ti R (mr_overriders m) (map key args) i <-> accepts is_base ovs args i.
    Proof.
      unfold candidate, accepts, applicable.
      assert (Hmain : forall o ps, mr_overriders m !! i = Some o -> ovs !! i = Some ps ->
        Forall2 (fun a v => derives ti R a (ti v)) (map key args) (or_vp o) <->
        Forall2 (fun a p => is_base p a = true) args ps).
      { intros o ps Ho Hps. destruct (takes_lookup i o ps Ho Hps) as [He Hl].
        transitivity (Forall2 (fun a v => derives ti R a v) (map key args) (map ti (or_vp o))).
        { change (map ti (or_vp o)) with (ti <$> or_vp o). rewrite Forall2_fmap_r. reflexivity. }
        rewrite He. change (map key args) with (key <$> args). change (map key ps) with (key <$> ps).
        rewrite Forall2_fmap. clear He Hps Ho. revert ps Hl. induction args as [|a l IH]; intros ps Hl.
        - split; intros H; inversion H; constructor.
        - inversion HA as [|? ? Ha Hla]; subst.
          split; intros H; inversion H as [|? p ? ps' H1 H2]; subst;
            inversion Hl as [|? ? Hp Hl']; subst; constructor.
          + apply relation in H1; auto.
          + apply (IH Hla); auto.
          + apply relation; auto.
          + apply (IH Hla); auto. }
      split.
      - intros (o & Ho & H). destruct (proj1 (both i) (ex_intro _ o Ho)) as (ps & Hps).
        exists ps. split; [exact Hps|]. apply (Hmain o ps); auto.
      - intros (ps & Hps & H). destruct (proj2 (both i) (ex_intro _ ps Hps)) as (o & Ho).
        exists o. split; [exact Ho|]. apply (Hmain o ps); auto.
    Qed.

    Lemma proper_iff x y ps qs :
      map ti (or_vp x) = map key ps -> map ti (or_vp y) = map key qs ->
      Forall (listed ls) ps -> Forall (listed ls) qs ->
      some_more_specialized ti R (or_vp x) (or_vp y) <-> proper_in_some is_base ps qs.
    Proof.
      intros Hx Hy Hps Hqs. rewrite list.Forall_forall in Hps, Hqs.
      assert (Hm : forall (l : list N) (f : N -> N) i, map f l !! i = f <$> (l !! i)).
      { intros l f i. apply list_lookup_fmap. }
      unfold some_more_specialized, proper_in_some. split.
      - intros (i & a & b & Ha & Hb & Hs).
        assert (H1 : map key ps !! i = Some (ti a)) by (rewrite <- Hx, Hm, Ha; reflexivity).
        assert (H2 : map key qs !! i = Some (ti b)) by (rewrite <- Hy, Hm, Hb; reflexivity).
        rewrite Hm in H1, H2.
        destruct (ps !! i) as [p|] eqn:Hp; [|discriminate].
        destruct (qs !! i) as [q|] eqn:Hq; [|discriminate]. simpl in H1, H2.
        injection H1 as H1. injection H2 as H2. rewrite <- H1, <- H2 in Hs.
        exists i, p, q. split; [exact Hp|]. split; [exact Hq|].
        apply strict_relation; auto; [apply Hps|apply Hqs]; eapply elem_of_list_lookup_2; eauto.
      - intros (i & p & q & Hp & Hq & Hs).
        assert (H1 : map ti (or_vp x) !! i = Some (key p)) by (rewrite Hx, Hm, Hp; reflexivity).
        assert (H2 : map ti (or_vp y) !! i = Some (key q)) by (rewrite Hy, Hm, Hq; reflexivity).
        rewrite Hm in H1, H2.
        destruct (or_vp x !! i) as [a|] eqn:Ha; [|discriminate].
        destruct (or_vp y !! i) as [b|] eqn:Hb; [|discriminate]. simpl in H1, H2.
        injection H1 as H1. injection H2 as H2.
        exists i, a, b. split; [exact Ha|]. split; [exact Hb|]. rewrite H1, H2.
        apply strict_relation; auto; [apply Hps|apply Hqs]; eapply elem_of_list_lookup_2; eauto.
    Qed.

    Lemma better_iff i j : better is_base ovs i j <->
      exists a b, mr_overriders m !! i = Some a /\ mr_overriders m !! j = Some b /\ dominates ti R a b.
    Proof.
      unfold better, dominates. split.
      - intros (ps & qs & Hps & Hqs & H1 & H2).
        destruct (proj2 (both i) (ex_intro _ ps Hps)) as (a & Ha).
        destruct (proj2 (both j) (ex_intro _ qs Hqs)) as (b & Hb).
        destruct (takes_lookup i a ps Ha Hps) as [Ea La]. destruct (takes_lookup j b qs Hb Hqs) as [Eb Lb].
        exists a, b. split; [exact Ha|]. split; [exact Hb|].
        split; [apply (proper_iff a b ps qs)|]; auto. intros H. apply H2, (proper_iff b a qs ps); auto.
      - intros (a & b & Ha & Hb & H1 & H2).
        destruct (proj1 (both i) (ex_intro _ a Ha)) as (ps & Hps).
        destruct (proj1 (both j) (ex_intro _ b Hb)) as (qs & Hqs).
        destruct (takes_lookup i a ps Ha Hps) as [Ea La]. destruct (takes_lookup j b qs Hb Hqs) as [Eb Lb].
        exists ps, qs. split; [exact Hps|]. split; [exact Hqs|].
        split; [apply (proper_iff a b ps qs)|]; auto. intros H. apply H2, (proper_iff b a qs ps); auto.
    Qed.

    Lemma best_iff i :
      undominated ti R (mr_overriders m) (candidate ti R (mr_overriders m) (map key args)) i <->
      best is_base ovs args i.
    Proof.
      unfold undominated, best, dominated. rewrite accepts_iff. split; intros [H1 H2]; (split; [exact H1|]).
      - intros j Hj Hb. apply better_iff in Hb as (a & b & Ha & Hb & Hd). apply H2.
        exists j, b, a. split; [exact Hb|]. split; [exact Ha|]. split; [apply accepts_iff; exact Hj|exact Hd].
      - intros (j & a & b & Ha & Hb & Hj & Hd). apply (H2 j); [apply accepts_iff; exact Hj|].
        apply better_iff. exists b, a. auto.
    Qed.

    Lemma rule_iff s : selects ti R (mr_overriders m) (map key args) s <-> rule is_base ovs args s.
    Proof.
      unfold selects, selects_from, rule. destruct s as [| |i].
      - split; intros H i Hi; apply (H i), accepts_iff; exact Hi.
      - split; intros [(i & Hi) Hn]; (split; [exists i; apply accepts_iff; exact Hi|]);
          intros (j & Hj & Hu); apply Hn; exists j; (split; [apply best_iff; exact Hj|]);
          intros k Hk; apply Hu, best_iff; exact Hk.
      - split; intros [Hi Hu]; (split; [apply best_iff; exact Hi|]);
          intros k Hk; apply Hu, best_iff; exact Hk.
    Qed.

    Lemma settled_iff : better_is_settled is_base ovs args ->
      settled ti R (mr_overriders m) (candidate ti R (mr_overriders m) (map key args)).
    Proof.
      intros H i oi Hoi Hi (j & oi' & oj & Hoi' & Hoj & Hj & Hd). rewrite accepts_iff in Hi, Hj.
      destruct (H i j Hi Hj) as (k & Hk & Hki); [apply better_iff; eauto|].
      apply better_iff in Hki as (ok & oi2 & Hok & Hoi2 & Hkd). exists k, ok. split; [exact Hok|].
      split; [apply best_iff; exact Hk|congruence].
    Qed.
  End Select.
End UseClasses.

(* A program that follows the documentation, with the guard on the order. *)
Lemma use_classes_calls_ordered is_base abstract vptr_of static_type key ls cf X R w :
  cpp_hierarchy is_base ->
  identifies (e_ti (r_env X)) static_type key ->
  registers is_base abstract vptr_of static_type ls R ->
  documented is_base ls -> bases_first (e_ti (r_env X)) R ->
  env_ok (r_env X) -> arity_ok R -> ids_ok R -> hash_size_ok cf (length (reg_classes R)) ->
  addresses_ok (e_ti (r_env X)) R ->
  initialized_by cf X false R w ->
  forall mid m ovs all args,
    call_ok cf (e_ti (r_env X)) R w m all (map key args) -> functions_ok m ->
    takes (e_ti (r_env X)) key m ovs ->
    length (mr_vp m) = 1 \/ (together all /\ better_is_settled is_base ovs args) ->
    exists sel, rule is_base ovs args sel /\
      (forall sel', rule is_base ovs args sel' -> sel' = sel) /\
      behaves m sel (call cf w mid m all).
Proof.
  intros HC HI HR HD HB HE Har Hids Hn Had Hinit mid m ovs all args Hcall Hf HT Hg.
  assert (Hac := use_classes_acyclic _ _ _ _ _ _ _ _ HC HI HR).
  assert (HP : program_ok cf (r_env X) R) by (split; auto).
  assert (HN : all_named_registered (e_ti (r_env X)) (e_void (r_env X)) R).
  { destruct Hinit as (w0 & rep & Hw & Hi).
    destruct (initialize_errors cf X R w0 HE Hac Har Hids Hn Hw)
      as [(w' & r & _ & H & _)|[(t & H & _)|[(b & d & H & _)|(w' & a & b & H & _)]]];
      [exact H|rewrite H in Hi; discriminate..]. }
  assert (HO : forall o v, o ∈ mr_overriders m -> v ∈ or_vp o ->
            registered (e_ti (r_env X)) R (e_ti (r_env X) v)).
  { intros o v Ho Hv. apply HN. right. exists m. split; [apply (ca_method _ _ _ _ _ _ _ Hcall)|]. eauto. }
  assert (HA : Forall (listed ls) args).
  { apply list.Forall_forall. intros a Ha.
    assert (Hv := ca_valid _ _ _ _ _ _ _ Hcall). unfold valid_args in Hv.
    change (map key args) with (key <$> args) in Hv. rewrite Forall2_fmap_l in Hv.
    apply elem_of_list_lookup in Ha as (i & Hi).
    destruct (Forall2_lookup_l _ _ _ _ _ Hv Hi) as (v & _ & [Hr _]).
    eapply registered_key; eauto. }
  assert (Hrule := rule_iff _ _ _ _ _ _ _ _ HC HI HR HD m ovs args HT HA HO).
  assert (Hsel : exists sel,
      selects (e_ti (r_env X)) R (mr_overriders m) (map key args) sel /\
      (forall sel', selects (e_ti (r_env X)) R (mr_overriders m) (map key args) sel' -> sel' = sel) /\
      behaves m sel (call cf w mid m all)).
  { destruct Hg as [H1|[Ht Htr]].
    - eapply call_selects_uni; eauto.
    - eapply call_selects; eauto. eapply settled_iff; eauto. }
  destruct Hsel as (sel & H1 & H2 & H3). exists sel. split; [apply Hrule; exact H1|].
  split; [|exact H3]. intros s Hs. apply H2, Hrule, Hs.
Qed.

(* A program whose use_classes are complete. *)
Lemma use_classes_calls is_base abstract vptr_of static_type key ls cf X R w :
  cpp_hierarchy is_base ->
  identifies (e_ti (r_env X)) static_type key ->
  registers is_base abstract vptr_of static_type ls R ->
  complete is_base ls ->
  env_ok (r_env X) -> arity_ok R -> ids_ok R -> hash_size_ok cf (length (reg_classes R)) ->
  addresses_ok (e_ti (r_env X)) R ->
  initialized_by cf X false R w ->
  forall mid m ovs all args,
    call_ok cf (e_ti (r_env X)) R w m all (map key args) -> functions_ok m ->
    takes (e_ti (r_env X)) key m ovs ->
    length (mr_vp m) = 1 \/ (together all /\ better_is_settled is_base ovs args) ->
    exists sel, rule is_base ovs args sel /\
      (forall sel', rule is_base ovs args sel' -> sel' = sel) /\
      behaves m sel (call cf w mid m all).
Proof.
  intros HC HI HR HK. eapply use_classes_calls_ordered; eauto.
  - apply complete_documented, HK.
  - eapply complete_bases_first; eauto.
Qed.
