(* Adding registrations: what calls do before and after. *)
From stdpp Require Import base list numbers list_numbers relations.
From Verif Require Import Base Registry Spec ModelClasses ModelMethods ModelSlots ModelTables
  ModelHash ModelWorld ModelCall SpecCall SpecModules
  ProofBase ProofErrors ProofDispatch ProofInvariance ProofBehaviour.

(* ---- the class relation ---- *)
Section Relation.
  Context (ti : N -> N) (R R' : registrations).
  Context (HX : extends ti R R') (HB : bases_registered ti R).

  Lemma extends_up a b : derives ti R a b -> derives ti R' a b.
  Proof.
    induction 1 as [x|x y z H _ IH]; [constructor|]. etransitivity; [apply (ex_old _ _ _ HX); exact H|exact IH].
  Qed.

  Lemma derives_registered a b : registered ti R a -> derives ti R a b -> registered ti R b.
  Proof.
    intros Ha H. induction H as [x|x y z H _ IH]; [exact Ha|]. apply IH.
    destruct H as (cr & t & Hcr & Ht & _ & <-). eapply HB; eauto.
  Qed.

  Lemma extends_down a b : registered ti R a -> derives ti R' a b -> derives ti R a b.
  Proof.
    intros Ha H. induction H as [x|x y z H _ IH]; [constructor|].
    pose proof (ex_new _ _ _ HX _ _ Ha H) as H'. etransitivity; [exact H'|]. apply IH.
    eapply derives_registered; eauto.
  Qed.

  Lemma extends_derives a b : registered ti R a -> derives ti R a b <-> derives ti R' a b.
  Proof. intros Ha. split; [apply extends_up|apply extends_down; exact Ha]. Qed.

  Lemma extends_applicable args o :
    Forall (registered ti R) args -> applicable ti R args o <-> applicable ti R' args o.
  Proof.
    unfold applicable. intros Hr. split; intros H.
    - eapply Forall2_impl; [exact H|]. intros a b. apply extends_up.
    - revert H Hr. generalize (or_vp o). induction args as [|a args IH]; intros l H Hr;
        inversion H; subst; constructor; inversion Hr; subst; eauto using extends_down.
  Qed.

  Lemma extends_some a b :
    (forall x, x ∈ a -> registered ti R (ti x)) ->
    some_more_specialized ti R a b <-> some_more_specialized ti R' a b.
  Proof.
    intros Ha. unfold some_more_specialized, strictly.
    split; intros (i & x & y & H1 & H2 & H3 & H4); exists i, x, y;
      (split; [exact H1|]; split; [exact H2|]; split; [|exact H4]);
      (apply extends_derives in H3; [exact H3|]); apply Ha; eapply elem_of_list_lookup_2; eauto.
  Qed.

  Lemma extends_dominates a b :
    (forall x, x ∈ or_vp a -> registered ti R (ti x)) -> (forall x, x ∈ or_vp b -> registered ti R (ti x)) ->
    dominates ti R a b <-> dominates ti R' a b.
  Proof. intros Ha Hb. unfold dominates. rewrite (extends_some _ _ Ha), (extends_some _ _ Hb). reflexivity. Qed.
End Relation.

(* ---- selection ---- *)
Section Selection.
  Context (ti : N -> N) (R R' : registrations).
  Context (HX : extends ti R R') (HB : bases_registered ti R).
  Context (ovs ovs' news : list overrider_record) (args : list N).
  Context (Hargs : Forall (registered ti R) args).
  Context (Hovs : forall o x, o ∈ ovs -> x ∈ or_vp o -> registered ti R (ti x)).
  Context (Hnd : NoDup (ovs ++ news)).
  Context (f : nat -> nat) (Hf : forall i, (ovs ++ news) !! i = ovs' !! f i).
  Context (g : nat -> nat) (Hg : forall i, ovs' !! i = (ovs ++ news) !! g i)
    (Hinj : forall i j, g i = g j -> i = j).
  Notation cand := (candidate ti R ovs args).
  Notation cand' := (candidate ti R' ovs' args).
  Notation old j := (g j < length ovs).

  Lemma old_at i o : ovs !! i = Some o -> ovs' !! f i = Some o.
  Proof. intros H. rewrite <- Hf. apply lookup_app_l_Some. exact H. Qed.

  Lemma old_back j o : old j -> ovs' !! j = Some o -> ovs !! g j = Some o.
  Proof. intros Ho H. rewrite Hg, lookup_app_l in H by exact Ho. exact H. Qed.

  Lemma cand_up i : cand i -> cand' (f i).
  Proof.
    intros (o & Ho & Ha). exists o. split; [apply old_at; exact Ho|].
    apply (extends_applicable ti R R' HX HB); assumption.
  Qed.

  Lemma cand_down j : old j -> cand' j -> cand (g j).
  Proof.
    intros Ho (o & Hj & Ha). exists o. split; [apply old_back; assumption|].
    apply (extends_applicable ti R R' HX HB); assumption.
  Qed.

  Lemma old_dominates i j a b : ovs !! i = Some a -> ovs !! j = Some b ->
    dominates ti R a b <-> dominates ti R' a b.
  Proof.
    intros Ha Hb. apply (extends_dominates ti R R' HX HB); intros x; apply Hovs; eapply elem_of_list_lookup_2; eauto.
  Qed.

  (* An overrider undominated with the additions was so before. *)
  Lemma undominated_down j : old j -> undominated ti R' ovs' cand' j -> undominated ti R ovs cand (g j).
  Proof.
    intros Ho [Hc Hd]. split; [apply cand_down; assumption|].
    intros (k & oi & ok & Hi & Hk & Ck & Hdom). apply Hd.
    exists (f k), oi, ok. split; [|split; [apply old_at; exact Hk|split; [apply cand_up; exact Ck|]]].
    - rewrite Hg. apply lookup_app_l_Some. exact Hi.
    - apply (old_dominates _ _ _ _ Hk Hi). exact Hdom.
  Qed.

  (* Or is dominated by an addition. *)
  Lemma undominated_up i : settled ti R' ovs' cand' -> undominated ti R ovs cand i ->
    undominated ti R' ovs' cand' (f i) \/
    exists j, ~ old j /\ undominated ti R' ovs' cand' j.
  Proof.
    intros Hs [Hc Hd]. assert (Hc' := Hc). destruct Hc' as (oi & Hi & _).
    destruct (candidates_listed ti R' ovs' args) as (l & Hl).
    destruct (dominators_dec ti R' ovs' l oi) as [(j & oj & Hj & Hoj & Hdom)|Hno].
    - destruct (Hs (f i) oi) as (t & ot & Hot & Hu & Htd); [apply old_at; exact Hi|apply cand_up; exact Hc| |].
      + exists j, oi, oj. rewrite (old_at _ _ Hi). split; [reflexivity|]. split; [exact Hoj|].
        split; [apply Hl; exact Hj|exact Hdom].
      + right. exists t. split; [|exact Hu]. intros Ht. apply Hd.
        pose proof (old_back _ _ Ht Hot) as Hot'.
        exists (g t), oi, ot. split; [exact Hi|]. split; [exact Hot'|].
        split; [apply cand_down; [exact Ht|apply Hu]|]. apply (old_dominates _ _ _ _ Hot' Hi). exact Htd.
    - left. split; [apply cand_up; exact Hc|]. intros (j & oi' & oj & Hi' & Hj & Cj & Hdom).
      rewrite (old_at _ _ Hi) in Hi'. injection Hi' as <-. apply Hno. exists j, oj.
      split; [apply Hl; exact Cj|]. auto.
  Qed.

  Lemma f_old i o : ovs !! i = Some o -> g (f i) = i.
  Proof.
    intros H. apply (lookup_app_l_Some _ news) in H. apply (NoDup_lookup _ _ _ o Hnd); [|exact H].
    rewrite <- Hg, <- Hf. exact H.
  Qed.

  Lemma old_f j o : ovs' !! j = Some o -> f (g j) = j.
  Proof.
    intros H. apply Hinj. apply (NoDup_lookup _ _ _ o Hnd); [|rewrite <- Hg; exact H].
    rewrite <- Hg, <- Hf, <- Hg. exact H.
  Qed.

  Theorem added_selection sel sel' :
    settled ti R' ovs' cand' ->
    selects ti R ovs args sel -> selects ti R' ovs' args sel' ->
    sel' = SAmbiguous \/
    (exists j o, sel' = SOverrider j /\ ovs' !! j = Some o /\ o ∈ news) \/
    (sel = SNone /\ sel' = SNone) \/
    exists i j o, sel = SOverrider i /\ sel' = SOverrider j /\ ovs !! i = Some o /\ ovs' !! j = Some o.
  Proof.
    intros Hs HS HS'. destruct sel' as [| |j].
    - right. right. left. split; [|reflexivity].
      apply (selects_from_unique ti R ovs cand); [exact HS|]. intros i Hi. eapply HS', cand_up; exact Hi.
    - left. reflexivity.
    - destruct HS' as [Hu Huniq]. assert (Hc := proj1 Hu). destruct Hc as (o & Ho & Ha).
      right. destruct (decide (old j)) as [Hold|Hnew].
      + right. right. exists (g j), j, o.
        split; [|split; [reflexivity|split; [apply old_back; assumption|exact Ho]]].
        apply (selects_from_unique ti R ovs cand); [exact HS|].
        split; [apply undominated_down; assumption|]. intros h Hh.
        destruct (undominated_up h Hs Hh) as [H|(k & Hk & H)].
        * assert (Hoh := proj1 Hh). destruct Hoh as (oh & Hoh & _).
          rewrite <- (f_old _ _ Hoh). f_equal. apply Huniq. exact H.
        * destruct Hk. rewrite (Huniq _ H). exact Hold.
      + left. exists j, o. split; [reflexivity|]. split; [exact Ho|].
        rewrite Hg, lookup_app_r in Ho by lia. eapply elem_of_list_lookup_2; eauto.
  Qed.

  (* ---- additions that do not accept the arguments ---- *)
  Section Unrelated.
    Context (Hun : forall o, o ∈ news -> ~ applicable ti R' args o).

    Lemma cand_old j : cand' j -> old j.
    Proof.
      intros (o & Ho & Ha). destruct (decide (old j)) as [H|H]; [exact H|]. exfalso.
      rewrite Hg, lookup_app_r in Ho by lia. eapply Hun; [eapply elem_of_list_lookup_2; eauto|exact Ha].
    Qed.

    Lemma undominated_same i : undominated ti R ovs cand i -> undominated ti R' ovs' cand' (f i).
    Proof.
      intros [Hc Hd]. split; [apply cand_up; exact Hc|]. destruct Hc as (o & Ho & _).
      intros (j & oi & oj & Hi & Hj & Cj & Hdom). rewrite (old_at _ _ Ho) in Hi. injection Hi as <-.
      pose proof (old_back _ _ (cand_old _ Cj) Hj) as Hj'. apply Hd. exists (g j), o, oj.
      split; [exact Ho|]. split; [exact Hj'|]. split; [apply cand_down; [apply cand_old|]; exact Cj|].
      apply (old_dominates _ _ _ _ Hj' Ho). exact Hdom.
    Qed.

    Theorem unrelated_selection sel sel' :
      selects ti R ovs args sel -> selects ti R' ovs' args sel' ->
      (sel = SAmbiguous /\ sel' = SAmbiguous) \/ (sel = SNone /\ sel' = SNone) \/
      exists i j o, sel = SOverrider i /\ sel' = SOverrider j /\ ovs !! i = Some o /\ ovs' !! j = Some o.
    Proof.
      intros HS HS'.
      assert (Hback : forall j, undominated ti R' ovs' cand' j -> undominated ti R ovs cand (g j))
        by (intros j Hj; apply undominated_down; [apply cand_old, Hj|exact Hj]).
      destruct sel as [| |i].
      - right. left. split; [reflexivity|]. apply (selects_from_unique ti R' ovs' cand'); [exact HS'|].
        intros j Hj. apply (HS (g j)). apply cand_down; [apply cand_old|]; exact Hj.
      - left. split; [reflexivity|]. apply (selects_from_unique ti R' ovs' cand'); [exact HS'|].
        destruct HS as [(i & Hi) Hno]. split; [exists (f i); apply cand_up; exact Hi|].
        intros (j & Hj & Huniq). apply Hno. exists (g j). split; [apply Hback; exact Hj|].
        intros h Hh. assert (Ho := proj1 Hh). destruct Ho as (o & Ho & _).
        rewrite <- (f_old _ _ Ho). f_equal. apply Huniq, undominated_same. exact Hh.
      - right. right. destruct HS as [Hu Huniq]. assert (Ho := proj1 Hu). destruct Ho as (o & Ho & _).
        exists i, (f i), o. split; [reflexivity|]. split; [|split; [exact Ho|apply old_at; exact Ho]].
        apply (selects_from_unique ti R' ovs' cand'); [exact HS'|].
        split; [apply undominated_same; exact Hu|]. intros j Hj.
        rewrite <- (Huniq _ (Hback j Hj)). assert (Hoj := proj1 Hj). destruct Hoj as (oj & Hoj & _).
        symmetry. eapply old_f; eauto.
    Qed.

    Lemma settled_same : settled ti R ovs cand -> settled ti R' ovs' cand'.
    Proof.
      intros Hs i oi Hi Ci (j & oi' & oj & Hi' & Hj & Cj & Hdom).
      rewrite Hi in Hi'. injection Hi' as <-.
      pose proof (old_back _ _ (cand_old _ Ci) Hi) as Hi'. pose proof (old_back _ _ (cand_old _ Cj) Hj) as Hj'.
      destruct (Hs (g i) oi Hi') as (t & ot & Hot & Hu & Htd).
      - apply cand_down; [apply cand_old|]; exact Ci.
      - exists (g j), oi, oj. split; [exact Hi'|]. split; [exact Hj'|].
        split; [apply cand_down; [apply cand_old|]; exact Cj|]. apply (old_dominates _ _ _ _ Hj' Hi'). exact Hdom.
      - exists (f t), ot. split; [apply old_at; exact Hot|]. split; [apply undominated_same; exact Hu|].
        apply (old_dominates _ _ _ _ Hot Hi'). exact Htd.
    Qed.
  End Unrelated.
End Selection.

(* ---- calls ---- *)
Lemma initialized_named cf X n2216 R w : program_ok cf (r_env X) R -> initialized_by cf X n2216 R w ->
  all_named_registered (e_ti (r_env X)) (e_void (r_env X)) R.
Proof.
  intros [HE Hac _ _ _ _] (w0 & rep & Hw & Hi). unfold initialize in Hi.
  destruct (compile (r_env X) n2216 R) as [cp|e| |] eqn:Hcp; try discriminate.
  apply (co_named _ _ _ _ (compile_inv _ R HE Hac n2216 cp Hcp)).
Qed.

Lemma named_bases ti void R : all_named_registered ti void R -> bases_registered ti R.
Proof. intros H cr t Hcr Ht. apply H. left. eauto. Qed.

Lemma named_overriders ti void R m o x : all_named_registered ti void R -> m ∈ reg_methods R ->
  o ∈ mr_overriders m -> x ∈ or_vp o -> registered ti R (ti x).
Proof. intros H Hm Ho Hx. apply H. right. exists m. split; [exact Hm|]. right. exists o. auto. Qed.

Lemma addresses_overriders ti R m : addresses_ok ti R -> m ∈ reg_methods R -> NoDup (mr_overriders m).
Proof.
  intros [_ _ H] Hm. apply elem_of_list_split in Hm as (l1 & l2 & Heq).
  rewrite Heq, flat_map_app in H. apply NoDup_app in H as (_ & _ & H). simpl in H. apply NoDup_app in H as (H & _).
  eapply NoDup_fmap_1. exact H.
Qed.

Lemma behaves_alike m m' sel sel' r r' :
  behaves m sel r -> behaves m' sel' r' ->
  (sel = SAmbiguous /\ sel' = SAmbiguous) \/ (sel = SNone /\ sel' = SNone) \/
  (exists i j o, sel = SOverrider i /\ sel' = SOverrider j /\ mr_overriders m !! i = Some o /\
     mr_overriders m' !! j = Some o) ->
  alike r r'.
Proof.
  intros H H' [[-> ->]|[[-> ->]|(i & j & o & -> & -> & Ho & Ho')]].
  - inversion H; inversion H'; subst; constructor.
  - inversion H; inversion H'; subst; constructor.
  - inversion H; inversion H'; subst. simplify_eq. constructor.
Qed.

Section Calls.
  Context (cf cf' : config) (X X' : run) (R R' : registrations) (w w' : world).
  Notation ti := (e_ti (r_env X)).
  Context (HP : program_ok cf (r_env X) R) (HB : bases_first ti R) (HI : initialized_by cf X false R w).
  Context (HP' : program_ok cf' (r_env X') R') (HB' : bases_first ti R') (HI' : initialized_by cf' X' false R' w').
  Context (Hti : e_ti (r_env X') = ti) (HX : extends ti R R').
  Context (mid mid' : N) (m m' : method_record) (news : list overrider_record) (all all' : list arg) (args : list N).
  Context (Hc : call_ok cf ti R w m all args) (Hc' : call_ok cf' ti R' w' m' all' args).
  Context (Hfn : functions_ok m) (Hfn' : functions_ok m') (Hadd : adds news m m').

  Lemma method_settled : 
    length (mr_vp m) = 1 -> settled ti R (mr_overriders m) (candidate ti R (mr_overriders m) args) /\
      settled ti R' (mr_overriders m') (candidate ti R' (mr_overriders m') args).
  Proof.
    intros H1. destruct HP, HP'. rewrite Hti in *.
    split; apply candidates_settled, uni_transitive; try assumption; try apply Hc; try apply Hc'.
    destruct Hadd as [-> _]. exact H1.
  Qed.

  Lemma old_bases : bases_registered ti R.
  Proof. eapply named_bases, initialized_named; eauto. Qed.

  Lemma old_args : Forall (registered ti R) args.
  Proof.
    destruct Hc as [_ _ H]. unfold valid_args in H. clear -H. induction H as [|a v l l' [Ha _] _ IH]; constructor; auto.
  Qed.

  Lemma old_overriders o x : o ∈ mr_overriders m -> x ∈ or_vp o -> registered ti R (ti x).
  Proof. apply named_overriders with (void := e_void (r_env X)); [eapply initialized_named; eauto|apply Hc]. Qed.

  Lemma no_duplicates : NoDup (mr_overriders m ++ news).
  Proof.
    destruct Hadd as [_ Hp]. rewrite <- Hp. eapply addresses_overriders; [apply HP'|apply Hc'].
  Qed.

  Lemma permuted : exists f g,
    (forall i, (mr_overriders m ++ news) !! i = mr_overriders m' !! f i) /\
    (forall i, mr_overriders m' !! i = (mr_overriders m ++ news) !! g i) /\
    forall i j : nat, g i = g j -> i = j.
  Proof.
    destruct Hadd as [_ Hp].
    destruct (proj1 (Permutation_inj _ _) Hp) as (_ & g & Hgi & Hg).
    destruct (proj1 (Permutation_inj _ _) (Permutation_sym Hp)) as (_ & f & _ & Hf).
    exists f, g. auto.
  Qed.

  Lemma selected' : length (mr_vp m') = 1 \/ together all' ->
    settled ti R' (mr_overriders m') (candidate ti R' (mr_overriders m') args) ->
    exists sel, selects ti R' (mr_overriders m') args sel /\ behaves m' sel (call cf' w' mid' m' all').
  Proof.
    intros Ht Hs. rewrite <- Hti in HB', Hc', Hs |- *.
    destruct (call_selects cf' X' R' w' HP' HB' mid' m' all' args HI' Hc' Hfn' Ht Hs) as (sel & H1 & _ & H2).
    eauto.
  Qed.

  Theorem unrelated_calls :
    length (mr_vp m) = 1 \/ (together all /\ together all' /\
      settled ti R (mr_overriders m) (candidate ti R (mr_overriders m) args)) ->
    (forall o, o ∈ news -> ~ applicable ti R' args o) ->
    alike (call cf w mid m all) (call cf' w' mid' m' all').
  Proof.
    intros Hg Hun.
    destruct permuted as (f & g & Hf & Hg' & Hinj).
    assert (Hset : settled ti R (mr_overriders m) (candidate ti R (mr_overriders m) args))
      by (destruct Hg as [H1|(_ & _ & H)]; [apply method_settled; exact H1|exact H]).
    assert (Hset' : settled ti R' (mr_overriders m') (candidate ti R' (mr_overriders m') args))
      by (eapply settled_same; eauto using old_bases, old_args, old_overriders).
    assert (Ht : length (mr_vp m) = 1 \/ together all) by tauto.
    assert (Ht' : length (mr_vp m') = 1 \/ together all') by (rewrite (proj1 Hadd); tauto).
    destruct (call_selects cf X R w HP HB mid m all args HI Hc Hfn Ht Hset) as (sel & Hs & _ & Hbe).
    destruct selected' with (1 := Ht') (2 := Hset') as (sel' & Hs' & Hbe').
    eapply behaves_alike; [exact Hbe|exact Hbe'|].
    eapply unrelated_selection; eauto using old_bases, old_args, old_overriders, no_duplicates.
  Qed.

  Theorem added_calls :
    length (mr_vp m) = 1 \/ (together all /\ together all' /\
      settled ti R (mr_overriders m) (candidate ti R (mr_overriders m) args) /\
      settled ti R' (mr_overriders m') (candidate ti R' (mr_overriders m') args)) ->
    alike (call cf w mid m all) (call cf' w' mid' m' all') \/
    (exists o, o ∈ news /\ call cf' w' mid' m' all' = Ok (Calls (or_pf o))) \/
    exists i n ts, call cf' w' mid' m' all' = Err (EAmbiguousCall i n ts).
  Proof.
    intros Hg. destruct permuted as (f & g & Hf & Hg' & Hinj).
    assert (Hset : settled ti R (mr_overriders m) (candidate ti R (mr_overriders m) args))
      by (destruct Hg as [H1|(_ & _ & H & _)]; [apply method_settled; exact H1|exact H]).
    assert (Hset' : settled ti R' (mr_overriders m') (candidate ti R' (mr_overriders m') args))
      by (destruct Hg as [H1|(_ & _ & _ & H)]; [apply method_settled; exact H1|exact H]).
    assert (Ht : length (mr_vp m) = 1 \/ together all) by tauto.
    assert (Ht' : length (mr_vp m') = 1 \/ together all') by (rewrite (proj1 Hadd); tauto).
    destruct (call_selects cf X R w HP HB mid m all args HI Hc Hfn Ht Hset) as (sel & Hs & _ & Hbe).
    destruct selected' with (1 := Ht') (2 := Hset') as (sel' & Hs' & Hbe').
    assert (Hcases := added_selection ti R R' HX old_bases (mr_overriders m) (mr_overriders m') news args
      old_args old_overriders no_duplicates f Hf g Hg' sel sel' Hset' Hs Hs').
    destruct Hcases as [->|[(j & o & -> & Ho & Hn)|H]].
    - right. right. inversion Hbe'; eauto.
    - right. left. exists o. split; [exact Hn|]. inversion Hbe' as [| |j' o' Ho' Hj Heq]; subst.
      simplify_eq. reflexivity.
    - left. eapply behaves_alike; [exact Hbe|exact Hbe'|]. right. exact H.
  Qed.
End Calls.
