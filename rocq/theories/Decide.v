(* Executable versions of the specification (Spec.v), proved equivalent to it when
   a closure check succeeds.  Used by the examples only: they let concrete
   registries be compared with the specification by computation. *)
From stdpp Require Import base list numbers list_numbers relations.
From Verif Require Import Registry Spec.

Section Decide.
  Context (ti : N -> N) (R : registrations).
  Notation ps := (pairs ti R).

  Lemma pairs_spec c b : (c, b) ∈ ps <-> base_pair ti R c b.
  Proof.
    unfold pairs, base_pair. rewrite elem_of_list_In, in_flat_map. split.
    - intros (cr & Hcr & Hin). apply in_map_iff in Hin as (t & [= <- <-] & Ht).
      exists cr, t. rewrite !elem_of_list_In. auto.
    - intros (cr & t & Hcr & Ht & <- & <-). exists cr. rewrite <- !elem_of_list_In.
      split; [exact Hcr|]. apply elem_of_list_In, in_map_iff. exists t.
      rewrite <- elem_of_list_In. auto.
  Qed.

  Definition step (l : list N) : list N :=
    remove_dups (l ++ map snd (filter (fun p => fst p ∈ l) ps)).

  (* The classes [a] derives from, in at most [n] steps. *)
  Fixpoint ups (n : nat) (a : N) : list N :=
    match n with 0 => [a] | S n => step (ups n a) end.

  Definition closedb (l : list N) : bool :=
    forallb (fun p => negb (bool_decide (fst p ∈ l)) || bool_decide (snd p ∈ l)) ps.

  Definition closure_ok (n : nat) : bool := forallb (fun p => closedb (ups n (fst p))) ps.

  Lemma ups_self n a : a ∈ ups n a.
  Proof.
    induction n; simpl; [set_solver|]. unfold step. apply elem_of_remove_dups. set_solver.
  Qed.

  Lemma ups_sound n a b : b ∈ ups n a -> derives ti R a b.
  Proof.
    revert b. induction n as [|n IH]; intros b; simpl.
    - intros ->%elem_of_list_singleton. constructor.
    - unfold step. rewrite elem_of_remove_dups, elem_of_app. intros [H|H]; [auto|].
      change (map ?f ?l) with (f <$> l) in H.
      apply elem_of_list_fmap in H as ([c b'] & -> & H).
      apply elem_of_list_filter in H as [H1 H2]. simpl in *.
      eapply rtc_r; [apply IH; exact H1|]. apply pairs_spec. exact H2.
  Qed.

  Lemma closedb_spec l c b : closedb l = true -> c ∈ l -> base_pair ti R c b -> b ∈ l.
  Proof.
    unfold closedb. rewrite forallb_forall. intros H Hc Hp. apply pairs_spec in Hp.
    specialize (H (c, b)). rewrite <- elem_of_list_In in H. specialize (H Hp). simpl in H.
    rewrite bool_decide_true in H by exact Hc. simpl in H. apply bool_decide_eq_true in H. exact H.
  Qed.

  Lemma closed_derives l a b : closedb l = true -> a ∈ l -> derives ti R a b -> b ∈ l.
  Proof.
    intros Hl Ha Hd. induction Hd as [|x y z Hxy _ IH]; [exact Ha|].
    apply IH. eapply closedb_spec; eauto.
  Qed.

  Lemma ups_spec n a b : closure_ok n = true -> derives ti R a b <-> b ∈ ups n a.
  Proof.
    intros Hc. split; [|apply ups_sound]. intros Hd.
    destruct Hd as [|x y z Hxy Hyz]; [apply ups_self|].
    unfold closure_ok in Hc. rewrite forallb_forall in Hc.
    assert (Hcx : closedb (ups n x) = true).
    { apply (Hc (x, y)). apply elem_of_list_In, pairs_spec. exact Hxy. }
    eapply closed_derives; [exact Hcx|apply ups_self|]. eapply rtc_l; eauto.
  Qed.

  Context (n : nat).
  Definition derivesb (a b : N) : bool := bool_decide (b ∈ ups n a).

  Definition applicableb (args : list N) (o : overrider_record) : bool :=
    bool_decide (length args = length (or_vp o)) &&
    forallb (fun p => derivesb (fst p) (ti (snd p))) (zip args (or_vp o)).

  Definition strictb (p : N * N) : bool :=
    derivesb (ti (fst p)) (ti (snd p)) && negb (bool_decide (ti (fst p) = ti (snd p))).

  Definition someb (a b : list N) : bool := existsb strictb (zip a b).

  Definition dominatesb (a b : overrider_record) : bool :=
    someb (or_vp a) (or_vp b) && negb (someb (or_vp b) (or_vp a)).

  Definition cands (ovs : list overrider_record) (args : list N) : list nat :=
    filter (fun i => match ovs !! i with Some o => applicableb args o | None => false end = true)
      (seq 0 (length ovs)).

  Definition next_cands (ovs : list overrider_record) (i : nat) : list nat :=
    match ovs !! i with
    | Some o => filter (fun j => j <> i) (cands ovs (map ti (or_vp o)))
    | None => []
    end.

  Definition dominatesi (ovs : list overrider_record) (j i : nat) : bool :=
    match ovs !! j, ovs !! i with Some oj, Some oi => dominatesb oj oi | _, _ => false end.

  Definition undoms (ovs : list overrider_record) (cs : list nat) : list nat :=
    filter (fun i => forallb (fun j => negb (dominatesi ovs j i)) cs = true) cs.

  Definition selectb (ovs : list overrider_record) (cs : list nat) : selection :=
    match cs with
    | [] => SNone
    | _ => match undoms ovs cs with [i] => SOverrider i | _ => SAmbiguous end
    end.

  Definition transb (ovs : list overrider_record) (cs : list nat) : bool :=
    forallb (fun i => forallb (fun j => forallb (fun k =>
      negb (dominatesi ovs i j && dominatesi ovs j k) || dominatesi ovs i k) cs) cs) cs.

  Context (Hc : closure_ok n = true).

  Lemma derivesb_spec a b : derivesb a b = true <-> derives ti R a b.
  Proof. unfold derivesb. rewrite bool_decide_eq_true. symmetry. apply ups_spec. exact Hc. Qed.

  Lemma applicableb_spec args o : applicableb args o = true <-> applicable ti R args o.
  Proof.
    unfold applicableb, applicable. rewrite andb_true_iff, bool_decide_eq_true, forallb_forall.
    split.
    - intros [Hl H]. apply Forall2_same_length_lookup. split; [exact Hl|].
      intros i x y Hx Hy. apply derivesb_spec. apply (H (x, y)). apply elem_of_list_In.
      apply elem_of_list_lookup. exists i. apply lookup_zip_with_Some. eauto.
    - intros H. split; [eapply Forall2_length; eauto|]. intros [x y] Hin. simpl.
      apply elem_of_list_In, elem_of_list_lookup in Hin as [i Hi].
      apply lookup_zip_with_Some in Hi as (? & ? & [= -> ->] & Hx & Hy).
      apply derivesb_spec. eapply Forall2_lookup_lr in H; eauto.
  Qed.

  Lemma someb_spec a b : someb a b = true <-> some_more_specialized ti R a b.
  Proof.
    unfold someb, some_more_specialized, strictly. rewrite existsb_exists. split.
    - intros ([x y] & Hin & Hs). apply elem_of_list_In, elem_of_list_lookup in Hin as [i Hi].
      apply lookup_zip_with_Some in Hi as (? & ? & [= -> ->] & Hx & Hy).
      apply andb_true_iff in Hs as [H1 H2]. simpl in *. apply negb_true_iff, bool_decide_eq_false in H2.
      apply derivesb_spec in H1. eauto 10.
    - intros (i & x & y & Hx & Hy & Hd & Hne). exists (x, y). split.
      + apply elem_of_list_In, elem_of_list_lookup. exists i. apply lookup_zip_with_Some. eauto.
      + unfold strictb. simpl. rewrite andb_true_iff, negb_true_iff, bool_decide_eq_false.
        split; [apply derivesb_spec; exact Hd|exact Hne].
  Qed.

  Lemma dominatesb_spec a b : dominatesb a b = true <-> dominates ti R a b.
  Proof.
    unfold dominatesb, dominates. rewrite andb_true_iff, negb_true_iff, someb_spec.
    rewrite <- not_true_iff_false, someb_spec. reflexivity.
  Qed.

  Lemma cands_spec ovs args i : i ∈ cands ovs args <-> candidate ti R ovs args i.
  Proof.
    unfold cands, candidate. rewrite elem_of_list_filter, elem_of_seq. split.
    - intros [H _]. destruct (ovs !! i) as [o|]; [|discriminate].
      exists o. split; [reflexivity|]. apply applicableb_spec. exact H.
    - intros (o & Ho & Ha). rewrite Ho. split; [apply applicableb_spec; exact Ha|].
      apply lookup_lt_Some in Ho. lia.
  Qed.

  Lemma next_cands_spec ovs i j : j ∈ next_cands ovs i <-> next_candidate ti R ovs i j.
  Proof.
    unfold next_cands, next_candidate. destruct (ovs !! i) as [o|].
    - rewrite elem_of_list_filter, cands_spec. split.
      + intros [H1 H2]. eauto.
      + intros (H1 & o' & [= <-] & H2). auto.
    - rewrite elem_of_nil. split; [contradiction|]. intros (_ & o & [=] & _).
  Qed.

  Lemma dominatesi_spec ovs j i :
    dominatesi ovs j i = true <->
    exists oj oi, ovs !! j = Some oj /\ ovs !! i = Some oi /\ dominates ti R oj oi.
  Proof.
    unfold dominatesi. split.
    - destruct (ovs !! j) as [oj|], (ovs !! i) as [oi|]; try discriminate.
      intros H. apply dominatesb_spec in H. eauto.
    - intros (oj & oi & -> & -> & H). apply dominatesb_spec. exact H.
  Qed.

  Section Select.
    Context (ovs : list overrider_record) (cand : nat -> Prop) (cs : list nat).
    Context (Hcs : forall i, i ∈ cs <-> cand i) (Hnd : NoDup cs).

    Lemma undoms_spec i : i ∈ undoms ovs cs <-> undominated ti R ovs cand i.
    Proof.
      unfold undoms, undominated. rewrite elem_of_list_filter, forallb_forall, Hcs. split.
      - intros [H Hi]. split; [exact Hi|]. intros (j & oi & oj & Ho & Hj & Hcj & Hd).
        specialize (H j). rewrite <- elem_of_list_In, Hcs in H. specialize (H Hcj).
        apply negb_true_iff in H. apply not_true_iff_false in H. apply H.
        apply dominatesi_spec. eauto.
      - intros [Hi Hd]. split; [|exact Hi]. intros j Hj. apply negb_true_iff, not_true_iff_false.
        intros H. apply dominatesi_spec in H as (oj & oi & Hoj & Hoi & H). apply Hd.
        exists j, oi, oj. rewrite <- Hcs, elem_of_list_In. auto.
    Qed.

    Lemma selectb_spec : selects_from ti R ovs cand (selectb ovs cs).
    Proof.
      assert (Hu : NoDup (undoms ovs cs)) by (apply NoDup_filter; exact Hnd).
      unfold selectb. destruct cs as [|c0 cs'] eqn:Hcs'.
      - intros i Hi. apply Hcs in Hi. set_solver.
      - rewrite <- Hcs' in *. pose proof undoms_spec as HU.
        assert (Hex : exists i, cand i) by (exists c0; apply Hcs; rewrite Hcs'; set_solver).
        destruct (undoms ovs cs) as [|i [|j l]] eqn:Hl; simpl.
        + split; [exact Hex|]. intros (i & Hi & _). apply HU in Hi. set_solver.
        + split; [apply HU; set_solver|]. intros j Hj. apply HU in Hj. set_solver.
        + split; [exact Hex|]. intros (k & Hk & Huniq).
          assert (i = k) by (apply Huniq, HU; set_solver).
          assert (j = k) by (apply Huniq, HU; set_solver). subst.
          apply NoDup_cons in Hu as [Hu _]. set_solver.
    Qed.

    Lemma transb_spec : transb ovs cs = true <-> transitive_dominance ti R ovs cand.
    Proof.
      unfold transb, transitive_dominance. split.
      - intros H i j k a b c Ha Hb Hk Ci Cj Ck Dab Dbc.
        rewrite forallb_forall in H. specialize (H i). rewrite <- elem_of_list_In, Hcs in H.
        specialize (H Ci). rewrite forallb_forall in H. specialize (H j).
        rewrite <- elem_of_list_In, Hcs in H. specialize (H Cj).
        rewrite forallb_forall in H. specialize (H k). rewrite <- elem_of_list_In, Hcs in H.
        specialize (H Ck). apply orb_true_iff in H as [H|H].
        + apply negb_true_iff, andb_false_iff in H as [H|H]; apply not_true_iff_false in H;
            destruct H; apply dominatesi_spec; eauto.
        + apply dominatesi_spec in H as (a' & c' & Ha' & Hc' & H).
          replace a with a' by congruence. replace c with c' by congruence. exact H.
      - intros H. apply forallb_forall. intros i Hi. apply forallb_forall. intros j Hj.
        apply forallb_forall. intros k Hk. rewrite <- elem_of_list_In, Hcs in Hi, Hj, Hk.
        destruct (dominatesi ovs i j) eqn:D1; [|reflexivity].
        destruct (dominatesi ovs j k) eqn:D2; [|reflexivity]. simpl.
        apply dominatesi_spec in D1 as (a & b & Ha & Hb & D1).
        apply dominatesi_spec in D2 as (b' & c & Hb' & Hk' & D2).
        apply dominatesi_spec. exists a, c. split; [exact Ha|]. split; [exact Hk'|].
        replace b' with b in D2 by congruence. apply (H i j k a b c); auto.
    Qed.
  End Select.

  Lemma cands_nodup ovs args : NoDup (cands ovs args).
  Proof. apply NoDup_filter, NoDup_seq. Qed.

  Lemma selects_compute ovs args : selects ti R ovs args (selectb ovs (cands ovs args)).
  Proof. apply selectb_spec; [apply cands_spec|apply cands_nodup]. Qed.

  Lemma selects_next_compute ovs i :
    selects_next ti R ovs i (selectb ovs (next_cands ovs i)).
  Proof.
    apply selectb_spec; [apply next_cands_spec|]. unfold next_cands.
    destruct (ovs !! i); [|constructor]. apply NoDup_filter, cands_nodup.
  Qed.

  Lemma transitive_compute ovs args :
    transb ovs (cands ovs args) = true <-> transitive_dominance ti R ovs (candidate ti R ovs args).
  Proof. apply transb_spec. apply cands_spec. Qed.

  (* Guards about the program. *)
  Definition rankb (rank : N -> nat) : bool :=
    forallb (fun p => bool_decide (fst p = snd p) || bool_decide (rank (snd p) < rank (fst p))) ps.

  Lemma rankb_spec rank : rankb rank = true -> acyclic ti R.
  Proof.
    unfold rankb. rewrite forallb_forall. intros H. exists rank. intros c b Hp Hne.
    apply pairs_spec, elem_of_list_In in Hp. specialize (H _ Hp). simpl in H.
    rewrite bool_decide_false in H by exact Hne. simpl in H.
    apply bool_decide_eq_true in H. exact H.
  Qed.

  Definition registeredb (c : N) : bool :=
    existsb (fun cr => bool_decide (ti (cr_type cr) = c)) (reg_classes R).

  Lemma registeredb_spec c : registeredb c = true <-> registered ti R c.
  Proof.
    unfold registeredb, registered. rewrite existsb_exists. split.
    - intros (cr & H & Hb). apply bool_decide_eq_true in Hb. exists cr.
      rewrite elem_of_list_In. auto.
    - intros (cr & H & Hb). exists cr. rewrite <- elem_of_list_In, bool_decide_eq_true. auto.
  Qed.

  Definition validb (m : method_record) (args : list N) : bool :=
    bool_decide (length args = length (mr_vp m)) &&
    forallb (fun p => registeredb (fst p) && derivesb (fst p) (ti (snd p))) (zip args (mr_vp m)).

  Lemma validb_spec m args : validb m args = true -> valid_args ti R m args.
  Proof.
    unfold validb, valid_args. rewrite andb_true_iff, bool_decide_eq_true, forallb_forall.
    intros [Hl H]. apply Forall2_same_length_lookup. split; [exact Hl|].
    intros i x y Hx Hy. specialize (H (x, y)). rewrite <- elem_of_list_In in H.
    rewrite andb_true_iff in H. simpl in H. rewrite <- derivesb_spec, <- registeredb_spec.
    apply H. apply elem_of_list_lookup. exists i. apply lookup_zip_with_Some. eauto.
  Qed.

  (* [bases_first]: suffixes of the list of pairs. *)
  Fixpoint afterb (l : list (N * N)) (c a b : N) : bool :=
    match l with
    | [] => false
    | p :: l' =>
        (bool_decide (p = (c, a)) && negb (bool_decide ((a, b) ∈ l'))) || afterb l' c a b
    end.

  Lemma afterb_spec l c a b : afterb l c a b = true ->
    exists l1 l2, l = l1 ++ (c, a) :: l2 /\ (a, b) ∉ l2.
  Proof.
    induction l as [|p l IH]; simpl; [discriminate|]. intros [H|H]%orb_true_iff.
    - apply andb_true_iff in H as [->%bool_decide_eq_true H%negb_true_iff%bool_decide_eq_false].
      exists [], l. auto.
    - destruct (IH H) as (l1 & l2 & -> & H2). exists (p :: l1), l2. auto.
  Qed.

  Definition bases_firstb : bool :=
    forallb (fun p => forallb (fun q =>
      negb (bool_decide (snd p = fst q)) || bool_decide (fst p = snd p) ||
      bool_decide (fst q = snd q) || bool_decide ((fst p, snd q) ∈ ps) ||
      afterb ps (fst p) (snd p) (snd q)) ps) ps.

  Lemma bases_firstb_spec : bases_firstb = true -> bases_first ti R.
  Proof.
    unfold bases_firstb. rewrite forallb_forall. intros H c a b Hca Hne Hab Hne'.
    specialize (H (c, a)). rewrite <- elem_of_list_In in H. specialize (H Hca).
    rewrite forallb_forall in H. specialize (H (a, b)). rewrite <- elem_of_list_In in H.
    specialize (H Hab). simpl in H. rewrite !orb_true_iff, negb_true_iff in H.
    rewrite bool_decide_eq_false, !bool_decide_eq_true in H.
    destruct H as [[[[H|H]|H]|H]|H]; try contradiction; [left; exact H|].
    right. apply afterb_spec. exact H.
  Qed.

  Definition arityb : bool :=
    forallb (fun m => negb (bool_decide (mr_vp m = [])) &&
      forallb (fun o => bool_decide (length (or_vp o) = length (mr_vp m))) (mr_overriders m))
      (reg_methods R).

  Lemma arityb_spec : arityb = true -> arity_ok R.
  Proof.
    unfold arityb. rewrite forallb_forall. intros H m Hm. specialize (H m).
    rewrite <- elem_of_list_In in H. specialize (H Hm). apply andb_true_iff in H as [H1 H2].
    apply negb_true_iff, bool_decide_eq_false in H1. split; [exact H1|]. intros o Ho.
    rewrite forallb_forall in H2. specialize (H2 o). rewrite <- elem_of_list_In in H2.
    specialize (H2 Ho). apply bool_decide_eq_true in H2. exact H2.
  Qed.

  Definition idsb : bool := forallb (fun cr => (cr_type cr <? 2 ^ 64 - 1)%N) (reg_classes R).

  Lemma idsb_spec : idsb = true -> ids_ok R.
  Proof.
    unfold idsb. rewrite forallb_forall. intros H cr Hcr. apply N.ltb_lt, H, elem_of_list_In, Hcr.
  Qed.

  Definition addressesb : bool :=
    forallb (fun cr1 => forallb (fun cr2 =>
      negb (bool_decide (cr_static_vptr cr1 = cr_static_vptr cr2)) ||
      bool_decide (ti (cr_type cr1) = ti (cr_type cr2))) (reg_classes R)) (reg_classes R) &&
    bool_decide (NoDup (map mr_slots_strides (reg_methods R))) &&
    bool_decide (NoDup (flat_map (fun m => map or_next (mr_overriders m)) (reg_methods R))).

  Lemma addressesb_spec : addressesb = true -> addresses_ok ti R.
  Proof.
    unfold addressesb. rewrite !andb_true_iff, !bool_decide_eq_true. intros [[H H2] H3].
    split; [|exact H2|exact H3]. intros cr1 cr2 H1' H2' He.
    rewrite forallb_forall in H. specialize (H cr1). rewrite <- elem_of_list_In in H.
    specialize (H H1'). rewrite forallb_forall in H. specialize (H cr2).
    rewrite <- elem_of_list_In in H. specialize (H H2').
    rewrite orb_true_iff, negb_true_iff, bool_decide_eq_false, bool_decide_eq_true in H.
    destruct H; [contradiction|assumption].
  Qed.
End Decide.
