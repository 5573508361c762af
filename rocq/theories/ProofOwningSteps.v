(* Each operation of ModelOwning keeps the invariant of ProofOwning, and has the effect that
   SpecOwning describes. *)
From stdpp Require Import base list numbers.
From Verif Require Import Base ProofBase Registry ModelClasses ModelHash ModelWorld ModelCall ModelVirtualPtr
  ModelArguments SpecArguments ProofArguments ModelOwning SpecOwning ProofOwning.

Lemma body_intro cxx20 s op s' y c :
  match destination op with Some d => y = d | None => look (os_heap s) y = None end ->
  look (os_heap s') y = Some c -> target c = given s op ->
  (forall x, x <> y -> source op = Some x -> empties cxx20 s op ->
     exists c', look (os_heap s') x = Some c' /\ target c' = None) ->
  (forall x, x <> y -> ~ (source op = Some x /\ empties cxx20 s op) ->
     look (os_heap s') x = look (os_heap s) x) ->
  exists y,
    match destination op with Some d => y = d | None => look (os_heap s) y = None end /\
    look (os_heap s') y <> None /\ points s' y = given s op /\
    forall x, x <> y ->
      (source op = Some x -> empties cxx20 s op -> look (os_heap s') x <> None /\ points s' x = None) /\
      (~ (source op = Some x /\ empties cxx20 s op) -> look (os_heap s') x = look (os_heap s) x).
Proof.
  intros Hd Hy Hg He Ho. exists y. split; [exact Hd|]. split; [congruence|].
  split; [unfold points; now rewrite Hy|]. intros x Hx. split.
  - intros Hs Hm. destruct (He x Hx Hs Hm) as (c' & Hc & Ht). split; [congruence|].
    unfold points. now rewrite Hc.
  - auto.
Qed.

Section Steps.
  Context (cf : config) (w : world) (em : nat -> option box) (cxx20 : bool).
  Notation step := (ostep cf w em cxx20).

  Lemma initialized_cases :
    require_initialized cf w = Ok tt \/ exists e, require_initialized cf w = Err e.
  Proof. unfold require_initialized. repeat case_match; eauto. Qed.

  Lemma vptr_for_cases s via p :
    (forall o b, p = Some (o, b) -> hp_alive (os_heap s) o = true /\ searched cf w em s via o) ->
    (exists v, vptr_for cf w em s via p = Ok v) \/ exists e, vptr_for cf w em s via p = Err e.
  Proof.
    intros Hp. destruct p as [[o b]|]; cbn; [|eauto].
    destruct (Hp o b eq_refl) as [-> [H1 H2]].
    destruct (acquire cf w via _) as [v|e| |]; eauto; contradiction.
  Qed.

  Lemma final_vptr_cases s t loc poly p :
    (poly = true -> exists o b, p = Some (o, b) /\ hp_alive (os_heap s) o = true) ->
    (exists v, final_vptr cf w s t loc poly p = Ok v) \/ exists e, final_vptr cf w s t loc poly p = Err e.
  Proof.
    intros Hp. unfold final_vptr.
    destruct initialized_cases as [->|[e ->]]; cbn; [|eauto].
    destruct (cf_checks cf && poly) eqn:Hc; cbn; [|eauto].
    apply andb_true_iff in Hc as [_ Hc]. destruct (Hp Hc) as (o & b & -> & Hal). cbn.
    rewrite Hal. destruct (decide _); cbn; eauto.
  Qed.

  Definition good_step (s : ostate) (op : own_op) : Prop :=
    exists s' r, step op s = Ok (s', r) /\ sound s' /\ types_kept s s' /\
      match r with
      | None => effect cxx20 s op s'
      | Some _ => assigns_first op \/ forall x, look (os_heap s') x = look (os_heap s) x
      end.

  Lemma kept_refl h s : types_kept s (OState h (os_types s)).
  Proof. exists []. now rewrite app_nil_r. Qed.

  Lemma create_sound k t s c s1 :
    sound s -> create k t s = (c, s1) ->
    fine (own (Some c)) (os_heap s1) (length (os_types s1)) /\
    hp_vars (os_heap s1) = hp_vars (os_heap s) /\ os_types s1 = os_types s ++ [t] /\
    c = Content (HSmart k (Some (length (os_types s), block k (length (os_types s))))) None.
  Proof.
    intros Hs H. injection H as <- <-. cbn. rewrite app_length. cbn. rewrite Nat.add_1_r.
    split; [|auto]. unfold fine. cbn. now apply good_new.
  Qed.

  Lemma step_create s k t : sound s -> good_step s (OCreate k t).
  Proof.
    intros Hs. unfold good_step. cbn [ostep]. destruct (create k t s) as [c s1] eqn:Hc.
    destruct (create_sound _ _ _ _ _ Hs Hc) as (Hf & Hv & Ht & ->).
    eexists _, _. split; [reflexivity|]. split.
    { unfold sound. cbn [os_heap os_types]. apply alloc_fine. now rewrite app_nil_r. }
    split; [exists [t]; exact Ht|].
    refine (body_intro _ _ (OCreate k t) _ (length (hp_vars (os_heap s))) _ _ _ _ _ _); cbn [os_heap].
    - cbn. apply look_ge. lia.
    - rewrite look_alloc, Hv, decide_True by reflexivity. reflexivity.
    - reflexivity.
    - discriminate.
    - intros x Hx _. rewrite look_alloc, Hv, decide_False by exact Hx. now apply look_same.
  Qed.

  Lemma step_destroy s x : sound s -> look (os_heap s) x <> None -> good_step s (ODestroy x).
  Proof.
    intros Hs Hx. destruct (look (os_heap s) x) as [c|] eqn:Hc; [|contradiction].
    destruct (destroy_fine _ _ _ _ Hc Hs) as (h & Hd & Hv & Hf). unfold good_step. cbn [ostep].
    rewrite Hd. cbn. eexists _, _. split; [reflexivity|]. split; [exact Hf|].
    split; [apply kept_refl|]. cbn.
    assert (Hl := look_insert (os_heap s) h x None). split.
    - rewrite (Hl x (look_some_lt _ _ _ Hc) Hv). now rewrite decide_True.
    - intros y Hy. rewrite (Hl y (look_some_lt _ _ _ Hc) Hv). now rewrite decide_False.
  Qed.

  Lemma step_make s k t loc poly fails : sound s -> good_step s (OMake k t loc poly fails).
  Proof.
    intros Hs. unfold good_step. cbn [ostep]. destruct fails.
    { eexists _, _. split; [reflexivity|]. split; [exact Hs|]. split; [destruct s; apply kept_refl|].
      now right. }
    destruct (create k t s) as [c s1] eqn:Hc.
    destruct (create_sound _ _ _ _ _ Hs Hc) as (Hf & Hv & Ht & Hcc).
    destruct (alloc c (os_heap s1)) as [tmp h] eqn:Ha.
    assert (Hh : h = (alloc c (os_heap s1)).2) by now rewrite Ha.
    assert (Htmp : tmp = length (hp_vars (os_heap s))) by (injection Ha as <- _; now rewrite Hv).
    assert (Hlt : look h tmp = Some c).
    { rewrite Hh, look_alloc, Hv. now rewrite decide_True by exact Htmp. }
    assert (Hfh : fine [] h (length (os_types s1))).
    { rewrite Hh. apply alloc_fine. now rewrite app_nil_r. }
    assert (Hlen : length (hp_vars h) = S tmp).
    { rewrite Hh, Htmp. cbn. rewrite app_length, Hv. cbn. lia. }
    assert (Hlook : forall x, x <> tmp -> look h x = look (os_heap s) x).
    { intros x Hx. rewrite Hh, look_alloc, Hv, decide_False by congruence. now apply look_same. }
    destruct (final_vptr_cases (OState h (os_types s1)) t loc poly (owned (ct_handle c)))
      as [[v Hfin]|[e Hfin]].
    { intros _. rewrite Hcc. cbn. eexists _, _. split; [reflexivity|].
      eapply sound_alive with (s := OState h (os_types s1)); [exact Hfh|]. cbn. rewrite Hlt, Hcc. reflexivity. }
    - rewrite Hfin. cbn [try_].
      destruct (adopt_fine tmp c v h _ Hlt Hfh) as (h' & Had & Hf' & Hl). rewrite Had. cbn [ends obind].
      eexists _, _. split; [reflexivity|]. split; [exact Hf'|]. split; [exists [t]; exact Ht|].
      refine (body_intro _ _ (OMake k t loc poly false) _ (S tmp) _ _ _ _ _ _); cbn [os_heap].
      + cbn. apply look_ge. lia.
      + rewrite Hl, decide_True by (symmetry; exact Hlen). reflexivity.
      + rewrite Hcc. reflexivity.
      + discriminate.
      + intros x Hx _. rewrite Hl, decide_False by (rewrite Hlen; exact Hx).
        destruct (decide (x = tmp)) as [->|Hn]; [|now apply Hlook].
        symmetry. apply look_ge. lia.
    - rewrite Hfin. cbn [try_].
      destruct (destroy_fine tmp c h _ Hlt Hfh) as (h' & Hd & Hv' & Hf'). rewrite Hd. cbn [ends obind].
      eexists _, _. split; [reflexivity|]. split; [exact Hf'|]. split; [exists [t]; exact Ht|].
      right. intros x. cbn [os_heap]. rewrite (look_insert h h' tmp None x) by (lia || exact Hv').
      destruct (decide (x = tmp)) as [->|Hn]; [|now apply Hlook].
      symmetry. apply look_ge. lia.
  Qed.

  (* An owner taken from variable [x], which is moved from or not, in a new variable. *)
  Lemma new_from s op x c c' h1 (moves : bool) :
    sound s -> look (os_heap s) x = Some c -> own (Some c') = own (Some c) ->
    (exists k p, ct_handle c = HSmart k p /\ (moves = false -> k <> Unique)) ->
    h1 = (if moves then write x (Some (empty_like c)) (os_heap s) else os_heap s) \/
    moves = true /\ h1 = write x (Some (moved cf w c)) (os_heap s) ->
    destination op = None -> source op = Some x -> given s op = target c' ->
    (empties cxx20 s op <-> moves = true) ->
    sound (OState (alloc c' h1).2 (os_types s)) /\
    types_kept s (OState (alloc c' h1).2 (os_types s)) /\
    exists y,
      match destination op with Some d => y = d | None => look (os_heap s) y = None end /\
      look (alloc c' h1).2 y <> None /\ points (OState (alloc c' h1).2 (os_types s)) y = given s op /\
      forall z, z <> y ->
        (source op = Some z -> empties cxx20 s op ->
           look (alloc c' h1).2 z <> None /\ points (OState (alloc c' h1).2 (os_types s)) z = None) /\
        (~ (source op = Some z /\ empties cxx20 s op) -> look (alloc c' h1).2 z = look (os_heap s) z).
  Proof.
    intros Hs Hx Hown (k & p & Hk & Hu) Hh1 Hdst Hsrc Hgiv Hem.
    pose proof (look_some_lt _ _ _ Hx) as Hlt.
    assert (Hmv : moves = true -> exists c0, h1 = write x (Some c0) (os_heap s) /\ own (Some c0) = [] /\ target c0 = None).
    { intros ->. destruct Hh1 as [->|[_ ->]]; eexists; (split; [reflexivity|]).
      - split; [apply own_empty|]. destruct c as [hc vc]. cbn in Hk. subst hc. reflexivity.
      - split; [apply own_moved|]. destruct c as [hc vc]. cbn in Hk. subst hc. reflexivity. }
    assert (Hcp : moves = false -> h1 = os_heap s).
    { intros ->. now destruct Hh1 as [->|[? _]]. }
    assert (Hlen : length (hp_vars h1) = length (hp_vars (os_heap s))).
    { destruct moves.
      - destruct (Hmv eq_refl) as (c0 & -> & _). apply length_write.
      - now rewrite (Hcp eq_refl). }
    split; [|split; [apply kept_refl|]].
    - unfold sound. cbn [os_heap os_types]. apply alloc_fine. rewrite app_nil_r, Hown.
      destruct moves.
      + destruct (Hmv eq_refl) as (c0 & -> & Hc0 & _). now apply take_fine.
      + rewrite (Hcp eq_refl). apply (copy_fine x c c); auto. right. intros p' Hp'.
        rewrite Hk in Hp'. injection Hp' as Hp' _. now apply Hu.
    - refine (body_intro _ _ op (OState (alloc c' h1).2 (os_types s)) (length (hp_vars (os_heap s))) c' _ _ _ _ _);
        cbn [os_heap].
      + rewrite Hdst. apply look_ge. lia.
      + now rewrite look_alloc, decide_True by (symmetry; exact Hlen).
      + now rewrite Hgiv.
      + intros z Hz Hsz Hm. rewrite Hsrc in Hsz. injection Hsz as <-.
        destruct (Hmv (proj1 Hem Hm)) as (c0 & -> & _ & Ht). exists c0. split; [|exact Ht].
        rewrite look_alloc, decide_False by (rewrite length_write; lia). now apply look_write_eq.
      + intros z Hz Hn. rewrite look_alloc, decide_False by (rewrite Hlen; exact Hz).
        destruct moves.
        * destruct (Hmv eq_refl) as (c0 & -> & _). apply look_write_ne. intros ->. apply Hn.
          split; [exact Hsrc|]. now apply Hem.
        * now rewrite (Hcp eq_refl).
  Qed.

  Lemma smart_points s x k p vp :
    look (os_heap s) x = Some (Content (HSmart k p) vp) -> points s x = fst <$> p.
  Proof. intros Hx. unfold points. rewrite Hx. now destruct p as [[o b]|]. Qed.

  Lemma step_final s q t loc poly move :
    sound s -> allowed cf w em s (OFinal q t loc poly move) -> good_step s (OFinal q t loc poly move).
  Proof.
    intros Hs (k & [p Hq] & Hu & Hp). unfold good_step. cbn [ostep].
    rewrite (read_ok _ _ _ Hq). cbn [obind ct_handle owned].
    destruct (final_vptr_cases s t loc poly p) as [[v Hfin]|[e Hfin]].
    { intros Hpoly. specialize (Hp Hpoly). rewrite (smart_points _ _ _ _ _ Hq) in Hp.
      destruct p as [[o b]|]; [|contradiction]. exists o, b. split; [reflexivity|].
      eapply sound_alive; eassumption. }
    - rewrite Hfin. cbn [try_]. eexists _, _. split; [reflexivity|].
      apply (new_from s (OFinal q t loc poly move) q _ _ _ move Hs Hq); auto.
      + exists k, p. auto.
      + cbn. unfold points. rewrite Hq. reflexivity.
    - rewrite Hfin. cbn [try_]. eexists _, _. split; [reflexivity|]. split; [exact Hs|].
      split; [destruct s; apply kept_refl|]. now right.
  Qed.

  Lemma step_null s k : sound s -> good_step s (ONull k).
  Proof.
    intros Hs. unfold good_step. cbn [ostep]. eexists _, _. split; [reflexivity|]. split.
    { unfold sound. cbn [os_heap os_types]. now apply alloc_fine. }
    split; [apply kept_refl|].
    refine (body_intro _ _ (ONull k) _ (length (hp_vars (os_heap s))) _ _ _ _ _ _); cbn [os_heap].
    - cbn. apply look_ge. lia.
    - rewrite look_alloc, decide_True by reflexivity. reflexivity.
    - reflexivity.
    - discriminate.
    - intros x Hx _. now rewrite look_alloc, decide_False by exact Hx.
  Qed.

  Lemma smart_some s x k : smart s x k \/ smart_vptr s x k ->
    exists p vp, look (os_heap s) x = Some (Content (HSmart k p) vp).
  Proof. intros [[p H]|(p & vp & H)]; eauto. Qed.

  Lemma step_copy s x : sound s -> allowed cf w em s (OCopy x) -> good_step s (OCopy x).
  Proof.
    intros Hs (k & Hu & (p & vp & Hx)%smart_some). unfold good_step. cbn [ostep].
    rewrite (read_ok _ _ _ Hx). cbn [obind]. eexists _, _. split; [reflexivity|].
    apply (new_from s (OCopy x) x _ _ _ false Hs Hx); auto.
    - exists k, p. auto.
    - cbn. unfold points. rewrite Hx. reflexivity.
    - cbn. split; [tauto|discriminate].
  Qed.

  Lemma step_move s x : sound s -> allowed cf w em s (OMove x) -> good_step s (OMove x).
  Proof.
    intros Hs (k & (p & vp & Hx)%smart_some). unfold good_step. cbn [ostep].
    rewrite (read_ok _ _ _ Hx). cbn [obind]. eexists _, _. split; [reflexivity|].
    apply (new_from s (OMove x) x _ _ _ true Hs Hx); auto.
    - exists k, p. split; [reflexivity|discriminate].
    - cbn. unfold points. rewrite Hx. reflexivity.
    - cbn. tauto.
  Qed.

  Lemma found_cases s via q k p vp :
    sound s -> look (os_heap s) q = Some (Content (HSmart k p) vp) -> found cf w em s via q ->
    (exists v, vptr_for cf w em s via p = Ok v) \/ exists e, vptr_for cf w em s via p = Err e.
  Proof.
    intros Hs Hq Hf. apply vptr_for_cases. intros o b ->. split.
    - eapply sound_alive; eassumption.
    - apply Hf. now rewrite (smart_points _ _ _ _ _ Hq).
  Qed.

  Lemma step_from s q via : sound s -> allowed cf w em s (OFrom q via) -> good_step s (OFrom q via).
  Proof.
    intros Hs (k & Hu & [p Hq] & Hf). unfold good_step. cbn [ostep].
    rewrite (read_ok _ _ _ Hq). cbn [obind ct_handle owned].
    destruct (found_cases _ _ _ _ _ _ Hs Hq Hf) as [[v Hv]|[e Hv]]; rewrite Hv; cbn [try_].
    - eexists _, _. split; [reflexivity|].
      apply (new_from s (OFrom q via) q _ _ _ false Hs Hq); auto.
      + exists k, p. auto.
      + cbn. unfold points. rewrite Hq. reflexivity.
      + cbn. split; [tauto|discriminate].
    - eexists _, _. split; [reflexivity|]. split; [exact Hs|].
      split; [destruct s; apply kept_refl|]. now right.
  Qed.

  Lemma step_from_move s q via :
    sound s -> allowed cf w em s (OFromMove q via) -> good_step s (OFromMove q via).
  Proof.
    intros Hs (k & [p Hq] & Hf). unfold good_step. cbn [ostep].
    rewrite (read_ok _ _ _ Hq). cbn [obind ct_handle owned].
    destruct (found_cases _ _ _ _ _ _ Hs Hq Hf) as [[v Hv]|[e Hv]]; rewrite Hv; cbn [try_].
    - eexists _, _. split; [reflexivity|].
      apply (new_from s (OFromMove q via) q _ _ _ true Hs Hq); auto.
      + exists k, p. split; [reflexivity|discriminate].
      + cbn. unfold points. rewrite Hq. reflexivity.
      + cbn. tauto.
    - eexists _, _. split; [reflexivity|]. split; [exact Hs|].
      split; [destruct s; apply kept_refl|]. now right.
  Qed.

  (* Assignments. *)
  Lemma assigned s op d old c' h' n :
    look (os_heap s) d = Some old -> destination op = Some d ->
    (forall x, look h' x = if decide (x = d) then Some c' else look (os_heap s) x) ->
    target c' = given s op -> (forall x, x <> d -> source op = Some x -> ~ empties cxx20 s op) ->
    exists y,
      match destination op with Some d => y = d | None => look (os_heap s) y = None end /\
      look h' y <> None /\ points (OState h' n) y = given s op /\
      forall x, x <> y ->
        (source op = Some x -> empties cxx20 s op -> look h' x <> None /\ points (OState h' n) x = None) /\
        (~ (source op = Some x /\ empties cxx20 s op) -> look h' x = look (os_heap s) x).
  Proof.
    intros Hd Hdst Hl Ht He.
    refine (body_intro _ _ op (OState h' n) d c' _ _ _ _ _); cbn [os_heap].
    - now rewrite Hdst.
    - now rewrite Hl, decide_True by reflexivity.
    - exact Ht.
    - intros x Hx Hs Hm. destruct (He x Hx Hs Hm).
    - intros x Hx _. now rewrite Hl, decide_False by exact Hx.
  Qed.

  Lemma step_assign_null s d :
    sound s -> allowed cf w em s (OAssignNull d) -> good_step s (OAssignNull d).
  Proof.
    intros Hs (k & p & vp & Hd). unfold good_step. cbn [ostep].
    pose proof (look_some_lt _ _ _ Hd) as Hlt.
    rewrite (read_ok _ _ _ Hd). cbn [obind].
    destruct (replace_fine d _ (empty_like (Content (HSmart k p) (Some vp))) _ _ Hd Hs)
      as (h & Hr & Hv & Hf).
    rewrite Hr. cbn [obind].
    assert (Hlh : look h d = Some (empty_like (Content (HSmart k p) (Some vp)))).
    { rewrite (look_insert _ _ _ _ _ Hlt Hv). now rewrite decide_True. }
    rewrite (read_ok _ _ _ Hlh). cbn [obind].
    eexists _, _. split; [reflexivity|]. split.
    { unfold sound. cbn [os_heap os_types]. now apply (same_fine _ _ _ _ _ Hlh). }
    split; [apply kept_refl|].
    eapply (assigned s (OAssignNull d)); [exact Hd|reflexivity|..].
    - intros x. cbn [os_heap]. rewrite look_write by (rewrite Hv, insert_length; exact Hlt).
      destruct (decide (x = d)) as [|Hn]; [reflexivity|].
      rewrite (look_insert _ _ _ _ _ Hlt Hv). now rewrite decide_False.
    - reflexivity.
    - discriminate.
  Qed.

  Lemma step_assign_from s d q via :
    sound s -> allowed cf w em s (OAssignFrom d q via) -> good_step s (OAssignFrom d q via).
  Proof.
    intros Hs (k & Hu & (p & vp & Hd) & [p' Hq] & Hnn & Hf). unfold good_step. cbn [ostep].
    pose proof (look_some_lt _ _ _ Hd) as Hlt.
    rewrite (read_ok _ _ _ Hq), (read_ok _ _ _ Hd). cbn [obind ct_handle ct_vp].
    rewrite (smart_points _ _ _ _ _ Hq) in Hnn. destruct p' as [[o b]|]; [|contradiction].
    destruct (replace_fine d _ (Content (HSmart k (Some (o, b))) (Some vp)) _ (length (os_types s)) Hd)
      as (h & Hr & Hv & Hfh).
    { apply (copy_fine q (Content (HSmart k (Some (o, b))) None)); auto. right. intros p1 Hp1.
      injection Hp1 as Hp1 _. congruence. }
    rewrite Hr. cbn [obind owned deref].
    assert (Hlh : forall x, look h x = if decide (x = d) then Some (Content (HSmart k (Some (o, b))) (Some vp))
                                      else look (os_heap s) x).
    { intros x. now apply look_insert. }
    assert (Hhd : look h d = Some (Content (HSmart k (Some (o, b))) (Some vp))).
    { now rewrite Hlh, decide_True. }
    assert (Hsh : sound (OState h (os_types s))) by exact Hfh.
    destruct (vptr_for_cases (OState h (os_types s)) via (Some (o, b))) as [[v Hv1]|[e Hv1]].
    { intros o1 b1 Ho1. injection Ho1 as <- <-. split.
      - eapply sound_alive; [exact Hsh|]. exact Hhd.
      - apply (Hf o). now rewrite (smart_points _ _ _ _ _ Hq). }
    - rewrite Hv1. cbn [try_]. eexists _, _. split; [reflexivity|]. split.
      { unfold sound. cbn [os_heap os_types]. now apply (same_fine _ _ _ _ _ Hhd). }
      split; [apply kept_refl|].
      eapply (assigned s (OAssignFrom d q via)); [exact Hd|reflexivity|..].
      + intros x. cbn [os_heap]. rewrite look_write by (eapply look_some_lt; exact Hhd).
        destruct (decide (x = d)) as [|Hn]; [reflexivity|]. now rewrite Hlh, decide_False.
      + cbn. unfold points. now rewrite Hq.
      + cbn. tauto.
    - rewrite Hv1. cbn [try_]. eexists _, _. split; [reflexivity|]. split; [exact Hsh|].
      split; [apply kept_refl|]. now left.
  Qed.

  Lemma step_assign s d x :
    sound s -> allowed cf w em s (OAssign d x) -> good_step s (OAssign d x).
  Proof.
    intros Hs (k & Hu & (p & vp & Hd) & (p' & vp' & Hx)). unfold good_step. cbn [ostep].
    pose proof (look_some_lt _ _ _ Hd) as Hlt.
    rewrite (read_ok _ _ _ Hx), (read_ok _ _ _ Hd). cbn [obind ct_handle ct_vp].
    destruct (replace_fine d _ (Content (HSmart k p') (Some vp)) _ (length (os_types s)) Hd)
      as (h & Hr & Hv & Hfh).
    { apply (copy_fine x (Content (HSmart k p') (Some vp'))); auto. right. intros p1 Hp1.
      injection Hp1 as Hp1 _. congruence. }
    rewrite Hr. cbn [obind].
    assert (Hlh : forall y, look h y = if decide (y = d) then Some (Content (HSmart k p') (Some vp))
                                      else look (os_heap s) y).
    { intros y. now apply look_insert. }
    assert (Hhd : look h d = Some (Content (HSmart k p') (Some vp))).
    { now rewrite Hlh, decide_True. }
    eexists _, _. split; [reflexivity|]. split.
    { unfold sound. cbn [os_heap os_types]. now apply (same_fine _ _ _ _ _ Hhd). }
    split; [apply kept_refl|].
    eapply (assigned s (OAssign d x)); [exact Hd|reflexivity|..].
    - intros y. cbn [os_heap]. rewrite look_write by (eapply look_some_lt; exact Hhd).
      destruct (decide (y = d)) as [|Hn]; [reflexivity|]. now rewrite Hlh, decide_False.
    - cbn. unfold points. now rewrite Hx.
    - cbn. tauto.
  Qed.

  (* A move assignment between different variables. *)
  Lemma move_assigned s op d x old c c0 c' :
    sound s -> d <> x -> look (os_heap s) d = Some old -> look (os_heap s) x = Some c ->
    own (Some c0) = [] -> target c0 = None -> own (Some c') = own (Some c) ->
    destination op = Some d -> source op = Some x -> target c' = given s op -> empties cxx20 s op ->
    exists h, replace d c' (write x (Some c0) (os_heap s)) = Ok h /\
      sound (OState h (os_types s)) /\ types_kept s (OState h (os_types s)) /\
      exists y,
        match destination op with Some d => y = d | None => look (os_heap s) y = None end /\
        look h y <> None /\ points (OState h (os_types s)) y = given s op /\
        forall z, z <> y ->
          (source op = Some z -> empties cxx20 s op ->
             look h z <> None /\ points (OState h (os_types s)) z = None) /\
          (~ (source op = Some z /\ empties cxx20 s op) -> look h z = look (os_heap s) z).
  Proof.
    intros Hs Hne Hd Hx Hc0 Ht0 Hown Hdst Hsrc Ht Hem.
    pose proof (look_some_lt _ _ _ Hd) as Hltd. pose proof (look_some_lt _ _ _ Hx) as Hltx.
    destruct (replace_fine d old c' (write x (Some c0) (os_heap s)) (length (os_types s)))
      as (h & Hr & Hv & Hf).
    { now rewrite look_write_ne by exact Hne. }
    { rewrite Hown. now apply take_fine. }
    exists h. split; [exact Hr|]. split; [exact Hf|]. split; [apply kept_refl|].
    assert (Hl : forall z, look h z = if decide (z = d) then Some c' else
      if decide (z = x) then Some c0 else look (os_heap s) z).
    { intros z. rewrite (look_insert _ _ _ _ z) with (2 := Hv) by (rewrite length_write; exact Hltd).
      destruct (decide (z = d)); [reflexivity|]. now rewrite look_write. }
    refine (body_intro _ _ op (OState h (os_types s)) d c' _ _ _ _ _); cbn [os_heap].
    - now rewrite Hdst.
    - now rewrite Hl, decide_True.
    - exact Ht.
    - intros z Hz Hsz _. rewrite Hsrc in Hsz. injection Hsz as <-. exists c0.
      rewrite Hl, decide_False, decide_True by auto. auto.
    - intros z Hz Hn. rewrite Hl, decide_False by exact Hz. rewrite decide_False; [reflexivity|].
      intros ->. apply Hn. auto.
  Qed.

  Lemma step_assign_from_move s d q via :
    sound s -> allowed cf w em s (OAssignFromMove d q via) -> good_step s (OAssignFromMove d q via).
  Proof.
    intros Hs (k & (p & vp & Hd) & [p' Hq] & Hf). unfold good_step. cbn [ostep].
    rewrite (read_ok _ _ _ Hq). cbn [obind ct_handle owned].
    destruct (found_cases _ _ _ _ _ _ Hs Hq Hf) as [[v Hv]|[e Hv]]; rewrite Hv; cbn [try_].
    - assert (Hne : d <> q) by (intros ->; congruence).
      destruct (move_assigned s (OAssignFromMove d q via) d q _ _
        (empty_like (Content (HSmart k p') None)) (with_vp (Content (HSmart k p') None) (box_vptr cf w v))
        Hs Hne Hd Hq) as (h & Hr & Hsh & Hk & He); auto.
      + cbn. unfold points. now rewrite Hq.
      + exact I.
      + rewrite Hr. cbn [ends obind]. eexists _, _. split; [reflexivity|]. auto.
    - eexists _, _. split; [reflexivity|]. split; [exact Hs|].
      split; [destruct s; apply kept_refl|]. now right.
  Qed.

  Lemma step_assign_move s d x :
    sound s -> allowed cf w em s (OAssignMove d x) -> good_step s (OAssignMove d x).
  Proof.
    intros Hs (k & (p & vp & Hd) & (p' & vp' & Hx)). unfold good_step. cbn [ostep].
    rewrite (read_ok _ _ _ Hx). cbn [obind].
    destruct (decide (d = x)) as [->|Hne].
    - eexists _, _. split; [reflexivity|]. split; [exact Hs|].
      split; [destruct s; apply kept_refl|].
      refine (body_intro _ _ (OAssignMove x x) s x _ _ Hx _ _ _).
      + reflexivity.
      + cbn. unfold points. now rewrite Hx.
      + intros y Hy Hsy. injection Hsy as <-. contradiction.
      + reflexivity.
    - destruct (move_assigned s (OAssignMove d x) d x _ _
        (moved cf w (Content (HSmart k p') (Some vp'))) (Content (HSmart k p') (Some vp'))
        Hs Hne Hd Hx) as (h & Hr & Hsh & Hk & He); auto.
      + cbn. unfold points. now rewrite Hx.
      + exact I.
      + rewrite Hr. cbn [ends obind]. eexists _, _. split; [reflexivity|]. auto.
  Qed.

  (* Casts. *)
  Lemma step_cast_adopt s x c k p vp p' (fits moves : bool) h1 op :
    sound s -> look (os_heap s) x = Some c -> c = Content (HSmart k p) (Some vp) ->
    p' = p \/ p' = None /\ moves = false -> (moves = false -> p' <> None -> k <> Unique) ->
    h1 = (if moves then write x (Some (empty_like c)) (os_heap s) else os_heap s) ->
    destination op = None -> source op = Some x -> given s op = fst <$> p' ->
    (empties cxx20 s op <-> moves = true) ->
    exists h', adopt (length (hp_vars h1)) vp (alloc (Content (HSmart k p') None) h1).2 = Ok h' /\
      sound (OState h' (os_types s)) /\ types_kept s (OState h' (os_types s)) /\
      exists y,
        match destination op with Some d => y = d | None => look (os_heap s) y = None end /\
        look h' y <> None /\ points (OState h' (os_types s)) y = given s op /\
        forall z, z <> y ->
          (source op = Some z -> empties cxx20 s op ->
             look h' z <> None /\ points (OState h' (os_types s)) z = None) /\
          (~ (source op = Some z /\ empties cxx20 s op) -> look h' z = look (os_heap s) z).
  Proof.
    intros Hs Hx Hc Hp Hu Hh1 Hdst Hsrc Hgiv Hem.
    pose proof (look_some_lt _ _ _ Hx) as Hlt.
    assert (Hlen : length (hp_vars h1) = length (hp_vars (os_heap s))).
    { rewrite Hh1. destruct moves; [apply length_write|reflexivity]. }
    assert (Hf : fine [] (alloc (Content (HSmart k p') None) h1).2 (length (os_types s))).
    { apply alloc_fine. rewrite app_nil_r, Hh1. destruct moves.
      - destruct Hp as [->|[_ ?]]; [|discriminate].
        replace (own (Some (Content (HSmart k p) None))) with (own (Some c)) by now rewrite Hc.
        apply take_fine; auto. apply own_empty.
      - destruct p' as [ob|]; [|exact Hs]. destruct Hp as [<-|[? _]]; [|discriminate].
        apply (copy_fine x c); [exact Hx| |now rewrite Hc|exact Hs]. right. intros p1.
        rewrite Hc. cbn. intros Hp1. injection Hp1 as Hp1 _. revert Hp1. now apply Hu. }
    assert (Hl1 : look (alloc (Content (HSmart k p') None) h1).2 (length (hp_vars h1)) =
      Some (Content (HSmart k p') None)).
    { now rewrite look_alloc, decide_True. }
    destruct (adopt_fine _ _ vp _ _ Hl1 Hf) as (h' & Had & Hf' & Hl).
    exists h'. split; [exact Had|]. split; [exact Hf'|]. split; [apply kept_refl|].
    assert (Hlen2 : length (hp_vars (alloc (Content (HSmart k p') None) h1).2) = S (length (hp_vars (os_heap s)))).
    { cbn. rewrite app_length, Hlen. cbn. lia. }
    rewrite Hlen2, Hlen in Hl.
    assert (Hl' : forall z, z <> S (length (hp_vars (os_heap s))) -> look h' z = look h1 z).
    { intros z Hz. rewrite Hl, decide_False by exact Hz.
      destruct (decide (z = length (hp_vars (os_heap s)))) as [->|Hn].
      - symmetry. apply look_ge. lia.
      - rewrite look_alloc, decide_False; [reflexivity|]. now rewrite Hlen. }
    refine (body_intro _ _ op (OState h' (os_types s)) (S (length (hp_vars (os_heap s)))) _ _ _ _ _ _);
      cbn [os_heap].
    - rewrite Hdst. apply look_ge. lia.
    - rewrite Hl. rewrite decide_True by reflexivity. reflexivity.
    - rewrite Hgiv. now destruct p' as [[o b]|].
    - intros z Hz Hsz Hm. rewrite Hsrc in Hsz. injection Hsz as <-. apply Hem in Hm. subst moves.
      exists (empty_like c). rewrite Hl' by lia. rewrite Hh1. split; [now apply look_write_eq|].
      now rewrite Hc.
    - intros z Hz Hn. rewrite Hl' by exact Hz. rewrite Hh1. destruct moves; [|reflexivity].
      apply look_write_ne. intros ->. apply Hn. split; [exact Hsrc|]. now apply Hem.
  Qed.

  Lemma cast_owner_cases s x k p vp dynamic fits :
    sound s -> look (os_heap s) x = Some (Content (HSmart k p) vp) ->
    (dynamic = false -> fits = true) ->
    (points s x = None -> k <> Unique /\ (k = Intrusive -> dynamic = false)) ->
    cast_owner k dynamic fits (os_heap s) p = Ok None \/
    cast_owner k dynamic fits (os_heap s) p = Ok (Some (if fits then p else None)).
  Proof.
    intros Hs Hx Hfit Hnull. rewrite (smart_points _ _ _ _ _ Hx) in Hnull. unfold cast_owner.
    destruct p as [[o b]|].
    - rewrite (sound_alive _ _ _ _ _ _ Hs Hx). destruct fits; [auto|].
      destruct dynamic; [destruct k; auto|]. specialize (Hfit eq_refl). discriminate.
    - destruct (Hnull eq_refl) as [H1 H2]. right.
      destruct k, dynamic; try congruence; try (now destruct fits); now specialize (H2 eq_refl).
  Qed.

  Lemma step_cast s x dynamic fits :
    sound s -> allowed cf w em s (OCast x dynamic fits) -> good_step s (OCast x dynamic fits).
  Proof.
    intros Hs (k & Hu & (p & vp & Hx) & Hfit & Hnull). unfold good_step. cbn [ostep].
    rewrite (read_ok _ _ _ Hx). cbn [obind ct_handle ct_vp deref].
    destruct (cast_owner_cases s x k p (Some vp) dynamic fits Hs Hx Hfit) as [->| ->]; [auto|..]; cbn [obind].
    - eexists _, _. split; [reflexivity|]. split; [exact Hs|]. split; [destruct s; apply kept_refl|]. now right.
    - set (p' := if fits then p else None).
      destruct (step_cast_adopt s x _ k p vp p' fits false (os_heap s) (OCast x dynamic fits) Hs Hx)
        as (h' & Had & Hsd & Hk & He); auto.
      + unfold p'. destruct fits; auto.
      + cbn. rewrite (smart_points _ _ _ _ _ Hx). unfold p'. now destruct fits.
      + cbn. split; [tauto|discriminate].
      + destruct (alloc (Content (HSmart k p') None) (os_heap s)) as [tmp h] eqn:Ha.
        injection Ha as <- <-. cbn [alloc snd] in Had. rewrite Had. cbn [ends obind].
        eexists _, _. split; [reflexivity|]. auto.
  Qed.

  Lemma step_cast_move s x dynamic fits :
    sound s -> allowed cf w em s (OCastMove x dynamic fits) -> good_step s (OCastMove x dynamic fits).
  Proof.
    intros Hs (k & (p & vp & Hx) & Hfit & Hnull). unfold good_step. cbn [ostep].
    rewrite (read_ok _ _ _ Hx). cbn [obind ct_handle ct_vp deref].
    destruct (cast_owner_cases s x k p (Some vp) dynamic fits Hs Hx Hfit Hnull) as [->| ->]; cbn [obind].
    - eexists _, _. split; [reflexivity|]. split; [exact Hs|]. split; [destruct s; apply kept_refl|]. now right.
    - set (p' := if fits then p else None).
      destruct (step_cast_adopt s x _ k p vp p' fits (cast_moves cxx20 k && bool_decide (p' <> None))
        (if cast_moves cxx20 k && bool_decide (p' <> None)
         then write x (Some (empty_like (Content (HSmart k p) (Some vp)))) (os_heap s) else os_heap s)
        (OCastMove x dynamic fits) Hs Hx eq_refl) as (h' & Had & Hsd & Hk & He); auto.
      + unfold p'. destruct fits; [auto|]. right. split; [reflexivity|].
        rewrite bool_decide_eq_false_2 by tauto. apply andb_false_r.
      + intros Hm Hn ->. rewrite bool_decide_eq_true_2 in Hm by exact Hn. discriminate.
      + cbn. rewrite (smart_points _ _ _ _ _ Hx). unfold p'. now destruct fits.
      + cbn [empties]. rewrite (smart_points _ _ _ _ _ Hx), andb_true_iff, bool_decide_eq_true.
        unfold p', smart_vptr. rewrite Hx. destruct fits; [|naive_solver].
        split.
        * intros (_ & Hp & [(p1 & vp1 & H1)|[(p1 & vp1 & H1) Hc]]).
          -- injection H1 as -> -> ->. split; [reflexivity|]. now destruct p1.
          -- injection H1 as -> -> ->. split; [exact Hc|]. now destruct p1.
        * intros [Hm Hp]. split; [reflexivity|]. split; [now destruct p|].
          destruct k; [right|left|discriminate]; eauto.
      + destruct (alloc (Content (HSmart k p') None) _) as [tmp h] eqn:Ha.
        injection Ha as <- <-. cbn [alloc snd] in Had. rewrite Had. cbn [ends obind].
        eexists _, _. split; [reflexivity|]. auto.
  Qed.

  (* Plain virtual_ptr. *)
  Lemma step_plain s o via : sound s -> allowed cf w em s (OPlain o via) -> good_step s (OPlain o via).
  Proof.
    intros Hs [Hal Hse]. unfold good_step. cbn [ostep].
    destruct (vptr_for_cases s via (Some (o, 0))) as [[v Hv]|[e Hv]]; [|rewrite Hv; cbn [try_]..].
    { intros o1 b1 H1. injection H1 as <- <-. auto. }
    - eexists _, _. split; [reflexivity|]. split.
      { unfold sound. cbn [os_heap os_types]. now apply alloc_fine. }
      split; [apply kept_refl|].
      refine (body_intro _ _ (OPlain o via) _ (length (hp_vars (os_heap s))) _ _ _ _ _ _); cbn [os_heap].
      + cbn. apply look_ge. lia.
      + rewrite look_alloc, decide_True by reflexivity. reflexivity.
      + reflexivity.
      + discriminate.
      + intros x Hx _. now rewrite look_alloc, decide_False by exact Hx.
    - eexists _, _. split; [reflexivity|]. split; [exact Hs|].
      split; [destruct s; apply kept_refl|]. now right.
  Qed.

  Lemma step_plain_assign s d o via :
    sound s -> allowed cf w em s (OPlainAssign d o via) -> good_step s (OPlainAssign d o via).
  Proof.
    intros Hs ((p & vp & Hd) & Hal & Hse). unfold good_step. cbn [ostep].
    pose proof (look_some_lt _ _ _ Hd) as Hlt.
    rewrite (read_ok _ _ _ Hd). cbn [obind ct_vp].
    set (h := write d _ _).
    assert (Hhd : look h d = Some (Content (HRaw (Some o)) (Some vp))) by now apply look_write_eq.
    assert (Hsh : sound (OState h (os_types s))) by now apply (same_fine _ _ _ _ _ Hd).
    destruct (vptr_for_cases s via (Some (o, 0))) as [[v Hv]|[e Hv]]; [|rewrite Hv; cbn [try_]..].
    { intros o1 b1 H1. injection H1 as <- <-. auto. }
    - eexists _, _. split; [reflexivity|]. split; [now apply (same_fine _ _ _ _ _ Hhd)|].
      split; [apply kept_refl|].
      eapply (assigned s (OPlainAssign d o via)); [exact Hd|reflexivity|..].
      + intros x. cbn [os_heap]. rewrite look_write by (eapply look_some_lt; exact Hhd).
        destruct (decide (x = d)) as [|Hn]; [reflexivity|]. unfold h. now rewrite look_write_ne.
      + reflexivity.
      + discriminate.
    - eexists _, _. split; [reflexivity|]. split; [exact Hsh|]. split; [apply kept_refl|]. now left.
  Qed.

  Lemma step_good s op : sound s -> allowed cf w em s op -> good_step s op.
  Proof.
    intros Hs Ha. destruct op.
    - now apply step_create.
    - now apply step_destroy.
    - now apply step_make.
    - now apply step_final.
    - now apply step_null.
    - now apply step_copy.
    - now apply step_move.
    - now apply step_from.
    - now apply step_from_move.
    - now apply step_assign_null.
    - now apply step_assign_from.
    - now apply step_assign_from_move.
    - now apply step_assign.
    - now apply step_assign_move.
    - now apply step_cast.
    - now apply step_cast_move.
    - now apply step_plain.
    - now apply step_plain_assign.
  Qed.
End Steps.

(* ---- what follows ---- *)
Lemma start_sound : sound start.
Proof.
  unfold sound, fine. cbn. split; try discriminate.
  - intros k o b H. now apply elem_of_nil in H.
  - intros k k' o b b' H. now apply elem_of_nil in H.
  - intros o b l H. now apply Permutation_nil_cons in H.
Qed.

Lemma reached_sound cf cxx20 s : reached cf cxx20 s -> sound s.
Proof.
  induction 1 as [|s w em op s' r _ IH Ha Hst]; [apply start_sound|].
  destruct (step_good _ _ _ cxx20 _ _ IH Ha) as (s1 & r1 & H1 & Hs1 & _).
  rewrite Hst in H1. injection H1 as <- <-. exact Hs1.
Qed.

Lemma reached_orderly cf cxx20 s : reached cf cxx20 s -> orderly s.
Proof. intros H. eapply sound_orderly, reached_sound, H. Qed.

Lemma step_defined cf cxx20 w em s op :
  reached cf cxx20 s -> allowed cf w em s op ->
  exists s' r, ostep cf w em cxx20 op s = Ok (s', r).
Proof.
  intros Hr Ha. destruct (step_good _ _ _ cxx20 _ _ (reached_sound _ _ _ Hr) Ha) as (s1 & r1 & H1 & _). eauto.
Qed.

Lemma step_effect cf cxx20 w em s op s' :
  reached cf cxx20 s -> allowed cf w em s op -> ostep cf w em cxx20 op s = Ok (s', None) ->
  effect cxx20 s op s' /\ types_kept s s'.
Proof.
  intros Hr Ha Hst.
  destruct (step_good _ _ _ cxx20 _ _ (reached_sound _ _ _ Hr) Ha) as (s1 & r1 & H1 & _ & Hk & He).
  rewrite Hst in H1. injection H1 as <- <-. auto.
Qed.

Lemma same_alive s s' : orderly s -> orderly s' ->
  (forall x, look (os_heap s') x = look (os_heap s) x) -> forall o, alive s' o <-> alive s o.
Proof.
  intros Hs Hs' Hl o. rewrite (or_alive _ Hs), (or_alive _ Hs'). unfold owner.
  split; intros (x & k & b & vp & Hx); exists x, k, b, vp; now rewrite <- ?Hl, ?Hl in *.
Qed.

Lemma step_unwound cf cxx20 w em s op s' r :
  reached cf cxx20 s -> allowed cf w em s op -> ~ assigns_first op ->
  ostep cf w em cxx20 op s = Ok (s', Some r) -> unwound s s'.
Proof.
  intros Hr Ha Hn Hst.
  destruct (step_good _ _ _ cxx20 _ _ (reached_sound _ _ _ Hr) Ha) as (s1 & r1 & H1 & Hs1 & _ & He).
  rewrite Hst in H1. injection H1 as <- <-. destruct He as [He|He]; [contradiction|].
  split; [exact He|]. apply same_alive; [|now apply sound_orderly|exact He].
  now apply (reached_orderly cf cxx20).
Qed.

Lemma unbox_static cf w loc : unbox_vptr w (box_vptr cf w (FromRef (RStatic loc))) = Ok (w_static w loc).
Proof. unfold box_vptr. now destruct (cf_indirect cf). Qed.

Lemma step_made cf cxx20 w em s k t loc poly fails :
  reached cf cxx20 s ->
  exists s' r, ostep cf w em cxx20 (OMake k t loc poly fails) s = Ok (s', r) /\
    if fails then r = Some ConstructorThrows /\ unwound s s'
    else if cf_checks cf && negb (w_initialized w) then r = Some (Signals ENotInitialized) /\ unwound s s'
    else r = None /\ exists y o, made w k t loc s s' y o.
Proof.
  intros Hr. pose proof (reached_sound _ _ _ Hr) as Hs.
  destruct (step_good cf w em cxx20 s (OMake k t loc poly fails) Hs I) as (s' & r & Hst & Hs' & Hk & He).
  exists s', r. split; [exact Hst|].
  assert (Hun : forall e, r = Some e -> unwound s s').
  { intros e ->. apply (step_unwound cf cxx20 w em s (OMake k t loc poly fails) s' e Hr I); [intros []|exact Hst]. }
  cbn [ostep] in Hst. destruct fails.
  { injection Hst as <- <-. split; [reflexivity|]. now eapply Hun. }
  destruct (create k t s) as [c s1] eqn:Hc.
  destruct (create_sound _ _ _ _ _ Hs Hc) as (Hf & Hv & Ht & Hcc).
  set (n := length (os_types s)) in *.
  destruct (alloc c (os_heap s1)) as [tmp h] eqn:Ha.
  assert (Hh : h = (alloc c (os_heap s1)).2) by now rewrite Ha.
  assert (Htmp : tmp = length (hp_vars (os_heap s))) by (injection Ha as <- _; now rewrite Hv).
  assert (Hal : hp_alive h n = true).
  { injection Hc as Hc0 Hc. rewrite Hh, <- Hc. cbn. unfold upd. now rewrite decide_True. }
  assert (Hty : nth n (os_types s1) 0%N = t).
  { rewrite Ht, app_nth2 by (unfold n; lia). unfold n. now rewrite Nat.sub_diag. }
  unfold final_vptr in Hst. cbn [os_heap os_types] in Hst.
  assert (Hri : require_initialized cf w =
    if cf_checks cf && negb (w_initialized w) then Err ENotInitialized else Ok tt).
  { unfold require_initialized. destruct (cf_checks cf), (w_initialized w); reflexivity. }
  rewrite Hri in Hst. destruct (cf_checks cf && negb (w_initialized w)).
  { cbn [obind try_] in Hst. destruct (destroy tmp h) as [h'| | |]; try discriminate.
    injection Hst as <- <-. split; [reflexivity|]. now eapply Hun. }
  cbn [obind] in Hst.
  assert (Hpass : (if cf_checks cf && poly then
         let* '(o, _) := deref (owned (ct_handle c)) in
         if hp_alive h o then
           if decide (nth o (os_types s1) 0%N = t) then Ok tt else Err (EFinal t (nth o (os_types s1) 0%N))
         else Undef
       else Ok tt) = Ok tt).
  { destruct (cf_checks cf && poly); [|reflexivity]. rewrite Hcc. cbn. now rewrite Hal, decide_True. }
  rewrite Hpass in Hst. cbn [obind try_] in Hst.
  destruct (adopt_fine tmp c (box_vptr cf w (FromRef (RStatic loc))) h (length (os_types s1)))
    as (h' & Had & Hf' & Hl).
  { rewrite Hh, look_alloc, Hv. now rewrite decide_True by exact Htmp. }
  { rewrite Hh. apply alloc_fine. now rewrite app_nil_r. }
  rewrite Had in Hst. cbn [ends obind] in Hst. injection Hst as <- <-.
  split; [reflexivity|].
  assert (Hlen : length (hp_vars h) = S tmp).
  { rewrite Hh, Htmp. cbn. rewrite app_length, Hv. cbn. lia. }
  rewrite Hlen in Hl.
  assert (Hlook : forall x, x <> S tmp -> look h' x = look (os_heap s) x).
  { intros x Hx. rewrite Hl, decide_False by exact Hx.
    destruct (decide (x = tmp)) as [->|Hn]; [symmetry; apply look_ge; lia|].
    rewrite Hh, look_alloc, Hv, decide_False by congruence. now apply look_same. }
  assert (Hnew : look h' (S tmp) = Some (with_vp c (box_vptr cf w (FromRef (RStatic loc))))).
  { now rewrite Hl, decide_True. }
  assert (Hdead : ~ alive s n).
  { intros Hd. apply (or_known _ (reached_orderly _ _ _ Hr)) in Hd. unfold n in Hd. lia. }
  pose proof (sound_orderly _ Hs') as Ho'. pose proof (sound_orderly _ Hs) as Ho.
  assert (Hown : forall x o, owner h' x o <-> owner (os_heap s) x o \/ x = S tmp /\ o = n).
  { intros x o. unfold owner. destruct (decide (x = S tmp)) as [->|Hx].
    - rewrite Hnew, Hcc. split.
      + intros (k1 & b1 & vp1 & H1). right. injection H1 as _ <- _ _. auto.
      + intros [(k1 & b1 & vp1 & H1)|[_ ->]]; [|unfold with_vp; cbn; eauto].
        apply look_some_lt in H1. lia.
    - rewrite (Hlook x Hx). split; [now left|]. now intros [H1|[? _]]. }
  exists (S tmp), n. split.
  - split; [exact Hdead|]. apply look_ge. lia.
  - split.
    + apply (or_alive _ Ho'). cbn [os_heap]. exists (S tmp). apply Hown. auto.
    + cbn [os_types]. rewrite Ht. unfold n. now rewrite lookup_app_r, Nat.sub_diag by lia.
  - intros x. cbn [os_heap]. rewrite Hown. split; [|auto].
    intros [H1|[-> _]]; [|reflexivity]. destruct Hdead. apply (or_alive _ Ho). eauto.
  - cbn [os_heap]. rewrite Hnew, Hcc. unfold with_vp. cbn. eexists _, _. split; [reflexivity|].
    apply unbox_static.
  - intros x Hx. cbn [os_heap]. now apply Hlook.
  - intros o Hon. rewrite (or_alive _ Ho'), (or_alive _ Ho). cbn [os_heap].
    split; intros [x Hx]; exists x.
    + apply Hown in Hx as [Hx|[_ ?]]; [exact Hx|contradiction].
    + apply Hown. now left.
Qed.
