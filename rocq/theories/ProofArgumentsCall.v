(* A whole call. *)
From stdpp Require Import base list numbers.
From Verif Require Import Base Registry Spec ModelClasses ModelHash ModelWorld ModelCall ModelErrors
  SpecCall ModelVirtualPtr ModelArguments SpecArguments ProofBase ProofArguments ProofArgumentsPhases.

Lemma omap_cons {A B} (f : A -> option B) x (l : list A) :
  omap f (x :: l) = match f x with Some y => y :: omap f l | None => omap f l end.
Proof. reflexivity. Qed.

Section Call.
  Context (cf : config) (w : world) (isa : nat -> N -> bool) (cxx20 : bool).

  Lemma stage_received_object s ts es s2 ps2 l2 i e p :
    stage s ts es s2 ps2 l2 -> es !! i = Some e -> ps2 !! i = Some p ->
    param_object s2 p = arg_object s e.
  Proof.
    intros St He Hp. pose proof (st_content _ _ _ _ _ _ St i e p He Hp) as Hc.
    pose proof (st_object _ _ _ _ _ _ St i e p He Hp) as Ho. destruct p as [o|x|x]; simpl.
    - pose proof (proj1 (Ho o) eq_refl) as ->. reflexivity.
    - rewrite Hc. destruct e as [o|y|y|y]; try reflexivity. pose proof (proj2 (Ho o) eq_refl). discriminate.
    - rewrite Hc. destruct e as [o|y|y|y]; try reflexivity. pose proof (proj2 (Ho o) eq_refl). discriminate.
  Qed.

  (* Every virtual argument is of the class of the parameter of the overrider. *)
  Definition suits (s : heap) (ts : list ptype) (ots : list otype) (es : list expression) : Prop :=
    length ots = length ts /\
    forall i t ot e o, ts !! i = Some t -> ots !! i = Some ot -> es !! i = Some e ->
      is_virtual_type t = true -> arg_object s e = Some o -> isa o (ot_class ot) = true.

  Lemma cast_stage s ts es s2 ps2 l2 ots :
    stage s ts es s2 ps2 l2 -> healthy s2 -> length es = length ts -> suits s ts ots es ->
    exists ps l s', cast_all cf w isa cxx20 ts ots ps2 s2 = Ok (ps, l, s') /\
      evolves (fun x => x ∈ l2) s2 s' l /\ length ps = length ts /\
      (forall i t e p, ts !! i = Some t -> es !! i = Some e -> ps !! i = Some p -> received s t e s' p) /\
      (forall x, x ∈ l -> exists i p, ps !! i = Some p /\ place_of p = Some x) /\
      (forall i t x, ts !! i = Some t -> ps2 !! i = Some (PVar x) ->
         left_by cxx20 t (look s2 x) (look s' x)).
  Proof.
    intros St Hh Hes [Hots Hsuit]. pose proof (st_len _ _ _ _ _ _ St) as Hlen.
    assert (Hzip : forall i t ot p, zip (zip ts ots) ps2 !! i = Some ((t, ot), p) <->
      ts !! i = Some t /\ ots !! i = Some ot /\ ps2 !! i = Some p).
    { intros i t ot p. rewrite zip_lookup, zip_lookup. tauto. }
    assert (Hit : forall a, a ∈ zip (zip ts ots) ps2 -> made s2 a.1.1 a.2 /\
      (is_virtual_type a.1.1 = true -> forall o, param_object s2 a.2 = Some o -> isa o (ot_class a.1.2) = true)).
    { intros [[t ot] p] Ha. apply elem_of_list_lookup in Ha as (i & Ha). apply Hzip in Ha as (H1 & H2 & H3). simpl.
      split; [eapply st_made; eauto|]. intros Hv o Ho.
      destruct (lookup_lt_is_Some_2 es i) as [e He]; [apply lookup_lt_Some in H1; lia|].
      rewrite (stage_received_object _ _ _ _ _ _ _ _ _ St He H3) in Ho. eauto. }
    assert (Hlive : forall a x, a ∈ zip (zip ts ots) ps2 -> place_of a.2 = Some x -> exists c, look s2 x = Some c).
    { intros [[t ot] p] x Ha Hx. apply elem_of_list_lookup in Ha as (i & Ha). apply Hzip in Ha as (H1 & H2 & H3).
      eapply stage_live; eauto. }
    destruct (steps_ok (fun top : (ptype * otype) * parameter => cast cf w isa cxx20 top.1.1 top.1.2 top.2) s2
      (fun top => place_of top.2) (fun top => is_var top.2)
      (fun top q c => c = param_content s2 top.2 /\ (forall o, q = PObject o <-> top.2 = PObject o) /\
         (top.1.1 = TRef -> q = top.2))
      (fun top x c => left_by cxx20 top.1.1 (look s2 x) c) (zip (zip ts ots) ps2) s2)
      as (ps & ys & s' & E & Ev & HF & Hys & Hdis & HG); auto.
    { intros [[t ot] p] Ha. apply Hit in Ha as [H1 H2]. apply cast_does; assumption. }
    { intros i j [[t ot] e] [[t' ot'] e'] x Hi He Hx Hj Hx'. apply Hzip in Hi as (_ & _ & Hi), Hj as (_ & _ & Hj).
      simpl in *. destruct e; try discriminate. injection Hx as ->. eapply st_once; eauto. }
    { intros a x Ha Hx. split; [|reflexivity]. destruct (Hlive a x Ha Hx) as (c & Hc). eapply look_some_lt; eauto. }
    exists ps, ys, s'. split; [exact E|].
    assert (Hpl : length ps = length ts).
    { apply Forall2_length in HF. rewrite !zip_with_length in HF. lia. }
    split; [|split; [exact Hpl|split; [|split; [exact Hys|]]]].
    - eapply evolves_mono; [|exact Ev]. intros x _ ([[t ot] e] & Ha & He & Hx). simpl in *.
      destruct e; try discriminate. injection Hx as ->. apply elem_of_list_lookup in Ha as (i & Ha).
      apply Hzip in Ha as (_ & _ & Ha). apply (st_fresh _ _ _ _ _ _ St). eauto.
    - intros i t e p Ht He Hp.
      destruct (lookup_lt_is_Some_2 ots i) as [ot Hot]; [apply lookup_lt_Some in Ht; lia|].
      destruct (lookup_lt_is_Some_2 ps2 i) as [q Hq]; [apply lookup_lt_Some in Ht; lia|].
      destruct (Forall2_lookup_lr _ _ _ i ((t, ot), q) p HF) as [(Hc & Ho & Hr) _]; [apply Hzip; auto|exact Hp|].
      simpl in Hc, Ho, Hr.
      pose proof (stage_received_object _ _ _ _ _ _ _ _ _ St He Hq) as Hobj.
      assert (Hpo : param_object s' p = param_object s2 q).
      { destruct p as [o|x|x].
        - pose proof (proj1 (Ho o) eq_refl) as ->. reflexivity.
        - destruct q as [o|y|y]; [pose proof (proj2 (Ho o) eq_refl); discriminate|..]; simpl; rewrite Hc; reflexivity.
        - destruct q as [o|y|y]; [pose proof (proj2 (Ho o) eq_refl); discriminate|..]; simpl; rewrite Hc; reflexivity. }
      split.
      + congruence.
      + rewrite Hc. eapply st_content; eauto.
      + intros Hv. rewrite Hpo. pose proof (st_made _ _ _ _ _ _ St i t q Ht Hq) as Hm.
        destruct Hm as [o' Ho'|t x c Hb Hx Hc'|t x c Hb Hx Hc']; simpl; [discriminate|..];
          unfold param_content; simpl; rewrite Hx; destruct Hc'; simpl; discriminate.
      + intros ->. rewrite (Hr eq_refl). pose proof (st_made _ _ _ _ _ _ St i _ q Ht Hq) as Hm.
        inversion Hm; subst; try discriminate. rewrite (st_same _ _ _ _ _ _ St i e x He Hq). reflexivity.
    - intros i t x Ht Hx.
      destruct (lookup_lt_is_Some_2 ots i) as [ot Hot]; [apply lookup_lt_Some in Ht; lia|].
      apply (HG ((t, ot), PVar x)); try reflexivity. eapply elem_of_list_lookup_2. apply Hzip. eauto.
  Qed.

End Call.

Lemma evolves_inner s s1 s2 l1 l2 es :
  evolves (moves es) s s1 l1 -> evolves (fun x => x ∈ l1) s1 s2 l2 ->
  evolves (moves es) s s2 (l1 ++ l2).
Proof.
  intros E1 E2. eapply evolves_mono; [|exact (evolves_trans _ _ _ _ _ _ _ E1 E2)].
  intros x Hx [Hm|Hl]; [exact Hm|]. apply (ev_locals _ _ _ _ E1) in Hl. lia.
Qed.

Lemma moved_kept s s1 s2 l1 l2 es (L : list nat) :
  evolves (moves es) s s1 l1 -> evolves (fun x => x ∈ L) s1 s2 l2 ->
  (forall x, x ∈ L -> length (hp_vars s) <= x) ->
  (forall x, moves es x -> x < length (hp_vars s) -> empty_after (look s1 x)) ->
  (forall x, moves es x -> x < length (hp_vars s) -> empty_after (look s2 x)).
Proof.
  intros E1 E2 HL Hm x Hx Hlt. rewrite (ev_keep _ _ _ _ E2); [auto| |].
  - pose proof (ev_len _ _ _ _ E1). lia.
  - intros Hin. apply HL in Hin. lia.
Qed.

Lemma empty_no_owner s x o : empty_after (look s x) -> ~ owner s x o.
Proof. intros H (k & b & vp & E). rewrite E in H. discriminate. Qed.

Lemma entry_from s ts es s' ps l :
  evolves (moves es) s s' l ->
  (forall x, moves es x -> x < length (hp_vars s) -> empty_after (look s' x)) ->
  length ps = length ts ->
  (forall i t e p, ts !! i = Some t -> es !! i = Some e -> ps !! i = Some p -> received s t e s' p) ->
  entry s ts es s' ps l.
Proof.
  intros [A1 A2 A3 A4 A5 A6 A7 A8 A9] Hm Hl Hr. split; auto.
  intros x o Hx Hmv. apply empty_no_owner. auto.
Qed.

(* ---- destruction ---- *)
Lemma shared_with_true ob s :
  shared_with ob s = true <-> exists x c, look s x = Some c /\ owned (ct_handle c) = Some ob.
Proof.
  unfold shared_with. rewrite existsb_exists. split.
  - intros ([c|] & Hin & H); [|discriminate]. apply elem_of_list_In, elem_of_list_lookup in Hin as (x & Hx).
    exists x, c. split; [unfold look; rewrite Hx; reflexivity|]. exact (bool_decide_eq_true_1 _ H).
  - intros (x & c & Hx & Ho). exists (Some c). split; [|apply bool_decide_eq_true_2; exact Ho].
    apply elem_of_list_In, elem_of_list_lookup. exists x. unfold look in Hx.
    destruct (hp_vars s !! x) as [[c'|]|]; congruence.
Qed.

Lemma look_drop s x y : look (write x None s) y = if decide (y = x) then None else look s y.
Proof.
  destruct (decide (y = x)) as [->|Hn]; [|apply look_write_ne; exact Hn].
  destruct (decide (x < length (hp_vars s))) as [Hl|Hl]; [apply look_write_eq; exact Hl|].
  apply look_ge. rewrite length_write. lia.
Qed.

Lemma owner_drop s x y o : owner (write x None s) y o <-> y <> x /\ owner s y o.
Proof.
  unfold owner. rewrite look_drop. destruct (decide (y = x)) as [->|Hn].
  - split; [intros (k & b & vp & E); discriminate|intros [? _]; congruence].
  - split; [auto|intros [_ H]; exact H].
Qed.

Lemma healthy_dead s o :
  healthy s -> (forall x, ~ owner s x o) -> healthy (Heap (hp_vars s) (upd (hp_alive s) o false)).
Proof.
  intros [H1 H2 H3] Hno. split; [|exact H2|exact H3].
  intros x o' Ho'. simpl. rewrite upd_ne; [eapply H1; exact Ho'|]. intros ->. exact (Hno x Ho').
Qed.

Lemma destroy_returned s x c :
  healthy s -> look s x = Some c -> exists s', destroy x s = Ok s' /\ returned s [x] s'.
Proof.
  intros H Hx.
  assert (Hkeep : (forall o, owner s x o -> exists y, y <> x /\ owner s y o) -> returned s [x] (write x None s)).
  { intros Hsh. split.
    - apply healthy_drop. exact H.
    - intros y Hy. rewrite look_drop. destruct (decide (y = x)) as [->|]; [|reflexivity].
      exfalso. apply Hy. left.
    - intros y ->%elem_of_list_singleton. rewrite look_drop. rewrite decide_True; reflexivity.
    - intros o. split; [|tauto]. intros Ha. split; [exact Ha|]. intros (y & Hy).
      destruct (decide (y = x)) as [->|Hn].
      + destruct (Hsh o Hy) as (z & Hz & Hzo). exists z. split; [|exact Hzo].
        intros ->%elem_of_list_singleton. congruence.
      + exists y. split; [|exact Hy]. intros ->%elem_of_list_singleton. congruence. }
  unfold destroy. rewrite (read_ok _ _ _ Hx). cbn [obind].
  destruct c as [h vp]. cbn [ct_handle].
  destruct h as [v|p|k [[o b]|]]; try (eexists; split; [reflexivity|apply Hkeep; intros o (k' & b' & vp' & E); congruence]).
  destruct (bool_decide (k <> Unique) && shared_with (o, b) (write x None s)) eqn:Esh.
  - eexists. split; [reflexivity|]. apply Hkeep. intros o' (k' & b' & vp' & E).
    rewrite Hx in E. injection E as <- <- <- <-. apply andb_true_iff in Esh as [_ Esh].
    apply shared_with_true in Esh as (y & cy & Hy & Ho). rewrite look_drop in Hy.
    destruct (decide (y = x)); [discriminate|]. exists y. split; [assumption|].
    apply owner_target. exists cy. split; [exact Hy|]. rewrite Ho. reflexivity.
  - assert (Hax : hp_alive s o = true) by (eapply he_alive; [exact H|eexists _, _, _; exact Hx]).
    assert (Hno : forall y, ~ (y <> x /\ owner s y o)).
    { intros y (Hn & k' & b' & vp' & Hy).
      destruct (he_agree _ H _ _ _ _ _ _ _ _ _ Hx Hy) as (-> & -> & Hu).
      apply andb_false_iff in Esh as [Esh|Esh].
      - destruct (decide (k = Unique)) as [->|Hk]; [exact (Hn (Hu eq_refl))|].
        rewrite bool_decide_eq_true_2 in Esh by exact Hk. discriminate.
      - assert (Esh' : shared_with (o, b) (write x None s) = true); [|congruence].
        apply shared_with_true. eexists y, _. split; [rewrite look_drop, decide_False by exact Hn; exact Hy|].
        reflexivity. }
    change (hp_alive (write x None s) o) with (hp_alive s o). rewrite Hax. eexists. split; [reflexivity|].
    assert (Hl : forall y, look (Heap (hp_vars (write x None s)) (upd (hp_alive (write x None s)) o false)) y =
      look (write x None s) y) by reflexivity.
    split.
    + apply healthy_dead; [apply healthy_drop; exact H|]. intros y Hy. apply owner_drop in Hy. exact (Hno y Hy).
    + intros y Hy. rewrite Hl, look_drop. destruct (decide (y = x)) as [->|]; [|reflexivity].
      exfalso. apply Hy. left.
    + intros y ->%elem_of_list_singleton. rewrite Hl, look_drop, decide_True; reflexivity.
    + intros o'. simpl. destruct (decide (o' = o)) as [->|Hn].
      * rewrite upd_eq. split; [discriminate|]. intros [_ Hc]. destruct Hc as (y & Hy & Hyo).
        { exists x, k, b, vp. exact Hx. }
        exfalso. apply (Hno y). split; [|exact Hyo]. intros ->. apply Hy. left.
      * rewrite upd_ne by exact Hn. split; [|tauto]. intros Ha. split; [exact Ha|]. intros (y & Hy).
        exists y. split; [|exact Hy]. intros ->%elem_of_list_singleton.
        destruct Hy as (k' & b' & vp' & E). rewrite Hx in E. congruence.
Qed.

Lemma returned_trans s x s1 l s2 :
  returned s [x] s1 -> returned s1 l s2 -> x ∉ l -> returned s (x :: l) s2.
Proof.
  intros [A1 A2 A3 A4] [B1 B2 B3 B4] Hx.
  assert (Ho : forall y o, owner s1 y o <-> y <> x /\ owner s y o).
  { intros y o. unfold owner. destruct (decide (y = x)) as [->|Hn].
    - rewrite A3 by left. split; [intros (? & ? & ? & ?); discriminate|intros [? _]; congruence].
    - rewrite A2 by (intros ->%elem_of_list_singleton; congruence). tauto. }
  split.
  - exact B1.
  - intros y Hy. apply not_elem_of_cons in Hy as [H1 H2]. rewrite B2 by exact H2. apply A2.
    intros ->%elem_of_list_singleton. congruence.
  - intros y [->|Hy]%elem_of_cons; [|auto]. rewrite B2 by exact Hx. apply A3. left.
  - assert (HS : forall y, y ∉ [x] <-> y <> x) by (intros y; rewrite elem_of_list_singleton; reflexivity).
    intros o. rewrite B4, A4. setoid_rewrite Ho. setoid_rewrite HS. setoid_rewrite not_elem_of_cons. split.
    + intros [[Ha H1] H2]. split; [exact Ha|]. intros He. destruct (H1 He) as (y & Hy & Hyo).
      destruct H2 as (z & Hz & Hzx & Hzo); [eauto|]. exists z. auto.
    + intros [Ha H1]. split; [split; [exact Ha|]|].
      * intros He. destruct (H1 He) as (y & [Hy _] & Hyo). eauto.
      * intros (y & Hyx & Hyo). destruct H1 as (z & [Hz Hzl] & Hzo); [eauto|]. exists z. auto.
Qed.

Lemma returned_nil s : healthy s -> returned s [] s.
Proof.
  intros H. split; auto.
  - intros x Hx. apply elem_of_nil in Hx. contradiction.
  - intros o. split; [|tauto]. intros Ha. split; [exact Ha|]. intros (x & Hx). exists x. split; [|exact Hx].
    apply not_elem_of_nil.
Qed.

Lemma destroy_all l : forall s, healthy s -> NoDup l -> (forall x, x ∈ l -> look s x <> None) ->
  exists s', foldM destroy l s = Ok s' /\ returned s l s'.
Proof.
  induction l as [|x l IH]; intros s H Hd Hl.
  - exists s. split; [reflexivity|]. apply returned_nil. exact H.
  - apply list.NoDup_cons in Hd as [Hx Hd].
    destruct (look s x) as [c|] eqn:Ec; [|exfalso; apply (Hl x); [left|exact Ec]].
    destruct (destroy_returned s x c H Ec) as (s1 & E1 & R1).
    destruct (IH s1) as (s2 & E2 & R2).
    + exact (rt_healthy _ _ _ R1).
    + exact Hd.
    + intros y Hy. rewrite (rt_others _ _ _ R1).
      * apply Hl. right. exact Hy.
      * intros ->%elem_of_list_singleton. contradiction.
    + exists s2. split; [cbn [foldM]; rewrite E1; exact E2|]. eapply returned_trans; eauto.
Qed.

Lemma leave_returned l s : healthy s -> NoDup l -> (forall x, x ∈ l -> look s x <> None) ->
  exists s', leave l s = Ok s' /\ returned s l s'.
Proof.
  intros H Hd Hl. assert (Hm : forall x, x ∈ rev l <-> x ∈ l).
  { intros x. rewrite !elem_of_list_In. symmetry. apply in_rev. }
  destruct (destroy_all (rev l) s) as (s' & E & R).
  - exact H.
  - apply NoDup_ListNoDup, List.NoDup_rev, NoDup_ListNoDup, Hd.
  - intros x Hx. apply Hl, Hm, Hx.
  - exists s'. split; [exact E|]. destruct R as [A1 A2 A3 A4]. split.
    + exact A1.
    + intros x Hx. apply A2. rewrite Hm. exact Hx.
    + intros x Hx. apply A3, Hm, Hx.
    + intros o. rewrite A4. setoid_rewrite Hm. reflexivity.
Qed.

Lemma entry_returned_over s ts es s1 ps l s2 : entry s ts es s1 ps l -> returned s1 l s2 -> over s es s2.
Proof.
  intros [A1 A2 A3 A4 A5 A6 A7 A8] R.
  assert (Hl : forall x, x < length (hp_vars s) -> look s2 x = look s1 x).
  { intros x Hx. apply (rt_others _ _ _ R). intros Hin. apply A7 in Hin. lia. }
  split.
  - exact (rt_healthy _ _ _ R).
  - intros x Hx Hn. rewrite Hl by exact Hx. auto.
  - intros x o Hx Hmv. unfold owner. rewrite Hl by exact Hx. apply A6; assumption.
  - intros x Hx. destruct (decide (x ∈ l)) as [Hin|Hin]; [apply (rt_gone _ _ _ R); exact Hin|].
    rewrite (rt_others _ _ _ R) by exact Hin. destruct (look s1 x) eqn:E; [|reflexivity].
    exfalso. apply Hin. apply A8; [exact Hx|congruence].
  - intros o. rewrite (rt_alive _ _ _ R), A3, (A4 o).
    assert (Ho : forall x, (x ∉ l /\ owner s1 x o) <-> (~ moves es x /\ owner s x o)).
    { intros x. split.
      - intros [Hx Hox]. destruct (decide (x < length (hp_vars s))) as [Hlt|Hge].
        + destruct (decide (EMove x ∈ es)) as [Hmv|Hmv]; [exfalso; eapply A6; eauto|].
          split; [exact Hmv|]. unfold owner in *. rewrite A5 in Hox by assumption. exact Hox.
        + exfalso. apply Hx. apply A8; [lia|]. destruct Hox as (? & ? & ? & E). congruence.
      - intros [Hmv Hox]. assert (Hlt : x < length (hp_vars s)).
        { destruct Hox as (? & ? & ? & E). eapply look_some_lt; eauto. }
        split; [intros Hin; apply A7 in Hin; lia|]. unfold owner in *. rewrite A5 by assumption. exact Hox. }
    setoid_rewrite Ho. reflexivity.
Qed.

Lemma over_from s es s1 l s2 :
  evolves (moves es) s s1 l ->
  (forall x, moves es x -> x < length (hp_vars s) -> empty_after (look s1 x)) ->
  returned s1 l s2 -> over s es s2.
Proof.
  intros Ev Hm. apply (entry_returned_over s [] es s1 []). apply entry_from; auto. intros; discriminate.
Qed.

Lemma sole_from cxx20 s ts es s2 ps2 l2 s' ps L l3 :
  Forall2 (arg_ok s) ts es -> apart es ->
  evolves (moves es) s s' (L ++ l2 ++ l3) ->
  (forall x, moves es x -> x < length (hp_vars s) -> empty_after (look s' x)) ->
  (forall x, x ∈ L -> empty_after (look s' x)) ->
  stage s ts es s2 ps2 l2 -> length ps = length ts ->
  (forall i t e p, ts !! i = Some t -> es !! i = Some e -> ps !! i = Some p -> received s t e s' p) ->
  (forall x, x ∈ l3 -> exists i p, ps !! i = Some p /\ place_of p = Some x) ->
  (forall i t x, ts !! i = Some t -> ps2 !! i = Some (PVar x) -> left_by cxx20 t (look s2 x) (look s' x)) ->
  sole (given_away cxx20) s ts es s' ps.
Proof.
  intros HA HD Ev Hmv HL St Hpl Rc Hl3 Hleft i k x o Ht He HK Hx Honly.
  pose proof (Forall2_length _ _ _ HA) as Hlen.
  assert (Hi : i < length ts) by (destruct Ht as [Ht|Ht]; apply lookup_lt_Some in Ht; exact Ht).
  destruct (lookup_lt_is_Some_2 ps i) as [p Hp]; [lia|].
  assert (Hrec : forall j e q, es !! j = Some e -> ps !! j = Some q -> param_content s' q = arg_content s e).
  { intros j e q Hj Hq. destruct (lookup_lt_is_Some_2 ts j) as [t Htj]; [apply lookup_lt_Some in Hj; lia|].
    exact (re_content _ _ _ _ _ (Rc j t e q Htj Hj Hq)). }
  assert (Huse : forall j e k' b vp, es !! j = Some e ->
    arg_content s e = Some (Content (HSmart k' (Some (o, b))) vp) -> j = i).
  { intros j e k' b vp Hj Hc. unfold arg_content in Hc. destruct (variable_of e) as [y|] eqn:Ey; [|discriminate].
    simpl in Hc. assert (y = x) as -> by (apply Honly; eexists _, _, _; exact Hc).
    symmetry. eapply HD; eauto. }
  pose proof (Hrec i _ p He Hp) as Hpc. unfold arg_content in Hpc. simpl in Hpc.
  destruct Hx as (k0 & b & vp & Hx). rewrite Hx in Hpc.
  destruct (place_of p) as [y|] eqn:Ey; [|unfold param_content in Hpc; rewrite Ey in Hpc; discriminate].
  exists p, y. split; [exact Hp|]. split; [exact Ey|].
  unfold param_content in Hpc. rewrite Ey in Hpc. simpl in Hpc.
  intros z. split; [|intros ->; eexists _, _, _; exact Hpc].
  intros Hz. pose proof Hz as (kz & bz & vz & Hzl).
  destruct (decide (z < length (hp_vars s))) as [Hlt|Hge].
  { exfalso. assert (Hn : ~ moves es z).
    { intros Hm. exact (empty_no_owner _ _ _ (Hmv z Hm Hlt) Hz). }
    assert (Hzs : owner s z o). { unfold owner in *. rewrite <- (ev_keep _ _ _ _ Ev z Hlt Hn). exact Hz. }
    apply Honly in Hzs as ->. apply Hn. eapply elem_of_list_lookup_2; eauto. }
  assert (Hin : z ∈ L ++ l2 ++ l3) by (apply (ev_new _ _ _ _ Ev); [lia|congruence]).
  apply elem_of_app in Hin as [Hin|[Hin|Hin]%elem_of_app].
  - exfalso. exact (empty_no_owner _ _ _ (HL z Hin) Hz).
  - exfalso. apply (st_fresh _ _ _ _ _ _ St) in Hin as (j & Hj).
    assert (Hjl : j < length ts) by (apply lookup_lt_Some in Hj; rewrite <- (st_len _ _ _ _ _ _ St); exact Hj).
    destruct (lookup_lt_is_Some_2 ts j) as [tj Htj]; [lia|].
    destruct (lookup_lt_is_Some_2 es j) as [ej Hej]; [lia|].
    pose proof (Hleft j tj z Htj Hj) as Hl.
    pose proof (st_content _ _ _ _ _ _ St j ej _ Hej Hj) as Hc. unfold param_content in Hc. simpl in Hc.
    assert (Hempty : ~ empty_after (look s' z)) by (intros Hemp; exact (empty_no_owner _ _ _ Hemp Hz)).
    assert (Hsame : look s' z = look s2 z -> j = i).
    { intros Esame. eapply Huse; [exact Hej|]. rewrite <- Hc, <- Esame. exact Hzl. }
    destruct (look s2 z) as [c|] eqn:Ec.
    2:{ destruct tj as [| | | |k'|k'|[k'|]|k']; simpl in Hl; contradiction. }
    assert (Hk : forall k', tj = TSmart k' \/ tj = TVptr (Some k') ->
      (look s' z = Some (Content (HSmart k' None) (ct_vp c)) /\ takes cxx20 k' true = true) \/
      (look s' z = Some c /\ takes cxx20 k' true = false) -> False).
    { intros k' Htk [[El _]|[El Et]].
      - rewrite El in Hempty. apply Hempty. reflexivity.
      - specialize (Hsame El). subst j.
        assert (k' = k) as -> by (destruct Htk as [->| ->]; destruct Ht as [Ht|Ht]; congruence).
        destruct HK as [->|[-> ->]]; discriminate. }
    destruct tj as [| | | |k'|k'|[k'|]|k']; simpl in Hl; try contradiction; eapply Hk; eauto.
  - destruct (Hl3 z Hin) as (j & q & Hj & Hq).
    destruct (lookup_lt_is_Some_2 es j) as [ej Hej]; [apply lookup_lt_Some in Hj; lia|].
    pose proof (Hrec j ej q Hej Hj) as Hc. unfold param_content in Hc. rewrite Hq in Hc. simpl in Hc.
    rewrite Hzl in Hc. symmetry in Hc. pose proof (Huse j ej _ _ _ Hej Hc) as ->.
    assert (q = p) as -> by congruence. congruence.
Qed.

Section Arguments.
  Context (cf : config) (w : world) (objs : nat -> N) (isa : nat -> N -> bool)
    (dyn : handle -> N) (cxx20 : bool).

  (* ---- what the dispatch code sees ---- *)
  Lemma peek_ok s ts es s1 ps l i t e p a :
    stage s ts es s1 ps l -> healthy s1 -> ts !! i = Some t -> es !! i = Some e -> ps !! i = Some p ->
    shows w objs dyn s t e a -> peek w objs dyn t p s1 = Ok a.
  Proof.
    intros St Hh Ht He Hp Hs. pose proof (st_made _ _ _ _ _ _ St i t p Ht Hp) as Hm.
    pose proof (st_content _ _ _ _ _ _ St i e p He Hp) as Hc.
    pose proof (stage_received_object _ _ _ _ _ _ _ _ _ St He Hp) as Ho.
    pose proof (st_object _ _ _ _ _ _ St i e p He Hp) as Hob.
    assert (Hal : forall x k o b vp, look s1 x = Some (Content (HSmart k (Some (o, b))) vp) -> hp_alive s1 o = true).
    { intros x k o b vp Hx. eapply he_alive; [exact Hh|]. eexists _, _, _. exact Hx. }
    destruct Hm as [o Ha|t x c Hb Hx Hh1|t x c Hb Hx Hh1].
    - inversion Hs as [o' Eo Ee|? ? o' Hk _|? ? ? ? ? ? (k & [Hk|Hk])|? ? ? Hk]; subst; try discriminate.
      + pose proof (proj1 (Hob o) eq_refl) as [= ->]. simpl. unfold object_at. simpl. rewrite Ha. reflexivity.
      + destruct Hk as [?|(k & [?|?])]; discriminate.
    - unfold param_object, param_content in Ho, Hc. simpl in Ho, Hc. rewrite Hx in Ho, Hc.
      destruct Hh1; try discriminate; simpl; rewrite (read_ok _ _ _ Hx); unfold object_at; simpl in *;
        inversion Hs as [? Et|? ? o' Hk Ho'|? ? o' c' vp' v' (k' & [Hk|Hk]) Hc' Ht' Hvp Hv|? ? c' Hk Hc']; subst; try discriminate;
        try (destruct Hk as [?|(k' & [?|?])]; discriminate);
        try (rewrite <- Hc in Hc'; injection Hc' as <-).
      + reflexivity.
      + rewrite <- Ho in Ho'. injection Ho' as <-. rewrite (Hal _ _ _ _ _ Hx). reflexivity.
      + simpl in Hvp, Ht'. injection Hvp as <-. injection Ht' as <-. rewrite Hv. reflexivity.
      + simpl in Hvp, Ht'. injection Hvp as <-. injection Ht' as <-. rewrite Hv. reflexivity.
    - unfold param_object, param_content in Ho, Hc. simpl in Ho, Hc. rewrite Hx in Ho, Hc.
      destruct Hh1; try discriminate; simpl; rewrite (read_ok _ _ _ Hx); unfold object_at; simpl in *;
        inversion Hs as [? Et|? ? o' Hk Ho'|? ? o' c' vp' v' (k' & [Hk|Hk]) Hc' Ht' Hvp Hv|? ? c' Hk Hc']; subst; try discriminate;
        try (destruct Hk as [?|(k' & [?|?])]; discriminate);
        try (rewrite <- Hc in Hc'; injection Hc' as <-).
      + reflexivity.
      + rewrite <- Ho in Ho'. injection Ho' as <-. rewrite H. reflexivity.
      + rewrite <- Ho in Ho'. injection Ho' as <-. rewrite (Hal _ _ _ _ _ Hx). reflexivity.
      + simpl in Hvp, Ht'. injection Hvp as <-. injection Ht' as <-. rewrite Hv. reflexivity.
      + simpl in Hvp, Ht'. injection Hvp as <-. injection Ht' as <-. rewrite Hv. reflexivity.
  Qed.

  Lemma arguments_ok s ts es s1 ps l args :
    stage s ts es s1 ps l -> healthy s1 -> Forall3 (shows w objs dyn s) ts es args ->
    arguments w objs dyn ts ps s1 = Ok args.
  Proof.
    intros St Hh H3. unfold arguments. apply mapM_ok. pose proof (st_len _ _ _ _ _ _ St) as Hlen.
    pose proof (Forall3_length_lm _ _ _ _ H3) as L1. pose proof (Forall3_length_lr _ _ _ _ H3) as L2.
    apply Forall2_same_length_lookup_2; [rewrite zip_with_length; lia|].
    intros i [t p] a Hi Ha. apply zip_lookup in Hi as [Ht Hp].
    destruct (Forall3_lookup_l _ _ _ _ _ _ H3 Ht) as (e & a' & He & Ha' & Hs).
    replace a' with a in Hs by congruence. eapply peek_ok; eauto.
  Qed.

  (* ---- the overrider accepts the arguments ---- *)
  Lemma fits ti R s ts es all : forall ots args vp,
    (forall o c, derives ti R (ti (objs o)) (ti c) -> isa o c = true) ->
    Forall3 (shows w objs dyn s) ts es all -> Forall2 (passes cf ti R w) (virtual_args all) args ->
    Forall2 (fun a v => derives ti R a (ti v)) args vp -> overrider_types ts ots vp ->
    suits isa s ts ots es.
  Proof.
    intros ots args vp Hisa H3. revert ots args vp.
    induction H3 as [|t e a ts es all Hs H3 IH]; intros ots args vp Hp Hd [Hlen Hvp].
    - split; [exact Hlen|]. intros; discriminate.
    - destruct ots as [|ot ots]; [discriminate|]. simpl in Hlen. injection Hlen as Hlen.
      cut ((is_virtual_type t = true -> forall o, arg_object s e = Some o -> isa o (ot_class ot) = true) /\
           suits isa s ts ots es).
      { intros [H1 [H2 H4]]. split; [simpl; lia|]. intros [|i] t' ot' e' o Ht Hot He; simpl in *; [|eauto].
        injection Ht as <-. injection Hot as <-. injection He as <-. auto. }
      assert (Hvirt : is_virtual_type t = true -> is_virtual_arg a = true /\
        forall o, arg_object s e = Some o -> a = AObject (objs o) \/ exists v, a = APtr v (objs o)).
      { intros Hv. inversion Hs as [o' Eo Ee|? ? o' Hk Ho'|? ? o' c vp' v' Hk Hc Ht' Hvp' Hv'|? ? ? Hk]; subst.
        - split; [reflexivity|]. intros o [= <-]. auto.
        - split; [reflexivity|]. intros o Ho. left. congruence.
        - split; [reflexivity|]. intros o Ho. right. exists v'. f_equal. f_equal.
          unfold arg_object in Ho. destruct e; [discriminate|..]; rewrite Hc in Ho; simpl in Ho; congruence.
        - congruence. }
      assert (Hnon : is_virtual_type t = false -> is_virtual_arg a = false).
      { intros Hv. inversion Hs as [o' Eo Ee|? ? o' Hk Ho'|? ? o' c vp' v' Hk Hc Ht' Hvp' Hv'|? ? ? Hk]; subst;
          [discriminate|destruct Hk as [->|(k & [->| ->])]; discriminate|destruct Hk as (k & [->| ->]); discriminate|reflexivity]. }
      unfold virtual_args in Hp. rewrite filter_cons in Hp.
      cbn [zip zip_with] in Hvp. rewrite omap_cons in Hvp. cbn [fst snd] in Hvp.
      destruct (is_virtual_type t) eqn:Et.
      + destruct (Hvirt eq_refl) as [Hva Hob]. destruct (decide (is_virtual_arg a = true)); [|congruence].
        subst vp. inversion Hp as [|? k ? args' Hpk Hpa]; subst.
        inversion Hd as [|? v ? vp' Hdv Hda]; subst.
        split; [|eapply IH; [exact Hpa|exact Hda|split; [exact Hlen|reflexivity]]].
        intros _ o Ho. apply Hisa.
        replace (ti (objs o)) with k; [exact Hdv|].
        destruct (Hob o Ho) as [->|(v' & ->)]; inversion Hpk; reflexivity.
      + destruct (decide (is_virtual_arg a = true)) as [Hva|_]; [rewrite Hnon in Hva by reflexivity; discriminate|].
        split; [discriminate|]. eapply IH; eauto. split; [exact Hlen|exact Hvp].
  Qed.

  (* ---- whole calls ---- *)
  Section Whole.
    Context (s : heap) (ts : list ptype) (es : list expression) (args : list arg).
    Hypothesis HA : Forall2 (arg_ok s) ts es.
    Hypothesis HD : apart es.
    Hypothesis HH : healthy s.
    Hypothesis HS : Forall3 (shows w objs dyn s) ts es args.

    Lemma operator_enters mid m ots f :
      call cf w mid m args = Ok (Calls f) -> suits isa s ts (ots f) es ->
      exists ps l s', operator_call cf w objs isa dyn cxx20 mid m ts ots es s = Ok (Enters f ps l s') /\
        entry s ts es s' ps l /\ sole (given_away cxx20) s ts es s' ps.
    Proof.
      intros Hc Hs. pose proof (Forall2_length _ _ _ HA) as Hlen.
      destruct (pass_stage cf w s ts es HA HD HH) as (ps1 & l1 & s1 & E1 & Ev1 & St1 & M1).
      pose proof (ev_healthy _ _ _ _ Ev1) as Hh1.
      destruct (forward_stage cf w s ts es s1 ps1 l1 St1 Hh1 (eq_sym Hlen)) as (ps2 & l2 & s2 & E2 & Ev2 & St2 & M2).
      pose proof (ev_healthy _ _ _ _ Ev2) as Hh2.
      destruct (cast_stage cf w isa cxx20 s ts es s2 ps2 l2 (ots f) St2 Hh2 (eq_sym Hlen) Hs)
        as (ps3 & l3 & s3 & E3 & Ev3 & L3 & Rc & Hpl & Hleft).
      exists ps3, (l1 ++ l2 ++ l3), s3. split.
      { unfold operator_call. rewrite E1. cbn [obind]. rewrite (arguments_ok _ _ _ _ _ _ _ St1 Hh1 HS). cbn [obind].
        rewrite Hc, E2. cbn [obind]. rewrite E3. reflexivity. }
      assert (F1 : forall x, x ∈ l1 -> length (hp_vars s) <= x) by (intros x Hx; apply (ev_locals _ _ _ _ Ev1) in Hx; lia).
      assert (F2 : forall x, x ∈ l2 -> length (hp_vars s) <= x).
      { intros x Hx. apply (ev_locals _ _ _ _ Ev2) in Hx. pose proof (ev_len _ _ _ _ Ev1). lia. }
      pose proof (evolves_inner _ _ _ _ _ _ Ev1 Ev2) as Ev12.
      assert (Ev123 : evolves (moves es) s s3 ((l1 ++ l2) ++ l3)).
      { eapply evolves_mono; [|exact (evolves_trans _ _ _ _ _ _ _ Ev12 Ev3)].
        intros x Hx [Hm|Hl]; [exact Hm|]. apply F2 in Hl. lia. }
      rewrite <- app_assoc in Ev123.
      assert (M3 : forall x, moves es x -> x < length (hp_vars s) -> empty_after (look s3 x)).
      { eapply moved_kept; [exact Ev12|exact Ev3|exact F2|].
        eapply moved_kept; [exact Ev1|exact Ev2|exact F1|]. auto. }
      split; [apply entry_from; assumption|].
      eapply sole_from; eauto. intros x Hx. rewrite (ev_keep _ _ _ _ Ev3); [auto|..].
      - pose proof (ev_len _ _ _ _ Ev2). apply (ev_locals _ _ _ _ Ev1) in Hx as [_ Hx]. apply look_lt in Hx. lia.
      - intros Hx2. apply (ev_locals _ _ _ _ Ev2) in Hx2 as [Hx2 _].
        apply (ev_locals _ _ _ _ Ev1) in Hx as [_ Hx]. apply look_lt in Hx. lia.
    Qed.

    Lemma operator_throws mid m ots e :
      call cf w mid m args = Err e ->
      exists s', operator_call cf w objs isa dyn cxx20 mid m ts ots es s = Ok (Throws e s') /\ over s es s'.
    Proof.
      intros Hc. pose proof (Forall2_length _ _ _ HA) as Hlen.
      destruct (pass_stage cf w s ts es HA HD HH) as (ps1 & l1 & s1 & E1 & Ev1 & St1 & M1).
      pose proof (ev_healthy _ _ _ _ Ev1) as Hh1.
      unfold operator_call. rewrite E1. cbn [obind]. rewrite (arguments_ok _ _ _ _ _ _ _ St1 Hh1 HS). cbn [obind].
      rewrite Hc. destruct (in_stub e).
      - destruct (forward_stage cf w s ts es s1 ps1 l1 St1 Hh1 (eq_sym Hlen)) as (ps2 & l2 & s2 & E2 & Ev2 & St2 & M2).
        rewrite E2. cbn [obind]. pose proof (evolves_inner _ _ _ _ _ _ Ev1 Ev2) as Ev12.
        destruct (leave_returned (l1 ++ l2) s2) as (s3 & E3 & R3).
        + exact (ev_healthy _ _ _ _ Ev2).
        + exact (ev_nodup _ _ _ _ Ev12).
        + intros x Hx. apply (ev_locals _ _ _ _ Ev12 x Hx).
        + rewrite E3. exists s3. split; [reflexivity|]. eapply over_from; [exact Ev12| |exact R3].
          eapply moved_kept; [exact Ev1|exact Ev2| |auto].
          intros x Hx. apply (ev_locals _ _ _ _ Ev1) in Hx. lia.
      - destruct (leave_returned l1 s1) as (s3 & E3 & R3).
        + exact Hh1.
        + exact (ev_nodup _ _ _ _ Ev1).
        + intros x Hx. apply (ev_locals _ _ _ _ Ev1 x Hx).
        + rewrite E3. exists s3. split; [reflexivity|]. eapply over_from; [exact Ev1|auto|exact R3].
    Qed.

    Lemma next_enters mid m loc ots f :
      call_next w mid m loc args = Ok (Calls f) -> suits isa s ts (ots f) es ->
      exists ps l s', next_call cf w objs isa dyn cxx20 mid m loc ts ots es s = Ok (Enters f ps l s') /\
        entry s ts es s' ps l /\ sole (given_away cxx20) s ts es s' ps.
    Proof.
      intros Hc Hs. pose proof (Forall2_length _ _ _ HA) as Hlen.
      destruct (pass_stage cf w s ts es HA HD HH) as (ps1 & l1 & s1 & E1 & Ev1 & St1 & M1).
      pose proof (ev_healthy _ _ _ _ Ev1) as Hh1.
      destruct (cast_stage cf w isa cxx20 s ts es s1 ps1 l1 (ots f) St1 Hh1 (eq_sym Hlen) Hs)
        as (ps3 & l3 & s3 & E3 & Ev3 & L3 & Rc & Hpl & Hleft).
      exists ps3, (l1 ++ l3), s3. split.
      { unfold next_call. rewrite E1. cbn [obind]. rewrite (arguments_ok _ _ _ _ _ _ _ St1 Hh1 HS). cbn [obind].
        rewrite Hc, E3. reflexivity. }
      pose proof (evolves_inner _ _ _ _ _ _ Ev1 Ev3) as Ev13.
      assert (M3 : forall x, moves es x -> x < length (hp_vars s) -> empty_after (look s3 x)).
      { eapply moved_kept; [exact Ev1|exact Ev3| |auto].
        intros x Hx. apply (ev_locals _ _ _ _ Ev1) in Hx. lia. }
      split; [apply entry_from; assumption|].
      eapply (sole_from cxx20 s ts es s1 ps1 l1 s3 ps3 [] l3); eauto.
      intros x Hx. apply elem_of_nil in Hx. contradiction.
    Qed.

    Lemma next_throws mid m loc ots e :
      call_next w mid m loc args = Err e ->
      exists s', next_call cf w objs isa dyn cxx20 mid m loc ts ots es s = Ok (Throws e s') /\ over s es s'.
    Proof.
      intros Hc. destruct (pass_stage cf w s ts es HA HD HH) as (ps1 & l1 & s1 & E1 & Ev1 & St1 & M1).
      pose proof (ev_healthy _ _ _ _ Ev1) as Hh1.
      unfold next_call. rewrite E1. cbn [obind]. rewrite (arguments_ok _ _ _ _ _ _ _ St1 Hh1 HS). cbn [obind].
      rewrite Hc. destruct (leave_returned l1 s1) as (s3 & E3 & R3).
      - exact Hh1.
      - exact (ev_nodup _ _ _ _ Ev1).
      - intros x Hx. apply (ev_locals _ _ _ _ Ev1 x Hx).
      - rewrite E3. exists s3. split; [reflexivity|]. eapply over_from; [exact Ev1|auto|exact R3].
    Qed.
  End Whole.
End Arguments.
