(* The lemmas behind the dispatch properties, in terms of what a call does. *)
From stdpp Require Import base list numbers list_numbers relations.
From Verif Require Import Base Registry Spec ModelClasses ModelMethods ModelSlots ModelTables
  ModelHash ModelWorld ModelCall SpecCall
  ProofBase ProofErrors ProofDispatch ProofInvariance.

Lemma call_behaves cf w mid m all sel f :
  functions_ok m -> resolve cf w m all = Ok f -> selected_fn m sel = Some f ->
  behaves m sel (call cf w mid m all).
Proof.
  intros [Hne Hov] Hr Hs. unfold call. rewrite Hr. simpl.
  destruct sel as [| |i]; simpl in Hs.
  - injection Hs as <-. rewrite decide_True by reflexivity. constructor.
  - injection Hs as <-. rewrite decide_False by congruence. rewrite decide_True by reflexivity.
    constructor.
  - destruct (mr_overriders m !! i) as [o|] eqn:Ho; [|discriminate]. injection Hs as <-.
    destruct (Hov o (elem_of_list_lookup_2 _ _ _ Ho)).
    rewrite !decide_False by assumption. constructor. exact Ho.
Qed.

(* [pointwise]: an overrider that dominates another is at least as specialized in
   every parameter. *)
Lemma comparable_transitive ti R m args :
  acyclic ti R -> arity_ok R -> m ∈ reg_methods R ->
  comparable ti R (mr_overriders m) (candidate ti R (mr_overriders m) args) ->
  transitive_dominance ti R (mr_overriders m) (candidate ti R (mr_overriders m) args).
Proof.
  intros Hac Har Hm Hcmp i j k a b c Ha Hb Hc Ci Cj Ck [S1 N1] [S2 N2].
  destruct (Har m Hm) as [_ Hlen].
  pose proof (Hlen a (elem_of_list_lookup_2 _ _ _ Ha)) as La.
  pose proof (Hlen b (elem_of_list_lookup_2 _ _ _ Hb)) as Lb.
  pose proof (Hlen c (elem_of_list_lookup_2 _ _ _ Hc)) as Lc.
  assert (P : forall i j a b, mr_overriders m !! i = Some a -> mr_overriders m !! j = Some b ->
    candidate ti R (mr_overriders m) args i -> candidate ti R (mr_overriders m) args j ->
    ~ some_more_specialized ti R (or_vp b) (or_vp a) ->
    forall p x y, or_vp a !! p = Some x -> or_vp b !! p = Some y -> derives ti R (ti x) (ti y)).
  { intros i' j' a' b' Ha' Hb' Ci' Cj' Hn p x y Hx Hy.
    destruct (Hcmp i' j' a' b' Ha' Hb' Ci' Cj' p x y Hx Hy) as [D|D]; [exact D|].
    destruct (decide (ti x = ti y)) as [->|Hne]; [constructor|].
    destruct Hn. exists p, y, x. split; [exact Hy|]. split; [exact Hx|]. split; [exact D|congruence]. }
  pose proof (P i j a b Ha Hb Ci Cj N1) as Pab.
  pose proof (P j k b c Hb Hc Cj Ck N2) as Pbc.
  assert (Pac : forall p x z, or_vp a !! p = Some x -> or_vp c !! p = Some z ->
            exists y, or_vp b !! p = Some y /\ derives ti R (ti x) (ti y) /\ derives ti R (ti y) (ti z)).
  { intros p x z Hx Hz. destruct (lookup_lt_is_Some_2 (or_vp b) p) as [y Hy].
    { apply lookup_lt_Some in Hx. lia. }
    exists y. split; [exact Hy|]. split; [eapply Pab; eauto|eapply Pbc; eauto]. }
  split.
  - destruct S1 as (p & x & y & Hx & Hy & D & Ne).
    destruct (lookup_lt_is_Some_2 (or_vp c) p) as [z Hz].
    { apply lookup_lt_Some in Hx. lia. }
    destruct (Pac p x z Hx Hz) as (y' & Hy' & _ & D2). replace y' with y in * by congruence.
    exists p, x, z. split; [exact Hx|]. split; [exact Hz|]. split; [etransitivity; eauto|].
    intros Heq. rewrite <- Heq in D2. apply Ne. eapply derives_antisym; eauto.
  - intros (p & z & x & Hz & Hx & D & Ne).
    destruct (Pac p x z Hx Hz) as (y & Hy & D1 & D2). apply Ne.
    eapply derives_antisym; eauto. etransitivity; eauto.
Qed.

Section Behaviour.
  Context (cf : config) (X : run) (R : registrations) (w : world).
  Notation ti := (e_ti (r_env X)).
  Context (HP : program_ok cf (r_env X) R) (HB : bases_first ti R).

  (* C02, and with it C01. *)
  Theorem call_selects mid m all args :
    initialized_by cf X false R w -> call_ok cf ti R w m all args -> functions_ok m ->
    (length (mr_vp m) = 1 \/ together all) ->
    settled ti R (mr_overriders m) (candidate ti R (mr_overriders m) args) ->
    exists sel, selects ti R (mr_overriders m) args sel /\
      (forall sel', selects ti R (mr_overriders m) args sel' -> sel' = sel) /\
      behaves m sel (call cf w mid m all).
  Proof.
    intros (w0 & rep & Hw & Hinit) [Hm Hvs Hva] Hf Htog Htr.
    destruct (dispatch cf X R w0 w rep HP HB Hw Hinit m all args Hm Hvs Hva)
      as (sel & f & Hr & Hs & _ & _ & Hsel & _); [intros; destruct Htog; [contradiction|assumption]|].
    specialize (Hsel Htr). exists sel. split; [exact Hsel|]. split.
    - intros sel' H. eapply selects_from_unique; eauto.
    - eapply call_behaves; eauto.
  Qed.

  Theorem call_selects_uni mid m all args :
    initialized_by cf X false R w -> call_ok cf ti R w m all args -> functions_ok m ->
    length (mr_vp m) = 1 ->
    exists sel, selects ti R (mr_overriders m) args sel /\
      (forall sel', selects ti R (mr_overriders m) args sel' -> sel' = sel) /\
      behaves m sel (call cf w mid m all).
  Proof.
    intros Hi Hc Hf H1. eapply call_selects; eauto. destruct HP.
    apply candidates_settled, uni_transitive; try assumption. apply Hc.
  Qed.

  Theorem call_selects_comparable mid m all args :
    initialized_by cf X false R w -> call_ok cf ti R w m all args -> functions_ok m ->
    together all ->
    comparable ti R (mr_overriders m) (candidate ti R (mr_overriders m) args) ->
    exists sel, selects ti R (mr_overriders m) args sel /\
      (forall sel', selects ti R (mr_overriders m) args sel' -> sel' = sel) /\
      behaves m sel (call cf w mid m all).
  Proof.
    intros Hi Hc Hf H1 Hcmp. eapply call_selects; eauto. destruct HP.
    apply candidates_settled, comparable_transitive; try assumption. apply Hc.
  Qed.

  (* An overrider that dominates all the other applicable ones is always called. *)
  Theorem call_best mid m all args i o :
    initialized_by cf X false R w -> call_ok cf ti R w m all args -> functions_ok m ->
    (length (mr_vp m) = 1 \/ together all) ->
    mr_overriders m !! i = Some o -> applicable ti R args o ->
    (forall j o', mr_overriders m !! j = Some o' -> j <> i -> applicable ti R args o' ->
       dominates ti R o o') ->
    call cf w mid m all = Ok (Calls (or_pf o)).
  Proof.
    intros (w0 & rep & Hw & Hinit) [Hm Hvs Hva] Hf Htog Ho Ha Hbest.
    destruct (dispatch cf X R w0 w rep HP HB Hw Hinit m all args Hm Hvs Hva)
      as (sel & f & Hr & Hs & _ & _ & _ & Htop); [intros; destruct Htog; [contradiction|assumption]|].
    pose proof (call_behaves cf w mid m all sel f Hf Hr Hs) as Hb.
    rewrite (Htop i o Ho) in Hb.
    - inversion Hb as [| |i' o' Ho' Hi' Hres]; subst. rewrite Ho in Ho'. injection Ho' as <-. reflexivity.
    - exists o. auto.
    - intros j oj Hoj (oj' & Hoj' & Haj) Hne.
      replace oj' with oj in * by congruence. eapply Hbest; eauto.
  Qed.

  Theorem call_no_overrider mid m all args :
    initialized_by cf X false R w -> call_ok cf ti R w m all args -> functions_ok m ->
    (length (mr_vp m) = 1 \/ together all) ->
    (exists id n ts, call cf w mid m all = Err (ENoOverrider id n ts)) <->
    forall o, o ∈ mr_overriders m -> ~ applicable ti R args o.
  Proof.
    intros (w0 & rep & Hw & Hinit) [Hm Hvs Hva] Hf Htog.
    destruct (dispatch cf X R w0 w rep HP HB Hw Hinit m all args Hm Hvs Hva)
      as (sel & f & Hr & Hs & Hno & _); [intros; destruct Htog; [contradiction|assumption]|].
    pose proof (call_behaves cf w mid m all sel f Hf Hr Hs) as Hb.
    transitivity (sel = SNone).
    - split.
      + intros (id & n & ts & H). rewrite H in Hb. inversion Hb. reflexivity.
      + intros ->. inversion Hb. eauto.
    - rewrite Hno. split.
      + intros H o Ho Ha. apply elem_of_list_lookup in Ho as [i Hi]. apply (H i). exists o. auto.
      + intros H i (o & Ho & Ha). apply (H o); [|exact Ha]. eapply elem_of_list_lookup_2; eauto.
  Qed.

  (* With or without n2216. *)
  Theorem call_applicable n2216 mid m all args :
    initialized_by cf X n2216 R w -> call_ok cf ti R w m all args -> functions_ok m ->
    (length (mr_vp m) = 1 \/ together all) ->
    (exists id n ts, call cf w mid m all = Err (ENoOverrider id n ts)) \/
    (exists id n ts, call cf w mid m all = Err (EAmbiguousCall id n ts)) \/
    (exists o, o ∈ mr_overriders m /\ applicable ti R args o /\
       call cf w mid m all = Ok (Calls (or_pf o))).
  Proof.
    intros (w0 & rep & Hw & Hinit) [Hm Hvs Hva] Hf Htog.
    destruct (dispatch_any cf X R w0 w rep n2216 HP HB Hw Hinit m all args Hm Hvs Hva)
      as (sel & f & Hr & Hs & Hc); [intros; destruct Htog; [contradiction|assumption]|].
    pose proof (call_behaves cf w mid m all sel f Hf Hr Hs) as Hb.
    inversion Hb as [? ? ? Hi|? ? ? Hi|i o Ho Hi]; subst; [left; eauto|right; left; eauto|].
    right. right. destruct (Hc i eq_refl) as (o' & Ho' & Ha).
    replace o' with o in * by congruence. exists o. split; [|auto].
    eapply elem_of_list_lookup_2; eauto.
  Qed.
End Behaviour.

(* ---- C05, C06 ---- *)
Theorem overrider_order cf X R R' w w' m m' all all' args :
  program_ok cf (r_env X) R -> bases_first (e_ti (r_env X)) R ->
  program_ok cf (r_env X) R' -> reg_classes R' = reg_classes R ->
  initialized_by cf X false R w -> initialized_by cf X false R' w' ->
  call_ok cf (e_ti (r_env X)) R w m all args ->
  m' ∈ reg_methods R' -> Forall2 (passes cf (e_ti (r_env X)) R' w') (virtual_args all') args ->
  same_method m m' -> (length (mr_vp m) = 1 \/ (together all /\ together all')) ->
  settled (e_ti (r_env X)) R (mr_overriders m)
    (candidate (e_ti (r_env X)) R (mr_overriders m) args) ->
  exists f, resolve cf w m all = Ok f /\ resolve cf w' m' all' = Ok f.
Proof.
  intros HP HB HP' Hcls (w0 & rep & Hw & Hinit) (w0' & rep' & Hw' & Hinit') [Hm Hvs Hva] Hm' Hvs' Hsame Htog Htr.
  destruct R as [cs ms], R' as [cs' ms']. simpl in Hcls. subst cs'.
  assert (Htog' : length (mr_vp m) <> 1 -> together all /\ together all')
    by (intros; destruct Htog; [contradiction|assumption]).
  assert (Hvp : mr_vp m' = mr_vp m) by apply Hsame.
  assert (He : resolve cf w m all = resolve cf w' m' all').
  { apply (dispatch_invariant cf cf X X _ _ w0 w0' w w' rep rep' eq_refl HP HP' HB HB
      Hw Hw' Hinit Hinit') with (args := args); try assumption.
    - intros a b. reflexivity.
    - unfold valid_args in *. rewrite Hvp. exact Hva. }
  destruct (dispatch cf X _ w0 w rep HP HB Hw Hinit m all args Hm Hvs Hva (fun H => proj1 (Htog' H)))
    as (s & f & Hr & _). exists f. rewrite <- He. auto.
Qed.

Theorem class_order cf X R R' w w' m all all' args :
  program_ok cf (r_env X) R -> bases_first (e_ti (r_env X)) R ->
  program_ok cf (r_env X) R' -> bases_first (e_ti (r_env X)) R' ->
  (forall c, registered (e_ti (r_env X)) R c <-> registered (e_ti (r_env X)) R' c) ->
  (forall c b, derives (e_ti (r_env X)) R c b <-> derives (e_ti (r_env X)) R' c b) ->
  initialized_by cf X false R w -> initialized_by cf X false R' w' ->
  call_ok cf (e_ti (r_env X)) R w m all args ->
  m ∈ reg_methods R' -> Forall2 (passes cf (e_ti (r_env X)) R' w') (virtual_args all') args ->
  (length (mr_vp m) = 1 \/ (together all /\ together all')) ->
  settled (e_ti (r_env X)) R (mr_overriders m)
    (candidate (e_ti (r_env X)) R (mr_overriders m) args) ->
  exists f, resolve cf w m all = Ok f /\ resolve cf w' m all' = Ok f.
Proof.
  intros HP HB HP' HB' Hreg Hder (w0 & rep & Hw & Hinit) (w0' & rep' & Hw' & Hinit') [Hm Hvs Hva] Hm' Hvs' Htog Htr.
  assert (Htog' : length (mr_vp m) <> 1 -> together all /\ together all')
    by (intros; destruct Htog; [contradiction|assumption]).
  assert (He : resolve cf w m all = resolve cf w' m all').
  { apply (dispatch_invariant cf cf X X R R' w0 w0' w w' rep rep' eq_refl HP HP' HB HB'
      Hw Hw' Hinit Hinit') with (args := args); try assumption.
    - repeat split; reflexivity.
    - unfold valid_args in *. eapply Forall2_impl; [exact Hva|]. intros a v [H1 H2].
      split; [apply Hreg; exact H1|apply Hder; exact H2]. }
  destruct (dispatch cf X R w0 w rep HP HB Hw Hinit m all args Hm Hvs Hva (fun H => proj1 (Htog' H)))
    as (s & f & Hr & _). exists f. rewrite <- He. auto.
Qed.

(* ---- C11: non-virtual arguments before and after the virtual ones ---- *)
Lemma non_virtual_filter l : non_virtual l -> virtual_args l = [].
Proof.
  unfold non_virtual, virtual_args. induction 1 as [|a l Ha _ IH]; [reflexivity|].
  rewrite filter_cons, Ha. exact IH.
Qed.

Lemma resolve_uni_skip cf w ss pre l :
  non_virtual pre -> resolve_uni cf w ss (pre ++ l) = resolve_uni cf w ss l.
Proof. induction 1 as [|a pre Ha _ IH]; [reflexivity|]. simpl. rewrite Ha. exact IH. Qed.

Lemma resolve_first_skip cf w ss n pre l :
  non_virtual pre -> resolve_multi_first cf w ss n (pre ++ l) = resolve_multi_first cf w ss n l.
Proof. induction 1 as [|a pre Ha _ IH]; [reflexivity|]. simpl. rewrite Ha. exact IH. Qed.

Lemma resolve_uni_tail cf w ss a l l' :
  is_virtual_arg a = true -> resolve_uni cf w ss (a :: l) = resolve_uni cf w ss (a :: l').
Proof. intros Ha. simpl. rewrite Ha. reflexivity. Qed.

Lemma resolve_next_tail cf w ss n va d l post :
  va < n -> n - va <= length l ->
  resolve_multi_next cf w ss n va d (l ++ post) = resolve_multi_next cf w ss n va d l.
Proof.
  revert va d. induction l as [|a l IH]; intros va d Hva Hl; simpl in *; [lia|].
  apply obind_ext. intros d'. destruct (decide (va + 1 = n)); [reflexivity|]. apply IH; lia.
Qed.

Lemma virtual_all all a : a ∈ virtual_args all -> is_virtual_arg a = true.
Proof. unfold virtual_args. rewrite elem_of_list_filter. tauto. Qed.

(* One virtual argument: anything may stand around it. *)
Theorem resolve_virtual_uni cf w m all :
  length (mr_vp m) = 1 -> virtual_args all <> [] ->
  resolve cf w m all = resolve cf w m (virtual_args all).
Proof.
  intros H1 Hne. unfold resolve. rewrite H1. rewrite !decide_True by reflexivity.
  apply obind_ext. intros _. f_equal. clear H1.
  induction all as [|a all IH]; [contradiction|]. unfold virtual_args in *.
  rewrite filter_cons in *. destruct (is_virtual_arg a) eqn:Ha.
  - rewrite decide_True in * by reflexivity. apply resolve_uni_tail. exact Ha.
  - rewrite decide_False in * by discriminate. simpl. rewrite Ha. apply IH. exact Hne.
Qed.

Theorem resolve_virtual_multi cf w m all :
  length (mr_vp m) = length (virtual_args all) -> 1 < length (mr_vp m) -> together all ->
  resolve cf w m all = resolve cf w m (virtual_args all).
Proof.
  intros Hlen H1 (pre & post & Hall & Hpre & Hpost). unfold resolve.
  rewrite !decide_False by lia. apply obind_ext. intros _. f_equal.
  rewrite Hall at 1. rewrite resolve_first_skip by exact Hpre.
  rewrite Hlen in *. pose proof (virtual_all all) as Hv.
  destruct (virtual_args all) as [|a l]; [simpl in H1; lia|]. simpl in *.
  rewrite (Hv a) by set_solver. do 4 (apply obind_ext; intros ?).
  apply resolve_next_tail; lia.
Qed.
