(* Proofs about virtual_ptr. *)
From stdpp Require Import base list numbers.
From Verif Require Import Base Registry Spec ModelClasses ModelHash ModelWorld ModelCall SpecCall
  ModelLife ModelVirtualPtr SpecVirtualPtr ProofBase ProofVptr ProofBehaviour ProofLife.

Lemma after_ok {A} s (x : outcome A) k s' o :
  after s x k = (s', o) -> (exists a, x = Ok a /\ k a = (s', o)) \/ (s' = s /\ o <> Ok tt).
Proof.
  destruct x as [a|e| |]; simpl; intros H; [left; eauto| | |]; right; injection H as <- <-;
    split; (reflexivity || discriminate).
Qed.

Section State.
  Context (cf : config) (ti : N -> N) (R : registrations) (w : world) (objs : nat -> object).

  (* [G obj b]: the members of a virtual_ptr agree. *)
  Context (G : option nat -> box -> Prop).

  Definition all_vars (s : vstate) : Prop :=
    forall x obj b, vs_vars s x = VVar obj b -> G obj b.

  Lemma all_set_var s d obj b : all_vars s -> G obj b -> all_vars (set_var d (VVar obj b) s).
  Proof.
    intros Hs Hg x obj' b'. unfold set_var. simpl. destruct (decide (x = d)) as [->|Hne].
    - rewrite upd_eq. intros [= <- <-]. exact Hg.
    - rewrite upd_ne by exact Hne. apply Hs.
  Qed.

  Lemma all_set_sptr s q p : all_vars s -> all_vars (set_sptr q p s).
  Proof. intros Hs x obj b. apply Hs. Qed.

  Lemma all_uninit s d : all_vars s -> all_vars (set_var d VUninit s).
  Proof.
    intros Hs x obj' b'. unfold set_var. simpl. destruct (decide (x = d)) as [->|Hne].
    - rewrite upd_eq. discriminate.
    - rewrite upd_ne by exact Hne. apply Hs.
  Qed.

  Lemma all_read s x obj b : all_vars s -> read_var s x = Ok (obj, b) -> G obj b.
  Proof.
    unfold read_var. intros Hs H. destruct (vs_vars s x) as [|obj' b'] eqn:E; [discriminate|].
    injection H as -> ->. apply (Hs x). exact E.
  Qed.

  (* What one operation needs in order to preserve [all_vars]. *)
  Context (Gnull : G None (box_vptr cf w FromNull)).

  Lemma set_over s d p0 obj b : all_vars s -> G obj b ->
    all_vars (set_var d (VVar obj b) (set_obj d p0 s)).
  Proof.
    intros Hs Hg x obj' b'. unfold set_var. simpl. destruct (decide (x = d)) as [->|Hne].
    - rewrite upd_eq. intros [= <- <-]. exact Hg.
    - rewrite upd_ne by exact Hne. unfold set_obj. destruct (vs_vars s d) eqn:E; [apply Hs|].
      unfold set_var. simpl. rewrite upd_ne by exact Hne. apply Hs.
  Qed.

  Lemma vstep_all op s s' o :
    (forall via o' x, reads_inplace op = via -> o' ∈ looks_up s op ->
       acquire cf w via (objs o') = Ok x -> G (Some o') (box_vptr cf w x)) ->
    (reads_inplace op = true -> G None (box_vptr cf w (FromTemp VNull))) ->
    (forall d p t loc poly, op = Final d p t loc poly -> o = Ok tt ->
       G p (box_vptr cf w (FromRef (RStatic loc)))) ->
    (casts_away op = true -> forall ob b, G ob b -> G None b) ->
    (assigns_lvalue op = true -> o = Ok tt) ->
    vstep cf w objs op s = (s', o) -> all_vars s -> all_vars s'.
  Proof.
    intros Hacq Htemp Hfin Hcast Hthrow H Hs.
    destruct op; simpl in H; unfold construct in H; simpl in *;
      try (injection H as <- <-; first [apply all_uninit; exact Hs | apply all_set_sptr; exact Hs
             | apply all_set_var; [exact Hs|exact Gnull]]);
      try (apply after_ok in H as [([obj vp] & Hr & H)|[-> _]]; [|exact Hs];
           injection H as <- <-; apply all_set_var; [exact Hs|exact (all_read _ _ _ _ Hs Hr)]).
    - (* PlainFromRef *)
      apply after_ok in H as [(x & Hx & H)|[-> _]]; [|exact Hs]. injection H as <- <-.
      apply all_set_var; [exact Hs|]. eapply Hacq; [reflexivity|left|exact Hx].
    - (* PlainFromPtr *)
      apply after_ok in H as [(x & Hx & H)|[-> _]]; [|exact Hs]. injection H as <- <-.
      apply obind_ok in Hx as (o' & Hd & Hx). apply deref_ok in Hd as ->.
      apply all_set_var; [exact Hs|]. eapply Hacq; [reflexivity|left|exact Hx].
    - (* PlainAssignRef *)
      apply after_ok in H as [(x & Hx & H)|[_ Hne]]; [|destruct (Hne (Hthrow eq_refl))].
      injection H as <- <-. apply set_over; [exact Hs|]. eapply Hacq; [reflexivity|left|exact Hx].
    - (* PlainAssignPtr *)
      apply after_ok in H as [(x & Hx & H)|[_ Hne]]; [|destruct (Hne (Hthrow eq_refl))].
      injection H as <- <-. apply obind_ok in Hx as (o' & Hd & Hx). apply deref_ok in Hd as ->.
      apply set_over; [exact Hs|]. eapply Hacq; [reflexivity|left|exact Hx].
    - (* PlainCast *)
      apply after_ok in H as [([obj vp] & Hr & H)|[-> _]]; [|exact Hs]. injection H as <- <-.
      apply obind_ok in Hr as ([obj0 vp0] & Hr & Hc). apply obind_ok in Hc as (obj1 & Hc & Heq).
      injection Heq as <- <-. apply all_set_var; [exact Hs|].
      pose proof (all_read _ _ _ _ Hs Hr) as Hg. destruct obj0, fits; try discriminate.
      injection Hc as <-. exact Hg.
    - (* SmartMove *)
      destruct (decide (d = s0)) as [->|Hne]; [injection H as <- <-; exact Hs|].
      apply after_ok in H as [([obj vp] & Hr & H)|[-> _]]; [|exact Hs]. injection H as <- <-.
      apply all_set_var; [apply all_set_var; [exact Hs|exact Gnull]|].
      exact (all_read _ _ _ _ Hs Hr).
    - (* SmartFrom *)
      apply after_ok in H as [(x & Hx & H)|[-> _]]; [|exact Hs]. injection H as <- <-.
      apply all_set_var; [exact Hs|]. unfold acquire_or_null in Hx.
      destruct (vs_sptrs s q) as [o'|] eqn:Hq.
      + eapply Hacq; [reflexivity|left|exact Hx].
      + destruct via; injection Hx as <-; [exact (Htemp eq_refl)|exact Gnull].
    - (* SmartFromMove *)
      apply after_ok in H as [(x & Hx & H)|[-> _]]; [|exact Hs]. injection H as <- <-.
      apply all_set_sptr, all_set_var; [exact Hs|]. unfold acquire_or_null in Hx.
      destruct (vs_sptrs s q) as [o'|] eqn:Hq.
      + eapply Hacq; [reflexivity|left|exact Hx].
      + destruct via; injection Hx as <-; [exact (Htemp eq_refl)|exact Gnull].
    - (* SmartAssignFrom *)
      apply after_ok in H as [(x & Hx & H)|[_ Hne]]; [|destruct (Hne (Hthrow eq_refl))].
      injection H as <- <-. apply obind_ok in Hx as (o' & Hd & Hx). apply deref_ok in Hd.
      rewrite Hd in *. apply set_over; [exact Hs|]. eapply Hacq; [reflexivity|left|exact Hx].
    - (* SmartAssignFromMove *)
      apply after_ok in H as [(x & Hx & H)|[-> _]]; [|exact Hs]. injection H as <- <-.
      apply all_set_sptr, all_set_var; [exact Hs|]. unfold acquire_or_null in Hx.
      destruct (vs_sptrs s q) as [o'|] eqn:Hq.
      + eapply Hacq; [reflexivity|left|exact Hx].
      + destruct via; injection Hx as <-; [exact (Htemp eq_refl)|exact Gnull].
    - (* SmartAssignMove *)
      apply after_ok in H as [([obj vp] & Hr & H)|[-> _]]; [|exact Hs].
      destruct (decide (d = s0)) as [->|Hne]; injection H as <- <-; [exact Hs|].
      apply all_set_var; [apply all_set_var; [exact Hs|exact Gnull]|].
      exact (all_read _ _ _ _ Hs Hr).
    - (* SmartCast *)
      apply after_ok in H as [([obj vp] & Hr & H)|[-> _]]; [|exact Hs]. injection H as <- <-.
      apply obind_ok in Hr as ([obj0 vp0] & Hr & Hc). apply obind_ok in Hc as (obj1 & Hc & Heq).
      injection Heq as <- <-. apply all_set_var; [exact Hs|].
      pose proof (all_read _ _ _ _ Hs Hr) as Hg.
      destruct obj0, k, fits; try discriminate; injection Hc as <-; try exact Hg.
      exact (Hcast eq_refl _ _ Hg).
    - (* SmartCastMove *)
      destruct (decide (d = s0)) as [->|Hne]; [injection H as <- <-; exact Hs|].
      apply after_ok in H as [([[obj obj'] vp] & Hr & H)|[-> _]]; [|exact Hs]. injection H as <- <-.
      apply obind_ok in Hr as ([obj0 vp0] & Hr & Hc). apply obind_ok in Hc as (obj1 & Hc & Heq).
      injection Heq as <- <- <-.
      pose proof (all_read _ _ _ _ Hs Hr) as Hg. pose proof (Hcast eq_refl _ _ Hg) as Hn.
      assert (H0 : G obj1 vp0).
      { destruct obj0, k, fits; try discriminate; injection Hc as <-; assumption. }
      apply all_set_var; [apply all_set_var; [exact Hs|]|exact H0].
      destruct (moves && bool_decide (obj1 <> None)); [exact Hn|exact Hg].
    - (* Final *)
      apply after_ok in H as [(x & Hx & H)|[-> _]]; [|exact Hs]. injection H as <- <-.
      apply all_set_var; [exact Hs|]. exact (Hfin _ _ _ _ _ eq_refl eq_refl).
  Qed.
End State.

(* ---- one initialized state ---- *)
Section Fixed.
  Context (cf : config) (X : run) (n2216 : bool) (R : registrations) (w : world)
    (objs : nat -> object).
  Notation ti := (e_ti (r_env X)).
  Context (HP : program_ok cf (r_env X) R) (HW : initialized_by cf X n2216 R w)
    (HO : inplace_ok ti R w objs).

  Lemma acquire_known via o x :
    (via = true -> cf_indirect cf = false) ->
    known R (ob_type (objs o)) -> acquire cf w via (objs o) = Ok x ->
    exists v, unbox_vptr w (box_vptr cf w x) = Ok v /\ vptr_of ti R w (ti (ob_type (objs o))) v.
  Proof.
    intros Hv Hk H. unfold acquire in H. apply obind_ok in H as ([] & Hreq & H).
    destruct via.
    - apply obind_ok in H as (b & Hb & H). apply deref_ok in Hb.
      apply obind_ok in H as (v & Hu & H). injection H as <-.
      destruct (HO o b Hk Hb) as (v' & Hu' & Hr). rewrite Hu in Hu'. injection Hu' as <-.
      exists v. unfold box_vptr. rewrite (Hv eq_refl). split; [reflexivity|exact Hr].
    - apply obind_ok in H as (r & Hr & H). injection H as <-.
      unfold known in Hk. apply elem_of_list_fmap in Hk as (cr & Ht & Hcr).
      assert (Hne : cf_vptr cf <> VptrNone).
      { intros E. unfold dynamic_vptr in Hr. rewrite E in Hr. discriminate. }
      destruct (acquire_registered cf X n2216 R w HP HW cr Hne Hcr) as (first & r' & Hf & Ha & Hv' & Hi).
      rewrite Ht in *. unfold acquire_vptr in Ha. rewrite Hreq in Ha. simpl in Ha.
      rewrite Hr in Ha. injection Ha as ->.
      exists (w_static w (cr_static_vptr first)).
      split; [|exists first; split; [exact Hf|reflexivity]].
      unfold box_vptr. destruct (cf_indirect cf); [|rewrite Hv'; reflexivity].
      rewrite (Hi eq_refl). reflexivity.
  Qed.

  Lemma box_static loc : unbox_vptr w (box_vptr cf w (FromRef (RStatic loc))) = Ok (w_static w loc).
  Proof. unfold box_vptr. destruct (cf_indirect cf); reflexivity. Qed.

  Lemma box_null : unbox_vptr w (box_vptr cf w FromNull) = Ok VNull.
  Proof. unfold box_vptr. destruct (cf_indirect cf); reflexivity. Qed.

  Lemma final_same_type d p t loc poly s s' o :
    vstep cf w objs (Final d p t loc poly) s = (s', Ok tt) -> cf_checks cf && poly = true ->
    p = Some o -> ob_type (objs o) = t.
  Proof.
    intros H Hc ->. simpl in H. rewrite Hc in H. simpl in H.
    destruct (require_initialized cf w); simpl in H; try discriminate.
    case_decide as Hd; [exact Hd|discriminate].
  Qed.

  Definition right_var (obj : option nat) (b : box) : Prop :=
    forall o, obj = Some o -> known R (ob_type (objs o)) ->
      exists v, unbox_vptr w b = Ok v /\ vptr_of ti R w (ti (ob_type (objs o))) v.

  Lemma reaches_right P s : reaches cf ti R w objs P s -> all_vars right_var s.
  Proof.
    induction 1 as [s Hs|s op s' o _ IH _ Hstep [Hends Hfin Hinp Hthr]].
    - intros x obj b E. rewrite Hs in E. discriminate.
    - revert IH. apply (vstep_all cf w objs right_var) with (op := op) (o := o).
      + intros o0 Heq. discriminate.
      + intros via o' x <- Hin Ha o0 [= <-] Hk. apply (acquire_known _ _ _ Hinp Hk Ha).
      + intros _ o0 [=].
      + intros d p t loc poly -> -> o0 -> Hk. destruct Hfin as [(cr & Hf & Hl) Hn].
        exists (w_static w loc). split; [apply box_static|]. exists cr.
        split; [|rewrite Hl; reflexivity].
        destruct (cf_checks cf && poly) eqn:Hc.
        * rewrite (final_same_type _ _ _ _ _ _ _ _ Hstep Hc eq_refl). exact Hf.
        * rewrite (Hn eq_refl o0 eq_refl). exact Hf.
      + intros _ ob b Hg o0 [=].
      + exact Hthr.
      + exact Hstep.
  Qed.

  (* C21 *)
  Lemma virtual_ptr_right P s x o b :
    reaches cf ti R w objs P s -> vs_vars s x = VVar (Some o) b ->
    known R (ob_type (objs o)) ->
    exists v, var_arg w objs s x = Ok (APtr v (ob_type (objs o))) /\
      passes cf ti R w (APtr v (ob_type (objs o))) (ti (ob_type (objs o))).
  Proof.
    intros Hs Hx Hk. destruct (reaches_right P s Hs x _ _ Hx o eq_refl Hk) as (v & Hu & cr & Hf & Hv).
    exists v. split.
    - unfold var_arg, read_var. rewrite Hx. simpl. rewrite Hu. reflexivity.
    - apply passes_ptr with cr; assumption.
  Qed.

  Definition null_var (obj : option nat) (b : box) : Prop :=
    obj = None -> unbox_vptr w b = Ok VNull.

  Lemma virtual_ptr_null s x b :
    reaches cf ti R w objs (fun op => casts_away op = false) s -> vs_vars s x = VVar None b ->
    unbox_vptr w b = Ok VNull.
  Proof.
    intros Hs Hx. enough (G : all_vars null_var s) by (exact (G x _ _ Hx eq_refl)).
    clear x b Hx. induction Hs as [s Hs|s op s' o _ IH Hp Hstep [Hends Hfin Hinp Hthr]].
    - intros x obj b E. rewrite Hs in E. discriminate.
    - revert IH. apply (vstep_all cf w objs null_var) with (op := op) (o := o).
      + intros _. apply box_null.
      + discriminate.
      + intros Hv _. unfold box_vptr. rewrite (Hinp Hv). reflexivity.
      + intros d [o'|] t loc poly -> _; discriminate.
      + rewrite Hp. discriminate.
      + exact Hthr.
      + exact Hstep.
  Qed.
End Fixed.

(* ---- C21: a call through virtual_ptrs is a call on the objects ---- *)
Definition same_target (cf : config) (w : world) (a b : arg) : Prop :=
  is_virtual_arg a = is_virtual_arg b /\ arg_type a = arg_type b /\ arg_vptr cf w a = arg_vptr cf w b.

Section Same.
  Context (cf : config) (w : world).

  Lemma same_uni ss l1 l2 : Forall2 (same_target cf w) l1 l2 ->
    resolve_uni cf w ss l1 = resolve_uni cf w ss l2.
  Proof.
    induction 1 as [|a b l1 l2 (Hv & _ & Hp) _ IH]; [reflexivity|]. simpl. rewrite Hv, Hp, IH. reflexivity.
  Qed.

  Lemma same_multi_next ss arity l1 l2 : Forall2 (same_target cf w) l1 l2 -> forall va dispatch,
    resolve_multi_next cf w ss arity va dispatch l1 = resolve_multi_next cf w ss arity va dispatch l2.
  Proof.
    induction 1 as [|a b l1 l2 (Hv & _ & Hp) _ IH]; intros va dispatch; [reflexivity|].
    simpl. rewrite Hv, Hp. apply obind_ext. intros x. case_decide; [reflexivity|apply IH].
  Qed.

  Lemma same_multi_first ss arity l1 l2 : Forall2 (same_target cf w) l1 l2 ->
    resolve_multi_first cf w ss arity l1 = resolve_multi_first cf w ss arity l2.
  Proof.
    induction 1 as [|a b l1 l2 (Hv & _ & Hp) Hl IH]; [reflexivity|].
    simpl. rewrite Hv, Hp, IH. destruct (is_virtual_arg b); [|reflexivity].
    repeat (apply obind_ext; intros). apply same_multi_next. exact Hl.
  Qed.

  Lemma same_resolve m l1 l2 : Forall2 (same_target cf w) l1 l2 ->
    resolve cf w m l1 = resolve cf w m l2.
  Proof.
    intros H. unfold resolve. rewrite (same_uni _ _ _ H), (same_multi_first _ _ _ _ H). reflexivity.
  Qed.

  Lemma same_types l1 l2 : Forall2 (same_target cf w) l1 l2 -> forall i ts,
    init_bad_call i l1 ts = init_bad_call i l2 ts.
  Proof.
    induction 1 as [|a b l1 l2 (_ & Ht & _) _ IH]; intros i ts; [reflexivity|].
    simpl. rewrite Ht. apply IH.
  Qed.

  Lemma same_call mid m l1 l2 : Forall2 (same_target cf w) l1 l2 ->
    call cf w mid m l1 = call cf w mid m l2.
  Proof.
    intros H. unfold call, bad_call_types, bad_call_arity.
    rewrite (same_resolve _ _ _ H), (same_types _ _ H), (Forall2_length _ _ _ H). reflexivity.
  Qed.
End Same.

Lemma call_through cf X n2216 R w mid m args objects :
  program_ok cf (r_env X) R -> initialized_by cf X n2216 R w -> cf_vptr cf <> VptrNone ->
  Forall2 (through cf (e_ti (r_env X)) R w) args objects ->
  call cf w mid m args = call cf w mid m objects.
Proof.
  intros HP HW Hne H. apply same_call. eapply Forall2_impl; [exact H|].
  intros a b [a'|v t Hk Hpass]; [repeat split|]. repeat split. simpl.
  unfold known in Hk. apply elem_of_list_fmap in Hk as (cr & -> & Hcr).
  destruct (acquire_registered cf X n2216 R w HP HW cr Hne Hcr) as (first & r & Hf & Ha & Hv & _).
  rewrite Ha. simpl. rewrite Hv. inversion Hpass as [|v' t' cr' Hf' Hv']; subst.
  rewrite Hf in Hf'. injection Hf' as <-. reflexivity.
Qed.


(* ---- C22: null smart pointers ---- *)
Lemma set_var_eq s d v : vs_vars (set_var d v s) d = v.
Proof. apply upd_eq. Qed.

Lemma set_var_ne s d v x : x <> d -> vs_vars (set_var d v s) x = vs_vars s x.
Proof. apply upd_ne. Qed.

Lemma stores_null cf w objs s op d :
  stores s op d None -> assigns_lvalue op = false ->
  (reads_inplace op = true -> cf_indirect cf = false) ->
  exists s', vstep cf w objs op s = (s', Ok tt) /\ is_null w s' d.
Proof.
  intros Hst Hno Hvia.
  assert (Ht : reads_inplace op = true -> unbox_vptr w (box_vptr cf w (FromTemp VNull)) = Ok VNull).
  { intros Hv. unfold box_vptr. rewrite (Hvia Hv). reflexivity. }
  destruct op; simpl in Hst; try contradiction; destruct Hst as [-> Hq]; try discriminate;
    simpl; unfold construct, acquire_or_null; simpl; rewrite <- ?Hq; simpl in *;
    eexists; (split; [reflexivity|]); eexists; (split; [apply set_var_eq|]); try apply box_null;
    destruct via; auto; apply box_null.
Qed.

Lemma moved_from cf w objs s op d x obj b :
  moves_to op d x -> vs_vars s x = VVar obj b ->
  exists s', vstep cf w objs op s = (s', Ok tt) /\ vs_vars s' d = VVar obj b /\ is_null w s' x.
Proof.
  intros [Hop Hne] Hx.
  assert (Hs : vstep cf w objs op s = (set_var d (VVar obj b)
             (set_var x (VVar None (box_vptr cf w FromNull)) s), Ok tt)).
  { destruct Hop as [-> | ->]; simpl; unfold read_var; rewrite Hx; simpl;
      destruct (decide (d = x)); (contradiction || reflexivity). }
  eexists. split; [exact Hs|]. split; [apply set_var_eq|].
  exists (box_vptr cf w FromNull). split; [|apply box_null].
  rewrite set_var_ne by congruence. apply set_var_eq.
Qed.

Lemma lvalue_null cf w objs s d q via :
  vs_sptrs s q = None -> snd (vstep cf w objs (SmartAssignFrom d q via) s) = Undef.
Proof. intros H. simpl. rewrite H. reflexivity. Qed.

(* ---- C23: re-initialization ---- *)
Section Life.
  Context (cf : config) (ti : N -> N) (addr : N -> nat) (objs : nat -> object).

  Definition indirect_var (obj : option nat) (b : box) : Prop :=
    forall o, obj = Some o -> b = BRef (RStatic (addr (ti (ob_type (objs o))))).

  Lemma first_in R k cr : first_record ti R k = Some cr -> cr ∈ reg_classes R /\ ti (cr_type cr) = k.
  Proof.
    unfold first_record. intros H.
    assert (Hin : cr ∈ filter (fun cr => ti (cr_type cr) = k) (reg_classes R)).
    { destruct (filter _ _); [discriminate|]. injection H as ->. left. }
    apply elem_of_list_filter in Hin as [? ?]. auto.
  Qed.

  Lemma vlife_address p s : vlife cf ti addr objs p s -> at_address ti addr (pr_regs p).
  Proof.
    induction 1 as [s _|p s ev p' r _ IH _ Ha|p s op s' o _ IH _ _ _ _]; [|exact Ha|exact IH].
    intros cr Hcr. inversion Hcr.
  Qed.

  Lemma vlife_indirect p s : cf_indirect cf = true ->
    vlife cf ti addr objs p s -> all_vars indirect_var s.
  Proof.
    intros Hi. induction 1 as [s Hs|p s ev p' r _ IH _ _|p s op s' o Hl IH Hc Hk Hstep Hop].
    - intros x obj b E. rewrite Hs in E. discriminate.
    - exact IH.
    - pose proof (vlife_address _ _ Hl) as Ha. destruct Hop as [Hends Hfin Hinp Hthr].
      revert IH. apply (vstep_all cf (pr_world p) objs indirect_var) with (op := op) (o := o).
      + intros o0 [=].
      + intros via o' x Hvia Hin Hacq o0 [= <-].
        destruct via; [rewrite (Hinp Hvia) in Hi; discriminate|].
        destruct Hc as (X & n2216 & HX & HP & HW).
        rewrite list.Forall_forall in Hk. specialize (Hk o' Hin). unfold known in Hk.
        apply elem_of_list_fmap in Hk as (cr & Ht & Hcr).
        unfold acquire in Hacq. apply obind_ok in Hacq as ([] & Hreq & Hacq).
        apply obind_ok in Hacq as (r & Hr & Heq). injection Heq as <-.
        assert (Hne : cf_vptr cf <> VptrNone).
        { intros E. unfold dynamic_vptr in Hr. rewrite E in Hr. discriminate. }
        destruct (acquire_registered cf X n2216 _ _ HP HW cr Hne Hcr) as (first & r' & Hf & Hacq & _ & Hri).
        rewrite <- Ht in Hacq. unfold acquire_vptr in Hacq. rewrite Hreq in Hacq. simpl in Hacq.
        rewrite Hr in Hacq. injection Hacq as ->. unfold box_vptr. rewrite Hi, (Hri Hi).
        rewrite HX in Hf. apply first_in in Hf as [Hin' Hti]. rewrite (Ha _ Hin'), Hti, Ht. reflexivity.
      + intros _ o0 [=].
      + intros d p0 t loc poly -> -> o0 ->. destruct Hfin as [(cr & Hf & <-) Hn].
        unfold box_vptr. rewrite Hi. do 3 f_equal.
        apply first_in in Hf as [Hin Hti]. rewrite (Ha _ Hin), Hti. f_equal.
        destruct (cf_checks cf && poly) eqn:Hch.
        * rewrite (final_same_type _ _ _ _ _ _ _ _ _ _ _ Hstep Hch eq_refl). reflexivity.
        * symmetry. apply (Hn eq_refl o0 eq_refl).
      + intros _ ob b Hg o0 [=].
      + exact Hthr.
      + exact Hstep.
  Qed.

  (* C23 *)
  Lemma survives p s x o b :
    cf_indirect cf = true -> vlife cf ti addr objs p s -> vs_vars s x = VVar (Some o) b ->
    registered ti (pr_regs p) (ti (ob_type (objs o))) ->
    exists v, var_arg (pr_world p) objs s x = Ok (APtr v (ob_type (objs o))) /\
      passes cf ti (pr_regs p) (pr_world p) (APtr v (ob_type (objs o))) (ti (ob_type (objs o))).
  Proof.
    intros Hi Hl Hx (cr & Hcr & Hti).
    pose proof (vlife_indirect p s Hi Hl x _ _ Hx o eq_refl) as ->.
    exists (w_static (pr_world p) (addr (ti (ob_type (objs o))))). split.
    - unfold var_arg, read_var. rewrite Hx. reflexivity.
    - assert (Hf : exists f, first_record ti (pr_regs p) (ti (ob_type (objs o))) = Some f).
      { unfold first_record. destruct (filter _ _) as [|f l] eqn:E; [|eauto]. exfalso.
        assert (Hin : cr ∈ filter (fun cr => ti (cr_type cr) = ti (ob_type (objs o)))
                                  (reg_classes (pr_regs p))).
        { apply elem_of_list_filter. split; assumption. }
        rewrite E in Hin. inversion Hin. }
      destruct Hf as (f & Hf). apply passes_ptr with f; [exact Hf|].
      apply first_in in Hf as [Hin Ht]. rewrite (vlife_address _ _ Hl _ Hin), Ht. reflexivity.
  Qed.
End Life.

Lemma survive_all cf ti addr objs p s xs os :
  cf_indirect cf = true -> vlife cf ti addr objs p s ->
  Forall2 (fun x o => exists b, vs_vars s x = VVar (Some o) b) xs os ->
  Forall (fun o => registered ti (pr_regs p) (ti (ob_type (objs o)))) os ->
  exists all, mapM (var_arg (pr_world p) objs s) xs = Ok all /\ virtual_args all = all /\
    Forall2 (passes cf ti (pr_regs p) (pr_world p)) all (map (fun o => ti (ob_type (objs o))) os).
Proof.
  intros Hi Hl. induction 1 as [|x o xs os (b & Hx) _ IH]; intros Hr.
  - exists []. split; [reflexivity|]. split; [reflexivity|constructor].
  - inversion Hr as [|? ? Ho Hos]; subst. destruct (IH Hos) as (all & Hm & Hv & Hp).
    destruct (survives cf ti addr objs p s x o b Hi Hl Hx Ho) as (v & Ha & Hpass).
    exists (APtr v (ob_type (objs o)) :: all). simpl. rewrite Ha. simpl. rewrite Hm. simpl.
    split; [reflexivity|]. split; [|constructor; assumption].
    unfold virtual_args. rewrite filter_cons_True by reflexivity. f_equal. exact Hv.
Qed.

Lemma survive_call cf X addr objs p s xs os mid m :
  cf_indirect cf = true -> vlife cf (e_ti (r_env X)) addr objs p s ->
  program_ok cf (r_env X) (pr_regs p) -> bases_first (e_ti (r_env X)) (pr_regs p) ->
  initialized_by cf X false (pr_regs p) (pr_world p) ->
  m ∈ reg_methods (pr_regs p) -> functions_ok m ->
  Forall2 (fun x o => exists b, vs_vars s x = VVar (Some o) b) xs os ->
  let args := map (fun o => e_ti (r_env X) (ob_type (objs o))) os in
  valid_args (e_ti (r_env X)) (pr_regs p) m args ->
  Forall (registered (e_ti (r_env X)) (pr_regs p)) args ->
  settled (e_ti (r_env X)) (pr_regs p) (mr_overriders m)
    (candidate (e_ti (r_env X)) (pr_regs p) (mr_overriders m) args) ->
  exists all sel, mapM (var_arg (pr_world p) objs s) xs = Ok all /\
    selects (e_ti (r_env X)) (pr_regs p) (mr_overriders m) args sel /\
    behaves m sel (call cf (pr_world p) mid m all).
Proof.
  intros Hi Hl HP HB HW Hm Hf Hx args Hval Hreg HT.
  destruct (survive_all cf (e_ti (r_env X)) addr objs p s xs os Hi Hl Hx) as (all & Ha & Hv & Hp).
  { unfold args in Hreg. rewrite Forall_map in Hreg. exact Hreg. }
  destruct (call_selects cf X (pr_regs p) (pr_world p) HP HB mid m all args HW) as (sel & Hs & _ & Hb).
  - constructor; [exact Hm|rewrite Hv; exact Hp|exact Hval].
  - exact Hf.
  - right. exists [], []. rewrite Hv, app_nil_r. repeat split; constructor.
  - exact HT.
  - exists all, sel. auto.
Qed.

(* ---- C35: final_virtual_ptr ---- *)
Section FinalPtr.
  Context (cf : config) (X : run) (n2216 : bool) (R : registrations) (w : world)
    (objs : nat -> object).
  Notation ti := (e_ti (r_env X)).
  Context (HP : program_ok cf (r_env X) R) (HW : initialized_by cf X n2216 R w).

  Lemma initialized_required : require_initialized cf w = Ok tt.
  Proof.
    destruct HW as (w0 & rep & Hw0 & Hi).
    assert (Hfl : w_initialized w = true).
    { exact (initialize_flag _ _ _ _ _ _ _ Hi). }
    unfold require_initialized. rewrite Hfl. rewrite decide_False by (intros [_ [=]]). reflexivity.
  Qed.

  Lemma final_error_iff s d o t loc :
    cf_checks cf = true ->
    (exists s' e, vstep cf w objs (Final d (Some o) t loc true) s = (s', Err e)) <->
    ob_type (objs o) <> t.
  Proof.
    intros Hc. simpl. rewrite initialized_required, Hc. simpl. case_decide as Hd; split.
    - intros (s' & e & [=]).
    - intros H. contradiction.
    - intros _. exact Hd.
    - intros _. eexists _, _. reflexivity.
  Qed.

  Lemma final_error_is s s' d o t loc poly e :
    vstep cf w objs (Final d (Some o) t loc poly) s = (s', Err e) ->
    e = EFinal t (ob_type (objs o)) /\ s' = s /\ cf_checks cf = true /\ poly = true.
  Proof.
    simpl. rewrite initialized_required. simpl.
    destruct (cf_checks cf), poly; simpl; try discriminate.
    case_decide; simpl; [discriminate|]. intros [= <- <-]. auto.
  Qed.

  Lemma final_right s s' d o t loc poly :
    final_ok cf ti R objs (Final d (Some o) t loc poly) ->
    vstep cf w objs (Final d (Some o) t loc poly) s = (s', Ok tt) ->
    exists v b, vs_vars s' d = VVar (Some o) b /\
      var_arg w objs s' d = Ok (APtr v (ob_type (objs o))) /\
      passes cf ti R w (APtr v (ob_type (objs o))) (ti (ob_type (objs o))).
  Proof.
    intros [(cr & Hf & Hl) Hn] H.
    assert (Ht : ti (ob_type (objs o)) = ti t).
    { destruct (cf_checks cf && poly) eqn:Hc; [|exact (Hn eq_refl o eq_refl)].
      rewrite (final_same_type cf w objs d (Some o) t loc poly s s' o H Hc eq_refl). reflexivity. }
    simpl in H. apply after_ok in H as [([] & _ & H)|[_ Hne]]; [|contradiction].
    injection H as <-. exists (w_static w loc), (box_vptr cf w (FromRef (RStatic loc))).
    split; [apply set_var_eq|]. split.
    - unfold var_arg, read_var. rewrite set_var_eq. cbn [obind].
      rewrite box_static. reflexivity.
    - apply passes_ptr with cr; [rewrite Ht; exact Hf|]. rewrite Hl. reflexivity.
  Qed.
End FinalPtr.
