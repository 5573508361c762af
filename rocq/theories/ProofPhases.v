(* virtual_ptrs to objects under construction and destruction. *)
From stdpp Require Import base list numbers.
From Verif Require Import Base Registry Spec ModelClasses ModelHash ModelWorld ModelCall SpecCall
  ModelVirtualPtr SpecVirtualPtr SpecPhases ProofBase ProofVptr ProofVirtualPtr.

Section Phases.
  Context (cf : config) (X : run) (n2216 : bool) (R : registrations) (w : world).
  Notation ti := (e_ti (r_env X)).
  Context (HP : program_ok cf (r_env X) R) (HW : initialized_by cf X n2216 R w).

  (* Every virtual_ptr is [G] if those of the beginning are, and one made of an object at any time is. *)
  Lemma goes_all (Q : (nat -> object) -> Prop) (G : option nat -> box -> Prop) c c' :
    goes cf ti R w Q c c' ->
    (forall objs, Q objs -> objects_ok ti R w objs) ->
    (forall b, G None b) ->
    (forall objs o b v, Q objs -> unbox_vptr w b = Ok v -> vptr_of ti R w (ti (ob_type (objs o))) v ->
       G (Some o) b) ->
    all_vars G (snd c) -> all_vars G (snd c') /\ Q (fst c').
  Proof.
    intros Hgo HQ Hnull Hmade. induction Hgo as [objs s Hq|c objs s op s' o _ IH Hstep [_ Hfin Hinp Hthr]|
      c objs s objs' _ IH Hq]; intros Hs; [by split| |]; destruct (IH Hs) as [IHs IHq]; simpl in *; [|by split].
    split; [|exact IHq]. destruct (HQ objs IHq) as [Hk Hi]. revert IHs.
    apply (vstep_all cf w objs G) with (op := op) (o := o).
    - apply Hnull.
    - intros via o' x <- _ Ha.
      destruct (acquire_known cf X n2216 R w objs HP HW Hi _ o' x Hinp (Hk o') Ha) as (v & H1 & H2).
      by eapply Hmade.
    - intros _. apply Hnull.
    - intros d [o'|] t loc poly -> ->; [|apply Hnull]. destruct Hfin as [(cr & Hf & Hl) Hn].
      apply (Hmade objs o' _ (w_static w loc) IHq (box_static cf w loc)). exists cr.
      split; [|by rewrite Hl].
      destruct (cf_checks cf && poly) eqn:Hc.
      + by rewrite (final_same_type cf w objs _ _ _ _ _ _ _ _ Hstep Hc eq_refl).
      + by rewrite (Hn eq_refl o' eq_refl).
    - intros _ ob b _. apply Hnull.
    - exact Hthr.
    - exact Hstep.
  Qed.

  (* The class that it had when the virtual_ptr was made. *)
  Lemma phases_had (Q : (nat -> object) -> Prop) objs0 s0 objs s x o b :
    (forall objs, Q objs -> objects_ok ti R w objs) ->
    no_vars s0 -> goes cf ti R w Q (objs0, s0) (objs, s) -> vs_vars s x = VVar (Some o) b ->
    exists objs' v, Q objs' /\
      var_arg w objs s x = Ok (APtr v (ob_type (objs o))) /\
      passes cf ti R w (APtr v (ob_type (objs' o))) (ti (ob_type (objs' o))).
  Proof.
    intros HQ Hs0 Hgo Hx.
    destruct (goes_all Q (fun p b => forall o, p = Some o -> exists objs' v, Q objs' /\ unbox_vptr w b = Ok v /\
      vptr_of ti R w (ti (ob_type (objs' o))) v) _ _ Hgo HQ) as [G _].
    - intros b' o' [=].
    - intros objs1 o1 b1 v1 Hq1 Hu1 Hv1 o2 [= <-]. eauto.
    - intros x' p' b' E. simpl in E. rewrite Hs0 in E. discriminate E.
    - destruct (G x _ _ Hx o eq_refl) as (objs' & v & Hq & Hu & cr & Hf & Hv).
      exists objs', v. split; [exact Hq|]. split.
      + unfold var_arg, read_var. rewrite Hx. simpl. rewrite Hu. reflexivity.
      + by apply passes_ptr with cr.
  Qed.

  (* From the time when nothing points to it yet: it stays right as long as the class stays. *)
  Lemma phases_right t objs0 s0 objs s x o b :
    unseen o s0 ->
    goes cf ti R w (fun objs => objects_ok ti R w objs /\ ob_type (objs o) = t) (objs0, s0) (objs, s) ->
    vs_vars s x = VVar (Some o) b ->
    exists v, var_arg w objs s x = Ok (APtr v t) /\ passes cf ti R w (APtr v t) (ti t).
  Proof.
    intros Hs0 Hgo Hx.
    destruct (goes_all _ (fun p b => p = Some o -> exists v, unbox_vptr w b = Ok v /\
      vptr_of ti R w (ti t) v) _ _ Hgo) as [G [_ Hq]].
    - by intros objs1 [H _].
    - intros b' [=].
    - intros objs1 o1 b1 v1 [_ Ht] Hu1 Hv1 [= ->]. exists v1. rewrite Ht in Hv1. by split.
    - intros x' p' b' E ->. by destruct (Hs0 x' b').
    - destruct (G x _ _ Hx eq_refl) as (v & Hu & cr & Hf & Hv). simpl in Hq.
      exists v. split.
      + unfold var_arg, read_var. rewrite Hx. simpl. rewrite Hu. simpl. by rewrite Hq.
      + by apply passes_ptr with cr.
  Qed.
End Phases.

(* The function depends on the v-table pointer, not on the type of the object. *)
Section Tables.
  Context (cf : config) (w : world).

  Lemma tables_uni ss l1 l2 : Forall2 same_tables l1 l2 ->
    resolve_uni cf w ss l1 = resolve_uni cf w ss l2.
  Proof. induction 1 as [|a b l1 l2 [a'|v t t'] _ IH]; simpl; rewrite ?IH; reflexivity. Qed.

  Lemma tables_multi_next ss arity l1 l2 : Forall2 same_tables l1 l2 -> forall va dispatch,
    resolve_multi_next cf w ss arity va dispatch l1 = resolve_multi_next cf w ss arity va dispatch l2.
  Proof.
    induction 1 as [|a b l1 l2 Hab _ IH]; intros va dispatch; [reflexivity|].
    destruct Hab; simpl; (apply obind_ext; intros x; case_decide; [reflexivity|apply IH]).
  Qed.

  Lemma tables_multi_first ss arity l1 l2 : Forall2 same_tables l1 l2 ->
    resolve_multi_first cf w ss arity l1 = resolve_multi_first cf w ss arity l2.
  Proof.
    induction 1 as [|a b l1 l2 Hab Hl IH]; [reflexivity|].
    destruct Hab; simpl; rewrite ?IH; [destruct (is_virtual_arg a); [|reflexivity]|];
      repeat (apply obind_ext; intros); by apply tables_multi_next.
  Qed.

  Lemma tables_call mid m l1 l2 f : Forall2 same_tables l1 l2 ->
    call cf w mid m l1 = Ok (Calls f) <-> call cf w mid m l2 = Ok (Calls f).
  Proof.
    intros H. unfold call, resolve. rewrite (tables_uni _ _ _ H), (tables_multi_first _ _ _ _ H).
    destruct (let* _ := require_initialized cf w in _) as [g| | |]; simpl; try tauto.
    repeat case_decide; split; intros E; try discriminate E; exact E.
  Qed.
End Tables.

(* A call through virtual_ptrs is a call on objects of the classes that theirs had when the virtual_ptrs
   were made. *)
Lemma phases_call cf X n2216 R w (Q : (nat -> object) -> Prop) objs0 s0 objs s xs os :
  program_ok cf (r_env X) R -> initialized_by cf X n2216 R w -> cf_vptr cf <> VptrNone ->
  (forall objs, Q objs -> objects_ok (e_ti (r_env X)) R w objs) ->
  no_vars s0 -> goes cf (e_ti (r_env X)) R w Q (objs0, s0) (objs, s) ->
  Forall2 (fun x o => exists b, vs_vars s x = VVar (Some o) b) xs os ->
  exists args ts,
    Forall2 (fun x a => var_arg w objs s x = Ok a) xs args /\
    Forall2 (fun o t => exists objs', Q objs' /\ t = ob_type (objs' o)) os ts /\
    forall mid m f, call cf w mid m args = Ok (Calls f) <-> call cf w mid m (map AObject ts) = Ok (Calls f).
Proof.
  intros HP HW Hne HQ Hs0 Hgo Hxs.
  assert (G : exists args args' ts,
    Forall2 (fun x a => var_arg w objs s x = Ok a) xs args /\
    Forall2 (fun o t => exists objs', Q objs' /\ t = ob_type (objs' o)) os ts /\
    Forall2 same_tables args args' /\
    Forall2 (through cf (e_ti (r_env X)) R w) args' (map AObject ts)).
  { induction Hxs as [|x o xs os (b & Hx) _ (args & args' & ts & H1 & H2 & H3 & H4)].
    - exists [], [], []. repeat split; constructor.
    - destruct (phases_had cf X n2216 R w HP HW Q objs0 s0 objs s x o b HQ Hs0 Hgo Hx) as (objs' & v & Hq & Ha & Hp).
      exists (APtr v (ob_type (objs o)) :: args), (APtr v (ob_type (objs' o)) :: args'), (ob_type (objs' o) :: ts).
      split; [by constructor|]. split; [constructor; [by exists objs'|done]|].
      split; [constructor; [constructor|done]|]. simpl. constructor; [|done].
      constructor; [by apply (HQ objs')|done]. }
  destruct G as (args & args' & ts & H1 & H2 & H3 & H4). exists args, ts. split; [done|]. split; [done|].
  intros mid m f. rewrite <- (call_through cf X n2216 R w mid m args' (map AObject ts) HP HW Hne H4).
  by apply tables_call.
Qed.
