(* What the trace says when a class is missing. *)
From stdpp Require Import base list numbers list_numbers strings relations.
From Verif Require Import Base Registry Spec ModelClasses ModelMethods ModelSlots ModelTables
  ModelHash ModelWorld ModelCall SpecCall SpecErrors ModelTrace SpecTrace
  ProofBase ProofClasses ProofGraph ProofMethods ProofErrors ProofTrace.

Lemma tbind_err {A B} (x : traced A) (k : A -> traced B) ls e :
  tbind x k = (ls, Err e) ->
  x = (ls, Err e) \/ exists l1 a l2, x = (l1, Ok a) /\ k a = (l2, Err e) /\ ls = l1 ++ l2.
Proof.
  unfold tbind. destruct x as [l [a|e'| |]]; cbn; intros H; try discriminate.
  - right. destruct (k a) as [l2 r] eqn:Hk. cbn in H. injection H as <- ->. eauto 8.
  - left. injection H as -> ->. reflexivity.
Qed.

Lemma mapT_err {A B} (f : A -> traced B) l ls e :
  mapT f l = (ls, Err e) ->
  exists i x l1 l2, l !! i = Some x /\ f x = (l2, Err e) /\ ls = l1 ++ l2.
Proof.
  revert ls. induction l as [|x l IH]; intros ls H; [discriminate|]. cbn [mapT] in H.
  apply tbind_err in H as [H|(l1 & a & l2 & H1 & H & ->)].
  { exists 0, x, [], ls. auto. }
  apply tbind_err in H as [H|(l3 & b & l4 & H3 & H & ->)]; [|discriminate].
  destruct (IH _ H) as (i & y & l3 & l4 & Hi & Hf & ->).
  exists (S i), y, (l1 ++ l3), l4. rewrite app_assoc. auto.
Qed.

Lemma subject_app l1 l2 p : subject l2 = Some p -> subject (l1 ++ l2) = Some p.
Proof.
  unfold subject. rewrite omap_app. intros H. destruct (omap begins_with l2) as [|x l] eqn:Hl; [discriminate|].
  rewrite last_app, H. reflexivity.
Qed.

Lemma last_after {A} (l1 l2 : list A) x : last l2 = Some x -> last (l1 ++ l2) = Some x.
Proof. intros H. rewrite last_app, H. reflexivity. Qed.

Lemma points_app l1 l2 mi p t : points_at l2 mi p t -> points_at (l1 ++ l2) mi p t.
Proof.
  destruct p; cbn.
  - intros (H1 & l & H2 & H3). split; [apply subject_app; exact H1|]. exists l. split; [apply last_after; exact H2|exact H3].
  - intros (H1 & l & H2 & H3). split; [apply subject_app; exact H1|]. exists l. split; [apply last_after; exact H2|exact H3].
  - apply subject_app.
Qed.

Section Missing.
  Context (E : env) (R : registrations).
  Context (HE : env_ok E) (Hac : acyclic (e_ti E) R) (Har : arity_ok R).
  Notation ti := (e_ti E).
  Context (g : graph) (HG : graph_ok E R g).
  Notation cm := (g_map g).

  Lemma unmapped a : cm a = None -> ~ registered ti R a.
  Proof. intros H Hr. apply (map_registered E R g HG) in Hr as [c Hc]. congruence. Qed.

  (* The lines of the parameters that are found. *)
  Lemma param_err vs ls e : mapT (trace_param E cm) vs = (ls, Err e) ->
    exists j t, vs !! j = Some t /\ cm (ti t) = None /\ e = EMissingClass t /\
      ls = [[PText "unknown class "; PAddress t; PText "("; PName t; PText ") for parameter #"; PNumber 1]].
  Proof.
    revert ls. induction vs as [|t vs IH]; intros ls H; [discriminate|]. cbn [mapT] in H.
    unfold trace_param in H at 1. destruct (cm (ti t)) as [c|] eqn:Hc.
    - apply tbind_err in H as [H|(l1 & a & l2 & [= <- <-] & H & ->)]; [discriminate|].
      apply tbind_err in H as [H|(l3 & b & l4 & H3 & H & ->)]; [|discriminate].
      destruct (IH _ H) as (j & t' & H1 & H2). exists (S j), t'. auto.
    - injection H as <- <-. exists 0, t. auto.
  Qed.

  Lemma param_ok vs ls cs : mapT (trace_param E cm) vs = (ls, Ok cs) -> ls = [].
  Proof.
    revert ls cs. induction vs as [|t vs IH]; intros ls cs H; [injection H as <- <-; reflexivity|]. cbn [mapT] in H.
    unfold trace_param in H at 1. destruct (cm (ti t)) as [c|] eqn:Hc; [|discriminate].
    apply tbind_ok in H as (l1 & a & l2 & [= <- <-] & H & ->).
    apply tbind_ok in H as (l3 & b & l4 & H3 & [= <- <-] & ->). rewrite (IH _ _ H3). reflexivity.
  Qed.

  Lemma ov_param_err vs ls e : mapT (trace_overrider_param E cm) vs = (ls, Err e) ->
    exists j t, vs !! j = Some t /\ cm (ti t) = None /\ e = EMissingClass t /\
      ls = [[PText "unknown class error for *virtual* parameter #"; PNumber 1]].
  Proof.
    revert ls. induction vs as [|t vs IH]; intros ls H; [discriminate|]. cbn [mapT] in H.
    unfold trace_overrider_param in H at 1. destruct (cm (ti t)) as [c|] eqn:Hc.
    - apply tbind_err in H as [H|(l1 & a & l2 & [= <- <-] & H & ->)]; [discriminate|].
      apply tbind_err in H as [H|(l3 & b & l4 & H3 & H & ->)]; [|discriminate].
      destruct (IH _ H) as (j & t' & H1 & H2). exists (S j), t'. auto.
    - injection H as <- <-. exists 0, t. auto.
  Qed.

  Lemma ov_param_ok vs ls cs : mapT (trace_overrider_param E cm) vs = (ls, Ok cs) -> ls = [].
  Proof.
    revert ls cs. induction vs as [|t vs IH]; intros ls cs H; [injection H as <- <-; reflexivity|]. cbn [mapT] in H.
    unfold trace_overrider_param in H at 1. destruct (cm (ti t)) as [c|] eqn:Hc; [|discriminate].
    apply tbind_ok in H as (l1 & a & l2 & [= <- <-] & H & ->).
    apply tbind_ok in H as (l3 & b & l4 & H3 & [= <- <-] & ->). rewrite (IH _ _ H3). reflexivity.
  Qed.

  Lemma overrider_err cov mi i o ls e : trace_overrider E cm cov mi (i, o) = (ls, Err e) ->
    exists t p, e = EMissingClass t /\ cm (ti t) = None /\ points_at ls mi p t /\
      match p with InMethod _ => False | InOverrider i' j => i' = i /\ or_vp o !! j = Some t
              | InReturn i' => i' = i /\ or_return o = t end.
  Proof.
    unfold trace_overrider. intros H.
    apply tbind_err in H as [H|(l1 & [] & l2 & [= <-] & H & ->)]; [discriminate|].
    apply tbind_err in H as [H|(l3 & vp & l4 & H3 & H & ->)].
    - destruct (ov_param_err _ _ _ H) as (j & t & H1 & H2 & -> & ->).
      exists t, (InOverrider i j). split; [reflexivity|]. split; [exact H2|]. split; [|auto].
      split; [reflexivity|]. eexists. split; [reflexivity|]. reflexivity.
    - rewrite (ov_param_ok _ _ _ H3). clear H3.
      apply tbind_err in H as [H|(l5 & oc & l6 & _ & H & ->)]; [|discriminate].
      unfold quietly in H. injection H as <- H. destruct cov as [c|]; [|discriminate].
      unfold find_class in H. destruct (cm (ti (or_return o))) as [c'|] eqn:Hc; [discriminate|].
      injection H as <-. exists (or_return o), (InReturn i). split; [reflexivity|]. split; [exact Hc|].
      split; [reflexivity|auto].
  Qed.

  Lemma method_err mi m ls e : reg_methods R !! mi = Some m ->
    trace_method E cm (mi, m) = (ls, Err e) ->
    exists t p, e = EMissingClass t /\ missing_at ti R mi p t /\ points_at ls mi p t.
  Proof.
    intros Hm. unfold trace_method. intros H.
    apply tbind_err in H as [H|(l1 & [] & l2 & [= <-] & H & ->)]; [discriminate|].
    apply tbind_err in H as [H|(l3 & vp & l4 & H3 & H & ->)].
    - destruct (param_err _ _ _ H) as (j & t & H1 & H2 & -> & ->).
      exists t, (InMethod j). split; [reflexivity|]. split; [split; [apply unmapped; exact H2|]; eauto|].
      split; [reflexivity|]. eexists. split; [reflexivity|]. do 3 right. left.
    - apply tbind_err in H as [H|(l5 & ovs & l6 & _ & H & ->)]; [|discriminate].
      apply mapT_err in H as (k & [i o] & l5 & l6 & Hi & H & ->).
      rewrite list_lookup_imap in Hi. destruct (mr_overriders m !! k) as [o'|] eqn:Ho; [|discriminate].
      injection Hi as <- <-.
      destruct (overrider_err _ _ _ _ _ _ H) as (t & p & -> & H2 & Hp & Hpl).
      exists t, p. split; [reflexivity|]. split; [|rewrite !app_assoc; apply points_app; exact Hp].
      split; [apply unmapped; exact H2|]. exists m. split; [exact Hm|].
      destruct p; [contradiction| |]; destruct Hpl as [-> Hpl]; eauto.
  Qed.
End Missing.

Theorem trace_missing E R t :
  env_ok E -> acyclic (e_ti E) R -> arity_ok R -> bases_registered (e_ti E) R ->
  compile E false R = Err (EMissingClass t) ->
  exists mi p, missing_at (e_ti E) R mi p t /\ points_at (fst (trace_compile E false R)) mi p t.
Proof.
  intros HE Hac Har Hb Hc. pose proof Hc as Hc0. rewrite <- (trace_harmless E R HE Hac false) in Hc.
  destruct (trace_compile E false R) as [ls v] eqn:H. cbn [fst snd] in *. subst v.
  unfold trace_compile in H.
  apply tbind_err in H as [H|(l1 & g & ls1 & H1 & H & ->)].
  { pose proof (snd_classes E R HE Hac) as Hg. rewrite H in Hg. cbn [snd] in Hg.
    destruct (augment_classes_cases E R HE Hac) as [(_ & g & Hg' & _)|(Hn & _)]; [congruence|contradiction]. }
  pose proof (snd_classes E R HE Hac) as Hg. rewrite H1 in Hg. cbn [snd] in Hg. symmetry in Hg.
  destruct (augment_classes_inv E R HE Hac g Hg) as [_ HG].
  destruct (augment_methods E g (reg_methods R)) as [[cms u]|e| |] eqn:Hms.
  { exfalso. destruct (augment_methods_fit E R g HG _ _ Hms) as [H4 _].
    pose proof (compile_good E R HE Hac Har) as Hgood. rewrite Hc0 in Hgood. destruct Hgood as [Hn Hr].
    apply Hr, H4, Hn. }
  all: pose proof (snd_methods E g (reg_methods R)) as Hms'; rewrite Hms in Hms'.
  2,3: apply tbind_err in H as [H|(l2 & a & ls2 & H2 & H & ->)];
    [rewrite H in Hms'; discriminate|rewrite H2 in Hms'; discriminate].
  apply tbind_err in H as [H|(l2 & a & ls2 & H2 & H & ->)]; [|rewrite H2 in Hms'; discriminate].
  unfold trace_methods in H.
  apply tbind_err in H as [H|(l2 & [] & ls2 & [= <-] & H & ->)]; [discriminate|].
  apply tbind_err in H as [H|(l3 & cms & ls3 & H3 & H & ->)].
  - apply mapT_err in H as (k & [mi m] & l5 & l6 & Hi & H & ->).
    rewrite list_lookup_imap in Hi. destruct (reg_methods R !! k) as [m'|] eqn:Hm; [|discriminate].
    injection Hi as <- <-.
    destruct (method_err E R g HG k m' _ _ Hm H) as (t' & p & [= <-] & Hp & Hpl).
    exists k, p. split; [exact Hp|]. rewrite !app_assoc. apply points_app. exact Hpl.
  - exfalso. apply tbind_err in H as [H|(l4 & u & ls4 & _ & H & ->)]; [|discriminate].
    unfold quietly in H. injection H as <- H.
    assert (Hmm : mapM (augment_method E (g_map g)) (reg_methods R) = Ok cms).
    { pose proof (f_equal snd H3) as Hs. cbn [snd] in Hs. rewrite <- Hs.
      rewrite (snd_mapT _ (fun im : nat * method_record => augment_method E (g_map g) (snd im)));
        [|intros im _; apply snd_method].
      symmetry. apply mapM_imap0. reflexivity. }
    pose proof (augment_methods_registered E R g HG cms Hmm) as Hall.
    pose proof (compile_good E R HE Hac Har) as Hgood. rewrite Hc0 in Hgood. destruct Hgood as [Hn Hr].
    apply Hr, Hall, Hn.
Qed.
