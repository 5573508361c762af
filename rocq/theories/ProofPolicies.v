(* registry::with and registry::without. *)
From stdpp Require Import base numbers sets list.
From Verif Require Import ModelWorld ModelPolicies SpecPolicies.

Section Policies.
  Context (is_base : N -> N -> bool) (category : N -> N).
  Hypothesis HT : policy_types is_base category.
  Notation with_one := (with_one is_base category).
  Notation with_ := (with_ is_base category).
  Notation without := (without is_base category).
  Notation policy := (policy is_base).

  Lemma in_category p q : is_base (category p) q = true <-> category q = category p.
  Proof.
    split.
    - intros H. apply (pt_category _ _ HT) in H. rewrite <- H.
      apply (pt_category _ _ HT). apply (pt_root _ _ HT).
    - intros <-. apply (pt_root _ _ HT).
  Qed.

  Lemma in_category_b p q : is_base (category p) q = bool_decide (category q = category p).
  Proof.
    destruct (is_base (category p) q) eqn:H.
    - symmetry. apply bool_decide_eq_true, in_category, H.
    - symmetry. apply bool_decide_eq_false. intros Hc%in_category. congruence.
  Qed.

  Lemma policy_head l c : policy l c = head (filter (fun q => is_base c q = true) l).
  Proof.
    unfold ModelPolicies.policy. induction l as [|q l IH]; [reflexivity|].
    rewrite filter_cons. cbn [list_find]. destruct (decide (is_base c q = true)) as [Hq|Hq]; [reflexivity|].
    rewrite <- IH. destruct (list_find _ l) as [[i x]|] eqn:Hf; reflexivity.
  Qed.

  Lemma policy_app l l' c : policy (l ++ l') c = match policy l c with Some p => Some p | None => policy l' c end.
  Proof.
    rewrite !policy_head, filter_app. destruct (filter _ l); reflexivity.
  Qed.

  (* The elements outside the category of [p] and those in it. *)
  Lemma replace_spec p l :
    filter (fun q => category q <> category p) (replace_if is_base (category p) p l) =
      filter (fun q => category q <> category p) l /\
    (forall q, q ∈ replace_if is_base (category p) p l <->
       (q ∈ l /\ category q <> category p) \/
       (q = p /\ exists q', q' ∈ l /\ category q' = category p)).
  Proof.
    unfold replace_if. split.
    - induction l as [|x l IH]; [reflexivity|]. cbn [map]. rewrite !filter_cons, IH, in_category_b.
      case_bool_decide as Hx.
      + rewrite decide_False by auto. rewrite decide_False by auto. reflexivity.
      + reflexivity.
    - intros q. split.
      + intros Hq. apply elem_of_list_fmap in Hq as (x & -> & Hx). rewrite in_category_b.
        case_bool_decide; [right; eauto|left; auto].
      + intros [[Hq Hc]|[-> (x & Hx & Hc)]]; apply elem_of_list_fmap.
        * exists q. rewrite in_category_b, bool_decide_false by exact Hc. auto.
        * exists x. rewrite in_category_b, bool_decide_true by exact Hc. auto.
  Qed.

  Lemma replace_same p l : replace_if is_base (category p) p l = l <->
    forall q, q ∈ l -> category q = category p -> q = p.
  Proof.
    unfold replace_if. induction l as [|x l IH]; [split; [intros _ q Hq; inversion Hq|reflexivity]|].
    cbn [map]. rewrite in_category_b. split.
    - intros [= H1 H2] q [->|Hq]%elem_of_cons Hc.
      + rewrite bool_decide_true in H1 by exact Hc. auto.
      + apply IH; auto.
    - intros H. f_equal.
      + case_bool_decide as Hc; [|reflexivity]. symmetry. apply H; [left|exact Hc].
      + apply IH. intros q Hq. apply H. right. exact Hq.
  Qed.

  Lemma with_one_members l p q :
    q ∈ with_one l p <-> q = p \/ (q ∈ l /\ category q <> category p).
  Proof.
    unfold ModelPolicies.with_one. case_decide as He.
    - rewrite elem_of_app, elem_of_list_singleton. rewrite replace_same in He. split.
      + intros [Hq|Hq]; [|auto]. destruct (decide (category q = category p)); [left|right]; auto.
      + intros [->|[Hq _]]; auto.
    - destruct (replace_spec p l) as [_ Hm]. rewrite Hm. split.
      + intros [H|[-> _]]; auto.
      + intros [->|H]; [|auto]. right. split; [reflexivity|].
        destruct (decide (Exists (fun q => category q = category p) l)) as [Hex|Hno].
        * apply Exists_exists in Hex. exact Hex.
        * exfalso. apply He, replace_same. intros x Hx Hc. exfalso. apply Hno, Exists_exists. eauto.
  Qed.

  Lemma with_one_others l p :
    filter (fun q => category q <> category p) (with_one l p) =
    filter (fun q => category q <> category p) l.
  Proof.
    unfold ModelPolicies.with_one. case_decide as He; [|apply replace_spec].
    rewrite filter_app. rewrite (filter_cons_False _ p) by (intros H; apply H; reflexivity).
    rewrite filter_nil, app_nil_r. reflexivity.
  Qed.

  Lemma policy_others c l l' :
    filter (fun q => category q = category c) l = filter (fun q => category q = category c) l' ->
    policy l c = policy l' c.
  Proof.
    intros H. rewrite !policy_head.
    assert (Hf : forall l : list N, filter (fun q => is_base c q = true) l =
      filter (fun q => is_base c q = true) (filter (fun q => category q = category c) l)).
    { intros l0. rewrite list_filter_filter_l; [reflexivity|].
      intros q Hq. symmetry. apply (pt_category _ _ HT). exact Hq. }
    rewrite (Hf l), (Hf l'), H. reflexivity.
  Qed.

  Lemma policy_only c l : (forall q, q ∈ l -> category q <> category c) -> policy l c = None.
  Proof.
    intros H. rewrite policy_head. destruct (filter _ l) as [|q l'] eqn:Hf; [reflexivity|]. exfalso.
    assert (Hq : q ∈ filter (fun q => is_base c q = true) l) by (rewrite Hf; left).
    apply elem_of_list_filter in Hq as [Hb Hq]. apply (H q Hq).
    symmetry. apply (pt_category _ _ HT). exact Hb.
  Qed.

  Lemma policy_all c p l : (forall q, q ∈ l -> category q = category c -> q = p) -> p ∈ l ->
    policy l c = if is_base c p then Some p else None.
  Proof.
    intros Ha Hp. rewrite policy_head. destruct (is_base c p) eqn:Hb.
    - destruct (filter (fun q => is_base c q = true) l) as [|q l'] eqn:Hf.
      + assert (Hq : p ∈ filter (fun q => is_base c q = true) l) by (apply elem_of_list_filter; auto).
        rewrite Hf in Hq. inversion Hq.
      + assert (Hq : q ∈ filter (fun q => is_base c q = true) l) by (rewrite Hf; left).
        apply elem_of_list_filter in Hq as [Hq1 Hq2]. simpl. f_equal. apply Ha; [exact Hq2|].
        symmetry. apply (pt_category _ _ HT). exact Hq1.
    - destruct (filter (fun q => is_base c q = true) l) as [|q l'] eqn:Hf; [reflexivity|]. exfalso.
      assert (Hq : q ∈ filter (fun q => is_base c q = true) l) by (rewrite Hf; left).
      apply elem_of_list_filter in Hq as [Hq1 Hq2].
      assert (q = p). { apply Ha; [exact Hq2|]. symmetry. apply (pt_category _ _ HT). exact Hq1. }
      congruence.
  Qed.

  Lemma with_one_policy l p c :
    policy (with_one l p) c =
    if decide (category p = category c) then if is_base c p then Some p else None else policy l c.
  Proof.
    case_decide as Hc.
    - apply policy_all; [|apply with_one_members; auto]. intros q Hq Hqc.
      apply with_one_members in Hq as [->|[_ Hn]]; [reflexivity|]. congruence.
    - apply policy_others.
      assert (Hf : forall l : list N, filter (fun q => category q = category c) l =
        filter (fun q => category q = category c) (filter (fun q => category q <> category p) l)).
      { intros l0. rewrite list_filter_filter_l; [reflexivity|]. intros q Hq. congruence. }
      rewrite (Hf (with_one l p)), (Hf l), with_one_others. reflexivity.
  Qed.

  Lemma with_policy l ps c :
    policy (with_ l ps) c =
    match latest category ps c with
    | Some p => if is_base c p then Some p else None
    | None => policy l c
    end.
  Proof.
    unfold ModelPolicies.with_, latest. induction ps as [|p ps IH] using rev_ind; [reflexivity|].
    rewrite foldl_app, filter_app. cbn [foldl]. rewrite with_one_policy, filter_cons, filter_nil.
    case_decide as Hc.
    - rewrite last_snoc. reflexivity.
    - rewrite app_nil_r. exact IH.
  Qed.

  Lemma with_one_unique l p : one_per_category category l -> p ∉ l ->
    one_per_category category (with_one l p).
  Proof.
    unfold one_per_category. intros Hn Hp. unfold ModelPolicies.with_one. case_decide as He.
    - change (map category (l ++ [p])) with (category <$> (l ++ [p])). rewrite fmap_app.
      apply NoDup_app. split; [exact Hn|]. split; [|repeat constructor; set_solver].
      intros c Hc Hx. apply elem_of_list_fmap in Hc as (q & -> & Hq).
      apply elem_of_list_singleton in Hx. apply Hp.
      rewrite <- (proj1 (replace_same p l) He q Hq Hx). exact Hq.
    - replace (map category (replace_if is_base (category p) p l)) with (map category l); [exact Hn|].
      unfold replace_if. rewrite map_map. apply map_ext. intros q. rewrite in_category_b.
      case_bool_decide; auto.
  Qed.

  Lemma with_members l ps q :
    q ∈ with_ l ps <->
    latest category ps q = Some q \/ (q ∈ l /\ forall p, p ∈ ps -> category p <> category q).
  Proof.
    unfold ModelPolicies.with_, latest. induction ps as [|p ps IH] using rev_ind.
    - simpl. split; [|intros [H|[H _]]; [discriminate|exact H]]. intros H. right.
      split; [exact H|]. intros p Hp. inversion Hp.
    - rewrite foldl_app, filter_app. cbn [foldl]. rewrite with_one_members, IH, filter_cons, filter_nil.
      case_decide as Hc.
      + rewrite last_snoc. split.
        * intros [->|[_ Hn]]; [auto|]. congruence.
        * intros [[= ->]|[_ Hn]]; [auto|]. exfalso. apply (Hn p); [set_solver|exact Hc].
      + rewrite app_nil_r. split.
        * intros [->|[[H|[H1 H2]] _]]; [congruence|auto|]. right. split; [exact H1|].
          intros x [Hx|Hx]%elem_of_app; [auto|]. apply elem_of_list_singleton in Hx. subst. exact Hc.
        * intros [H|[H1 H2]]; right; (split; [|auto]); [auto|]. right. split; [exact H1|].
          intros x Hx. apply H2. set_solver.
  Qed.

  Lemma with_unique l ps : one_per_category category l -> NoDup (map category ps) ->
    (forall p, p ∈ ps -> p ∉ l) -> one_per_category category (with_ l ps).
  Proof.
    induction ps as [|p ps IH] using rev_ind; intros Hl Hps Hn; [exact Hl|].
    change (map category (ps ++ [p])) with (category <$> (ps ++ [p])) in Hps.
    rewrite fmap_app in Hps. apply NoDup_app in Hps as (H1 & H2 & _).
    unfold ModelPolicies.with_. rewrite foldl_app. cbn [foldl]. apply with_one_unique.
    - apply IH; auto. intros q Hq. apply Hn. set_solver.
    - fold (with_ l ps). rewrite with_members. intros [H|[H _]].
      + unfold latest in H. apply last_Some_elem_of in H. apply elem_of_list_filter in H as [_ H].
        apply (H2 (category p)); [apply elem_of_list_fmap; eauto|set_solver].
      + apply (Hn p); [set_solver|exact H].
  Qed.

  Lemma without_filter l cs :
    without l cs = filter (fun q => category q ∉ map category cs) l.
  Proof.
    revert l. unfold ModelPolicies.without. induction cs as [|c cs IH] using rev_ind; intros l.
    - simpl. induction l as [|x l IHl]; [reflexivity|]. rewrite filter_cons, decide_True; [congruence|].
      intros Hc. inversion Hc.
    - rewrite foldl_app. cbn [foldl]. rewrite IH. unfold without_one.
      rewrite list_filter_filter. apply list_filter_iff. intros q. rewrite in_category_b, bool_decide_eq_false.
      rewrite map_app. rewrite not_elem_of_app. simpl. rewrite not_elem_of_cons.
      assert (category q ∉ []) by (intros H; inversion H). tauto.
  Qed.

  Lemma without_policy l cs c :
    policy (without l cs) c =
    if decide (category c ∈ map category cs) then None else policy l c.
  Proof.
    rewrite without_filter. case_decide as Hc.
    - apply policy_only. intros q Hq He. apply elem_of_list_filter in Hq as [Hq _]. congruence.
    - apply policy_others. rewrite list_filter_filter_l; [reflexivity|].
      intros q Hq. congruence.
  Qed.

  Lemma without_unique l cs : one_per_category category l -> one_per_category category (without l cs).
  Proof.
    unfold one_per_category. rewrite without_filter. intros H.
    induction l as [|x l IH]; [constructor|]. cbn [map] in H. inversion H as [|? ? Hx Hl]; subst.
    rewrite filter_cons. case_decide; [|auto]. cbn [map]. constructor; [|auto].
    intros Hin. apply Hx. apply elem_of_list_fmap in Hin as (q & -> & Hq).
    apply elem_of_list_filter in Hq as [_ Hq]. apply elem_of_list_fmap. eauto.
  Qed.
End Policies.

(* ---- the policies of the library ---- *)
Lemma std_category_twice p : std_category (std_category p) = std_category p.
Proof.
  unfold std_category at 2 3. repeat case_decide; try reflexivity.
  unfold std_category. repeat (rewrite decide_False by assumption). reflexivity.
Qed.

Lemma std_policies : policy_types std_is_base std_category.
Proof.
  split; unfold std_is_base.
  - intros p. apply bool_decide_eq_true. auto.
  - intros p. apply bool_decide_eq_true. auto.
  - intros p q Hpq. apply bool_decide_eq_true in Hpq as [->| ->]; [reflexivity|apply std_category_twice].
Qed.

(* ---- what the dispatch code asks ---- *)
Lemma with_indirect l :
  let cf := config_of l in
  config_of (with_ std_is_base std_category l [p_indirect_vptr]) =
  Config (cf_vptr cf) (cf_hash cf) true (cf_checks cf).
Proof.
  intros cf. unfold config_of. rewrite !(with_policy _ _ std_policies).
  cbn [latest]. reflexivity.
Qed.

Lemma with_checks l :
  let cf := config_of l in
  config_of (with_ std_is_base std_category l [p_runtime_checks]) =
  Config (cf_vptr cf) (cf_hash cf) (cf_indirect cf) true.
Proof. intros cf. unfold config_of. rewrite !(with_policy _ _ std_policies). reflexivity. Qed.

Lemma with_handler l :
  config_of (with_ std_is_base std_category l [p_throw_error_handler]) = config_of l.
Proof. unfold config_of. rewrite !(with_policy _ _ std_policies). reflexivity. Qed.

Lemma without_hash l :
  let cf := config_of l in
  config_of (without std_is_base std_category l [p_type_hash]) =
  Config (cf_vptr cf) false (cf_indirect cf) (cf_checks cf).
Proof. intros cf. unfold config_of. rewrite !(without_policy _ _ std_policies). reflexivity. Qed.

Lemma with_vptr l p : p = p_vptr_vector \/ p = p_vptr_map ->
  let cf := config_of l in
  config_of (with_ std_is_base std_category l [p]) =
  Config (if decide (p = p_vptr_vector) then VptrVector else VptrMap)
    (cf_hash cf) (cf_indirect cf) (cf_checks cf).
Proof. intros [->| ->] cf; unfold config_of; rewrite !(with_policy _ _ std_policies); reflexivity. Qed.

Lemma with_hash l :
  let cf := config_of l in
  config_of (with_ std_is_base std_category l [p_fast_perfect_hash]) =
  Config (cf_vptr cf) true (cf_indirect cf) (cf_checks cf).
Proof. intros cf. unfold config_of. rewrite !(with_policy _ _ std_policies). reflexivity. Qed.

Lemma with_others l p :
  p ∈ [p_std_rtti; p_static_rtti; p_default_error_handler; p_throw_error_handler; p_stderr_output] ->
  config_of (with_ std_is_base std_category l [p]) = config_of l.
Proof.
  intros Hp. repeat (apply elem_of_cons in Hp as [->|Hp];
    [unfold config_of; rewrite !(with_policy _ _ std_policies); reflexivity|]).
  by apply elem_of_nil in Hp.
Qed.

Lemma without_others l :
  let cf := config_of l in
  config_of (without std_is_base std_category l [p_vptr]) =
    Config VptrNone (cf_hash cf) (cf_indirect cf) (cf_checks cf) /\
  config_of (without std_is_base std_category l [p_indirect_vptr]) =
    Config (cf_vptr cf) (cf_hash cf) false (cf_checks cf) /\
  config_of (without std_is_base std_category l [p_runtime_checks]) =
    Config (cf_vptr cf) (cf_hash cf) (cf_indirect cf) false /\
  config_of (without std_is_base std_category l [p_error_handler]) = cf /\
  config_of (without std_is_base std_category l [p_output]) = cf.
Proof.
  intros cf. unfold config_of. rewrite !(without_policy _ _ std_policies).
  repeat split; reflexivity.
Qed.
