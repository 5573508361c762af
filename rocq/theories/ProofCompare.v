(* Comparison of virtual_ptrs, and deduction of their class. *)
From stdpp Require Import base list numbers.
From Verif Require Import Base Registry Spec ModelClasses ModelHash ModelWorld ModelCall SpecCall
  ModelVirtualPtr SpecVirtualPtr ProofVirtualPtr ModelArguments ModelConversions SpecConversions ProofConversions
  ModelCasts SpecCasts ProofCasts ModelCompare SpecCompare.

Section Equal.
  Context (H : hierarchy) (HO : hierarchy_ok H).

  Lemma only_part_self c s s' d : only_part H c d s -> only_part H c d s' -> s = s'.
  Proof. intros [[Hs Hl] _] [_ Hu]. apply Hu; assumption. Qed.

  (* The part of class [d] of an object, converted to a base [b]. *)
  Lemma converted_well c d b s t sb :
    only_part H c d s -> conversion H d b = Some t -> only_part H c b sb -> compose s t = sb.
  Proof.
    intros [[Hs Hl] _] Ht%conversion_spec [_ Hu]; [|exact HO]. destruct Ht as [[Ht Hlt] _].
    destruct (compose_ok H HO c s d t Hs Hl Ht) as [Hc Hcl]. apply Hu; [exact Hc|congruence].
  Qed.

  Lemma equal_pointers_same cls l r b :
    points_well H cls l -> points_well H cls r ->
    equal_pointers H (vc_class l) (vc_place l) (vc_class r) (vc_place r) = Some b ->
    (b = true <-> same_object l r).
  Proof.
    destruct l as [kl c rl p], r as [kr d rr q]. unfold points_well, same_object, object_of; simpl.
    intros Hl Hr. unfold equal_pointers, converted_place.
    destruct (conversion H c d) as [t|] eqn:Hcd; simpl.
    - intros [= <-]. rewrite bool_decide_eq_true.
      destruct p as [[o s]|], q as [[o' s']|]; simpl; try (split; congruence).
      split; [congruence|]. intros [= <-]. f_equal. f_equal.
      exact (converted_well _ _ _ _ _ _ (Hl _ _ eq_refl) Hcd (Hr _ _ eq_refl)).
    - destruct (conversion H d c) as [t|] eqn:Hdc; simpl; [|discriminate].
      intros [= <-]. rewrite bool_decide_eq_true.
      destruct p as [[o s]|], q as [[o' s']|]; simpl; try (split; congruence).
      split; [congruence|]. intros [= <-]. f_equal. f_equal. symmetry.
      exact (converted_well _ _ _ _ _ _ (Hr _ _ eq_refl) Hdc (Hl _ _ eq_refl)).
  Qed.

  Lemma comparable_spec a b : comparable a b = true <-> kinds_match a b.
  Proof.
    split.
    - destruct a as [|k], b as [|k']; simpl; rewrite ?bool_decide_eq_true; intros E; subst; constructor.
    - intros [[|k]| |]; simpl; rewrite ?bool_decide_eq_true; reflexivity.
  Qed.

  Lemma equal_pointers_compiles c p d q :
    is_Some (equal_pointers H c p d q) <-> related H c d.
  Proof.
    unfold equal_pointers, converted_place, related.
    assert (G : forall c d, unambiguous H c d <-> is_Some (conversion H c d)).
    { intros a b. split; intros [t Ht]; exists t; apply conversion_spec; assumption. }
    rewrite !G. destruct (conversion H c d); simpl; [split; intros _; [left|]; eauto|].
    destruct (conversion H d c); simpl; [split; intros _; [right|]; eauto|].
    split; [intros [? ?]; discriminate|]. intros [[? ?]|[? ?]]; discriminate.
  Qed.

  (* C61 *)
  Lemma equal_same cls l r b :
    points_well H cls l -> points_well H cls r -> equal H l r = Some b -> (b = true <-> same_object l r).
  Proof. unfold equal. case_match; [|discriminate]. apply equal_pointers_same. Qed.

  Lemma unequal_same cls l r b :
    points_well H cls l -> points_well H cls r -> unequal H l r = Some b -> (b = true <-> ~ same_object l r).
  Proof.
    intros Hl Hr. unfold unequal. destruct (equal H l r) as [b'|] eqn:E; simpl; [|discriminate].
    intros [= <-]. rewrite <- (equal_same cls l r b' Hl Hr E). destruct b'; naive_solver.
  Qed.

  Lemma equal_compiles l r :
    (is_Some (equal H l r) <->
       vc_registry l = vc_registry r /\ kinds_match (vc_kind l) (vc_kind r) /\ related H (vc_class l) (vc_class r)) /\
    (is_Some (unequal H l r) <-> is_Some (equal H l r)).
  Proof.
    split.
    - unfold equal. rewrite <- comparable_spec, <- (equal_pointers_compiles _ (vc_place l) _ (vc_place r)).
      destruct (bool_decide _) eqn:Hr; simpl.
      + apply bool_decide_eq_true in Hr. destruct (comparable _ _) eqn:Hc; [tauto|].
        split; [intros [? ?]; discriminate|]. intros (_ & ? & _). discriminate.
      + apply bool_decide_eq_false in Hr. split; [intros [? ?]; discriminate|]. tauto.
    - unfold unequal. destruct (equal H l r); simpl; split; intros [? ?]; try discriminate; eauto.
  Qed.
End Equal.

(* Two virtual_ptrs to one object, in a state reached by operations on virtual_ptrs. *)
Lemma equal_arguments H cf X n2216 R w objs cls P s x y px bx py by_ l r :
  hierarchy_ok H ->
  program_ok cf (r_env X) R -> initialized_by cf X n2216 R w -> inplace_ok (e_ti (r_env X)) R w objs ->
  reaches cf (e_ti (r_env X)) R w objs P s ->
  vs_vars s x = VVar (Some px) bx -> vs_vars s y = VVar py by_ ->
  known R (ob_type (objs px)) ->
  object_of l = Some px -> object_of r = py -> points_well H cls l -> points_well H cls r ->
  equal H l r = Some true ->
  exists a, var_arg w objs s x = Ok a /\ var_arg w objs s y = Ok a.
Proof.
  intros HH HP HW HI Hs Hx Hy Hk Hl Hr Wl Wr E.
  pose proof (proj1 (equal_same H HH cls l r true Wl Wr E) eq_refl) as G. unfold same_object in G.
  rewrite Hl, Hr in G. rewrite <- G in Hy.
  destruct (virtual_ptr_right cf X n2216 R w objs HP HW HI P s x px bx Hs Hx Hk) as (v & Hv & Pv).
  destruct (virtual_ptr_right cf X n2216 R w objs HP HW HI P s y px by_ Hs Hy Hk) as (v' & Hv' & Pv').
  exists (APtr v (ob_type (objs px))). split; [exact Hv|]. rewrite Hv'.
  inversion Pv; subst. inversion Pv'; subst. do 2 f_equal. congruence.
Qed.

Section Guides.
  Context (derives : N -> N -> bool) (polymorphic : N -> vtype -> bool) (r : N).
  Notation deduces := (deduce_class derives polymorphic r).

  Lemma suggested x t res : deduces x = Some (t, res) -> suggests r x t.
  Proof.
    unfold deduce_class. destruct x as [[c|p|k p|p r'|k p r'|] [|] [|]];
      cbv [guided omap list_omap best_guide named x_type x_const x_lvalue orb]; simpl; intros E; try discriminate;
      injection E as <- _; constructor.
  Qed.

  Lemma deduced_init x t res : deduces x = Some (t, res) -> res = initialize_from derives polymorphic false t x.
  Proof.
    unfold deduce_class. destruct (best_guide _) as [d|]; simpl; [|discriminate].
    destruct (named r d); simpl; [|discriminate]. intros [= <- <-]. reflexivity.
  Qed.

  (* C62 *)
  Lemma deduced_meant x t o v :
    classes_ok derives polymorphic -> deduces x = Some (t, Selected o v) ->
    suggests r x t /\ exists m, carries_out o v m /\ meant derives polymorphic t x m.
  Proof.
    intros Hc E. split; [eapply suggested; exact E|].
    apply deduced_init in E. symmetry in E.
    destruct (init_meant _ _ _ _ _ _ _ Hc E) as (m & H1 & H2 & _). eauto.
  Qed.

  Lemma suggestion_deduced x t :
    suggests r x t -> (temporary x -> x_const x = true) -> ~ const_smart x ->
    deduces x = Some (t, initialize_from derives polymorphic false t x).
  Proof.
    intros Hs Ht Hk. destruct Hs as [c q l|k p q l|p r' q l|k p r' q l].
    - destruct q, l; try reflexivity.
    - destruct q; [exfalso; apply Hk; split; [reflexivity|eexists _, _; reflexivity]|]. destruct l; reflexivity.
    - destruct q, l; reflexivity.
    - destruct q, l; reflexivity.
  Qed.

  Lemma meant_deduced x t m :
    classes_ok derives polymorphic -> suggests r x t -> meant derives polymorphic t x m ->
    (temporary x -> x_const x = true) -> ~ const_smart x ->
    exists o v, deduces x = Some (t, Selected o v) /\ carries_out o v m.
  Proof.
    intros Hc Hs Hm Ht Hk.
    destruct (meant_init derives polymorphic false t x m Hc Hm Ht) as (o & v & E & G).
    - intros _. reflexivity.
    - intros to r' p -> Hp. inversion Hs; subst; discriminate.
    - exists o, v. split; [|exact G]. rewrite <- E. apply suggestion_deduced; assumption.
  Qed.
End Guides.
