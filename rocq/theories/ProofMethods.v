(* augment_methods: proofs about ModelMethods.v. *)
From stdpp Require Import base list numbers relations.
From Verif Require Import Base Registry Spec ModelClasses ModelMethods
  ProofBase ProofClasses ProofGraph.

Section Methods.
  Context (E : env) (g : graph).
  Notation ti := (e_ti E).
  Notation cm := (g_map g).

  Definition vp_ok (ts : list N) (cs : list nat) : Prop :=
    Forall2 (fun t c => cm (ti t) = Some c) ts cs.

  Record overrider_ok (o : overrider_record) (o' : overrider) : Prop := {
    oo_vp : vp_ok (or_vp o) (ov_vp o');
    oo_pf : ov_pf o' = or_pf o;
    oo_next : ov_next o' = or_next o
  }.

  Record method_ok (m : method_record) (m' : cmethod) : Prop := {
    mo_vp : vp_ok (mr_vp m) (m_vp m');
    mo_ovs : Forall2 overrider_ok (mr_overriders m) (m_ovs m');
    mo_ni : m_ni m' = mr_not_implemented m;
    mo_amb : m_amb m' = mr_ambiguous m;
    mo_ss : m_ss m' = mr_slots_strides m
  }.

  (* Every overrider parameter derives from the method's. *)
  Definition params_ok (m : cmethod) : Prop :=
    forall p vp o, m_vp m !! p = Some vp -> o ∈ m_ovs m ->
      exists c, ov_vp o !! p = Some c /\ (c = vp \/ c ∈ g_td g vp).

  Lemma find_class_ok t c : find_class E cm t = Ok c <-> cm (ti t) = Some c.
  Proof. unfold find_class. destruct (cm (ti t)); split; congruence. Qed.

  Lemma augment_overrider_ok cov o o' :
    augment_overrider E cm cov o = Ok o' -> overrider_ok o o'.
  Proof.
    unfold augment_overrider. intros H.
    apply obind_ok in H as (vp & Hvp & H). apply obind_ok in H as (oc & _ & [= <-]).
    split; simpl; [|reflexivity..]. unfold vp_ok.
    apply mapM_ok in Hvp. eapply Forall2_impl; [exact Hvp|].
    intros t c. apply find_class_ok.
  Qed.

  Lemma augment_method_ok m m' : augment_method E cm m = Ok m' -> method_ok m m'.
  Proof.
    unfold augment_method. intros H.
    apply obind_ok in H as (vp & Hvp & H). apply obind_ok in H as (ovs & Hovs & [= <-]).
    split; simpl; [| |reflexivity..].
    - apply mapM_ok in Hvp. eapply Forall2_impl; [exact Hvp|].
      intros t c. apply find_class_ok.
    - apply mapM_ok in Hovs. eapply Forall2_impl; [exact Hovs|].
      intros o o'. apply augment_overrider_ok.
  Qed.

  Lemma check_base_ok vp p o :
    check_base g vp p o = Ok tt ->
    exists c, ov_vp o !! p = Some c /\ (c = vp \/ c ∈ g_td g vp).
  Proof.
    unfold check_base. intros H. apply obind_ok in H as (c & Hc & H). apply at_ok in Hc.
    exists c. split; [exact Hc|]. case_decide as Heq; [auto|].
    unfold is_base_of in H. case_bool_decide as Hin; [auto|].
    exfalso. repeat (apply obind_ok in H as (? & _ & H)). discriminate.
  Qed.

  (* The (method, parameter) pairs of each class. *)
  Definition uses_ok (ms : list cmethod) (u : vp_map) : Prop :=
    forall c, NoDup (u c) /\
      forall mi p, (mi, p) ∈ u c <-> exists m, ms !! mi = Some m /\ m_vp m !! p = Some c.

  Lemma imap_pair_split {A} (l : list A) l1 i x l2 :
    imap pair l = l1 ++ (i, x) :: l2 ->
    l !! i = Some x /\ length l1 = i /\ forall j y, (j, y) ∈ l1 <-> j < i /\ l !! j = Some y.
  Proof.
    intros H.
    assert (Hi : i = length l1).
    { assert (Hl : imap pair l !! length l1 = Some (i, x)).
      { rewrite H, lookup_app_r, Nat.sub_diag by lia. reflexivity. }
      rewrite list_lookup_imap in Hl. apply fmap_Some in Hl as (y & _ & Hy). congruence. }
    subst i. split; [|split; [reflexivity|]].
    - assert (Hl : imap pair l !! length l1 = Some (length l1, x)).
      { rewrite H, lookup_app_r, Nat.sub_diag by lia. reflexivity. }
      rewrite list_lookup_imap in Hl. apply fmap_Some in Hl as (y & Hy & Heq). congruence.
    - intros j y. rewrite elem_of_list_lookup. split.
      + intros (k & Hk). assert (Hkl := lookup_lt_Some _ _ _ Hk).
        assert (Hl : imap pair l !! k = Some (j, y)) by (rewrite H, lookup_app_l; auto).
        rewrite list_lookup_imap in Hl. apply fmap_Some in Hl as (z & Hz & Heq).
        injection Heq as -> ->. auto.
      + intros [Hlt Hj]. exists j.
        assert (Hl : imap pair l !! j = Some (j, y)) by (rewrite list_lookup_imap, Hj; reflexivity).
        rewrite H, lookup_app_l in Hl; auto.
  Qed.

  Lemma check_param_ok mi m p vp u u' :
    check_param g mi m (p, vp) u = Ok u' ->
    (forall o, o ∈ m_ovs m -> exists c, ov_vp o !! p = Some c /\ (c = vp \/ c ∈ g_td g vp)) /\
    u' = upd u vp (u vp ++ [(mi, p)]).
  Proof.
    unfold check_param. intros H. apply obind_ok in H as ([] & Hf & [= <-]).
    split; [|reflexivity].
    apply (foldM_inv_prefix_ok (fun pre (_ : unit) => forall o, o ∈ pre ->
      exists c, ov_vp o !! p = Some c /\ (c = vp \/ c ∈ g_td g vp)) _ _ _ _ Hf).
    - intros o Ho. inversion Ho.
    - intros l1 x l2 [] [] _ IH Hx o [Ho|Ho]%elem_of_app; [auto|].
      apply elem_of_list_singleton in Ho as ->. apply check_base_ok. exact Hx.
  Qed.

  (* Invariant of the nested loops: pairs (mi, p) before (i, q) in lexicographic
     order have been recorded. *)
  Definition uses_upto (ms : list cmethod) (i q : nat) (u : vp_map) : Prop :=
    forall c, NoDup (u c) /\
      forall mi p, (mi, p) ∈ u c <->
        (mi < i \/ (mi = i /\ p < q)) /\ exists m, ms !! mi = Some m /\ m_vp m !! p = Some c.

  Lemma augment_methods_ok ms cms u :
    augment_methods E g ms = Ok (cms, u) ->
    Forall2 method_ok ms cms /\ (forall m, m ∈ cms -> params_ok m) /\ uses_ok cms u.
  Proof.
    unfold augment_methods. intros H.
    apply obind_ok in H as (cms' & Hms & H). apply obind_ok in H as (u' & Hu & [= -> ->]).
    split.
    { apply mapM_ok in Hms. eapply Forall2_impl; [exact Hms|].
      intros m m'. apply augment_method_ok. }
    assert (G : (forall i m, (i, m) ∈ imap pair cms -> params_ok m) /\
                uses_upto cms (length (imap pair cms)) 0 u).
    { apply (foldM_inv_prefix_ok (fun pre u =>
        (forall i m, (i, m) ∈ pre -> params_ok m) /\ uses_upto cms (length pre) 0 u)
        _ _ _ _ Hu).
      - split; [intros i m Hm; inversion Hm|]. intros c. split; [constructor|].
        intros mi p. split; [intros Hm; inversion Hm|]. simpl. lia.
      - intros l1 [i m] l2 u1 u2 Hl [IHp IHu] Hc.
        apply imap_pair_split in Hl as (Hi & Hlen & _).
        unfold check_method in Hc.
        assert (G : (forall p vp, (p, vp) ∈ imap pair (m_vp m) -> forall o, o ∈ m_ovs m ->
                       exists c, ov_vp o !! p = Some c /\ (c = vp \/ c ∈ g_td g vp)) /\
                    uses_upto cms i (length (imap pair (m_vp m))) u2).
        { apply (foldM_inv_prefix_ok (fun pre u =>
            (forall p vp, (p, vp) ∈ pre -> forall o, o ∈ m_ovs m ->
               exists c, ov_vp o !! p = Some c /\ (c = vp \/ c ∈ g_td g vp)) /\
            uses_upto cms i (length pre) u) _ _ _ _ Hc).
          - split; [intros p vp Hp; inversion Hp|]. rewrite <- Hlen. exact IHu.
          - intros k1 [p vp] k2 v1 v2 Hk [IHq IHv] Hcp.
            apply imap_pair_split in Hk as (Hp & Hplen & _).
            apply check_param_ok in Hcp as [Hcp ->]. split.
            + intros p' vp' [Hin|Hin]%elem_of_app; [eauto|].
              apply elem_of_list_singleton in Hin. injection Hin as -> ->. exact Hcp.
            + intros c. destruct (IHv c) as [Hnd Hel].
              rewrite app_length. simpl. unfold upd. case_decide as Hcvp.
              * subst c. split.
                { apply NoDup_app. split; [exact Hnd|]. split; [|apply NoDup_singleton].
                  intros x Hx ->%elem_of_list_singleton. apply Hel in Hx as [Hx _]. lia. }
                intros mi q. rewrite elem_of_app, Hel, elem_of_list_singleton. split.
                -- intros [[Hx Hm]|[= -> ->]]; [split; [lia|exact Hm]|].
                   split; [lia|]. exists m. auto.
                -- intros [Hx (m0 & Hm0 & Hq)].
                   destruct (decide ((mi, q) = (i, p))) as [?|Hne]; [auto|].
                   left. split; [|eauto].
                   destruct Hx as [?|[-> ?]]; [auto|]. right. split; [reflexivity|].
                   assert (q <> p) by congruence. lia.
              * split; [exact Hnd|]. intros mi q. rewrite Hel. split.
                -- intros [Hx Hm]. split; [lia|exact Hm].
                -- intros [Hx (m0 & Hm0 & Hq)]. split; [|eauto].
                   destruct Hx as [?|[-> ?]]; [auto|]. right. split; [reflexivity|].
                   assert (q <> p); [|lia]. intros ->. congruence. }
        destruct G as [Gp Gu]. split.
        + intros i' m' [Hin|Hin]%elem_of_app; [eauto|].
          apply elem_of_list_singleton in Hin. injection Hin as -> ->.
          intros p vp o Hp Ho. apply (Gp p vp); [|exact Ho].
          apply elem_of_list_lookup. exists p. rewrite list_lookup_imap, Hp. reflexivity.
        + intros c. destruct (Gu c) as [Hnd Hel]. split; [exact Hnd|].
          intros mi p. rewrite Hel, app_length. simpl. rewrite imap_length. split.
          * intros [Hx Hm]. split; [lia|exact Hm].
          * intros [Hx (m0 & Hm0 & Hp)]. split; [|eauto].
            destruct (decide (mi < i)); [auto|]. right.
            assert (mi = i) as -> by lia. split; [reflexivity|].
            assert (m0 = m) as -> by congruence. apply lookup_lt_Some in Hp. exact Hp. }
    destruct G as [Gp Gu]. split.
    - intros m Hm. apply elem_of_list_lookup in Hm as [i Hi]. apply (Gp i).
      apply elem_of_list_lookup. exists i. rewrite list_lookup_imap, Hi. reflexivity.
    - intros c. destruct (Gu c) as [Hnd Hel]. split; [exact Hnd|].
      intros mi p. rewrite Hel, imap_length. split.
      + intros [_ H]. exact H.
      + intros (m & Hm & Hp). split; [|eauto]. apply lookup_lt_Some in Hm. lia.
  Qed.

  Lemma method_ok_arity m m' : method_ok m m' -> length (m_vp m') = length (mr_vp m).
  Proof. intros H. symmetry. eapply Forall2_length, mo_vp. exact H. Qed.

  Lemma overrider_ok_arity o o' : overrider_ok o o' -> length (ov_vp o') = length (or_vp o).
  Proof. intros H. symmetry. eapply Forall2_length, oo_vp. exact H. Qed.
End Methods.
