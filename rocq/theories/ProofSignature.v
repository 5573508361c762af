(* Proofs about the classes registered for methods and overriders (C44). *)
From stdpp Require Import base list numbers.
From Verif Require Import Base Registry Spec ModelClasses ModelHash ModelWorld ModelCall SpecCall
  ModelSignature SpecSignature ProofBase ProofDispatch ProofBehaviour ProofNext.

Section Signature.
  Context (R : N) (polymorphic : ty -> bool) (base_of convertible : ty -> ty -> bool)
    (static_type : ty -> N) (static_void : N).
  Notation id_of := (fun c => static_type (TyName c)).

  Lemma class_type_cv t c : class_type t c -> remove_cv t = TyName c.
  Proof. intros []; reflexivity. Qed.

  Lemma refers_type t c : refers t c -> virtual_type R t = Some (TyName c).
  Proof.
    intros Ht. destruct Ht as [t c Hc|c|t c Hc|t c Hs|t c Hc|t c Hc]; simpl; try reflexivity;
      try (destruct Hc; reflexivity).
    destruct Hs as [t c Hc|t c Hc|t c Hc]; simpl; by rewrite (class_type_cv _ _ Hc).
  Qed.

  (* What a method that compiles does not contain. *)
  Lemma method_rejects ps : method_compiles R polymorphic ps = true ->
    (exists p, p ∈ ps /\ ~ ordinary p) /\
    (forall t r, TyVptr t r ∈ ps -> r = R) /\
    (forall t c, TyVirtual t ∈ ps -> refers t c -> polymorphic (TyName c) = true).
  Proof.
    intros [Hv Ha]%andb_prop. rewrite forallb_forall in Hv. apply bool_decide_eq_true in Ha. split; [|split].
    - unfold arity in Ha. destruct (filter (fun t => is_virtual t = true) ps) as [|p l] eqn:Hf; [simpl in Ha; lia|].
      assert (Hp : p ∈ filter (fun t => is_virtual t = true) ps) by (rewrite Hf; constructor).
      apply elem_of_list_filter in Hp as [Hp Hin]. exists p. split; [exact Hin|]. intros [H1 H2].
      destruct p as [n|t|t|t|t|t|t|t|t|t r]; try discriminate Hp; [|eapply H1; reflexivity|].
      + destruct t as [n|t|t|t|t|t|t|t|t|t r]; try discriminate Hp.
        * destruct t as [n|t|t|t|t|t|t|t|t|t r]; try discriminate Hp. destruct (H2 t r) as (_ & _ & H). by apply H.
        * destruct (H2 t r) as (_ & H & _). by apply H.
      + destruct (H2 t r) as (H & _ & _). by apply H.
    - intros t r Hin. specialize (Hv _ (proj1 (elem_of_list_In _ _) Hin)). simpl in Hv.
      by apply bool_decide_eq_true in Hv.
    - intros t c Hin Ht. specialize (Hv _ (proj1 (elem_of_list_In _ _) Hin)). simpl in Hv.
      by rewrite (refers_type _ _ Ht) in Hv.
  Qed.

  Lemma pointed_type t c : class_type t c \/ smart_pointer t c -> remove_cv (element_type t) = TyName c.
  Proof.
    intros [Ht|Ht]; [destruct Ht; reflexivity|].
    destruct Ht as [t c Hc|t c Hc|t c Hc]; simpl; by rewrite (class_type_cv _ _ Hc).
  Qed.

  Lemma pointer_type p c : virtual_pointer R p c ->
    is_virtual p = true /\ remove_virtual p = p /\ virtual_type R p = Some (TyName c).
  Proof.
    intros Hp. destruct Hp as [t c Hc|t c Hc]; simpl; rewrite decide_True by done;
      by rewrite (pointed_type _ _ Hc).
  Qed.

  Lemma parameter_type p c : virtual_parameter R p c ->
    is_virtual p = true /\ virtual_type R (remove_virtual p) = Some (TyName c).
  Proof.
    intros Hp. destruct Hp as [t c Ht|p c Hp].
    - simpl. split; [done|]. by apply refers_type.
    - destruct (pointer_type _ _ Hp) as (H1 & H2 & H3). by rewrite H2.
  Qed.

  Lemma parameter_valid p c : virtual_parameter R p c ->
    (forall t, p = TyVirtual t -> forall d, refers t d -> polymorphic (TyName d) = true) ->
    validate_method_parameter R polymorphic p = true.
  Proof.
    intros Hp Hpoly. destruct Hp as [t c Ht|p c Hp].
    - simpl. rewrite (refers_type _ _ Ht). by apply (Hpoly t).
    - destruct Hp as [t c Hc|t c Hc]; [by apply bool_decide_eq_true_2|reflexivity].
  Qed.

  Lemma ordinary_valid p : ordinary p -> (forall t, p <> TyLRef (TyShared t)) ->
    validate_method_parameter R polymorphic p = true.
  Proof.
    intros [H1 H2] Hs. destruct p as [n|t|t|t|t|t|t|t|t|t r]; try reflexivity.
    - destruct t as [n|t|t|t|t|t|t|t|t|t r]; try reflexivity.
      + by destruct (Hs t).
      + destruct (H2 t r) as (_ & H & _). by destruct H.
    - by destruct (H1 t).
    - destruct (H2 t r) as (H & _). by destruct H.
  Qed.

  Theorem method_accepts ps cs : method_classes R ps cs -> cs <> [] ->
    (forall t c, TyVirtual t ∈ ps -> refers t c -> polymorphic (TyName c) = true) ->
    (forall t, TyLRef (TyShared t) ∉ ps) ->
    method_compiles R polymorphic ps = true.
  Proof.
    intros Hm Hcs Hpoly Hs. unfold method_compiles.
    assert (Hv : forallb (validate_method_parameter R polymorphic) ps = true /\
                 (cs <> [] -> 0 < arity ps)).
    { clear Hcs. induction Hm as [|p ps cs Ho Hm IH|p c ps cs Hp Hm IH]; [done|..].
      - destruct IH as [IH1 IH2].
        { intros. eapply Hpoly; [by right|eassumption]. }
        { intros t Ht. by apply (Hs t); right. }
        simpl. rewrite ordinary_valid, IH1; [|exact Ho|intros t ->; apply (Hs t); left].
        split; [done|]. intros Hc. specialize (IH2 Hc). unfold arity in *. rewrite filter_cons.
        destruct (decide _); simpl; lia.
      - destruct IH as [IH1 _].
        { intros. eapply Hpoly; [by right|eassumption]. }
        { intros t Ht. by apply (Hs t); right. }
        simpl. rewrite (parameter_valid p c), IH1; [|exact Hp|].
        + split; [done|]. intros _. unfold arity. rewrite filter_cons.
          rewrite decide_True by apply (parameter_type _ _ Hp). simpl. lia.
        + intros t -> d Hd. by apply (Hpoly t); [left|]. }
    destruct Hv as [-> Ha]. by apply bool_decide_eq_true_2, Ha.
  Qed.

  Lemma ordinary_virtual p : ordinary p <-> is_virtual p = false.
  Proof.
    split.
    - intros [H1 H2]. destruct p as [n|t|t|t|t|t|t|t|t|t r]; simpl; try done.
      + destruct t as [n|t|t|t|t|t|t|t|t|t r]; try done.
        * destruct t as [n|t|t|t|t|t|t|t|t|t r]; try done. by destruct (H2 t r) as (_ & _ & ?).
        * by destruct (H2 t r) as (_ & ? & _).
      + by destruct (H1 t).
      + by destruct (H2 t r) as (? & _ & _).
    - intros Hv. split.
      + intros t ->. discriminate.
      + intros t r. repeat split; intros ->; discriminate.
  Qed.

  Lemma ordinary_select p q : ordinary p -> select_overrider_virtual_type R p q = None.
  Proof.
    intros [H1 H2]. destruct p as [n|t|t|t|t|t|t|t|t|t r]; try reflexivity.
    - destruct t as [n|t|t|t|t|t|t|t|t|t r]; try reflexivity.
      destruct t as [n|t|t|t|t|t|t|t|t|t r]; try reflexivity. by destruct (H2 t r) as (_ & _ & ?).
    - by destruct (H1 t).
    - by destruct (H2 t r) as (? & _ & _).
  Qed.

  Lemma method_types ps cs : method_classes R ps cs ->
    map (fun t => virtual_type R (remove_virtual t)) (filter (fun t => is_virtual t = true) ps) =
    map (fun c => Some (TyName c)) cs.
  Proof.
    intros Hps. induction Hps as [|p ps cs Ho Hps IH|p c ps cs Hp Hps IH]; simpl; [done| |].
    - apply ordinary_virtual in Ho. rewrite filter_cons_False by congruence. exact IH.
    - destruct (parameter_type _ _ Hp) as [H1 H2]. rewrite filter_cons_True by done.
      simpl. by rewrite H2, IH.
  Qed.

  Lemma method_arity ps cs : method_classes R ps cs -> arity ps = length cs.
  Proof.
    intros Hps. unfold arity. rewrite <- (map_length (fun t => virtual_type R (remove_virtual t))).
    rewrite (method_types _ _ Hps). by rewrite map_length.
  Qed.

  Lemma init_exact ids : init_type_ids (length ids) ids = Ok ids.
  Proof.
    unfold init_type_ids. rewrite decide_True by lia. by rewrite Nat.sub_diag, app_nil_r.
  Qed.

  Theorem method_registers ps cs : method_classes R ps cs ->
    method_ids R static_type static_void ps = Ok (map id_of cs).
  Proof.
    intros Hps. unfold method_ids. rewrite map_map.
    rewrite <- (map_map (fun t => virtual_type R (remove_virtual t)) (type_of static_type static_void)).
    rewrite (method_types _ _ Hps), map_map. simpl. rewrite (method_arity _ _ Hps).
    rewrite <- (map_length id_of cs). apply init_exact.
  Qed.

  Lemma pointer_select p q c d : virtual_pointer R p c -> virtual_pointer R q d ->
    is_Some (select_overrider_virtual_type R p q) ->
    select_overrider_virtual_type R p q = Some (TyName d).
  Proof.
    intros Hp Hq [x Hx]. destruct (pointer_type _ _ Hq) as (_ & _ & H3).
    destruct Hp, Hq; simpl in Hx |- *; try discriminate;
      rewrite decide_True by done; exact H3.
  Qed.

  Lemma overrider_types ps qs ds :
    overrider_classes R ps qs ds -> overrider_compiles R base_of convertible ps qs = true ->
    overrider_virtual_types R ps qs = map TyName ds.
  Proof.
    unfold overrider_compiles. intros Ho. intros Hc. apply andb_true_iff in Hc as [_ Hc].
    revert Hc. unfold overrider_virtual_types.
    induction Ho as [|p q ps qs ds Hp Ho IH|t q d ps qs ds Hq Ho IH|p q c d ps qs ds Hp Hq Ho IH];
      simpl; intros Hc; [done| | |]; apply andb_true_iff in Hc as [Hpq Hc].
    - rewrite (ordinary_select p q) by done. exact (IH Hc).
    - rewrite (refers_type _ _ Hq). simpl. f_equal. exact (IH Hc).
    - assert (Hs : select_overrider_virtual_type R p q = Some (TyName d)).
      { apply (pointer_select p q c d Hp Hq).
        apply andb_true_iff in Hpq as [Hv _].
        destruct (pointer_type _ _ Hq) as (_ & _ & H3).
        destruct Hp, Hq; try (exfalso; revert Hv; vm_compute; discriminate);
          unfold select_overrider_virtual_type; rewrite decide_True by done; by rewrite H3. }
      rewrite Hs. simpl. f_equal. exact (IH Hc).
  Qed.

  Lemma overrider_classes_length ps qs ds : overrider_classes R ps qs ds -> arity ps = length ds.
  Proof.
    intros Ho. unfold arity.
    induction Ho as [|p q ps qs ds Hp Ho IH|t q d ps qs ds Hq Ho IH|p q c d ps qs ds Hp Hq Ho IH].
    - done.
    - apply ordinary_virtual in Hp. rewrite filter_cons_False by congruence. exact IH.
    - rewrite filter_cons_True by done. simpl. by rewrite IH.
    - destruct (pointer_type _ _ Hp) as [H1 _]. rewrite filter_cons_True by done. simpl. by rewrite IH.
  Qed.

  Theorem overrider_registers ps qs ds :
    overrider_classes R ps qs ds -> overrider_compiles R base_of convertible ps qs = true ->
    overrider_ids R static_type ps qs = Ok (map id_of ds).
  Proof.
    intros Ho Hc. unfold overrider_ids. rewrite (overrider_types _ _ _ Ho Hc), map_map.
    rewrite (overrider_classes_length _ _ _ Ho), <- (map_length id_of ds). apply init_exact.
  Qed.

  Lemma best_vptr t r u r' : TyVptr t r <> TyVptr u r' -> best (TyVptr t r) (TyVptr u r') = [SpVptr].
  Proof.
    intros Hne. unfold best, specializations, matches.
    rewrite (bool_decide_eq_false_2 _ Hne). reflexivity.
  Qed.

  Lemma best_vptr_same t r : best (TyVptr t r) (TyVptr t r) = [SpVptrSame].
  Proof.
    unfold best, specializations, matches.
    rewrite (bool_decide_eq_true_2 (TyVptr t r = TyVptr t r) eq_refl). reflexivity.
  Qed.

  Lemma best_vptr_ref t r u r' : TyVptr t r <> TyVptr u r' ->
    best (TyLRef (TyConst (TyVptr t r))) (TyLRef (TyConst (TyVptr u r'))) = [SpVptrRef].
  Proof.
    intros Hne. unfold best, specializations, matches.
    rewrite (bool_decide_eq_false_2 (TyLRef (TyConst (TyVptr t r)) = TyLRef (TyConst (TyVptr u r')))).
    - reflexivity.
    - intros Heq. apply Hne. by injection Heq as -> ->.
  Qed.

  (* Two specializations, neither of which is more specialized. *)
  Lemma best_vptr_ref_same t r :
    best (TyLRef (TyConst (TyVptr t r))) (TyLRef (TyConst (TyVptr t r))) = [SpSame; SpVptrRef].
  Proof.
    unfold best, specializations, matches.
    rewrite (bool_decide_eq_true_2 _ (eq_refl (TyLRef (TyConst (TyVptr t r))))). reflexivity.
  Qed.

  Lemma best_rref_same t r : best (TyRRef (TyVptr t r)) (TyRRef (TyVptr t r)) = [SpSame; SpVptrRRef].
  Proof.
    unfold best, specializations, matches.
    rewrite (bool_decide_eq_true_2 _ (eq_refl (TyRRef (TyVptr t r)))). reflexivity.
  Qed.

  Lemma validate_registry t r u r' :
    validate_overrider_parameter base_of convertible (TyVptr t r) (TyVptr u r') = true -> r' = r.
  Proof.
    destruct (decide (TyVptr t r = TyVptr u r')) as [Heq|Hne].
    - intros _. by injection Heq as _ ->.
    - unfold validate_overrider_parameter. rewrite (best_vptr _ _ _ _ Hne). simpl.
      intros Hv. apply andb_true_iff in Hv as [Hv _]. apply andb_true_iff in Hv as [Hv _].
      by apply bool_decide_eq_true in Hv.
  Qed.

  Lemma validate_ref_registry t r u r' :
    validate_overrider_parameter base_of convertible
      (TyLRef (TyConst (TyVptr t r))) (TyLRef (TyConst (TyVptr u r'))) = true -> r' = r.
  Proof.
    destruct (decide (TyVptr t r = TyVptr u r')) as [Heq|Hne].
    - intros _. by injection Heq as _ ->.
    - unfold validate_overrider_parameter. rewrite (best_vptr_ref _ _ _ _ Hne). simpl.
      intros Hv. apply andb_true_iff in Hv as [Hv _]. apply andb_true_iff in Hv as [Hv _].
      by apply bool_decide_eq_true in Hv.
  Qed.

  (* Whatever the forms of the parameters of the overrider. *)
  Lemma select_some p c q : virtual_parameter R p c ->
    validate_overrider_parameter base_of convertible p q = true -> castable R p q = true ->
    (forall t r, q = TyVptr t r -> exists t' r', p = TyVptr t' r') ->
    is_Some (select_overrider_virtual_type R p q).
  Proof.
    intros Hp Hv Hc Hq. destruct Hp as [t c Ht|p c Hp].
    - simpl. assert (Hq' : forall u r, q <> TyVptr u r).
      { intros u r ->. destruct (Hq u r eq_refl) as (t' & r' & ?). discriminate. }
      destruct q as [n|u|u|u|u|u|u|u|u|u r]; simpl; try (by eexists);
        try (by destruct (Hq' u r));
        try (destruct Ht as [? ? []|?|? ? []|? ? []|? ? ?|? ? ?]; discriminate).
      destruct u as [n|u|u|u|u|u|u|u|u|u r]; try (by eexists).
      destruct u as [n|u|u|u|u|u|u|u|u|u r]; try (by eexists). case_decide; by eexists.
    - destruct Hp as [t c _|t c _].
      + destruct q as [n|u|u|u|u|u|u|u|u|u r];
          try (exfalso; revert Hv; vm_compute; discriminate).
        * destruct u as [n|u|u|u|u|u|u|u|u|u r]; try (exfalso; revert Hv; vm_compute; discriminate).
          destruct u as [n|u|u|u|u|u|u|u|u|u r]; exfalso; revert Hv; vm_compute; discriminate.
        * apply validate_registry in Hv as ->. unfold select_overrider_virtual_type, virtual_type.
          rewrite !decide_True by done. by eexists.
      + destruct q as [n|u|u|u|u|u|u|u|u|u r];
          try (exfalso; revert Hv; vm_compute; discriminate).
        destruct u as [n|u|u|u|u|u|u|u|u|u r]; try (exfalso; revert Hv; vm_compute; discriminate).
        destruct u as [n|u|u|u|u|u|u|u|u|u r]; try (exfalso; revert Hv; vm_compute; discriminate).
        apply validate_ref_registry in Hv as ->. unfold select_overrider_virtual_type, virtual_type.
        rewrite !decide_True by done. by eexists.
  Qed.

  Theorem overrider_arity ps cs qs :
    method_classes R ps cs -> overrider_compiles R base_of convertible ps qs = true ->
    pointers_match ps qs ->
    exists ids, overrider_ids R static_type ps qs = Ok ids /\ length ids = length cs /\
      ids = map static_type (overrider_virtual_types R ps qs).
  Proof.
    intros Hps Hc Hm.
    assert (Hlen : length (overrider_virtual_types R ps qs) = length cs).
    { unfold overrider_compiles in Hc. apply andb_true_iff in Hc as [Hl Hc].
      apply bool_decide_eq_true in Hl. unfold overrider_virtual_types.
      revert qs Hl Hc Hm.
      induction Hps as [|p ps cs Ho Hps IH|p c ps cs Hp Hps IH]; intros qs Hl Hc Hm;
        (destruct qs as [|q qs]; simpl in Hl; [try discriminate|try discriminate]); [done| |];
        simpl in Hc; apply andb_true_iff in Hc as [Hpq Hc]; injection Hl as Hl;
        (assert (Hm' : pointers_match ps qs) by (intros i q' t r Hi; exact (Hm (S i) q' t r Hi))).
      - simpl. rewrite (ordinary_select p q Ho). exact (IH qs Hl Hc Hm').
      - apply andb_true_iff in Hpq as [Hv Hca].
        destruct (select_some p c q Hp Hv Hca) as [x Hx].
        { intros t r Hq. destruct (Hm 0 q t r eq_refl Hq) as (p' & t' & r' & Hp' & ?).
          injection Hp' as <-. by exists t', r'. }
        simpl. rewrite Hx. simpl. f_equal. exact (IH qs Hl Hc Hm'). }
    exists (map static_type (overrider_virtual_types R ps qs)). repeat split.
    - unfold overrider_ids. rewrite (method_arity _ _ Hps), <- Hlen.
      rewrite <- (map_length static_type). apply init_exact.
    - by rewrite map_length.
  Qed.

  (* The documented overriders compile. *)
  Lemma best_virtual t q : (forall u, q <> TyVirtual u) -> best (TyVirtual t) q = [SpVirtual].
  Proof.
    intros Hq. unfold best, specializations, matches.
    rewrite (bool_decide_eq_false_2 (TyVirtual t = q)) by (intros Heq; exact (Hq t (eq_sym Heq))).
    destruct q as [n|u|u|u|u|u|u|u|u|u r]; try reflexivity. by destruct (Hq u).
  Qed.

  Lemma may_override_compiles p q :
    may_override R base_of convertible p q ->
    (forall t r, p = TyLRef (TyConst (TyVptr t r)) -> q <> p) -> (forall t, p <> TyRRef t) ->
    validate_overrider_parameter base_of convertible p q = true /\ castable R p q = true.
  Proof.
    intros Hm Hne Hr. destruct Hm as [p Ho|t q Hf|t u c d Ht Hu Hb Hc|t u c d Ht Hu Hb Hc].
    - split.
      + unfold validate_overrider_parameter.
        assert (Hbest : best p p = [SpSame]); [|by rewrite Hbest].
        destruct Ho as [H1 H2]. unfold best, specializations, matches.
        rewrite (bool_decide_eq_true_2 (p = p) eq_refl).
        destruct p as [n|u|u|u|u|u|u|u|u|u r]; try reflexivity.
        * destruct u as [n|u|u|u|u|u|u|u|u|u r]; try reflexivity.
          destruct u as [n|u|u|u|u|u|u|u|u|u r]; try reflexivity.
          by destruct (H2 u r) as (_ & _ & ?).
        * by destruct (Hr u).
        * by destruct (H1 u).
        * by destruct (H2 u r) as (? & _ & _).
      + destruct Ho as [H1 _]. unfold castable.
        destruct p as [n|u|u|u|u|u|u|u|u|u r]; try (apply bool_decide_eq_true_2; reflexivity).
        * destruct u as [n|u|u|u|u|u|u|u|u|u r]; try (apply bool_decide_eq_true_2; reflexivity).
          destruct u as [n|u|u|u|u|u|u|u|u|u r]; try (apply bool_decide_eq_true_2; reflexivity).
          apply orb_true_iff. right. apply bool_decide_eq_true_2; reflexivity.
        * by destruct (Hr u).
        * by destruct (H1 u).
        * apply orb_true_iff. right. apply bool_decide_eq_true_2; reflexivity.
    - split.
      + unfold validate_overrider_parameter. rewrite best_virtual; [done|].
        intros u ->. inversion Hf.
      + destruct Hf as [? ? ? ? [] []|?|? ? ? ? [] []| | | | |]; reflexivity.
    - split.
      + unfold validate_overrider_parameter.
        destruct (decide (TyVptr t R = TyVptr u R)) as [Heq|Hn].
        * injection Heq as ->. by rewrite best_vptr_same.
        * rewrite (best_vptr _ _ _ _ Hn). unfold validate_vptr; cbn [remove_cv].
          rewrite bool_decide_eq_true_2 by done.
          rewrite (pointed_type _ _ Ht), (pointed_type _ _ Hu), Hb, Hc. done.
      + unfold castable. rewrite bool_decide_eq_true_2 by done. done.
    - split.
      + unfold validate_overrider_parameter. rewrite best_vptr_ref.
        * unfold validate_vptr; cbn [remove_cv]. rewrite bool_decide_eq_true_2 by done.
          rewrite (pointed_type _ _ Ht), (pointed_type _ _ Hu), Hb, Hc. done.
        * intros Heq. injection Heq as ->. by apply (Hne u R).
      + unfold castable. rewrite bool_decide_eq_true_2 by done. done.
  Qed.

  Theorem documented_compiles ps qs :
    Forall2 (may_override R base_of convertible) ps qs ->
    Forall2 (fun p q => (forall t r, p = TyLRef (TyConst (TyVptr t r)) -> q <> p) /\
                        (forall t, p <> TyRRef t)) ps qs ->
    overrider_compiles R base_of convertible ps qs = true.
  Proof.
    intros H1 H2. unfold overrider_compiles.
    rewrite (bool_decide_eq_true_2 _ (Forall2_length _ _ _ H1)). simpl.
    revert H2. induction H1 as [|p q ps qs Hpq H1 IH]; intros H2; [done|].
    inversion H2 as [|? ? ? ? [Hne Hr] H2' E1 E2]; subst. simpl.
    destruct (may_override_compiles _ _ Hpq Hne Hr) as [-> ->]. exact (IH H2').
  Qed.

  Theorem reference_same_rejected t r qs ps i :
    ps !! i = Some (TyLRef (TyConst (TyVptr t r))) -> qs !! i = Some (TyLRef (TyConst (TyVptr t r))) ->
    overrider_compiles R base_of convertible ps qs = false.
  Proof.
    intros Hp Hq. apply not_true_is_false. intros Hc. unfold overrider_compiles in Hc.
    apply andb_true_iff in Hc as [_ Hc]. rewrite forallb_forall in Hc.
    assert (Hin : (TyLRef (TyConst (TyVptr t r)), TyLRef (TyConst (TyVptr t r))) ∈ zip ps qs).
    { apply elem_of_list_lookup. exists i. apply lookup_zip_with_Some. eauto. }
    apply elem_of_list_In, Hc in Hin. simpl in Hin.
    unfold validate_overrider_parameter in Hin. rewrite best_vptr_ref_same in Hin. discriminate.
  Qed.

  Theorem rvalue_rejected t ps qs i :
    ps !! i = Some (TyRRef t) -> overrider_compiles R base_of convertible ps qs = false.
  Proof.
    intros Hp. apply not_true_is_false. intros Hc. unfold overrider_compiles in Hc.
    apply andb_true_iff in Hc as [Hl Hc]. rewrite forallb_forall in Hc.
    apply bool_decide_eq_true in Hl.
    destruct (lookup_lt_is_Some_2 qs i) as [q Hq].
    { rewrite <- Hl. by eapply lookup_lt_Some. }
    assert (Hin : (TyRRef t, q) ∈ zip ps qs).
    { apply elem_of_list_lookup. exists i. apply lookup_zip_with_Some. eauto. }
    apply elem_of_list_In, Hc in Hin. apply andb_true_iff in Hin as [_ Hin]. discriminate.
  Qed.

  Theorem other_registry_rejected t r ps qs i : r <> R ->
    ps !! i = Some (TyLRef (TyConst (TyVptr t r))) -> overrider_compiles R base_of convertible ps qs = false.
  Proof.
    intros Hr Hp. apply not_true_is_false. intros Hc. pose proof Hc as Hc'. unfold overrider_compiles in Hc.
    apply andb_true_iff in Hc as [Hl Hc]. rewrite forallb_forall in Hc.
    apply bool_decide_eq_true in Hl.
    destruct (lookup_lt_is_Some_2 qs i) as [q Hq].
    { rewrite <- Hl. by eapply lookup_lt_Some. }
    assert (Hin : (TyLRef (TyConst (TyVptr t r)), q) ∈ zip ps qs).
    { apply elem_of_list_lookup. exists i. apply lookup_zip_with_Some. eauto. }
    apply elem_of_list_In, Hc in Hin. apply andb_true_iff in Hin as [_ Hin].
    cbn [fst snd castable] in Hin. rewrite bool_decide_eq_false_2 in Hin by done.
    apply bool_decide_eq_true in Hin as <-.
    by rewrite (reference_same_rejected t r qs ps i Hp Hq) in Hc'.
  Qed.
End Signature.

Section Dispatch.
  Context (r : N) (polymorphic : ty -> bool) (base_of convertible : ty -> ty -> bool)
    (static_type : ty -> N) (static_void : N).
  Notation id_of := (fun c => static_type (TyName c)).

  Lemma overrider_record_of ps o orec ds :
    overrider_registered r static_type static_void ps o = Ok orec ->
    overrider_classes r ps (os_parameters o) ds ->
    overrider_compiles r base_of convertible ps (os_parameters o) = true ->
    or_vp orec = map id_of ds /\ or_pf orec = os_pf o.
  Proof.
    unfold overrider_registered. intros Hr Hd Hc.
    rewrite (overrider_registers r base_of convertible static_type _ _ _ Hd Hc) in Hr.
    injection Hr as <-. done.
  Qed.

  Lemma method_record_of s m cs :
    method_registered r static_type static_void s = Ok m -> method_classes r (ms_parameters s) cs ->
    mr_vp m = map id_of cs /\
    Forall2 (fun o orec => overrider_registered r static_type static_void (ms_parameters s) o = Ok orec)
      (ms_overriders s) (mr_overriders m).
  Proof.
    unfold method_registered. intros Hr Hc.
    rewrite (method_registers r static_type static_void _ _ Hc) in Hr. simpl in Hr.
    apply obind_ok in Hr as (ovs & Hovs & Hr). injection Hr as <-. simpl. split; [done|].
    by apply mapM_ok in Hovs.
  Qed.

  Context (Rg : registrations) (S : list method_source).
  Context (HR : Forall2 (fun s m => method_registered r static_type static_void s = Ok m) S (reg_methods Rg)).
  Context (HS : forall s, s ∈ S -> source_ok r polymorphic base_of convertible s).

  Lemma sources_arity : arity_ok Rg.
  Proof.
    intros m Hm. apply elem_of_list_lookup in Hm as [k Hk].
    destruct (Forall2_lookup_r _ _ _ _ _ HR Hk) as (s & Hs & Hr).
    destruct (HS s (elem_of_list_lookup_2 _ _ _ Hs)) as [Hcomp (cs & Hcs) Hovs].
    destruct (method_record_of s m cs Hr Hcs) as [Hvp Ho].
    unfold method_source_compiles in Hcomp. apply andb_true_iff in Hcomp as [Hmc Hoc].
    apply andb_true_iff in Hmc as [_ Har]. apply bool_decide_eq_true in Har.
    rewrite (method_arity r _ _ Hcs) in Har. rewrite Hvp. split.
    - destruct cs; [simpl in Har; lia|discriminate].
    - intros orec Horec. apply elem_of_list_lookup in Horec as [i Hi].
      destruct (Forall2_lookup_r _ _ _ _ _ Ho Hi) as (o & Hoi & Hreg).
      rewrite forallb_forall in Hoc. apply elem_of_list_lookup_2 in Hoi.
      destruct (Hovs o Hoi) as [ds Hds].
      destruct (overrider_record_of _ _ _ _ Hreg Hds) as [-> _].
      { by apply Hoc, elem_of_list_In. }
      rewrite !map_length, <- (method_arity r _ _ Hcs).
      symmetry. eapply overrider_classes_length. exact Hds.
  Qed.

  Theorem source_dispatch cf X w mid k s m all args i o ds :
    env_ok (r_env X) -> acyclic (e_ti (r_env X)) Rg -> ids_ok Rg ->
    hash_size_ok cf (length (reg_classes Rg)) -> addresses_ok (e_ti (r_env X)) Rg ->
    bases_first (e_ti (r_env X)) Rg -> initialized_by cf X false Rg w ->
    S !! k = Some s -> reg_methods Rg !! k = Some m ->
    call_ok cf (e_ti (r_env X)) Rg w m all args -> functions_ok m ->
    length args = 1 \/ together all ->
    ms_overriders s !! i = Some o -> overrider_classes r (ms_parameters s) (os_parameters o) ds ->
    accepts (e_ti (r_env X)) Rg id_of args ds ->
    (forall j o' ds', ms_overriders s !! j = Some o' -> j <> i ->
       overrider_classes r (ms_parameters s) (os_parameters o') ds' ->
       accepts (e_ti (r_env X)) Rg id_of args ds' -> better (e_ti (r_env X)) Rg id_of ds ds') ->
    call cf w mid m all = Ok (Calls (os_pf o)).
  Proof.
    intros He Ha Hids Hh Hadd Hbf Hi Hs Hm Hc Hf Htog Ho Hds Hacc Hbest.
    assert (HP : program_ok cf (r_env X) Rg) by (constructor; auto using sources_arity).
    destruct (HS s (elem_of_list_lookup_2 _ _ _ Hs)) as [Hcomp (cs & Hcs) Hovs].
    pose proof (Forall2_lookup_lr _ _ _ _ _ _ HR Hs Hm) as Hreg.
    destruct (method_record_of s m cs Hreg Hcs) as [Hvp Hos].
    unfold method_source_compiles in Hcomp. apply andb_true_iff in Hcomp as [_ Hoc].
    rewrite forallb_forall in Hoc.
    assert (Hof : forall j o', ms_overriders s !! j = Some o' -> exists orec ds',
      mr_overriders m !! j = Some orec /\ overrider_classes r (ms_parameters s) (os_parameters o') ds' /\
      (forall ds'', overrider_classes r (ms_parameters s) (os_parameters o') ds'' ->
         or_vp orec = map id_of ds'') /\ or_pf orec = os_pf o').
    { intros j o' Hj. destruct (Forall2_lookup_l _ _ _ _ _ Hos Hj) as (orec & Hjr & Hr).
      pose proof (elem_of_list_lookup_2 _ _ _ Hj) as Hin. destruct (Hovs o' Hin) as [ds' Hds'].
      assert (Hcm : overrider_compiles r base_of convertible (ms_parameters s) (os_parameters o') = true)
        by (by apply Hoc, elem_of_list_In).
      exists orec, ds'. repeat split; auto.
      - intros ds'' Hds''. by eapply overrider_record_of.
      - by eapply overrider_record_of. }
    destruct (Hof i o Ho) as (orec & _ & Hir & _ & Hvpo & Hpf).
    rewrite <- Hpf.
    eapply (call_best cf X Rg w HP Hbf mid m all args i orec); eauto.
    - destruct Htog as [H1|H1]; [left|by right].
      pose proof (ca_valid _ _ _ _ _ _ _ Hc) as Hva. apply Forall2_length in Hva. congruence.
    - unfold applicable. rewrite (Hvpo _ Hds). exact Hacc.
    - intros j orec' Hj Hne Happ.
      destruct (Forall2_lookup_r _ _ _ _ _ Hos Hj) as (o' & Hj' & _).
      destruct (Hof j o' Hj') as (orec2 & ds' & Hj2 & Hds' & Hvp' & _).
      assert (orec2 = orec') as -> by congruence.
      unfold dominates. rewrite (Hvpo _ Hds), (Hvp' _ Hds').
      apply (Hbest j o' ds' Hj' Hne Hds'). unfold applicable in Happ. by rewrite (Hvp' _ Hds') in Happ.
  Qed.

  (* The functions and variables of the records are those of the source. *)
  Lemma source_functions k s m : S !! k = Some s -> reg_methods Rg !! k = Some m ->
    mr_not_implemented m = ms_not_implemented s /\ mr_ambiguous m = ms_ambiguous s /\
    length (ms_overriders s) = length (mr_overriders m) /\
    forall i o, ms_overriders s !! i = Some o -> exists orec, mr_overriders m !! i = Some orec /\
      or_pf orec = os_pf o /\ or_next orec = os_next o.
  Proof.
    intros Hs Hm. pose proof (Forall2_lookup_lr _ _ _ _ _ _ HR Hs Hm) as Hreg.
    unfold method_registered in Hreg. apply obind_ok in Hreg as (ids & _ & Hreg).
    apply obind_ok in Hreg as (ovs & Hovs & Hreg). injection Hreg as <-. simpl.
    apply mapM_ok in Hovs. split; [done|]. split; [done|]. split; [eapply Forall2_length; eauto|].
    intros i o Ho. destruct (Forall2_lookup_l _ _ _ _ _ Hovs Ho) as (orec & Hi & Hr).
    unfold overrider_registered in Hr. apply obind_ok in Hr as (ids' & _ & Hr). injection Hr as <-. eauto.
  Qed.

  Lemma source_selected k s m sel f : S !! k = Some s -> reg_methods Rg !! k = Some m ->
    selected_fn m sel = Some f -> source_fn s sel = Some f.
  Proof.
    intros Hs Hm. destruct (source_functions k s m Hs Hm) as (H1 & H2 & Hlen & Hovs).
    destruct sel as [| |i]; simpl; [congruence|congruence|].
    destruct (ms_overriders s !! i) as [o|] eqn:Ho.
    - destruct (Hovs i o Ho) as (orec & -> & Hpf & _). simpl. congruence.
    - apply lookup_ge_None in Ho. rewrite lookup_ge_None_2 by lia. done.
  Qed.

  Theorem source_resolves cf X w k s m all args :
    env_ok (r_env X) -> acyclic (e_ti (r_env X)) Rg -> ids_ok Rg ->
    hash_size_ok cf (length (reg_classes Rg)) -> addresses_ok (e_ti (r_env X)) Rg ->
    bases_first (e_ti (r_env X)) Rg -> initialized_by cf X false Rg w ->
    S !! k = Some s -> reg_methods Rg !! k = Some m ->
    call_ok cf (e_ti (r_env X)) Rg w m all args -> length args = 1 \/ together all ->
    settled (e_ti (r_env X)) Rg (mr_overriders m)
      (candidate (e_ti (r_env X)) Rg (mr_overriders m) args) ->
    exists sel f, selects (e_ti (r_env X)) Rg (mr_overriders m) args sel /\
      source_fn s sel = Some f /\ resolve cf w m all = Ok f.
  Proof.
    intros He Ha Hids Hh Hadd Hbf (w0 & rep & Hw & Hinit) Hs Hm [Hmr Hvs Hva] Htog Hset.
    assert (HP : program_ok cf (r_env X) Rg) by (constructor; auto using sources_arity).
    destruct (dispatch cf X Rg w0 w rep HP Hbf Hw Hinit m all args Hmr Hvs Hva)
      as (sel & f & Hr & Hsf & _ & _ & Hsel & _).
    { intros Hne. destruct Htog as [H1|H1]; [|exact H1]. apply Forall2_length in Hva. congruence. }
    exists sel, f. split; [auto|]. split; [|exact Hr]. eapply source_selected; eauto.
  Qed.

  Theorem source_next cf X w k s m i o :
    env_ok (r_env X) -> acyclic (e_ti (r_env X)) Rg -> ids_ok Rg ->
    hash_size_ok cf (length (reg_classes Rg)) -> addresses_ok (e_ti (r_env X)) Rg ->
    initialized_by cf X false Rg w ->
    S !! k = Some s -> reg_methods Rg !! k = Some m -> ms_overriders s !! i = Some o ->
    unique_signature (e_ti (r_env X)) (mr_overriders m) i ->
    (forall args, valid_args (e_ti (r_env X)) Rg m args ->
       pointwise (e_ti (r_env X)) Rg (mr_overriders m)
         (candidate (e_ti (r_env X)) Rg (mr_overriders m) args)) ->
    exists sel f, selects_next (e_ti (r_env X)) Rg (mr_overriders m) i sel /\
      source_fn s sel = Some f /\ w_next w (os_next o) = Some f.
  Proof.
    intros He Ha Hids Hh Hadd Hi Hs Hm Ho Hu Hpw.
    assert (HP : program_ok cf (r_env X) Rg) by (constructor; auto using sources_arity).
    destruct (source_functions k s m Hs Hm) as (_ & _ & _ & Hovs).
    destruct (Hovs i o Ho) as (orec & Hor & _ & <-).
    destruct (next_selects cf X Rg w HP Hi m i orec (elem_of_list_lookup_2 _ _ _ Hm) Hor Hu Hpw)
      as (sel & f & Hsel & _ & Hsf & Hn).
    exists sel, f. split; [exact Hsel|]. split; [|exact Hn]. eapply source_selected; eauto.
  Qed.
End Dispatch.

Section Returns.
  Context (r : N) (static_type : ty -> N) (static_void : N).

  Lemma returns_id t c : returns r t c ->
    return_id r static_type static_void t =
    match c with Some c => static_type (TyName c) | None => static_void end.
  Proof.
    intros H. unfold return_id, type_of. destruct H as [t c Ht|t c Ht|n|n].
    - by rewrite (refers_type r t c Ht).
    - destruct (pointer_type r t c Ht) as (_ & _ & ->). done.
    - done.
    - done.
  Qed.

  Theorem source_returns s m :
    method_registered r static_type static_void s = Ok m ->
    (forall c, returns r (ms_return s) c ->
       mr_return m = match c with Some c => static_type (TyName c) | None => static_void end) /\
    forall i o c, ms_overriders s !! i = Some o -> returns r (os_return o) c ->
      exists orec, mr_overriders m !! i = Some orec /\
        or_return orec = match c with Some c => static_type (TyName c) | None => static_void end.
  Proof.
    unfold method_registered. intros Hreg. apply obind_ok in Hreg as (ids & _ & Hreg).
    apply obind_ok in Hreg as (ovs & Hovs & Hreg). injection Hreg as <-. simpl.
    apply mapM_ok in Hovs. split; [apply returns_id|].
    intros i o c Ho Hc. destruct (Forall2_lookup_l _ _ _ _ _ Hovs Ho) as (orec & Hi & Hr).
    unfold overrider_registered in Hr. apply obind_ok in Hr as (ids' & _ & Hr). injection Hr as <-.
    eexists. split; [exact Hi|]. simpl. by apply returns_id.
  Qed.
End Returns.
