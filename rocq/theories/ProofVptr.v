(* The perfect hash and the vptr policies, in terms of their operations. *)
From stdpp Require Import base list numbers.
From Verif Require Import Base Registry Spec SpecCall ModelClasses ModelMethods ModelTables ModelHash
  ModelWorld ProofBase ProofClasses ProofGraph ProofErrors ProofHash ProofWorld ProofCall
  ExamplesModel Decide ExamplesDispatch.
Open Scope N_scope.

(* ---- number of buckets ---- *)

Lemma try_types_length mult shift types s b s' :
  try_types mult shift types s = Ok (b, s') -> length (a_buckets s') = length (a_buckets s).
Proof.
  revert s. induction types as [|t types IH]; intros s; cbn [try_types].
  - intros [= _ <-]. reflexivity.
  - cbv zeta. destruct (at_ _ _) as [x| | |]; cbn [obind]; try discriminate.
    case_decide as Hd.
    + intros H. rewrite (IH _ H). simpl. apply insert_length.
    + intros [= _ <-]. reflexivity.
Qed.

Lemma attempts_length rnd shift size types k total mult s b total' mult' s' :
  attempts_loop rnd shift size types k total mult s = Ok (b, total', mult', s') ->
  (length (a_buckets s) = N.to_nat size \/ (0 < k)%nat) ->
  length (a_buckets s') = N.to_nat size.
Proof.
  revert total mult s. induction k as [|k IH]; intros total mult s; cbn [attempts_loop].
  - intros [= _ _ _ <-] [?|?]; [assumption|lia].
  - cbv zeta. intros H _. destruct (try_types _ _ _ _) as [[f s1]| | |] eqn:Ht; cbn [obind] in H; try discriminate.
    pose proof (try_types_length _ _ _ _ _ _ Ht) as Hl. simpl in Hl. rewrite repeat_length in Hl.
    destruct f.
    + injection H as _ _ _ <-. exact Hl.
    + eapply IH; [exact H|]. left. exact Hl.
Qed.

Lemma passes_size rnd types k M total h h' e :
  passes_loop rnd types k M total h = Ok (h', e) ->
  (e = None -> exists M', M <= M' < M + N.of_nat k /\ h_shift h' = 64 - M' /\
     length (h_control h') = N.to_nat (2 ^ M')) /\
  (e <> None -> (0 < k)%nat -> length (h_control h') = N.to_nat (2 ^ (M + N.of_nat k - 1))).
Proof.
  revert M total h. induction k as [|k IH]; intros M total h; cbn [passes_loop].
  - intros [= <- <-]. split; [discriminate|lia].
  - case_decide as Hd; [discriminate|]. cbv zeta. intros H'.
    destruct (attempts_loop _ _ _ _ _ _ _ _) as [[[[f t'] m'] s']| | |] eqn:Ha; cbn [obind] in H'; try discriminate.
    assert (Hl : length (a_buckets s') = N.to_nat (2 ^ M)).
    { eapply attempts_length; [exact Ha|]. right. unfold max_attempts. lia. }
    destruct f.
    + injection H' as <- <-. split; [|congruence]. intros _. exists M. simpl. split; [lia|]. auto.
    + destruct k as [|k].
      * cbn [passes_loop] in H'. injection H' as <- <-. split; [discriminate|]. intros _ _. simpl.
        rewrite Hl. do 2 f_equal. lia.
      * destruct (IH _ _ _ H') as [I1 I2]. split.
        -- intros He. destruct (I1 He) as (M' & ? & ?). exists M'. split; [lia|assumption].
        -- intros He _. rewrite (I2 He) by lia. do 2 f_equal. lia.
Qed.

Lemma halvings_pow fuel size :
  0 < size < 2 ^ N.of_nat fuel -> 2 ^ halvings fuel size <= size < 2 ^ (1 + halvings fuel size).
Proof.
  revert size. induction fuel as [|fuel IH]; intros size H; cbn [halvings].
  - change (2 ^ N.of_nat 0) with 1 in H. lia.
  - cbv zeta. case_decide as Hz.
    + assert (size < 2); [|change (1 + 0) with 1; change (2 ^ 0) with 1; change (2 ^ 1) with 2; lia].
      apply N.div_small_iff in Hz; lia.
    + assert (Hd : 0 < size / 2 < 2 ^ N.of_nat fuel).
      { split; [apply N.neq_0_lt_0; exact Hz|]. apply N.div_lt_upper_bound; [lia|]. rewrite <- N.pow_succ_r'.
        replace (N.succ (N.of_nat fuel)) with (N.of_nat (S fuel)) by lia. apply H. }
      destruct (IH _ Hd) as [I1 I2].
      pose proof (N.div_mod size 2 ltac:(lia)) as Hdm. pose proof (N.mod_lt size 2 ltac:(lia)).
      replace (1 + (1 + halvings fuel (size / 2))) with (N.succ (1 + halvings fuel (size / 2))) by lia.
      rewrite N.pow_succ_r'.
      replace (2 ^ (1 + halvings fuel (size / 2))) with (2 * 2 ^ (halvings fuel (size / 2))) in *
        by (rewrite <- N.pow_succ_r'; f_equal; lia).
      revert I1 I2 Hdm H0. clear. generalize (2 ^ halvings fuel (size / 2)) (size / 2) (size mod 2). lia.
Qed.

(* Between 1.25 and 20 buckets per class. *)
Lemma initial_M_pow n : 0 < n <= max_classes ->
  n * 5 / 4 < 2 ^ initial_M n <= 2 * (n * 5 / 4).
Proof.
  intros [H0 Hn]. unfold initial_M.
  assert (Hs : 0 < n * 5 / 4 < 2 ^ N.of_nat 64).
  { unfold max_classes in Hn. change (2 ^ 26) with 67108864 in Hn. split.
    - apply N.div_str_pos. lia.
    - apply N.div_lt_upper_bound; [lia|]. change (2 ^ N.of_nat 64) with 18446744073709551616. lia. }
  destruct (halvings_pow 64 _ Hs) as [I1 I2]. split; [exact I2|].
  replace (1 + halvings 64 (n * 5 / 4)) with (N.succ (halvings 64 (n * 5 / 4))) by lia.
  rewrite N.pow_succ_r'. lia.
Qed.

Section Hash.
  Context (rnd : N -> N) (n : N) (types : list N) (h : hash_state).
  Context (Hty : uintptr_max ∉ types) (Hn : n <= max_classes).

  Lemma hash_success checks h' :
    hash_initialize rnd checks n types h = Ok (h', None) ->
    exists control M, hash_ok types h' control /\ (checks = true -> h_control h' = control) /\
      initial_M n <= M < initial_M n + 4 /\ length control = N.to_nat (2 ^ M).
  Proof.
    intros Hi. unfold hash_initialize in Hi.
    destruct (passes_inv rnd types 4 (initial_M n) 0 h) as [(h1 & Hp & HO)|(h1 & Hp)].
    { exact Hty. }
    { pose proof (initial_M_bound n Hn). lia. }
    2:{ rewrite Hp in Hi. discriminate. }
    destruct (passes_size _ _ _ _ _ _ _ _ Hp) as [P _].
    destruct (P eq_refl) as (M & HM & Hs & Hl). rewrite Hp in Hi. cbn [obind] in Hi.
    injection Hi as <-. destruct HO as [O1 O2 O3 O4].
    exists (h_control h1), M. split; [split; simpl; assumption|]. split; [intros ->; reflexivity|].
    split; [|exact Hl]. change (N.of_nat 4) with 4 in HM. exact HM.
  Qed.

  Lemma hash_failure checks h' e :
    hash_initialize rnd checks n types h = Ok (h', Some e) ->
    e = ESearch 400000 (2 ^ (initial_M n + 4)) /\
    (checks = true -> length (h_control h') = N.to_nat (2 ^ (initial_M n + 3))).
  Proof.
    intros Hi. unfold hash_initialize in Hi.
    destruct (passes_inv rnd types 4 (initial_M n) 0 h) as [(h1 & Hp & HO)|(h1 & Hp)].
    { exact Hty. }
    { pose proof (initial_M_bound n Hn). lia. }
    { rewrite Hp in Hi. discriminate. }
    destruct (passes_size _ _ _ _ _ _ _ _ Hp) as [_ P]. rewrite Hp in Hi. cbn [obind] in Hi.
    injection Hi as <- <-. split.
    - f_equal.
    - intros ->. simpl. rewrite P; [|discriminate|lia]. do 2 f_equal. change (N.of_nat 4) with 4. lia.
  Qed.

  (* Different ids have different indexes, in the announced range, below the number
     of buckets. *)
  Lemma hash_perfect checks h' :
    hash_initialize rnd checks n types h = Ok (h', None) ->
    (forall t, t ∈ types -> exists i, hash_type checks h' t = Ok i /\ h_min h' <= i <= h_max h') /\
    (forall t1 t2 i, t1 ∈ types -> t2 ∈ types ->
       hash_type checks h' t1 = Ok i -> hash_type checks h' t2 = Ok i -> t1 = t2) /\
    (0 < n -> exists M, n * 5 / 4 < 2 ^ M <= 16 * (n * 5 / 4) /\ h_max h' < 2 ^ M /\
       (checks = true -> N.of_nat (length (h_control h')) = 2 ^ M)).
  Proof.
    intros Hi. destruct (hash_success _ _ Hi) as (control & M & HO & Hc & HM & Hl).
    split; [|split].
    - intros t Ht. exists (hash_index (h_mult h') (h_shift h') t).
      split; [eapply hash_type_ok; eauto|]. apply (ho_perfect _ _ _ HO). exact Ht.
    - intros t1 t2 i H1 H2. rewrite (hash_type_ok _ _ _ _ _ HO Hc H1), (hash_type_ok _ _ _ _ _ HO Hc H2).
      intros [= <-] [= Heq]. symmetry in Heq. eapply hash_injective; eauto.
    - intros H0. exists M. destruct (initial_M_pow n) as [P1 P2]; [lia|].
      split; [|split].
      + split.
        * apply N.lt_le_trans with (2 ^ initial_M n); [exact P1|]. apply N.pow_le_mono_r; lia.
        * transitivity (2 ^ (initial_M n + 3)); [apply N.pow_le_mono_r; lia|].
          rewrite N.pow_add_r. change (2 ^ 3) with 8. lia.
      + pose proof (ho_max _ _ _ HO) as Hm. rewrite Hl in Hm. lia.
      + intros H. rewrite (Hc H), Hl. apply N2Nat.id.
  Qed.

  Lemma hash_total checks :
    (exists h', hash_initialize rnd checks n types h = Ok (h', None)) \/
    exists h' e, hash_initialize rnd checks n types h = Ok (h', Some e).
  Proof.
    destruct (hash_initialize_cases rnd checks n types h Hty Hn) as [(h' & c & H & _)|(h' & H)]; eauto.
  Qed.

  Lemma hash_accepts h' t :
    hash_initialize rnd true n types h = Ok (h', None) -> t <> uintptr_max ->
    ((exists i, hash_type true h' t = Ok i) <-> t ∈ types) /\
    (t ∉ types -> hash_type true h' t = Err (EMissingClass t)).
  Proof.
    intros Hi Ht. destruct (hash_success _ _ Hi) as (control & M & HO & Hc & _).
    specialize (Hc eq_refl). subst control. pose proof (hash_type_check _ _ _ HO Ht) as Hd. split.
    - rewrite Hd. destruct (decide (t ∈ types)); split; eauto; [intros [? ?]; discriminate|contradiction].
    - intros H. rewrite Hd, decide_False by exact H. reflexivity.
  Qed.

  (* More ids than the largest number of buckets: the search fails whatever the
     random numbers. *)
  Lemma hash_overflow checks :
    NoDup types -> 2 ^ (initial_M n + 3) < N.of_nat (length types) ->
    exists h', hash_initialize rnd checks n types h = Ok (h', Some (ESearch 400000 (2 ^ (initial_M n + 4)))).
  Proof.
    intros Hnd Hlen. destruct (hash_total checks) as [(h' & Hi)|(h' & e & Hi)].
    - exfalso. destruct (hash_success _ _ Hi) as (control & M & HO & _ & HM & Hl).
      assert (length types <= length control)%nat.
      { apply submseteq_length, NoDup_submseteq; [exact Hnd|]. intros t Ht.
        destruct (ho_perfect _ _ _ HO t Ht) as [_ Hb]. eapply elem_of_list_lookup_2; exact Hb. }
      assert (2 ^ M <= 2 ^ (initial_M n + 3)) by (apply N.pow_le_mono_r; lia). lia.
    - exists h'. destruct (hash_failure _ _ _ Hi) as [-> _]. exact Hi.
  Qed.

  Lemma hash_error checks h' e :
    hash_initialize rnd checks n types h = Ok (h', Some e) ->
    exists buckets, e = ESearch 400000 buckets /\
      (checks = true -> buckets = 2 * N.of_nat (length (h_control h'))).
  Proof.
    intros Hi. destruct (hash_failure _ _ _ Hi) as [-> Hl]. eexists. split; [reflexivity|].
    intros H. rewrite (Hl H), N2Nat.id, <- N.pow_succ_r'. f_equal. lia.
  Qed.
End Hash.

(* ---- the vptr policies ---- *)
Close Scope N_scope.

Section Policies.
  Context (cf : config) (X : run) (n2216 : bool) (R : registrations) (w : world).
  Context (HP : program_ok cf (r_env X) R) (HW : initialized_by cf X n2216 R w).
  Notation ti := (e_ti (r_env X)).

  Lemma acquire_registered cr :
    cf_vptr cf <> VptrNone -> cr ∈ reg_classes R ->
    exists first r, first_record ti R (ti (cr_type cr)) = Some first /\
      acquire_vptr cf w (cr_type cr) = Ok r /\
      vref_value w r = w_static w (cr_static_vptr first) /\
      (cf_indirect cf = true -> r = RStatic (cr_static_vptr first)).
  Proof.
    intros Hk Hcr. destruct HP as [H1 H2 H3 H4 H5 H6]. destruct HW as (w0 & rep & Hw0 & Hi).
    destruct (initialize_ok_inv cf X n2216 R w0 H1 H2 H3 w rep H4 H5 Hw0 Hi) as (cp & Hcp & _ & HI & _).
    pose proof (compile_inv _ R H1 H2 n2216 cp Hcp) as HC.
    pose proof (go_classes _ _ _ (co_graph _ _ _ _ HC)) as HCl.
    destruct (type_id_class ti R (cp_graph cp) HCl (cr_type cr) cr Hcr eq_refl) as (c & e & Hm & He & Ht).
    assert (Hf : exists first, first_record ti R (ti (cr_type cr)) = Some first).
    { unfold first_record.
      destruct (filter (fun cr' => ti (cr_type cr') = ti (cr_type cr)) (reg_classes R)) as [|x l] eqn:Hfl.
      - exfalso. assert (cr ∈ filter (fun cr' => ti (cr_type cr') = ti (cr_type cr)) (reg_classes R)) as Hin.
        { apply elem_of_list_filter. auto. }
        rewrite Hfl in Hin. inversion Hin.
      - exists x. reflexivity. }
    destruct Hf as [first Hf].
    assert (Hs : ce_static_vptr e = cr_static_vptr first).
    { eapply (class_static _ R H1 H2 n2216 cp Hcp); eauto. }
    destruct (in_vptr _ _ _ _ HI Hk e (cr_type cr)) as (r & Hr & Hv & Hv1 & _);
      [eapply elem_of_list_lookup_2; exact He|exact Ht|].
    exists first, r. split; [exact Hf|]. rewrite <- Hs. split; [|split; assumption].
    unfold acquire_vptr, require_initialized. rewrite decide_False; [exact Hr|].
    rewrite (in_init _ _ _ _ HI). intros [_ ?]. discriminate.
  Qed.

  Lemma acquire_unregistered t :
    cf_checks cf = true ->
    cf_vptr cf = VptrMap \/ (cf_vptr cf = VptrVector /\ cf_hash cf = true) ->
    t <> uintptr_max -> t ∉ map cr_type (reg_classes R) ->
    acquire_vptr cf w t = Err (EMissingClass t).
  Proof.
    intros Hc Hk Ht Hn. destruct HP as [H1 H2 H3 H4 H5 H6]. destruct HW as (w0 & rep & Hw0 & Hi).
    destruct (initialize_ok_inv cf X n2216 R w0 H1 H2 H3 w rep H4 H5 Hw0 Hi) as (cp & Hcp & _ & HI & _).
    pose proof (go_classes _ _ _ (co_graph _ _ _ _ (compile_inv _ R H1 H2 n2216 cp Hcp))) as HCl.
    unfold acquire_vptr, require_initialized. rewrite decide_False.
    2:{ rewrite (in_init _ _ _ _ HI). intros [_ ?]. discriminate. }
    apply (in_missing _ _ _ _ HI Hc Hk); [exact Ht|]. rewrite (type_id_elem ti R _ HCl). exact Hn.
  Qed.

  Lemma acquire_beyond t :
    cf_checks cf = true -> cf_vptr cf = VptrVector -> cf_hash cf = false ->
    (0 < t)%N -> (forall t', t' ∈ map cr_type (reg_classes R) -> (t' < t)%N) ->
    acquire_vptr cf w t = Err (EMissingClass t).
  Proof.
    intros Hc Hk Hh Ht Hn. destruct HP as [H1 H2 H3 H4 H5 H6]. destruct HW as (w0 & rep & Hw0 & Hi).
    destruct (initialize_ok_inv cf X n2216 R w0 H1 H2 H3 w rep H4 H5 Hw0 Hi) as (cp & Hcp & _ & HI & _).
    pose proof (go_classes _ _ _ (co_graph _ _ _ _ (compile_inv _ R H1 H2 n2216 cp Hcp))) as HCl.
    unfold acquire_vptr, require_initialized. rewrite decide_False.
    2:{ rewrite (in_init _ _ _ _ HI). intros [_ ?]. discriminate. }
    apply (in_missing_vector _ _ _ _ HI Hc Hk Hh); [|exact Ht].
    intros t'. rewrite (type_id_elem ti R _ HCl). apply Hn.
  Qed.
End Policies.
