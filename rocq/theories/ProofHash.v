(* The hash search: the factors it finds are perfect; the check; the size bound. *)
From stdpp Require Import base list numbers list_numbers.
From Verif Require Import Base Spec ModelHash ProofBase.

Local Open Scope N_scope.

Lemma hash_index_lt mult M t : M <= 64 -> hash_index mult (64 - M) t < 2 ^ M.
Proof.
  intros HM. unfold hash_index. rewrite N.shiftr_div_pow2.
  apply N.div_lt_upper_bound; [apply N.pow_nonzero; discriminate|].
  rewrite <- N.pow_add_r. replace (64 - M + M) with 64 by lia.
  apply N.mod_lt. discriminate.
Qed.

Lemma hash_index_lt_nat mult M t :
  M <= 64 -> (N.to_nat (hash_index mult (64 - M) t) < N.to_nat (2 ^ M))%nat.
Proof. intros HM. pose proof (hash_index_lt mult M t HM). lia. Qed.

(* The state of an attempt after the types [done]. *)
Record tried (mult shift : N) (size : nat) (done : list N) (s : attempt_state) : Prop := {
  tr_safe : uintptr_max ∉ done;
  tr_len : length (a_buckets s) = size;
  tr_max : (N.to_nat (a_max s) < size)%nat;
  tr_done : forall t, t ∈ done ->
    a_min s <= hash_index mult shift t <= a_max s /\
    a_buckets s !! N.to_nat (hash_index mult shift t) = Some t;
  tr_bucket : forall i b, a_buckets s !! i = Some b -> b = uintptr_max \/
    (b ∈ done /\ i = N.to_nat (hash_index mult shift b))
}.

Lemma try_types_inv mult shift size types done s :
  (forall t, (N.to_nat (hash_index mult shift t) < size)%nat) -> uintptr_max ∉ types ->
  tried mult shift size done s ->
  exists b s', try_types mult shift types s = Ok (b, s') /\
    length (a_buckets s') = size /\ (N.to_nat (a_max s') < size)%nat /\
    (b = true -> tried mult shift size (done ++ types) s').
Proof.
  intros HM. revert done s. induction types as [|t types IH]; intros done s Hty Ht.
  - exists true, s. destruct Ht as [T0 T1 T2 T3 T4]. split; [reflexivity|]. split; [exact T1|].
    split; [exact T2|]. rewrite app_nil_r. intros _. split; auto.
  - rewrite not_elem_of_cons in Hty. destruct Hty as [Hne Hty].
    pose proof (HM t) as Hlt. cbn [try_types]. cbv zeta.
    destruct Ht as [T0 T1 T2 T3 T4].
    destruct (lookup_lt_is_Some_2 (a_buckets s) (N.to_nat (hash_index mult shift t))) as [b Hb].
    { rewrite T1. exact Hlt. }
    assert (Hat : at_ (a_buckets s) (N.to_nat (hash_index mult shift t)) = Ok b)
      by (apply at_ok; exact Hb).
    rewrite Hat. cbn [obind]. case_decide as Hfree.
    + destruct (IH (done ++ [t]) (AttemptState (N.min (a_min s) (hash_index mult shift t))
                 (N.max (a_max s) (hash_index mult shift t))
                 (<[N.to_nat (hash_index mult shift t):=t]> (a_buckets s))))
        as (r & s' & Hok & H1 & H2 & H3).
      * exact Hty.
      * split; simpl.
        -- rewrite not_elem_of_app, not_elem_of_cons. split; [exact T0|]. split; [exact Hne|].
           intros H. inversion H.
        -- rewrite insert_length. exact T1.
        -- lia.
        -- intros t' Ht'. apply elem_of_app in Ht' as [Ht'|Ht'].
           ++ destruct (T3 t' Ht') as [Hr Hbk]. split; [lia|].
              rewrite list_lookup_insert_ne; [exact Hbk|]. intros Heq. rewrite <- Heq, Hb in Hbk.
              injection Hbk as Hbk. apply T0. congruence.
           ++ apply elem_of_list_singleton in Ht' as ->. split; [lia|].
              apply list_lookup_insert. rewrite T1. exact Hlt.
        -- intros i b' Hb'. destruct (decide (i = N.to_nat (hash_index mult shift t))) as [->|Hi].
           ++ rewrite list_lookup_insert in Hb' by (rewrite T1; exact Hlt). injection Hb' as <-. right.
              split; [apply elem_of_app; right; left|reflexivity].
           ++ rewrite list_lookup_insert_ne in Hb' by auto. destruct (T4 _ _ Hb') as [?|[? ?]]; [auto|].
              right. split; [apply elem_of_app; auto|assumption].
      * exists r, s'. split; [exact Hok|]. rewrite <- app_assoc in H3. auto.
    + eexists false, _. split; [reflexivity|]. simpl. split; [exact T1|]. split; [lia|]. discriminate.
Qed.

Lemma try_types_false mult shift types s b s' :
  try_types mult shift types s = Ok (b, s') -> b = true \/ b = false.
Proof. intros _. destruct b; auto. Qed.

(* One pass. *)
Lemma attempts_inv rnd M types k total mult s :
  M <= 64 -> uintptr_max ∉ types -> (N.to_nat (a_max s) < N.to_nat (2 ^ M))%nat ->
  exists b mult' s' total',
    attempts_loop rnd (64 - M) (2 ^ M) types k total mult s = Ok (b, total', mult', s') /\
    (b = true -> tried mult' (64 - M) (N.to_nat (2 ^ M)) types s' /\
       total < total' <= total + N.of_nat k) /\
    (b = false -> total' = total + N.of_nat k).
Proof.
  intros HM Hty. revert total mult s. induction k as [|k IH]; intros total mult s Hs.
  - exists false, mult, s, total. split; [reflexivity|]. split; [discriminate|]. intros _. lia.
  - cbn [attempts_loop]. cbv zeta.
    set (mult1 := N.lor (rnd total mod word_size) 1).
    destruct (try_types_inv mult1 (64 - M) (N.to_nat (2 ^ M)) types []
      (AttemptState (a_min s) (a_max s) (repeat uintptr_max (N.to_nat (2 ^ M)))))
      as (b & s' & Hok & H1 & H2 & H3).
    { intros t. apply hash_index_lt_nat. exact HM. }
    { exact Hty. }
    { split; simpl.
      - intros H. inversion H.
      - apply repeat_length.
      - exact Hs.
      - intros t H. inversion H.
      - intros i b Hb. left.
        apply elem_of_list_lookup_2, elem_of_list_In, repeat_spec in Hb. exact Hb. }
    rewrite Hok. cbn [obind]. destruct b.
    + exists true, mult1, s', (total + 1). split; [reflexivity|]. split; [|discriminate].
      intros _. split; [apply H3; reflexivity|lia].
    + destruct (IH (total + 1) mult1 s' H2) as (b & mult' & s2 & total' & Hok' & I1 & I2).
      exists b, mult', s2, total'. split; [exact Hok'|]. split.
      * intros Hb. destruct (I1 Hb) as [? ?]. split; [assumption|lia].
      * intros Hb. rewrite (I2 Hb). lia.
Qed.

(* What a successful search guarantees. *)
Record hash_ok (types : list N) (h : hash_state) (control : list N) : Prop := {
  ho_perfect : forall t, t ∈ types ->
    h_min h <= hash_index (h_mult h) (h_shift h) t <= h_max h /\
    control !! N.to_nat (hash_index (h_mult h) (h_shift h) t) = Some t;
  ho_bucket : forall i b, control !! i = Some b -> b = uintptr_max \/
    (b ∈ types /\ i = N.to_nat (hash_index (h_mult h) (h_shift h) b));
  ho_max : (N.to_nat (h_max h) < length control)%nat;
  ho_small : h_max h < 2 ^ 30
}.

Lemma passes_inv rnd types k M total h :
  uintptr_max ∉ types -> M + N.of_nat k <= 31 ->
  (exists h', passes_loop rnd types k M total h = Ok (h', None) /\ hash_ok types h' (h_control h')) \/
  (exists h', passes_loop rnd types k M total h =
     Ok (h', Some (ESearch (total + N.of_nat k * 100000) (2 ^ (M + N.of_nat k))))).
Proof.
  intros Hty. revert M total h. induction k as [|k IH]; intros M total h HM.
  - right. exists h. cbn [passes_loop].
    replace (total + N.of_nat 0 * 100000) with total by lia.
    replace (M + N.of_nat 0) with M by lia. reflexivity.
  - cbn [passes_loop]. rewrite decide_False by lia. cbv zeta.
    assert (Hpow : 0 < 2 ^ M) by (apply N.neq_0_lt_0, N.pow_nonzero; discriminate).
    destruct (attempts_inv rnd M types max_attempts total (h_mult h) (AttemptState uintptr_max 0 []))
      as (b & mult & s & total' & Hok & H1 & H2).
    { lia. }
    { exact Hty. }
    { simpl. lia. }
    rewrite Hok. cbn [obind]. destruct b.
    + left. eexists. split; [reflexivity|]. destruct (H1 eq_refl) as [[T0 T1 T2 T3 T4] _].
      split; simpl.
      * exact T3.
      * exact T4.
      * rewrite T1. exact T2.
      * assert (2 ^ M <= 2 ^ 30) by (apply N.pow_le_mono_r; lia). lia.
    + specialize (H2 eq_refl). unfold max_attempts in H2. rewrite N2Nat.id in H2.
      destruct (IH (M + 1) total' (HashState mult (64 - M) (a_min s) (a_max s) (a_buckets s)))
        as [(h' & Hp & Ho)|(h' & Hp)]; [lia| |].
      * left. exists h'. auto.
      * right. exists h'. rewrite Hp. do 3 f_equal. f_equal; [lia|f_equal; lia].
Qed.

(* ---- the number of buckets ---- *)

Lemma halvings_bound fuel size k :
  size < 2 ^ (k + 1) -> halvings fuel size <= k.
Proof.
  revert size k. induction fuel as [|fuel IH]; intros size k H; cbn [halvings]; [lia|].
  cbv zeta. case_decide as Hz; [lia|].
  destruct (decide (k = 0)) as [->|Hk].
  - exfalso. apply Hz. apply N.div_small. exact H.
  - assert (halvings fuel (size / 2) <= k - 1); [|lia]. apply IH.
    replace (k - 1 + 1) with k by lia. apply N.div_lt_upper_bound; [lia|].
    rewrite <- N.pow_succ_r'. replace (N.succ k) with (k + 1) by lia. exact H.
Qed.

Lemma initial_M_bound n : n <= max_classes -> initial_M n + 4 <= 31.
Proof.
  intros Hn. unfold initial_M.
  assert (halvings 64 (n * 5 / 4) <= 26); [|lia]. apply halvings_bound.
  apply N.div_lt_upper_bound; [lia|]. change (2 ^ (26 + 1)) with 134217728.
  unfold max_classes in Hn. change (2 ^ 26) with 67108864 in Hn. lia.
Qed.

(* ---- fn::initialize ---- *)

Lemma hash_initialize_cases rnd checks n types h :
  uintptr_max ∉ types -> n <= max_classes ->
  (exists h' control, hash_initialize rnd checks n types h = Ok (h', None) /\
     hash_ok types h' control /\ (checks = true -> h_control h' = control)) \/
  (exists h', hash_initialize rnd checks n types h =
     Ok (h', Some (ESearch 400000 (2 ^ (initial_M n + 4))))).
Proof.
  intros Hty Hn. unfold hash_initialize.
  destruct (passes_inv rnd types 4 (initial_M n) 0 h) as [(h' & Hp & [O1 O2 O3 O4])|(h' & Hp)].
  { exact Hty. }
  { pose proof (initial_M_bound n Hn). lia. }
  - left. eexists _, (h_control h'). rewrite Hp. cbn [obind]. split; [reflexivity|]. split.
    + split; simpl; assumption.
    + intros ->. reflexivity.
  - right. rewrite Hp. cbn [obind]. eexists. reflexivity.
Qed.

Lemma hash_injective types h control t1 t2 :
  hash_ok types h control -> t1 ∈ types -> t2 ∈ types ->
  hash_index (h_mult h) (h_shift h) t1 = hash_index (h_mult h) (h_shift h) t2 -> t1 = t2.
Proof.
  intros [O1 _ _ _] H1 H2 Heq. destruct (O1 t1 H1) as [_ E1]. destruct (O1 t2 H2) as [_ E2].
  rewrite Heq in E1. congruence.
Qed.

(* The check accepts exactly the registered ids. *)
Lemma hash_type_check types h t :
  hash_ok types h (h_control h) -> t <> uintptr_max ->
  hash_type true h t = if decide (t ∈ types) then Ok (hash_index (h_mult h) (h_shift h) t)
                       else Err (EMissingClass t).
Proof.
  intros [O1 O2 O3 _] Ht. unfold hash_type, hash_check. destruct (decide (t ∈ types)) as [Hin|Hin].
  - destruct (O1 t Hin) as [Hr Hb]. rewrite decide_False by lia.
    assert (Hat : at_ (h_control h) (N.to_nat (hash_index (h_mult h) (h_shift h) t)) = Ok t)
      by (apply at_ok; exact Hb).
    rewrite Hat. cbn [obind]. rewrite decide_True by reflexivity. reflexivity.
  - case_decide as Hr; [reflexivity|].
    destruct (lookup_lt_is_Some_2 (h_control h) (N.to_nat (hash_index (h_mult h) (h_shift h) t)))
      as [b Hb]; [lia|].
    assert (Hat : at_ (h_control h) (N.to_nat (hash_index (h_mult h) (h_shift h) t)) = Ok b)
      by (apply at_ok; exact Hb).
    rewrite Hat. cbn [obind]. rewrite decide_False; [reflexivity|]. intros ->.
    destruct (O2 _ _ Hb) as [?|[? _]]; contradiction.
Qed.

Lemma hash_type_ok checks types h control t :
  hash_ok types h control -> (checks = true -> h_control h = control) -> t ∈ types ->
  hash_type checks h t = Ok (hash_index (h_mult h) (h_shift h) t).
Proof.
  intros [O1 _ _ _] Hc Ht. destruct checks; [|reflexivity].
  specialize (Hc eq_refl). unfold hash_type, hash_check. destruct (O1 t Ht) as [Hr Hb].
  rewrite decide_False by lia. rewrite Hc.
  assert (Hat : at_ control (N.to_nat (hash_index (h_mult h) (h_shift h) t)) = Ok t)
    by (apply at_ok; exact Hb).
  rewrite Hat. cbn [obind]. rewrite decide_True by reflexivity. reflexivity.
Qed.
