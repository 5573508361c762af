(* Proofs about the options of initialize() and the output streams. *)
From Coq Require Import Ascii.
From stdpp Require Import base list numbers strings.
From Verif Require Import Base Registry Spec SpecCall SpecN2216 ModelClasses ModelTables ModelHash
  ModelWorld ModelCall ModelErrors ModelOptions SpecOptions ProofBase ProofN2216.

(* ---- digits ---- *)
Lemma size_nat_bound n : (n < 2 ^ N.of_nat (N.size_nat n))%N.
Proof.
  destruct n as [|p]; [reflexivity|]. simpl.
  induction p as [p IH|p IH|]; simpl Pos.size_nat; try (rewrite Nat2N.inj_succ, N.pow_succ_r'); lia.
Qed.

Lemma value_snoc base ds d : value base (ds ++ [d]) = (value base ds * base + d)%N.
Proof. unfold value. rewrite foldl_app. reflexivity. Qed.

Lemma digits_from_spec base fuel : (2 <= base)%N -> forall n acc, (n < 2 ^ N.of_nat fuel)%N -> fuel <> 0 ->
  exists ds, digits_from fuel base n acc = Some (ds ++ acc) /\ value base ds = n /\
    Forall (fun d => d < base)%N ds /\ ds <> [] /\ (forall ds', ds = 0%N :: ds' -> ds' = []) /\
    (forall k, k <> 0 -> (n < base ^ N.of_nat k)%N -> length ds <= k).
Proof.
  intros Hb. induction fuel as [|f IH]; intros n acc Hn Hf; [congruence|].
  cbn [digits_from]. case_bool_decide as Hlt.
  - exists [n]. split; [reflexivity|]. split; [unfold value; simpl; lia|].
    split; [constructor; [exact Hlt|constructor]|]. split; [congruence|]. split; [congruence|].
    intros k Hk _. simpl. lia.
  - assert (f <> 0) as Hf'.
    { intros ->. change (2 ^ N.of_nat 1)%N with 2%N in Hn. lia. }
    assert (n / base < 2 ^ N.of_nat f)%N as Hn'.
    { apply N.div_lt_upper_bound; [lia|]. rewrite Nat2N.inj_succ, N.pow_succ_r' in Hn. nia. }
    destruct (IH (n / base)%N ((n mod base)%N :: acc) Hn' Hf') as (ds & H1 & H2 & H3 & H4 & H5 & H6).
    exists (ds ++ [(n mod base)%N]). split; [rewrite H1, <- app_assoc; reflexivity|].
    split. { rewrite value_snoc, H2. rewrite N.mul_comm. symmetry. apply N.div_mod. lia. }
    split. { apply Forall_app. split; [exact H3|]. constructor; [apply N.mod_lt; lia|constructor]. }
    split; [destruct ds; discriminate|]. split.
    + intros ds' E. destruct ds as [|d ds]; [congruence|]. simpl in E. injection E as -> E.
      specialize (H5 ds eq_refl). subst ds. unfold value in H2. simpl in H2.
      assert (1 <= n / base)%N by (apply N.div_le_lower_bound; lia). lia.
    + intros k Hk Hkn. rewrite app_length. simpl. destruct k as [|k]; [congruence|].
      destruct k as [|k].
      { change (N.of_nat 1) with 1%N in Hkn. rewrite N.pow_1_r in Hkn. lia. }
      enough (length ds <= S k) by lia. apply H6; [lia|].
      apply N.div_lt_upper_bound; [lia|]. rewrite Nat2N.inj_succ, N.pow_succ_r' in Hkn. exact Hkn.
Qed.

Lemma numeral_char d : (d < 16)%N -> numeral d (digit_char d).
Proof.
  intros H. assert (exists k, k < 16 /\ d = N.of_nat k) as (k & Hk & ->)
    by (exists (N.to_nat d); lia).
  do 16 (destruct k as [|k]; [reflexivity|]). lia.
Qed.

Lemma spells_string l : spells (string_of l) l.
Proof. induction l; simpl; auto. Qed.

Lemma to_chars_spec size base n : (2 <= base)%N -> (base <= 16)%N -> size <> 0 ->
  (n < base ^ N.of_nat size)%N -> exists s, to_chars size base n = Ok s /\ writes_number base n s.
Proof.
  intros Hb Hb' Hs Hn.
  destruct (digits_from_spec base (S (N.size_nat n)) Hb n []) as (ds & H1 & H2 & H3 & H4 & H5 & H6).
  { pose proof (size_nat_bound n). rewrite Nat2N.inj_succ, N.pow_succ_r'. lia. }
  { lia. }
  exists (string_of (map digit_char ds)). unfold to_chars, digits. rewrite H1, app_nil_r.
  rewrite bool_decide_true by (apply H6; auto). split; [reflexivity|].
  exists ds, (map digit_char ds). split; [apply spells_string|]. split; [|auto].
  clear - H3 Hb'. induction H3 as [|d ds Hd _ IH]; constructor; [|exact IH].
  apply numeral_char. lia.
Qed.

Lemma put_size_spec n : (n < 2 ^ 64)%N -> exists s, put_size n = Ok s /\ writes_number 10 n s.
Proof.
  intros H. apply to_chars_spec; lia.
Qed.

Lemma put_address_spec n : (n < 2 ^ 64)%N -> exists s, put_address n = Ok s /\ writes_number 16 n s.
Proof.
  intros H. apply to_chars_spec; lia.
Qed.

Lemma spells_unique s cs cs' : spells s cs -> spells s cs' -> cs = cs'.
Proof.
  revert cs cs'. induction s as [|c s IH]; intros [|x cs] [|y cs']; simpl; try tauto.
  intros [<- H] [<- H']. f_equal. auto.
Qed.

Lemma numeral_unique d d' c : numeral d c -> numeral d' c -> d = d'.
Proof.
  unfold numeral. intros H H'. apply N2Nat.inj.
  eapply (NoDup_lookup _ _ _ c); [|exact H|exact H'].
  apply (@bool_decide_unpack _ (NoDup_dec _)). vm_compute. exact I.
Qed.

Lemma writes_unique base n n' s : writes_number base n s -> writes_number base n' s -> n = n'.
Proof.
  intros (ds & cs & H1 & H2 & _ & <- & _) (ds' & cs' & H1' & H2' & _ & <- & _).
  rewrite (spells_unique _ _ _ H1' H1) in H2'. f_equal. clear -H2 H2'. revert ds' H2'.
  induction H2 as [|d c ds cs Hd _ IH]; intros ds' H; inversion H; subst; [reflexivity|].
  f_equal; [eapply numeral_unique; eassumption|]. apply IH. assumption.
Qed.

(* ---- rflush ---- *)
Lemma count_digits_total fuel : forall tmp c, (tmp < 2 ^ N.of_nat fuel)%N ->
  exists n, count_digits (S fuel) tmp c = Ok n.
Proof.
  induction fuel as [|f IH]; intros tmp c H.
  - change (2 ^ N.of_nat 0)%N with 1%N in H. assert (tmp = 0)%N as -> by lia. eexists. reflexivity.
  - cbn [count_digits]. case_bool_decide as E; [eauto|].
    apply (IH (tmp / 10)%N (c + 1)%N). apply N.div_lt_upper_bound; [lia|].
    rewrite Nat2N.inj_succ, N.pow_succ_r' in H. lia.
Qed.

Lemma count_digits_fuel f : forall f' tmp c n n',
  count_digits f tmp c = Ok n -> count_digits f' tmp c = Ok n' -> n = n'.
Proof.
  induction f as [|f IH]; intros [|f'] tmp c n n'; simpl; try discriminate.
  case_bool_decide; [congruence|]. apply IH.
Qed.

Lemma count_digits_digits f : forall n acc l c, digits_from f 10 n acc = Some l ->
  length acc < length l /\
  count_digits f (n / 10) c = Ok (c + (N.of_nat (length l) - N.of_nat (length acc) - 1))%N.
Proof.
  induction f as [|f IH]; intros n acc l c H; [discriminate|]. cbn [digits_from] in H.
  case_bool_decide as Hn.
  - injection H as <-. cbn [count_digits]. rewrite N.div_small by exact Hn. simpl length.
    rewrite bool_decide_true by reflexivity. split; [lia|]. f_equal. lia.
  - destruct (IH _ _ _ (c + 1)%N H) as [H1 H2]. simpl in H1. split; [lia|].
    cbn [count_digits]. rewrite bool_decide_false.
    { rewrite H2. f_equal. simpl. lia. }
    intros E. apply N.div_small_iff in E; lia.
Qed.

Lemma length_string_of l : String.length (string_of l) = length l.
Proof. induction l; simpl; auto. Qed.

Lemma put_right_spec width n : (n < 2 ^ 64)%N ->
  exists s, put_right true true width n =
      Ok (replicate (N.to_nat width - String.length s) " " ++ [s]) /\ writes_number 10 n s.
Proof.
  intros H. destruct (put_size_spec n H) as (s & Hs & Hw). exists s. split; [|exact Hw].
  unfold put_right, put_number. rewrite Hs. cbn [obind].
  destruct (count_digits_total (N.size_nat (n / 10)) (n / 10) 1 (size_nat_bound _)) as [k Hk].
  rewrite Hk. cbn [obind]. f_equal. f_equal.
  unfold put_size, to_chars, digits in Hs.
  destruct (digits_from _ 10 n []) as [ds|] eqn:E; [|discriminate].
  case_bool_decide; [|discriminate]. injection Hs as <-.
  destruct (count_digits_digits _ _ _ _ 1%N E) as [Hl Hc].
  pose proof (count_digits_fuel _ _ _ _ _ _ Hk Hc) as ->. simpl in Hl.
  rewrite length_string_of, map_length. unfold put.
  replace (N.to_nat _) with (N.to_nat width - length ds) by (simpl; lia).
  generalize (N.to_nat width - length ds). intros m. induction m; simpl; congruence.
Qed.

(* ---- the trace stream ---- *)
Lemma put_off has s : put has false s = [].
Proof. destruct has; reflexivity. Qed.
Lemma concat_off {A} (f : A -> list string) l : (forall x, f x = []) -> concat (map f l) = [].
Proof. intros H. induction l; simpl; [reflexivity|]. rewrite H. assumption. Qed.
Lemma put_name_off has names t : put_name has false names t = [].
Proof. unfold put_name. destruct has; [|reflexivity]. apply concat_off. intros. apply put_off. Qed.
Lemma put_separated_off has names ts : forall sep, put_separated has false names sep ts = [].
Proof. induction ts as [|t ts IH]; intros sep; simpl; [reflexivity|].
  rewrite put_off, put_name_off, IH. reflexivity. Qed.
Lemma step_off has names level o : exists level', trace_step has false names level o = Ok (level', []).
Proof.
  destruct o; simpl; try rewrite !put_off; try rewrite put_name_off;
    unfold put_number, put_right, put_bits, put_names; destruct has; simpl; eauto.
  rewrite put_separated_off. eauto.
Qed.
Lemma run_off has names ops : forall level, exists level', trace_run has false names level ops = Ok (level', []).
Proof.
  induction ops as [|o ops IH]; intros level; simpl; [eauto|].
  destruct (step_off has names level o) as [l1 E]. rewrite E. simpl.
  destruct (IH l1) as [l2 E2]. rewrite E2. simpl. eauto.
Qed.
Lemma run_without on names ops : forall level, exists level',
  trace_run false on names level ops = Ok (level', []).
Proof.
  induction ops as [|o ops IH]; intros level; simpl; [eauto|].
  assert (exists l1, trace_step false on names level o = Ok (l1, [])) as [l1 E]
    by (destruct o; simpl; eauto).
  rewrite E. simpl. destruct (IH l1) as [l2 E2]. rewrite E2. simpl. eauto.
Qed.

Lemma run_on names ops : sized ops -> forall level, exists level' out,
  trace_run true true names level ops = Ok (level', out) /\
  forall s, OpText s ∈ ops -> s ∈ out.
Proof.
  induction ops as [|o ops IH]; intros Hw level; simpl.
  - exists level, []. split; [reflexivity|]. intros s H. inversion H.
  - assert (exists l1 out1, trace_step true true names level o = Ok (l1, out1) /\
        forall s, o = OpText s -> s ∈ out1) as (l1 & out1 & E & Ho).
    { pose proof (Hw o ltac:(left)) as Ho. destruct o; cbn [trace_step];
        try (do 2 eexists; split; [reflexivity|]; intros; congruence).
      - do 2 eexists. split; [reflexivity|]. intros s' [= ->]. left.
      - unfold put_number. destruct (put_size_spec n Ho) as (t & -> & _). simpl.
        do 2 eexists. split; [reflexivity|]. intros; congruence.
      - destruct (put_right_spec width _ Ho) as (t & -> & _). simpl.
        do 2 eexists. split; [reflexivity|]. intros; congruence. }
    rewrite E. simpl.
    destruct (IH (fun o' Ho' => Hw o' (elem_of_list_further _ _ _ Ho')) l1) as (l2 & out2 & E2 & Hs).
    rewrite E2. simpl. do 2 eexists. split; [reflexivity|]. intros s H.
    apply elem_of_app. apply elem_of_cons in H as [H|H]; auto.
Qed.

(* ---- options ---- *)
Lemma has_option_asked args t : temporaries args ->
  has_option (map deduce args) t = true <-> exists a, a ∈ args /\ oa_type a = t.
Proof.
  intros H. unfold has_option. rewrite bool_decide_eq_true, elem_of_list_fmap. split.
  - intros (a & E & Ha). exists a. split; [exact Ha|]. unfold deduce in E. congruence.
  - intros (a & Ha & Et). exists a. split; [|exact Ha].
    unfold temporaries in H. rewrite Forall_forall in H. destruct (H a Ha) as [H1 H2]. unfold deduce. congruence.
Qed.

Lemma has_option_given args t : has_option (map deduce args) t = true ->
  exists a, a ∈ args /\ oa_type a = t /\ oa_const a = false /\ oa_lvalue a = false.
Proof.
  unfold has_option. rewrite bool_decide_eq_true, elem_of_list_fmap. intros (a & E & Ha).
  exists a. unfold deduce in E. split; [exact Ha|]. split; [congruence|]. split; congruence.
Qed.

Lemma get_trace_given args on : get_trace args = Some on ->
  exists a, a ∈ args /\ oa_type a = OTrace /\ oa_on a = on.
Proof.
  unfold get_trace. destruct (filter _ _) as [|a [|b l]] eqn:E; try discriminate. intros [= <-].
  assert (a ∈ filter (fun a => deduce a = OptionParameter OTrace false false) args) as H
    by (rewrite E; left).
  apply elem_of_list_filter in H as [H1 H2]. exists a. unfold deduce in H1. split; [exact H2|].
  split; congruence.
Qed.

Lemma construct_on output args on : construct output args = Some on ->
  (on = true -> asks_trace args) .
Proof.
  unfold construct. destruct (has_trace _); [|intros [= <-]; discriminate].
  destruct output; [|discriminate]. intros H ->.
  destruct (get_trace_given _ _ H) as (a & H1 & H2 & H3). exists a. auto.
Qed.

Lemma construct_allowed output args : trace_allowed output args ->
  exists on, construct output args = Some on.
Proof.
  intros [H1 H2]. unfold construct. destruct (has_trace (map deduce args)) eqn:E; [|eauto].
  destruct (has_option_given _ _ E) as (a & Ha & Ht & Hc & Hl).
  rewrite (H2 a Ha Ht). unfold get_trace.
  assert (a ∈ filter (fun a => deduce a = OptionParameter OTrace false false) args) as Hin.
  { apply elem_of_list_filter. split; [unfold deduce; congruence|exact Ha]. }
  assert (length (filter (fun a => deduce a = OptionParameter OTrace false false) args) <= 1) as Hlen.
  { etransitivity; [|exact H1]. clear. induction args as [|b args IH]; [simpl; lia|].
    rewrite !filter_cons. destruct (decide (deduce b = _)) as [Hd|Hd].
    - rewrite decide_True by (unfold deduce in Hd; congruence). simpl. lia.
    - destruct (decide _); simpl; lia. }
  destruct (filter (fun a => deduce a = OptionParameter OTrace false false) args) as [|b [|c l]] eqn:Ef; [inversion Hin|eauto|].
  exfalso. simpl in Hlen. lia.
Qed.

Lemma construct_asked args : temporaries args -> trace_allowed true args -> asks_trace args ->
  construct true args = Some true.
Proof.
  intros Ht [H1 H2] (a & Ha & Hat & Hon). unfold construct.
  assert (has_trace (map deduce args) = true) as -> by (apply has_option_asked; eauto).
  unfold get_trace.
  assert (forall b, b ∈ args -> deduce b = OptionParameter OTrace false false <-> oa_type b = OTrace) as Hiff.
  { intros b Hb. unfold temporaries in Ht. rewrite Forall_forall in Ht. destruct (Ht b Hb) as [Hc Hl].
    unfold deduce. rewrite Hc, Hl. split; congruence. }
  assert (a ∈ filter (fun a => deduce a = OptionParameter OTrace false false) args) as Hin.
  { apply elem_of_list_filter. split; [apply Hiff; auto|exact Ha]. }
  assert (length (filter (fun a => deduce a = OptionParameter OTrace false false) args) <= 1) as Hlen.
  { etransitivity; [|exact H1]. clear. induction args as [|b args IH]; [simpl; lia|].
    rewrite !filter_cons. destruct (decide (deduce b = _)) as [Hd|Hd].
    - rewrite decide_True by (unfold deduce in Hd; congruence). simpl. lia.
    - destruct (decide _); simpl; lia. }
  destruct (filter (fun a => deduce a = OptionParameter OTrace false false) args) as [|b [|c l]]; [inversion Hin| |simpl in Hlen; lia].
  apply elem_of_list_singleton in Hin as <-. rewrite Hon. reflexivity.
Qed.

(* ---- initialize() ---- *)
Section Initialize.
  Context (cf : config) (output : bool) (names : N -> list string) (X : run) (st : statements)
    (R : registrations) (w : world).

  Lemma options_temporaries args r out : temporaries args ->
    initialize_with cf output names X st args R w = Some (r, out) ->
    (asks_n2216 args -> r = initialize cf X true R w) /\
    (~ asks_n2216 args -> r = initialize cf X false R w).
  Proof.
    intros Ht. unfold initialize_with. destruct (construct output args); [|discriminate].
    intros [= <- _]. unfold has_n2216. pose proof (has_option_asked args ON2216 Ht) as H.
    destruct (has_option _ ON2216); split; intros Ha; try reflexivity.
    - exfalso. apply Ha. destruct H as [H _]. exact (H eq_refl).
    - exfalso. destruct H as [_ H]. discriminate (H Ha).
  Qed.

  Lemma options_not_asked args r out : ~ asks_n2216 args ->
    initialize_with cf output names X st args R w = Some (r, out) ->
    r = initialize cf X false R w.
  Proof.
    intros Ha. unfold initialize_with. destruct (construct output args); [|discriminate].
    intros [= <- _]. unfold has_n2216. destruct (has_option _ ON2216) eqn:E; [|reflexivity].
    destruct (has_option_given _ _ E) as (a & H1 & H2 & _). exfalso. apply Ha. exists a. auto.
  Qed.

  Lemma options_compile args : trace_allowed output args ->
    exists r out, initialize_with cf output names X st args R w = Some (r, out).
  Proof.
    intros H. destruct (construct_allowed _ _ H) as [on E]. unfold initialize_with. rewrite E. eauto.
  Qed.

  Lemma off_output args r out : ~ asks_trace args ->
    initialize_with cf output names X st args R w = Some (r, out) ->
    out = hash_announces cf (has_trace (map deduce args)) (compile (r_env X) (has_n2216 (map deduce args)) R).
  Proof.
    intros Ha. unfold initialize_with. destruct (construct output args) as [on|] eqn:E; [|discriminate].
    intros [= _ <-]. destruct on; [exfalso; apply Ha; eapply construct_on; eauto|].
    destruct (run_off (has_trace (map deduce args)) names (st_before st) 0) as [l1 ->]. simpl.
    destruct (hash_announces _ _ _); simpl; try reflexivity.
    destruct (run_off (has_trace (map deduce args)) names (st_after st) l1) as [l2 ->]. simpl.
    rewrite app_nil_r. reflexivity.
  Qed.

  Lemma quiet args r out : ~ asks_trace args ->
    (cf_vptr cf <> VptrVector \/ cf_hash cf = false \/ forall a, a ∈ args -> oa_type a <> OTrace) ->
    initialize_with cf output names X st args R w = Some (r, out) -> out = Ok [].
  Proof.
    intros Ha Hg H. rewrite (off_output _ _ _ Ha H). unfold hash_announces.
    destruct Hg as [Hg|[Hg|Hg]].
    - destruct (cf_vptr cf); congruence.
    - rewrite Hg. destruct (cf_vptr cf); reflexivity.
    - destruct (has_trace _) eqn:E; [|destruct (cf_vptr cf), (cf_hash cf); reflexivity].
      destruct (has_option_given _ _ E) as (a & H1 & H2 & _). exfalso. exact (Hg a H1 H2).
  Qed.

  Lemma traced args r out : temporaries args -> asks_trace args ->
    sized (st_before st) -> sized (st_after st) ->
    (forall cp, compile (r_env X) (has_n2216 (map deduce args)) R = Ok cp ->
       (N.of_nat (g_n (cp_graph cp)) < 2 ^ 64)%N) ->
    initialize_with cf output names X st args R w = Some (r, out) ->
    exists texts, out = Ok texts /\ forall s, OpText s ∈ st_before st ++ st_after st -> s ∈ texts.
  Proof.
    intros Ht Ha Hs1 Hs2 Hn. unfold initialize_with.
    destruct (construct output args) as [on|] eqn:E; [|discriminate]. intros [= _ <-].
    assert (has_trace (map deduce args) = true) as Hh.
    { apply has_option_asked; [exact Ht|]. destruct Ha as (a & H1 & H2 & _). eauto. }
    assert (on = true) as ->.
    { unfold construct in E. rewrite Hh in E. destruct output; [|discriminate].
      unfold get_trace in E.
      destruct (filter (fun a => deduce a = OptionParameter OTrace false false) args) as [|b [|c l]] eqn:Ef; try discriminate. injection E as <-.
      destruct Ha as (a & H1 & H2 & H3).
      assert (a ∈ filter (fun a => deduce a = OptionParameter OTrace false false) args) as Hin.
      { apply elem_of_list_filter. split; [|exact H1]. unfold temporaries in Ht. rewrite Forall_forall in Ht.
        destruct (Ht a H1) as [H4 H5]. unfold deduce. congruence. }
      rewrite Ef in Hin. apply elem_of_list_singleton in Hin as <-. exact H3. }
    rewrite Hh. destruct (run_on names _ Hs1 0) as (l1 & out1 & -> & T1). cbn [obind].
    assert (exists out2, hash_announces cf true (compile (r_env X) (has_n2216 (map deduce args)) R) = Ok out2)
      as [out2 ->].
    { unfold hash_announces. destruct (cf_vptr cf), (cf_hash cf); eauto.
      destruct (compile _ _ _) as [cp| | |] eqn:Ec; eauto.
      destruct (put_size_spec _ (Hn cp eq_refl)) as (s & -> & _). simpl. eauto. }
    cbn [obind]. destruct (run_on names _ Hs2 l1) as (l2 & out3 & -> & T2). cbn [obind].
    eexists. split; [reflexivity|]. intros s Hin. apply elem_of_app in Hin as [Hin|Hin].
    - apply elem_of_app. left. auto.
    - apply elem_of_app. right. apply elem_of_app. right. auto.
  Qed.
End Initialize.

(* ---- from_env ---- *)
Lemma from_env_spec s chars : c_string s chars ->
  from_env (Some s) = Ok (bool_decide (chars = ["1"%char])) /\
  from_env_msvc (Some s) = Ok (bool_decide (chars = ["1"%char])).
Proof.
  intros [-> Hz]. destruct chars as [|c [|c' chars]]; simpl.
  - split; reflexivity.
  - case_bool_decide as E.
    + subst c. rewrite bool_decide_true by reflexivity. split; reflexivity.
    + rewrite bool_decide_false by congruence. split; reflexivity.
  - rewrite (bool_decide_false (_ :: _ :: _ = _)) by congruence. split.
    2:{ rewrite bool_decide_false; [reflexivity|]. rewrite app_length. simpl. lia. }
    case_bool_decide; [|reflexivity]. rewrite bool_decide_false; [reflexivity|].
    intros ->. apply Hz. right. left.
Qed.

(* ---- calls after initialize() ---- *)
Lemma resolved cf output names X st args R w0 w rep out :
  program_ok cf (r_env X) R -> bases_first (e_ti (r_env X)) R -> world_ok w0 ->
  temporaries args -> asks_n2216 args ->
  initialize_with cf output names X st args R w0 = Some ((w, Ok rep), out) ->
  forall mid m all dyn, call_ok cf (e_ti (r_env X)) R w m all dyn -> functions_ok m ->
  (length (mr_vp m) = 1 \/ together all) ->
  (exists i, candidate (e_ti (r_env X)) R (mr_overriders m) dyn i) ->
  exists i o, mr_overriders m !! i = Some o /\
    candidate (e_ti (r_env X)) R (mr_overriders m) dyn i /\
    call cf w mid m all = Ok (Calls (or_pf o)).
Proof.
  intros Hp Hb Hw Ht Ha Hi mid m all dyn Hc Hf Hl Hex.
  destruct (options_temporaries _ _ _ _ _ _ _ _ _ _ Ht Hi) as [H _]. specialize (H Ha).
  destruct (call_chooses cf X R w Hp Hb mid m all dyn) as [(id & n & ts & _ & Hn)|(i & o & H1 & H2 & H3 & _)];
    try assumption.
  - exists w0, rep. auto.
  - destruct Hex as [i Hex]. destruct (Hn i Hex).
  - exists i, o. auto.
Qed.
