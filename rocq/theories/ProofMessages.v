(* The texts of errors. *)
From Coq Require Import Ascii.
From stdpp Require Import base list numbers list_numbers sets strings.
From Verif Require Import Base Registry ModelClasses ModelTables ModelHash ModelWorld ModelCall ModelLife
  ModelErrors ModelOptions ModelMessages Spec SpecCall SpecErrors SpecOptions SpecMessages ProofBase ProofOptions
  ProofGraph ProofCompile ProofErrors ProofHash ProofWorld ProofInvariance ProofHandlers.

#[local] Arguments String.append !_ _ / : simpl nomatch.

Lemma append_assoc (a b c : string) : (a +:+ b) +:+ c = a +:+ (b +:+ c).
Proof. induction a as [|x a IH]; simpl; [done|]. by rewrite IH. Qed.

Lemma append_nil (a : string) : a +:+ "" = a.
Proof. induction a as [|x a IH]; simpl; [done|]. by rewrite IH. Qed.

Lemma append_inj (a b c : string) : a +:+ b = a +:+ c -> b = c.
Proof. induction a as [|x a IH]; simpl; [done|]. intros [= H]. auto. Qed.

Lemma occurs_append c (a b : string) : occurs c (a +:+ b) <-> occurs c a \/ occurs c b.
Proof.
  split.
  - intros (p & q & H). revert p H. induction a as [|x a IH]; intros p H; simpl in H.
    + right. by exists p, q.
    + destruct p as [|y p]; simpl in H; simplify_eq.
      * left. by exists "", a.
      * destruct (IH p) as [(p' & q' & ->)|H']; [done| |by right].
        left. by exists (String y p'), q'.
  - intros [(p & q & ->)|(p & q & ->)].
    + exists p, (q +:+ b). by rewrite append_assoc.
    + exists (a +:+ p), q. by rewrite append_assoc.
Qed.

Lemma occurs_cons c x (a : string) : occurs c (String x a) <-> c = x \/ occurs c a.
Proof.
  split.
  - intros ([|y p] & q & H); simpl in H; simplify_eq; [by left|right; by exists p, q].
  - intros [<-|(p & q & ->)]; [by exists "", a|by exists (String x p), q].
Qed.

Lemma occurs_nil c : ~ occurs c "".
Proof. by intros ([] & q & H). Qed.

(* What comes before the first [c]. *)
Lemma split_at c (a a' b b' : string) : ~ occurs c a -> ~ occurs c a' ->
  a +:+ String c b = a' +:+ String c b' -> a = a' /\ b = b'.
Proof.
  revert a'. induction a as [|x a IH]; intros [|x' a'] Ha Ha' H; simpl in H; simplify_eq.
  - done.
  - destruct Ha'. apply occurs_cons. by left.
  - destruct Ha. apply occurs_cons. by left.
  - destruct (IH a') as [-> ->]; [|by intros ?; apply Ha'; apply occurs_cons; right|done|done].
    intros ?. apply Ha. apply occurs_cons. by right.
Qed.

Lemma length_append (a b : string) : String.length (a +:+ b) = String.length a + String.length b.
Proof. induction a as [|x a IH]; simpl; [done|]. by rewrite IH. Qed.

Lemma append_inj_l (a a' w : string) : a +:+ w = a' +:+ w -> a = a'.
Proof.
  revert a'. induction a as [|x a IH]; intros [|x' a'] H; [done| | |].
  - apply (f_equal String.length) in H. rewrite !length_append in H. simpl in H. lia.
  - apply (f_equal String.length) in H. rewrite !length_append in H. simpl in H. lia.
  - simpl in H. injection H as -> H. f_equal. by apply IH.
Qed.

Lemma middle_inj c (w a a' b b' : string) : ~ occurs c w -> ~ occurs c a -> ~ occurs c a' ->
  a +:+ (w +:+ String c b) = a' +:+ (w +:+ String c b') -> a = a' /\ b = b'.
Proof.
  intros Hw Ha Ha' H. rewrite <- !append_assoc in H.
  apply split_at in H as [H ->].
  - by apply append_inj_l in H.
  - by intros [?|?]%occurs_append.
  - by intros [?|?]%occurs_append.
Qed.

Lemma occurs_dec_false c (s : string) : forallb (fun x => negb (Ascii.eqb c x)) (list_ascii_of_string s) = true ->
  ~ occurs c s.
Proof.
  induction s as [|x s IH]; simpl; intros H; [apply occurs_nil|].
  apply andb_true_iff in H as [Hx Hs]. intros [->|Ho]%occurs_cons; [|by apply IH].
  by rewrite Ascii.eqb_refl in Hx.
Qed.

Section Messages.
  Context (names : N -> string) (registry : N).
  Notation describe := (describe names registry).

  Lemma describe_total e : sized_error e -> exists s, describe e = Ok s.
  Proof.
    destruct e; simpl; try eauto. intros [Ha Hb].
    destruct (put_size_spec _ Ha) as (a & -> & _). destruct (put_size_spec _ Hb) as (b & -> & _).
    simpl. eauto.
  Qed.

  Lemma describe_contains e s : describe e = Ok s -> contains s (map names (types_in registry e)).
  Proof.
    intros H. destruct e as [|t|b d|m n ts|m n ts|st d|a b|]; simplify_eq/=; try done.
    - exists "unknown class ", "". by rewrite append_nil.
    - exists "missing base ", (" -<| " +:+ names d). split; [done|].
      exists " -<| ", "". by rewrite append_nil.
    - exists "invalid call to final construct: static type = ", (", dynamic type = " +:+ names d).
      split; [done|]. exists ", dynamic type = ", "". by rewrite append_nil.
    - exists "conflicting definitions of ", "". by rewrite append_nil.
  Qed.

  Lemma describe_kind e e' s : describe e = Ok s -> describe e' = Ok s -> kind_of e = kind_of e'.
  Proof.
    assert (Hs : forall a b s, describe (ESearch a b) = Ok s -> exists r, s = "could" +:+ r).
    { intros a b r H. simpl in H. apply obind_ok in H as (x & _ & H).
      apply obind_ok in H as (y & _ & H). simplify_eq. by eexists. }
    intros H H'. destruct e as [|t|b d|m n ts|m n ts|st d|a b|];
      try (apply Hs in H as [r ->]); destruct e' as [|t'|b' d'|m' n' ts'|m' n' ts'|st' d'|a' b'|];
      try (apply Hs in H' as [r' ?]); try done; simpl in *; simplify_eq.
  Qed.

  Lemma describe_types e e' s : plain_names names -> describe e = Ok s -> describe e' = Ok s ->
    map names (types_in registry e) = map names (types_in registry e').
  Proof.
    intros Hp H H'. pose proof (describe_kind e e' s H H') as Hk.
    destruct e as [|t|b d|m n ts|m n ts|st d|a b|], e' as [|t'|b' d'|m' n' ts'|m' n' ts'|st' d'|a' b'|];
      simpl in Hk; try discriminate Hk; try done; simpl in H, H'; simplify_eq; simpl.
    - f_equal. congruence.
    - apply (middle_inj "|" " -<") in H as [Hb Hd]; [|by apply occurs_dec_false|apply Hp|apply Hp].
      injection Hd as Hd. congruence.
    - apply (middle_inj "=" ", dynamic type ") in H as [Hb Hd]; [|by apply occurs_dec_false|apply Hp|apply Hp].
      injection Hd as Hd. congruence.
  Qed.

  Lemma describe_numbers a b s : (a < 2 ^ 64)%N -> (b < 2 ^ 64)%N -> describe (ESearch a b) = Ok s ->
    exists x y, writes_number 10 a x /\ writes_number 10 b y /\ contains s [x; y].
  Proof.
    intros Ha Hb H. simpl in H.
    destruct (put_size_spec _ Ha) as (x & Hx & Wx). destruct (put_size_spec _ Hb) as (y & Hy & Wy).
    rewrite Hx, Hy in H. cbn [obind] in H. injection H as <-. exists x, y. split; [exact Wx|].
    split; [exact Wy|]. exists "could not find hash factors after ", ("s using " +:+ y +:+ " buckets" +:+ newline).
    split; [reflexivity|]. exists "s using ", (" buckets" +:+ newline). done.
  Qed.

  Lemma describe_line e s : (forall t, one_line (names t)) -> kind_of e <> KSearch ->
    describe e = Ok s -> one_line s.
  Proof.
    intros Hn He H. unfold one_line in *.
    destruct e as [|t|b d|m n ts|m n ts|st d|a b|]; try done; simpl in H; injection H as <-; intros Ho;
      repeat match goal with
      | Ho : occurs _ (String _ _) |- _ => apply occurs_cons in Ho as [Ho|Ho]; [discriminate Ho|]
      | Ho : occurs _ (_ +:+ _) |- _ => apply occurs_append in Ho as [Ho|Ho]
      | Ho : occurs _ "" |- _ => by apply occurs_nil in Ho
      | Ho : occurs _ (names ?t) |- _ => by apply (Hn t)
      end.
  Qed.

  Lemma mistake_sized S t pg a e : mistake S t pg a e -> sized_error e.
  Proof. by intros []. Qed.

  (* The default handler writes the description, on a line. *)
  Lemma written_default S t pg a e :
    executes S t pg -> handler_in_place t HDefault -> mistake S t pg a e ->
    su_policy S = PolicyDefault ->
    exists pg' es s, act S a pg = Ok (pg', es, Aborts) /\ describe e = Ok s /\
      contains s (map names (types_in registry e)) /\
      written names registry true es = Ok (if su_output S then s +:+ newline else "") /\
      written names registry false es = Ok "".
  Proof.
    intros Hx Hh Hm Hp. pose proof (mistake_sized S t pg a e Hm) as He. destruct (mistake_handled S t pg a e _ Hx Hh Hm) as (pg' & es & en & Ha & Hd).
    destruct (describe_total e He) as (s & Hs). exists pg', es, s.
    destruct Hd as [H|H|_ _|k _ H|k x _ H|_ H]; try congruence.
    split; [exact Ha|]. split; [exact Hs|]. split; [by apply describe_contains|].
    destruct (su_output S); [|done]. unfold written, default_handler. rewrite Hs. cbn [obind].
    by rewrite !append_nil.
  Qed.

  Lemma thrown_text S t pg a e h :
    executes S t pg -> handler_in_place t h -> mistake S t pg a e ->
    su_policy S = PolicyThrow ->
    exists pg' x s, act S a pg = Ok (pg', [], Throws x) /\ what names registry x = Some (Ok s) /\
      describe e = Ok s /\ contains s (map names (types_in registry e)).
  Proof.
    intros Hx Hh Hm Hp. pose proof (mistake_sized S t pg a e Hm) as He. destruct (mistake_handled S t pg a e _ Hx Hh Hm) as (pg' & es & en & Ha & Hd).
    destruct (describe_total e He) as (s & Hs). exists pg'.
    destruct Hd as [H|H|H _|k H _|k x H _|H _]; try congruence.
    exists (ThrownError e), s. split; [exact Ha|]. simpl. rewrite Hs. split; [done|].
    split; [done|by apply describe_contains].
  Qed.
End Messages.

(* The default names of types differ. *)
Lemma default_name_inj t t' s : (t < 2 ^ 64)%N -> (t' < 2 ^ 64)%N ->
  default_name t = Ok s -> default_name t' = Ok s -> t = t'.
Proof.
  intros H H' E E'. unfold default_name in *.
  destruct (put_address_spec _ H) as (x & Hx & Wx). destruct (put_address_spec _ H') as (y & Hy & Wy).
  rewrite Hx in E. rewrite Hy in E'. cbn [obind] in E, E'. injection E as <-. injection E' as E'.
  apply append_inj_l in E' as ->. eauto using writes_unique.
Qed.

Lemma variant_spec errors policies : error_variant_aux errors policies = errors ++ errors_of policies.
Proof.
  revert errors. induction policies as [|[more|] ps IH]; intros errors; simpl.
  - by rewrite app_nil_r.
  - rewrite IH. by rewrite <- (assoc_L (++)).
  - apply IH.
Qed.

Lemma wrap_once (l l' : list kind) k : k ∉ l -> k ∉ l' -> wrap (l ++ k :: l') k = Some (length l).
Proof.
  intros Hl Hl'. unfold wrap.
  enough (List.filter (fun i => bool_decide ((l ++ k :: l') !! i = Some k)) (seq 0 (length (l ++ k :: l'))) = [length l]) as -> by done.
  rewrite app_length. simpl. rewrite seq_app, List.filter_app. simpl.
  rewrite (bool_decide_true ((l ++ k :: l') !! length l = Some k)) by (by apply list_lookup_middle).
  assert (Hnil : forall a n, (forall i, a <= i < a + n -> (l ++ k :: l') !! i <> Some k) ->
    List.filter (fun i => bool_decide ((l ++ k :: l') !! i = Some k)) (seq a n) = []).
  { intros a n. revert a. induction n as [|n IH]; intros a Hi; simpl; [done|].
    rewrite bool_decide_false by (apply Hi; lia). apply IH. intros i ?. apply Hi. lia. }
  rewrite (Hnil 0), (Hnil (S (length l))); [done| |].
  - intros i Hi E. rewrite lookup_app_r in E by lia.
    destruct (i - length l) as [|j] eqn:Ej; [lia|]. simpl in E. apply Hl'. by eapply elem_of_list_lookup_2.
  - intros i Hi E. rewrite lookup_app_l in E by lia. apply Hl. by eapply elem_of_list_lookup_2.
Qed.

Lemma filter_one (k : kind) (l : list kind) : length (filter (fun x => x = k) l) = 1 ->
  exists a b, l = a ++ k :: b /\ k ∉ a /\ k ∉ b.
Proof.
  induction l as [|x l IH]; [done|]. rewrite filter_cons. destruct (decide (x = k)) as [->|Hx]; simpl.
  - intros [= H]. exists [], l. split; [done|]. split; [apply not_elem_of_nil|].
    intros Hin. apply length_zero_iff_nil in H.
    assert (k ∈ filter (fun x => x = k) l) as Hf by (by apply elem_of_list_filter).
    rewrite H in Hf. by apply not_elem_of_nil in Hf.
  - intros (a & b & -> & Ha & Hb)%IH. exists (x :: a), b. split; [done|]. split; [|done].
    rewrite not_elem_of_cons. done.
Qed.

Lemma wrapped cf policies e : own_errors cf policies ->
  (kind_of e = KSearch -> cf_hash cf = true) ->
  exists i, wrap (error_variant policies) (kind_of e) = Some i /\
    error_variant policies !! i = Some (kind_of e).
Proof.
  intros [Hf Hc] He. unfold error_variant. rewrite variant_spec.
  assert (Hno : kind_of e <> KSearch -> kind_of e ∉ errors_of policies).
  { intros Hk Hin. rewrite Forall_forall in Hf. destruct (Hf _ Hin) as [?|[n ?]]; [done|]. by destruct e. }
  assert (forall l k l', kind_of e = k -> k ∉ l -> k ∉ l' -> exists i, wrap (l ++ k :: l') (kind_of e) = Some i /\
    (l ++ k :: l') !! i = Some (kind_of e)) as Hw.
  { intros l k l' -> ? ?. exists (length l). split; [by apply wrap_once|by apply list_lookup_middle]. }
  destruct (decide (kind_of e = KSearch)) as [Hk|Hk].
  - rewrite He in Hc by done. apply filter_one in Hc as (a & b & -> & Ha & Hb).
    rewrite (assoc_L (++)). apply Hw; [done| |done].
    rewrite not_elem_of_app. split; [|done]. rewrite !not_elem_of_cons.
    repeat split; try done. apply not_elem_of_nil.
  - specialize (Hno Hk). clear He Hf Hc.
    destruct e; simpl in *; try done.
    + apply (Hw [] KNotInitialized _); [done|apply not_elem_of_nil|set_solver].
    + apply (Hw [KNotInitialized; KNoOverrider; KAmbiguousCall] KMissingClass _);
        [done|set_solver|set_solver].
    + apply (Hw [KNotInitialized; KNoOverrider; KAmbiguousCall; KMissingClass] KMissingBase _);
        [done|set_solver|set_solver].
    + apply (Hw [KNotInitialized] KNoOverrider _); [done|set_solver|set_solver].
    + apply (Hw [KNotInitialized; KNoOverrider] KAmbiguousCall _);
        [done|set_solver|set_solver].
    + by apply (Hw [KNotInitialized; KNoOverrider; KAmbiguousCall; KMissingClass; KMissingBase; KOdrViolation]
        KFinal (errors_of policies)); [|set_solver|].
    + apply (Hw [KNotInitialized; KNoOverrider; KAmbiguousCall; KMissingClass; KMissingBase] KOdrViolation
        _); [done|set_solver|set_solver].
Qed.

Lemma initialize_described names registry cf X R w w' e :
  program_ok cf (r_env X) R -> world_ok w ->
  initialize cf X false R w = (w', Err e) ->
  exists s, describe names registry e = Ok s /\ contains s (map names (types_in registry e)) /\
    forall a b, e = ESearch a b ->
      exists x y, writes_number 10 a x /\ writes_number 10 b y /\ contains s [x; y].
Proof.
  intros [HE Hac Har Hids Hn _] Hw H.
  assert (sized_error e) as He.
  { destruct (compile_cases (r_env X) R HE Hac Har) as [(cp & Hcp & HC)|[(t & Ht & _)|(b & d & Hc & _)]].
    - destruct (initialize_cases cf X false R w HE Hac Har cp Hcp Hids Hn Hw)
        as [(v & Hi & _)|(Hv & Hh & v & M & Hi & HM & _)].
      + rewrite Hi in H. discriminate H.
      + rewrite Hi in H. injection H as <- <-. split; [reflexivity|].
        apply N.pow_lt_mono_r; [lia|]. pose proof (compile_inv (r_env X) R HE Hac false cp Hcp) as HI.
        pose proof (classes_count _ _ _ (go_classes _ _ _ (co_graph _ _ _ _ HI))) as Hle.
        specialize (Hn Hh). pose proof (initial_M_bound (N.of_nat (g_n (cp_graph cp)))). lia.
    - unfold initialize in H. rewrite Ht in H. injection H as <- <-. done.
    - unfold initialize in H. rewrite Hc in H. injection H as <- <-. done. }
  destruct (describe_total names registry e He) as [s Hs]. exists s. split; [exact Hs|].
  split; [by apply describe_contains|]. intros a b ->. destruct He. by eapply describe_numbers.
Qed.

Lemma initialize_wrapped cf X R w w' e policies :
  program_ok cf (r_env X) R -> world_ok w -> own_errors cf policies ->
  initialize cf X false R w = (w', Err e) ->
  exists i, wrap (error_variant policies) (kind_of e) = Some i /\
    error_variant policies !! i = Some (kind_of e).
Proof.
  intros [HE Hac Har Hids Hn _] Hw Ho H. apply (wrapped cf); [exact Ho|].
  destruct (initialize_errors cf X R w HE Hac Har Hids Hn Hw)
    as [(v & r & E & _)|[(t & E & _)|[(b & d & E & _)|(v & a & n & E & _ & Hh & _)]]];
    rewrite E in H; simplify_eq; done.
Qed.

Lemma call_wrapped cf w mid m args e policies :
  length args <= 16 -> own_errors cf policies -> call cf w mid m args = Err e ->
  exists i, wrap (error_variant policies) (kind_of e) = Some i /\
    error_variant policies !! i = Some (kind_of e).
Proof.
  intros Hl Ho H. apply (wrapped cf); [exact Ho|].
  destruct (call_err cf w mid m args e H Hl) as [->|[(t & -> & _)|(ts & [->| ->] & _)]]; done.
Qed.
