(* Proofs about the handling of errors. *)
From stdpp Require Import base list numbers.
From Verif Require Import Base Registry Spec ModelClasses ModelHash ModelWorld ModelCall SpecCall
  ModelLife SpecLife ModelVirtualPtr SpecVirtualPtr ModelErrors SpecErrors ProofBase ProofCall ProofBehaviour
  ProofNext ProofSafety ProofInvariance ProofFindings ProofVptr ProofLife ProofVirtualPtr.

(* ---- bad_call ---- *)
Lemma init_bad_call_length i args ts : length (init_bad_call i args ts) = length ts.
Proof.
  revert i ts. induction args as [|a args IH]; intros i ts; simpl; [reflexivity|].
  rewrite IH. apply insert_length.
Qed.

Lemma init_bad_call_lookup args : forall i ts j,
  init_bad_call i args ts !! j =
  if decide (i <= j < i + length args /\ j < length ts)
  then Some (arg_type <$> args !! (j - i)) else ts !! j.
Proof.
  induction args as [|a args IH]; intros i ts j; simpl.
  - rewrite decide_False by lia. reflexivity.
  - rewrite IH, insert_length.
    destruct (decide (j = i)) as [->|Hj].
    + rewrite decide_False by lia. destruct (decide (i < length ts)) as [H|H].
      * rewrite decide_True by lia. rewrite list_lookup_insert by exact H.
        rewrite Nat.sub_diag. reflexivity.
      * rewrite decide_False by lia. rewrite list_insert_ge by lia. reflexivity.
    + rewrite list_lookup_insert_ne by lia.
      destruct (decide (i <= j < i + S (length args) /\ j < length ts)) as [H|H].
      * rewrite decide_True by lia. replace (j - i) with (S (j - (i + 1))) by lia. reflexivity.
      * rewrite decide_False by lia. reflexivity.
Qed.

Lemma bad_types_length args : length (bad_call_types args) = 16.
Proof. unfold bad_call_types. rewrite init_bad_call_length. apply repeat_length. Qed.

Lemma bad_types_lists args : length args <= 16 -> lists_types (bad_call_types args) args.
Proof.
  intros Hl i a t Hi Ht. unfold bad_call_types, max_types. rewrite init_bad_call_lookup, repeat_length.
  apply lookup_lt_Some in Hi as Hlt.
  rewrite decide_True by lia. rewrite Nat.sub_0_r, Hi. destruct Ht; reflexivity.
Qed.

Lemma lookup_repeat {A} (x : A) n i : i < n -> repeat x n !! i = Some x.
Proof.
  revert i. induction n as [|n IH]; intros i Hi; [lia|].
  destruct i as [|i]; simpl; [reflexivity|]. apply IH. lia.
Qed.

Lemma bad_types_rest args i : length args <= i < 16 -> bad_call_types args !! i = Some None.
Proof.
  intros Hi. unfold bad_call_types, max_types. rewrite init_bad_call_lookup, repeat_length.
  rewrite decide_False by lia. apply lookup_repeat. lia.
Qed.

Lemma bad_types_unique args ts : length args <= 16 ->
  lists_types ts args -> length ts = 16 ->
  (forall i, length args <= i < 16 -> ts !! i = Some None) -> ts = bad_call_types args.
Proof.
  intros Hl Ht Hlen Hrest. apply list_eq. intros i.
  destruct (decide (i < length args)) as [Hi|Hi].
  - destruct (lookup_lt_is_Some_2 args i Hi) as [a Ha].
    assert (Hty : has_type a (arg_type a)) by (destruct a; constructor).
    rewrite (Ht i a _ Ha Hty), (bad_types_lists args Hl i a _ Ha Hty). reflexivity.
  - destruct (decide (i < 16)) as [Hm|Hm].
    + rewrite Hrest, bad_types_rest by lia. reflexivity.
    + rewrite !lookup_ge_None_2; [reflexivity|rewrite bad_types_length; lia|lia].
Qed.

(* The contents of the errors. *)
Definition is_bad_call (e : error) (mid : N) (n : nat) (ts : list (option N)) : Prop :=
  e = ENoOverrider mid n ts \/ e = EAmbiguousCall mid n ts.

Lemma deref_not_err {A} (p : option A) e : deref p <> Err e.
Proof. destruct p; discriminate. Qed.

Section Sources.
  Context (cf : config) (w : world).

  Lemma require_err e : require_initialized cf w = Err e -> e = ENotInitialized.
  Proof. unfold require_initialized. destruct (decide _); congruence. Qed.

  Lemma dynamic_vptr_err t e : dynamic_vptr cf w t = Err e -> e = EMissingClass t.
  Proof.
    unfold dynamic_vptr. intros H. destruct (cf_vptr cf).
    - apply obind_err in H as [H|(i & _ & H)].
      + unfold vector_index in H. destruct (cf_hash cf); [|discriminate].
        unfold hash_type in H. apply obind_err in H as [H|(i & _ & H)]; [|discriminate].
        destruct (cf_checks cf); [|discriminate]. unfold hash_check in H.
        destruct (decide _); [congruence|].
        apply obind_err in H as [H|(b & _ & H)]; [exfalso; exact (at_not_err _ _ _ H)|].
        destruct (decide _); congruence.
      + destruct (decide _); [congruence|]. exfalso. destruct (cf_indirect cf).
        * apply obind_err in H as [H|(q & _ & H)]; [exact (at_not_err _ _ _ H)|].
          apply obind_err in H as [H|(q' & _ & H)]; [|discriminate]. exact (deref_not_err _ _ H).
        * apply obind_err in H as [H|(q & _ & H)]; [exact (at_not_err _ _ _ H)|discriminate].
    - destruct (map_find _ _); [discriminate|]. destruct (cf_checks cf); congruence.
    - discriminate.
  Qed.

  (* The errors of the dispatch code. *)
  Definition lookup_error (args : list arg) (e : error) : Prop :=
    e = ENotInitialized \/ exists t, e = EMissingClass t /\ AObject t ∈ args.

  Lemma lookup_error_cons a args e : lookup_error args e -> lookup_error (a :: args) e.
  Proof.
    intros [H|(t & H & Ht)]; [left; exact H|right]. exists t. split; [exact H|]. right. exact Ht.
  Qed.

  Lemma arg_vptr_err a args e : arg_vptr cf w a = Err e -> lookup_error (a :: args) e.
  Proof.
    destruct a as [t|v t|t]; simpl; try discriminate. intros H.
    apply obind_err in H as [H|(r & _ & H)]; [|discriminate].
    unfold acquire_vptr in H. apply obind_err in H as [H|(u & _ & H)].
    - left. eapply require_err; eauto.
    - right. exists t. split; [eapply dynamic_vptr_err; eauto|]. left.
  Qed.

  Lemma resolve_uni_err ss args e : resolve_uni cf w ss args = Err e -> lookup_error args e.
  Proof.
    induction args as [|a args IH]; simpl; [discriminate|].
    destruct (is_virtual_arg a); [|intros H; apply lookup_error_cons; auto]. intros H.
    apply obind_err in H as [H|(v & _ & H)]; [eapply arg_vptr_err; eauto|].
    apply obind_err in H as [H|(s & _ & H)]; [exfalso; exact (at_not_err _ _ _ H)|].
    exfalso. exact (read_word_err w _ _ _ H).
  Qed.

  Lemma resolve_next_err ss arity va d args e :
    resolve_multi_next cf w ss arity va d args = Err e -> lookup_error args e.
  Proof.
    revert va d. induction args as [|a args IH]; intros va d; simpl; [discriminate|].
    intros H. apply obind_err in H as [H|(v & _ & H)].
    - destruct (is_virtual_arg a); [|discriminate].
      apply obind_err in H as [H|(v & _ & H)]; [eapply arg_vptr_err; eauto|exfalso].
      apply obind_err in H as [H|(s & _ & H)]; [exact (at_not_err _ _ _ H)|].
      apply obind_err in H as [H|(s' & _ & H)]; [exact (at_not_err _ _ _ H)|].
      apply obind_err in H as [H|(x & _ & H)]; [exact (read_word_err w _ _ _ H)|].
      apply obind_err in H as [H|(i & _ & H)]; [destruct x; discriminate|].
      destruct d; simpl in H; [destruct (decide _)|]; discriminate.
    - destruct (decide _); [exfalso; exact (read_word_err w _ _ _ H)|].
      apply lookup_error_cons. eapply IH; eauto.
  Qed.

  Lemma resolve_first_err ss arity args e :
    resolve_multi_first cf w ss arity args = Err e -> lookup_error args e.
  Proof.
    induction args as [|a args IH]; simpl; [discriminate|].
    destruct (is_virtual_arg a); [|intros H; apply lookup_error_cons; auto]. intros H.
    apply obind_err in H as [H|(v & _ & H)]; [eapply arg_vptr_err; eauto|].
    apply obind_err in H as [H|(s & _ & H)]; [exfalso; exact (at_not_err _ _ _ H)|].
    apply obind_err in H as [H|(x & _ & H)]; [exfalso; exact (read_word_err w _ _ _ H)|].
    apply obind_err in H as [H|(d & _ & H)]; [destruct x; discriminate|].
    apply lookup_error_cons. eapply resolve_next_err; eauto.
  Qed.

  Lemma resolve_err m args e : resolve cf w m args = Err e -> lookup_error args e.
  Proof.
    unfold resolve. intros H. apply obind_err in H as [H|(u & _ & H)].
    { left. eapply require_err; eauto. }
    apply obind_err in H as [H|(x & _ & H)].
    - destruct (decide _); [eapply resolve_uni_err|eapply resolve_first_err]; eauto.
    - destruct x; discriminate.
  Qed.

  (* The errors of a call. *)
  Theorem call_err mid m args e : call cf w mid m args = Err e ->
    length args <= 16 ->
    e = ENotInitialized \/ (exists t, e = EMissingClass t /\ AObject t ∈ args) \/
    exists ts, (e = ENoOverrider mid (length args) ts \/ e = EAmbiguousCall mid (length args) ts) /\
      length ts = 16 /\ lists_types ts args /\
      forall i, length args <= i < 16 -> ts !! i = Some None.
  Proof.
    intros H Hl. unfold call in H. apply obind_err in H as [H|(f & _ & H)].
    - apply resolve_err in H as [H|H]; auto.
    - right. right. exists (bad_call_types args). split.
      + unfold bad_call_arity in H. destruct (decide _); [left; congruence|]. destruct (decide _); [right; congruence|discriminate].
      + split; [apply bad_types_length|]. split; [apply bad_types_lists; exact Hl|apply bad_types_rest].
  Qed.
End Sources.

Theorem next_err w mid m loc args e : call_next w mid m loc args = Err e ->
  length args <= 16 ->
  exists ts, (e = ENoOverrider mid (length args) ts \/ e = EAmbiguousCall mid (length args) ts) /\
    length ts = 16 /\ lists_types ts args /\
    forall i, length args <= i < 16 -> ts !! i = Some None.
Proof.
  intros H Hl. unfold call_next in H. apply obind_err in H as [H|(f & _ & H)].
  - exfalso. exact (deref_not_err _ _ H).
  - exists (bad_call_types args). split.
    + unfold bad_call_arity in H. destruct (decide _); [left; congruence|]. destruct (decide _); [right; congruence|discriminate].
    + split; [apply bad_types_length|]. split; [apply bad_types_lists; exact Hl|apply bad_types_rest].
Qed.

(* A call through next does what was selected for it. *)
Theorem next_behaves cf X R w mid m i o all :
  program_ok cf (r_env X) R -> initialized_by cf X false R w ->
  m ∈ reg_methods R -> mr_overriders m !! i = Some o ->
  unique_signature (e_ti (r_env X)) (mr_overriders m) i ->
  (forall args, valid_args (e_ti (r_env X)) R m args ->
     pointwise (e_ti (r_env X)) R (mr_overriders m)
       (candidate (e_ti (r_env X)) R (mr_overriders m) args)) ->
  functions_ok m ->
  exists sel, selects_next (e_ti (r_env X)) R (mr_overriders m) i sel /\
    (forall sel', selects_next (e_ti (r_env X)) R (mr_overriders m) i sel' -> sel' = sel) /\
    behaves m sel (call_next w mid m (or_next o) all).
Proof.
  intros HP HI Hm Ho Hu Hpw [Hne Hov].
  destruct (next_selects cf X R w HP HI m i o Hm Ho Hu Hpw) as (sel & f & Hs & Hun & Hf & Hn).
  exists sel. split; [exact Hs|]. split; [exact Hun|].
  unfold call_next. rewrite Hn. simpl. destruct sel as [| |j]; simpl in Hf.
  - injection Hf as <-. rewrite decide_True by reflexivity. constructor.
  - injection Hf as <-. rewrite decide_False by congruence. rewrite decide_True by reflexivity. constructor.
  - destruct (mr_overriders m !! j) as [oj|] eqn:Hj; [|discriminate]. injection Hf as <-.
    destruct (Hov oj (elem_of_list_lookup_2 _ _ _ Hj)).
    rewrite !decide_False by assumption. constructor. exact Hj.
Qed.

(* ---- handlers ---- *)
Section Handlers.
  Context (S : setup).

  Lemma signal_handled h e es en : signal S h e = (es, en) -> handled S h e es en.
  Proof.
    unfold signal. destruct (su_policy S) eqn:HP.
    - intros [= <- <-]. constructor 1. exact HP.
    - intros [= <- <-]. constructor 2. exact HP.
    - destruct h as [| |k]; simpl.
      + intros [= <- <-]. constructor 3; [exact HP|reflexivity].
      + intros [= <- <-]. constructor 6; [exact HP|reflexivity].
      + destruct (su_users S k e) as [x|] eqn:Hu; intros [= <- <-].
        * eapply handled_user_throws; eauto.
        * eapply handled_user_returns; eauto.
  Qed.

  Lemma attempt_handler a pg pg' r : attempt S a pg = (pg', r) ->
    pg_handler pg' = match a with SetsHandler h => h | _ => pg_handler pg end.
  Proof.
    destruct a; simpl.
    - intros [= <- _]. reflexivity.
    - destruct (lives S ev (pg_process pg)). intros [= <- _]. reflexivity.
    - intros [= <- _]. reflexivity.
    - intros [= <- _]. reflexivity.
    - destruct (vstep _ _ _ _ _). intros [= <- _]. reflexivity.
  Qed.

  Lemma act_inv a pg pg' es en : act S a pg = Ok (pg', es, en) ->
    (exists v, attempt S a pg = (pg', Ok v) /\ es = [] /\ en = Returns v) \/
    (exists e, attempt S a pg = (pg', Err e) /\ handled S (pg_handler pg) e es en).
  Proof.
    unfold act. destruct (attempt S a pg) as [pg1 [v|e| |]] eqn:Ha; try discriminate.
    - intros [= <- <- <-]. left. eauto.
    - destruct (signal S (pg_handler pg) e) as [es1 en1] eqn:Hs. intros [= <- <- <-].
      right. exists e. split; [reflexivity|]. apply signal_handled. exact Hs.
  Qed.

  Lemma executes_handler t pg : executes S t pg -> handler_in_place t (pg_handler pg).
  Proof.
    induction 1 as [|t pg a pg' es en _ IH _ Ha]; [constructor|].
    assert (Hh : pg_handler pg' = match a with SetsHandler h => h | _ => pg_handler pg end).
    { apply act_inv in Ha as [(v & Ha & _)|(e & Ha & _)]; eapply attempt_handler; eauto. }
    rewrite Hh. destruct a; try (constructor 3; [discriminate|exact IH]). constructor.
  Qed.

  Lemma in_place_unique t h h' : handler_in_place t h -> handler_in_place t h' -> h = h'.
  Proof.
    intros H. revert h'. induction H as [|t h es en|t st h Hst _ IH]; intros h' H'.
    - inversion H' as [| t1 ? ? ? Heq | t1 ? ? ? ? Heq]; [reflexivity| |]; destruct t1; discriminate.
    - inversion H' as [Heq| t1 ? ? ? Heq | t1 ? ? Hn ? Heq]; [destruct t; discriminate| |].
      + apply app_inj_tail in Heq as [_ Heq]. congruence.
      + apply app_inj_tail in Heq as [_ Heq]. subst. exfalso. eapply Hn. reflexivity.
    - inversion H' as [Heq| t1 ? ? ? Heq | t1 ? ? Hn ? Heq]; [destruct t; discriminate| |].
      + apply app_inj_tail in Heq as [_ Heq]. subst. exfalso. eapply Hst. reflexivity.
      + apply app_inj_tail in Heq as [Heq _]. subst. auto.
  Qed.

  (* Every operation returns without disturbing a handler, or ends as promised. *)
  Theorem operation_ends t pg a es en h :
    executes S (t ++ [Deed a es en]) pg -> handler_in_place t h ->
    (exists v, en = Returns v /\ es = []) \/ (exists e, handled S h e es en).
  Proof.
    intros He Hh. inversion He as [Heq|t1 pg1 a1 pg1' es1 en1 Ht1 _ Ha Heq]; subst.
    { destruct t; discriminate. }
    apply app_inj_tail in Heq as [-> [= -> -> ->]].
    rewrite (in_place_unique _ _ _ Hh (executes_handler _ _ Ht1)).
    apply act_inv in Ha as [(v & _ & -> & ->)|(e & _ & H)]; eauto.
  Qed.

  Theorem set_returns_previous t pg h es en h' :
    executes S (t ++ [Deed (SetsHandler h) es en]) pg -> handler_in_place t h' ->
    en = Returns (VHandler h') /\ es = [].
  Proof.
    intros He Hh. inversion He as [Heq|t1 pg1 a1 pg1' es1 en1 Ht1 _ Ha Heq]; subst.
    { destruct t; discriminate. }
    apply app_inj_tail in Heq as [-> [= -> -> ->]].
    rewrite (in_place_unique _ _ _ Hh (executes_handler _ _ Ht1)).
    unfold act in Ha. simpl in Ha. injection Ha as _ <- <-. auto.
  Qed.

  Theorem nothing_after_abort t pg t1 t2 a es :
    executes S t pg -> t = t1 ++ Deed a es Aborts :: t2 -> t2 = [].
  Proof.
    intros He. revert t1 t2. induction He as [|t pg a' pg' es' en' _ IH Hl _]; intros t1 t2 Heq.
    - destruct t1; discriminate.
    - destruct t2 as [|st t2] using rev_ind; [reflexivity|].
      rewrite app_comm_cons, app_assoc in Heq. apply app_inj_tail in Heq as [Heq _].
      pose proof (IH _ _ Heq) as Hnil. subst t2. exfalso. subst t. apply (Hl (Deed a es Aborts)); [|reflexivity].
      rewrite last_snoc. reflexivity.
  Qed.

  (* The history of the registry within an execution. *)
  Lemma initialized_in_snoc t st :
    initialized_in (t ++ [st]) <->
    (exists X n es v, st = Deed (Lives (Initializes X n)) es (Returns v)) \/
    (initialized_in t /\ st_action st <> Lives Finalizes).
  Proof.
    split.
    - intros (b & X & n & es & v & a & Heq & Hf). destruct a as [|st' a] using rev_ind.
      + apply app_inj_tail in Heq as [_ ->]. left. eauto.
      + rewrite app_comm_cons, app_assoc in Heq. apply app_inj_tail in Heq as [-> <-].
        right. split.
        * exists b, X, n, es, v, a. split; [reflexivity|]. intros x Hx. apply Hf, elem_of_app. auto.
        * apply Hf, elem_of_app. right. left.
    - intros [(X & n & es & v & ->)|[(b & X & n & es & v & a & -> & Hf) Hs]].
      + exists t, X, n, es, v, []. split; [reflexivity|]. intros x Hx. apply elem_of_nil in Hx. contradiction.
      + exists b, X, n, es, v, (a ++ [st]). split.
        * rewrite app_comm_cons, app_assoc. reflexivity.
        * intros x Hx. apply elem_of_app in Hx as [Hx|Hx]; [auto|].
          apply elem_of_list_singleton in Hx as ->. exact Hs.
  Qed.

  Lemma handled_not_returns h e es en v : handled S h e es en -> en <> Returns v.
  Proof. destruct 1; discriminate. Qed.

  Lemma executes_history t pg : executes S t pg ->
    exists h, history (su_config S) h (pg_process pg) /\ (live h <-> initialized_in t).
  Proof.
    induction 1 as [|t pg a pg' es en Ht (h & Hh & Hl) _ Ha].
    - exists []. split; [constructor|]. split.
      + intros (b & ? & ? & ? & Heq & _). destruct b; discriminate.
      + intros (b & ? & ? & ? & ? & ? & Heq & _). destruct b; discriminate.
    - assert (Hno : pg_process pg' = pg_process pg -> (forall ev, a <> Lives ev) ->
        exists h, history (su_config S) h (pg_process pg') /\
          (live h <-> initialized_in (t ++ [Deed a es en]))).
      { intros -> Hna. exists h. split; [exact Hh|]. rewrite initialized_in_snoc, Hl. simpl. split.
        - intros Hi. right. split; [exact Hi|]. intros ->. eapply Hna. reflexivity.
        - intros [(X & n & es' & v & [= -> _ _])|[Hi _]]; [|exact Hi]. exfalso. eapply Hna. reflexivity. }
      destruct a as [h0|ev|mid m args|mid m loc args|op].
      + apply Hno; [|discriminate].
        apply act_inv in Ha as [(v & Ha & _)|(e & Ha & _)]; simpl in Ha; injection Ha as <- ?; reflexivity.
      + assert (Hat : exists r, attempt S (Lives ev) pg = (pg', r) /\
          ((exists v, r = Ok v /\ en = Returns v) \/ (exists e, r = Err e /\ forall v, en <> Returns v))).
        { apply act_inv in Ha as [(v & Ha & _ & He)|(e & Ha & He)].
          - eauto 6.
          - exists (Err e). split; [exact Ha|]. right. exists e. split; [reflexivity|].
            intros v. eapply handled_not_returns; eauto. }
        clear Ha Hno. destruct Hat as (r & Hat & Hr). simpl in Hat.
        destruct (lives S ev (pg_process pg)) as [p r'] eqn:Hlv. injection Hat as <- <-. simpl.
        unfold lives in Hlv.
        destruct ev as [R|X n2216|].
        * simpl in Hlv. injection Hlv as <- <-. exists (h ++ [(Registers R, Done)]). split.
          { econstructor; [exact Hh|]. reflexivity. }
          rewrite live_snoc, initialized_in_snoc, Hl. simpl. split.
          -- intros [(X & n & Heq & _)|[Hi _]]; [discriminate|]. right. split; [exact Hi|discriminate].
          -- intros [(X & n & es' & v & [=])|[Hi _]]. right. split; [exact Hi|discriminate].
        * destruct (decide (1 < su_odr S)) as [Ho|Ho].
          { injection Hlv as <- <-. exists h. split; [exact Hh|].
            destruct Hr as [(v & [=] & _)|(e & _ & Hr)].
            rewrite initialized_in_snoc, Hl. simpl. split.
            - intros Hi. right. split; [exact Hi|discriminate].
            - intros [(X' & n & es' & v & [= _ _ _ ->])|[Hi _]]; [|exact Hi].
              exfalso. eapply Hr. reflexivity. }
          destruct (ModelLife.step (su_config S) (Initializes X n2216) (pg_process pg))
            as [[p' [|e]]|e| |] eqn:Hs; injection Hlv as <- <-.
          -- destruct Hr as [(v & [= <-] & ->)|(e & [=] & _)].
             exists (h ++ [(Initializes X n2216, Done)]). split; [econstructor; eauto|].
             split; intros _.
             ++ apply initialized_in_snoc. left. eauto.
             ++ apply live_snoc. left. eauto.
          -- destruct Hr as [(v & [=] & _)|(e' & [= <-] & Hr)].
             exists (h ++ [(Initializes X n2216, Failed e)]). split; [econstructor; eauto|].
             rewrite live_snoc, initialized_in_snoc, Hl. simpl. split.
             ++ intros [(X' & n & Heq & Hd)|[Hi _]]; [discriminate|]. right. split; [exact Hi|discriminate].
             ++ intros [(X' & n & es' & v & [= _ _ _ ->])|[Hi _]].
                ** exfalso. eapply Hr. reflexivity.
                ** right. split; [exact Hi|discriminate].
          -- exfalso. revert Hs. simpl. destruct (initialize _ _ _ _ _) as [? []]; discriminate.
          -- destruct Hr as [(v & [=] & _)|(e & [=] & _)].
          -- destruct Hr as [(v & [=] & _)|(e & [=] & _)].
        * simpl in Hlv. injection Hlv as <- <-. exists (h ++ [(Finalizes, Done)]). split.
          { econstructor; [exact Hh|]. reflexivity. }
          rewrite live_snoc, initialized_in_snoc. simpl. split.
          -- intros [(X & n & Heq & _)|[_ Hi]]; [discriminate|]. exfalso. apply Hi. reflexivity.
          -- intros [(X & n & es' & v & [=])|[_ Hi]]. exfalso. apply Hi. reflexivity.
      + apply Hno; [|discriminate].
        apply act_inv in Ha as [(v & Ha & _)|(e & Ha & _)]; simpl in Ha; injection Ha as <- ?; reflexivity.
      + apply Hno; [|discriminate].
        apply act_inv in Ha as [(v & Ha & _)|(e & Ha & _)]; simpl in Ha; injection Ha as <- ?; reflexivity.
      + apply Hno; [|discriminate].
        apply act_inv in Ha as [(v & Ha & _)|(e & Ha & _)]; simpl in Ha;
          destruct (vstep _ _ _ _ _); injection Ha as <- ?; reflexivity.
  Qed.
End Handlers.

(* ---- mistakes ---- *)
Lemma act_err S a pg pg' e : attempt S a pg = (pg', Err e) ->
  exists es en, act S a pg = Ok (pg', es, en) /\ handled S (pg_handler pg) e es en.
Proof.
  intros Ha. unfold act. rewrite Ha. destruct (signal S (pg_handler pg) e) as [es en] eqn:Hs.
  exists es, en. split; [reflexivity|]. apply signal_handled. exact Hs.
Qed.

Lemma require_not_live cf h p : history cf h p -> cf_checks cf = true -> ~ live h ->
  require_initialized cf (pr_world p) = Err ENotInitialized.
Proof.
  intros Hh Hc Hl. rewrite <- (history_live cf h p Hh) in Hl.
  unfold require_initialized. rewrite decide_True; [reflexivity|]. split; [exact Hc|].
  destruct (w_initialized (pr_world p)); [exfalso; auto|reflexivity].
Qed.

Lemma call_unknown cf w mid m pre t rest e :
  require_initialized cf w = Ok tt -> acquire_vptr cf w t = Err e -> non_virtual pre ->
  call cf w mid m (pre ++ AObject t :: rest) = Err e.
Proof.
  intros Hr Ha Hp. unfold call, resolve. rewrite Hr. simpl.
  assert (G1 : forall ss, resolve_uni cf w ss (pre ++ AObject t :: rest) = Err e).
  { intros ss. induction Hp as [|a pre Hv _ IH]; simpl; [rewrite Ha; reflexivity|]. rewrite Hv. exact IH. }
  assert (G2 : forall ss n, resolve_multi_first cf w ss n (pre ++ AObject t :: rest) = Err e).
  { clear G1. intros ss n. induction Hp as [|a pre Hv _ IH]; simpl; [rewrite Ha; reflexivity|]. rewrite Hv. exact IH. }
  destruct (decide _); [rewrite G1|rewrite G2]; reflexivity.
Qed.

Lemma behaves_ambiguous_inv m r : behaves m SAmbiguous r ->
  exists id n ts, r = Err (EAmbiguousCall id n ts).
Proof. inversion 1. eauto. Qed.

Lemma behaves_none_inv m r : behaves m SNone r -> exists id n ts, r = Err (ENoOverrider id n ts).
Proof. inversion 1. eauto. Qed.

(* Calls that are not mistakes. *)
Theorem proper_returns S pg a f : proper S pg a f -> act S a pg = Ok (pg, [], Returns (VEnters f)).
Proof.
  intros [X mid m all args i o HP HB HI Hca Hf Htog Htr Hsel Ho
    |X mid m i o all j o' HP HI Hm Ho Hu Hpw Hf Hsel Ho']; unfold act; simpl.
  - destruct (call_selects _ _ _ _ HP HB mid m all args HI Hca Hf Htog Htr) as (sel & _ & Hu & Hb).
    rewrite <- (Hu _ Hsel) in Hb. inversion Hb as [| |i' o'' Ho'' Hi Hcall]. subst i'.
    rewrite Ho in Ho''. injection Ho'' as <-. reflexivity.
  - destruct (next_behaves _ _ _ _ mid m i o all HP HI Hm Ho Hu Hpw Hf) as (sel & _ & Hun & Hb).
    rewrite <- (Hun _ Hsel) in Hb. inversion Hb as [| |i' o'' Ho'' Hi Hcall]. subst i'.
    rewrite Ho' in Ho''. injection Ho'' as <-. reflexivity.
Qed.

Theorem mistake_handled S t pg a e h :
  executes S t pg -> handler_in_place t h -> mistake S t pg a e ->
  exists pg' es en, act S a pg = Ok (pg', es, en) /\ handled S h e es en.
Proof.
  intros Ht Hh Hm. rewrite (in_place_unique _ _ _ Hh (executes_handler S t pg Ht)). clear h Hh.
  destruct (executes_history S t pg Ht) as (h & Hh & Hl).
  enough (exists pg', attempt S a pg = (pg', Err e)) as (pg' & Ha).
  { destruct (act_err S a pg pg' e Ha) as (es & en & H1 & H2). eauto. }
  destruct Hm as [mid m args Hc Hn|d o Hc Hn|X mid m all args ts HP HB HI Hca Hf Htog Hlen Hno Hts1 Hts2 Hts3
    |X mid m all args ts HP HB HI Hca Hf Htog Hlen Htr Hsel Hts1 Hts2 Hts3
    |X mid m i o all ts HP HI Hm Ho Hu Hpw Hf Hlen Hsel Hts1 Hts2 Hts3
    |X mid m i o all ts HP HI Hm Ho Hu Hpw Hf Hlen Hsel Hts1 Hts2 Hts3
    |X n2216 mid m pre ty rest HP HI Hc Hk Hu Hnr Hpre|X n2216 d o ty loc HI Hc Ho
    |X ty HP Hodr Hnm Hnr Hun|X n2216 Hodr].
  - rewrite <- Hl in Hn. exists pg. simpl.
    apply (not_initialized_iff _ _ _ mid m args Hh Hc) in Hn. rewrite Hn. reflexivity.
  - rewrite <- Hl in Hn. simpl. unfold acquire.
    rewrite (require_not_live _ _ _ Hh Hc Hn). simpl. eexists. reflexivity.
  - exists pg. simpl.
    apply (call_no_overrider _ _ _ _ HP HB mid m all args HI Hca Hf Htog) in Hno as (id & n & ts' & Hcall).
    destruct (call_err _ _ _ _ _ _ Hcall Hlen) as [[=]|[(ty & [=] & _)|(ts'' & [Heq|[=]] & H1 & H2 & H3)]].
    injection Heq as -> -> ->. rewrite Hcall. simpl. repeat f_equal.
    rewrite (bad_types_unique all ts) by assumption. apply bad_types_unique; assumption.
  - exists pg. simpl.
    destruct (call_selects _ _ _ _ HP HB mid m all args HI Hca Hf Htog Htr) as (sel & _ & Hu & Hb).
    rewrite <- (Hu _ Hsel) in Hb. apply behaves_ambiguous_inv in Hb as (id & n & ts' & Hcall).
    destruct (call_err _ _ _ _ _ _ Hcall Hlen) as [[=]|[(ty & [=] & _)|(ts'' & [[=]|Heq] & H1 & H2 & H3)]].
    injection Heq as -> -> ->. rewrite Hcall. simpl. repeat f_equal.
    rewrite (bad_types_unique all ts) by assumption. apply bad_types_unique; assumption.
  - exists pg. simpl.
    destruct (next_behaves _ _ _ _ mid m i o all HP HI Hm Ho Hu Hpw Hf) as (sel & _ & Hun & Hb).
    rewrite <- (Hun _ Hsel) in Hb. apply behaves_none_inv in Hb as (id & n & ts' & Hcall).
    destruct (next_err _ _ _ _ _ _ Hcall Hlen) as (ts'' & [Heq|[=]] & H1 & H2 & H3).
    injection Heq as -> -> ->. rewrite Hcall. simpl. repeat f_equal.
    rewrite (bad_types_unique all ts) by assumption. apply bad_types_unique; assumption.
  - exists pg. simpl.
    destruct (next_behaves _ _ _ _ mid m i o all HP HI Hm Ho Hu Hpw Hf) as (sel & _ & Hun & Hb).
    rewrite <- (Hun _ Hsel) in Hb. apply behaves_ambiguous_inv in Hb as (id & n & ts' & Hcall).
    destruct (next_err _ _ _ _ _ _ Hcall Hlen) as (ts'' & [[=]|Heq] & H1 & H2 & H3).
    injection Heq as -> -> ->. rewrite Hcall. simpl. repeat f_equal.
    rewrite (bad_types_unique all ts) by assumption. apply bad_types_unique; assumption.
  - exists pg. simpl.
    rewrite (call_unknown _ _ mid m pre ty rest (EMissingClass ty)); [reflexivity| | |exact Hpre].
    + exact (initialized_required _ _ _ _ _ HI).
    + exact (acquire_unregistered _ _ _ _ _ HP HI ty Hc Hk Hu Hnr).
  - destruct (final_error_iff _ X n2216 _ _ (su_objs S) HI (pg_pointers pg) d o ty loc Hc) as [_ H].
    destruct (H Ho) as (s' & e & Hv). 
    destruct (final_error_is _ X n2216 _ _ (su_objs S) HI _ _ _ _ _ _ _ _ Hv) as (-> & _).
    eexists. cbn [attempt]. rewrite Hv. reflexivity.
  - simpl. unfold lives. rewrite decide_False by lia. simpl.
    destruct (missing_class_iff (su_config S) X _ _ HP (history_world_ok _ _ _ Hh)) as [[_ H1] H2].
    destruct H1 as (ty' & w' & Hi).
    { intros Hall. exact (Hnr (Hall ty Hnm)). }
    destruct (H2 _ _ Hi) as (_ & Hnm' & Hnr'). rewrite (Hun ty' Hnm' Hnr') in Hi.
    rewrite Hi. eexists. reflexivity.
  - simpl. unfold lives. rewrite decide_True by exact Hodr. eexists. reflexivity.
Qed.

(* Executions can be computed. *)
Definition aborted (t : list deed) : bool :=
  match list.last t with
  | Some st => match st_ending st with Aborts => true | _ => false end
  | None => false
  end.

Fixpoint perform (S : setup) (acts : list action) (t : list deed) (pg : program) :
    option (list deed * program) :=
  match acts with
  | [] => Some (t, pg)
  | a :: acts =>
      if aborted t then None
      else match act S a pg with
           | Ok (pg', es, en) => perform S acts (t ++ [Deed a es en]) pg'
           | _ => None
           end
  end.

Lemma perform_executes S acts : forall t pg t' pg',
  executes S t pg -> perform S acts t pg = Some (t', pg') -> executes S t' pg'.
Proof.
  induction acts as [|a acts IH]; intros t pg t' pg' He Hp; simpl in Hp.
  - injection Hp as <- <-. exact He.
  - destruct (aborted t) eqn:Hab; [discriminate|].
    destruct (act S a pg) as [[[pg1 es] en]| | |] eqn:Ha; try discriminate.
    eapply IH; [|exact Hp]. econstructor; [exact He| |exact Ha].
    intros st Hst H. unfold aborted in Hab. rewrite Hst, H in Hab. discriminate.
Qed.

Lemma handled_user S k e es en :
  su_policy S = PolicyDefault -> handled S (HUser k) e es en ->
  es = [Entered k e] /\
  en = match su_users S k e with Some x => Throws (ThrownUser x) | None => Aborts end.
Proof.
  intros HP Hh. inversion Hh as [H|H|H Hk|k' H Hk Hu|k' x H Hk Hu|H Hk]; subst; try congruence.
  - injection Hk as <-. rewrite Hu. auto.
  - injection Hk as <-. rewrite Hu. auto.
Qed.

Lemma bad_call_says cf w mid m args e id n ts :
  call cf w mid m args = Err e -> length args <= 16 ->
  e = ENoOverrider id n ts \/ e = EAmbiguousCall id n ts ->
  id = mid /\ lists_types ts args /\ (virtual_args args = args -> n = length (virtual_args args)).
Proof.
  intros H Hl He.
  destruct (call_err _ _ _ _ _ _ H Hl) as [->|[(t & -> & _)|(ts' & He' & _ & Ht & _)]].
  - destruct He; discriminate.
  - destruct He; discriminate.
  - destruct He as [-> | ->], He' as [[= -> -> ->]|[= -> -> ->]]; split; auto; split; auto;
      intros ->; reflexivity.
Qed.

Lemma bad_next_says w mid m loc args e :
  call_next w mid m loc args = Err e -> length args <= 16 ->
  exists n ts, (e = ENoOverrider mid n ts \/ e = EAmbiguousCall mid n ts) /\
    lists_types ts args /\ (virtual_args args = args -> n = length (virtual_args args)).
Proof.
  intros H Hl. destruct (next_err _ _ _ _ _ _ H Hl) as (ts & He & _ & Ht & _).
  exists (length args), ts. split; [exact He|]. split; [exact Ht|]. intros ->. reflexivity.
Qed.

Lemma call_signals cf w mid m args e :
  call cf w mid m args = Err e -> length args <= 16 ->
  e = ENotInitialized \/ (exists t, e = EMissingClass t /\ AObject t ∈ args) \/
  exists n ts, e = ENoOverrider mid n ts \/ e = EAmbiguousCall mid n ts.
Proof.
  intros H Hl. destruct (call_err _ _ _ _ _ _ H Hl) as [He|[He|(ts & He & _)]]; auto.
  right. right. eauto.
Qed.
