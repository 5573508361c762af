(* Histories of a registry: invariants, and detection of uninitialized use. *)
From stdpp Require Import base list numbers list_numbers relations.
From Verif Require Import Base Registry Spec ModelClasses ModelMethods ModelSlots ModelTables
  ModelHash ModelWorld ModelCall SpecCall ModelLife SpecLife ProofBase ProofWorld.

(* What initialize does to the flag and to the buffers, whatever is registered. *)
Lemma initialize_flag cf X n2216 R w w' o :
  initialize cf X n2216 R w = (w', o) ->
  w_initialized w' = match o with Ok _ => true | _ => w_initialized w end.
Proof.
  unfold initialize, install. intros H.
  destruct (compile (r_env X) n2216 R) as [cp|e| |]; try (injection H as <- <-; reflexivity).
  destruct (write_tables (w_fresh w) cp w) as [wr|e| |]; try (injection H as <- <-; reflexivity).
  destruct (cf_vptr cf).
  - destruct (vector_initialize _ _ _ _ _) as [[hs [[vec ivec]|e]]|e| |];
      injection H as <- <-; reflexivity.
  - injection H as <- <-. reflexivity.
  - injection H as <- <-. reflexivity.
Qed.

Lemma initialize_world_ok cf X n2216 R w w' o :
  initialize cf X n2216 R w = (w', o) -> world_ok w -> world_ok w'.
Proof.
  unfold initialize, install. intros H Hw.
  destruct (compile (r_env X) n2216 R) as [cp|e| |]; try (injection H as <- <-; exact Hw).
  destruct (write_tables (w_fresh w) cp w) as [wr|e| |]; try (injection H as <- <-; exact Hw).
  destruct Hw as [W1 W2].
  assert (G : forall st ss nx vec ivec m h i, world_ok (World (w_heap w) (S (w_fresh w)) (w_data w)
                st ss nx vec ivec m h i)).
  { intros. split; simpl.
    - intros b Hb. specialize (W1 b Hb). lia.
    - intros b Hb. apply W2. lia. }
  assert (Hok' : forall ws stat ss nx vec ivec m h i, world_ok (World (match w_data w with
              | Some old => upd (upd (w_heap w) (w_fresh w) (Some ws)) old None
              | None => upd (w_heap w) (w_fresh w) (Some ws) end) (S (w_fresh w))
              (Some (w_fresh w)) stat ss nx vec ivec m h i)).
  { intros. split; simpl.
    - intros b [= <-]. lia.
    - intros b Hb. destruct (w_data w) as [old|].
      + specialize (W1 old eq_refl). rewrite !upd_ne by lia. apply W2. lia.
      + rewrite upd_ne by lia. apply W2. lia. }
  destruct (cf_vptr cf).
  - destruct (vector_initialize _ _ _ _ _) as [[hs [[vec ivec]|e]]|e| |];
      injection H as <- <-; (apply G || apply Hok').
  - injection H as <- <-. apply Hok'.
  - injection H as <- <-. apply Hok'.
Qed.

Lemma finalize_world_ok cf w : world_ok w -> world_ok (finalize cf w).
Proof.
  intros [W1 W2]. split; simpl; [discriminate|]. intros b Hb.
  destruct (w_data w) as [old|].
  - specialize (W1 old eq_refl). rewrite upd_ne by lia. apply W2. exact Hb.
  - apply W2. exact Hb.
Qed.

Lemma history_world_ok cf h p : history cf h p -> world_ok (pr_world p).
Proof.
  induction 1 as [|h p ev p' r _ IH Hs]; [apply world0_ok|].
  destruct ev as [R|X n2216|]; simpl in Hs.
  - injection Hs as <- _. exact IH.
  - destruct (initialize cf X n2216 (pr_regs p) (pr_world p)) as [w o] eqn:Hi.
    apply initialize_world_ok in Hi; [|exact IH].
    destruct o; try discriminate; injection Hs as <- _; exact Hi.
  - injection Hs as <- _. apply finalize_world_ok. exact IH.
Qed.

Lemma live_snoc h ev r :
  live (h ++ [(ev, r)]) <->
  (exists X n2216, ev = Initializes X n2216 /\ r = Done) \/ (live h /\ ev <> Finalizes).
Proof.
  split.
  - intros (b & X & n & a & Heq & Hf). destruct a as [|x a _] using rev_ind.
    + apply app_inj_tail in Heq as [_ Heq]. injection Heq as -> ->. left. eauto.
    + rewrite app_comm_cons, app_assoc in Heq. apply app_inj_tail in Heq as [-> <-].
      right. split.
      * exists b, X, n, a. split; [reflexivity|]. intros r' Hr. apply (Hf r').
        apply elem_of_app. left. exact Hr.
      * intros ->. apply (Hf r). apply elem_of_app. right. left.
  - intros [(X & n & -> & ->)|[(b & X & n & a & -> & Hf) Hne]].
    + exists h, X, n, []. split; [reflexivity|]. intros r H. inversion H.
    + exists b, X, n, (a ++ [(ev, r)]). rewrite app_comm_cons, app_assoc. split; [reflexivity|].
      intros r' [H|H]%elem_of_app; [exact (Hf r' H)|].
      apply elem_of_list_singleton in H. injection H as H _. congruence.
Qed.

Lemma history_live cf h p : history cf h p -> w_initialized (pr_world p) = true <-> live h.
Proof.
  induction 1 as [|h p ev p' r _ IH Hs].
  - split; [discriminate|]. intros (b & X & n & a & Heq & _). destruct b; discriminate.
  - rewrite live_snoc. destruct ev as [R|X n2216|]; simpl in Hs.
    + injection Hs as <- <-. simpl. rewrite IH. split.
      * intros H. right. split; [exact H|discriminate].
      * intros [(X & n & H & _)|[H _]]; [discriminate|exact H].
    + destruct (initialize cf X n2216 (pr_regs p) (pr_world p)) as [w o] eqn:Hi.
      apply initialize_flag in Hi. destruct o; try discriminate; injection Hs as <- <-; simpl; rewrite Hi.
      * split; [|reflexivity]. intros _. left. eauto.
      * rewrite IH. split.
        -- intros H. right. split; [exact H|discriminate].
        -- intros [(X' & n & _ & H)|[H _]]; [discriminate|exact H].
    + injection Hs as <- <-. simpl. split; [discriminate|].
      intros [(X & n & H & _)|[_ H]]; congruence.
Qed.

Section Uninitialized.
  Context (cf : config) (h : list (event * result)) (p : process) (Hh : history cf h p).
  Notation w := (pr_world p).

  Lemma call_uninitialized mid m args :
    cf_checks cf = true -> ~ live h -> call cf w mid m args = Err ENotInitialized.
  Proof.
    intros Hc Hl. unfold call, resolve, require_initialized. rewrite decide_True; [reflexivity|].
    split; [exact Hc|]. rewrite <- (history_live cf h p Hh) in Hl.
    destruct (w_initialized w); [contradiction|reflexivity].
  Qed.

  Lemma acquire_uninitialized t :
    cf_checks cf = true -> ~ live h -> acquire_vptr cf w t = Err ENotInitialized.
  Proof.
    intros Hc Hl. unfold acquire_vptr, require_initialized. rewrite decide_True; [reflexivity|].
    split; [exact Hc|]. rewrite <- (history_live cf h p Hh) in Hl.
    destruct (w_initialized w); [contradiction|reflexivity].
  Qed.

  Lemma require_live : live h -> require_initialized cf w = Ok tt.
  Proof.
    intros Hl. apply (history_live cf h p Hh) in Hl. unfold require_initialized.
    rewrite decide_False; [reflexivity|]. intros [_ ?]. congruence.
  Qed.
End Uninitialized.

(* Errors other than not_initialized, and nothing else, once initialized. *)
Section Initialized.
  Context (cf : config) (w : world) (Hr : require_initialized cf w = Ok tt).

  Lemma hash_type_ni h t : hash_type (cf_checks cf) h t <> Err ENotInitialized.
  Proof.
    unfold hash_type. destruct (cf_checks cf); simpl; [|discriminate].
    unfold hash_check. destruct (decide _); simpl; [discriminate|].
    intros H. destruct (at_ (h_control h) _) as [b|e| |] eqn:Ha; simpl in H; try discriminate.
    - destruct (decide _); simpl in H; discriminate.
    - exact (at_not_err _ _ _ Ha).
  Qed.

  Lemma dynamic_vptr_ni t : dynamic_vptr cf w t <> Err ENotInitialized.
  Proof.
    unfold dynamic_vptr. intros H. destruct (cf_vptr cf).
    - apply obind_err in H as [H|(i & _ & H)].
      + unfold vector_index in H. destruct (cf_hash cf); [|discriminate].
        exact (hash_type_ni _ _ H).
      + destruct (decide _); [discriminate|]. destruct (cf_indirect cf).
        * apply obind_err in H as [H|(q & _ & H)]; [exact (at_not_err _ _ _ H)|].
          apply obind_err in H as [H|(q' & _ & H)]; [|discriminate].
          destruct q; discriminate.
        * apply obind_err in H as [H|(q & _ & H)]; [exact (at_not_err _ _ _ H)|discriminate].
    - destruct (map_find _ _); [discriminate|]. destruct (cf_checks cf); discriminate.
    - discriminate.
  Qed.

  Lemma acquire_ni t : acquire_vptr cf w t <> Err ENotInitialized.
  Proof. unfold acquire_vptr. rewrite Hr. simpl. apply dynamic_vptr_ni. Qed.

  Lemma read_word_err v i e : read_word w v i <> Err e.
  Proof.
    unfold read_word. destruct v; [discriminate|]. destruct (w_heap w buf); simpl; [|discriminate].
    destruct (decide _); [discriminate|]. apply at_not_err.
  Qed.

  Lemma arg_vptr_ni a : arg_vptr cf w a <> Err ENotInitialized.
  Proof.
    destruct a; simpl; try discriminate. intros H.
    apply obind_err in H as [H|(r & _ & H)]; [exact (acquire_ni _ H)|discriminate].
  Qed.

  Lemma resolve_uni_ni ss args : resolve_uni cf w ss args <> Err ENotInitialized.
  Proof.
    induction args as [|a args IH]; simpl; [discriminate|].
    destruct (is_virtual_arg a); [|exact IH]. intros H.
    apply obind_err in H as [H|(v & _ & H)]; [exact (arg_vptr_ni _ H)|].
    apply obind_err in H as [H|(s & _ & H)]; [exact (at_not_err _ _ _ H)|].
    exact (read_word_err _ _ _ H).
  Qed.

  Lemma resolve_next_ni ss arity va d args :
    resolve_multi_next cf w ss arity va d args <> Err ENotInitialized.
  Proof.
    revert va d. induction args as [|a args IH]; intros va d; simpl; [discriminate|].
    intros H. apply obind_err in H as [H|(v & _ & H)].
    - destruct (is_virtual_arg a); [|discriminate].
      apply obind_err in H as [H|(v & _ & H)]; [exact (arg_vptr_ni _ H)|].
      apply obind_err in H as [H|(s & _ & H)]; [exact (at_not_err _ _ _ H)|].
      apply obind_err in H as [H|(s' & _ & H)]; [exact (at_not_err _ _ _ H)|].
      apply obind_err in H as [H|(x & _ & H)]; [exact (read_word_err _ _ _ H)|].
      apply obind_err in H as [H|(i & _ & H)]; [destruct x; discriminate|].
      destruct d; simpl in H; [destruct (decide _)|]; discriminate.
    - destruct (decide _); [exact (read_word_err _ _ _ H)|exact (IH _ _ H)].
  Qed.

  Lemma resolve_first_ni ss arity args :
    resolve_multi_first cf w ss arity args <> Err ENotInitialized.
  Proof.
    induction args as [|a args IH]; simpl; [discriminate|].
    destruct (is_virtual_arg a); [|exact IH]. intros H.
    apply obind_err in H as [H|(v & _ & H)]; [exact (arg_vptr_ni _ H)|].
    apply obind_err in H as [H|(s & _ & H)]; [exact (at_not_err _ _ _ H)|].
    apply obind_err in H as [H|(x & _ & H)]; [exact (read_word_err _ _ _ H)|].
    apply obind_err in H as [H|(d & _ & H)]; [destruct x; discriminate|].
    exact (resolve_next_ni _ _ _ _ _ H).
  Qed.

  Lemma call_ni mid m args : call cf w mid m args <> Err ENotInitialized.
  Proof.
    unfold call. intros H. apply obind_err in H as [H|(f & _ & H)].
    - unfold resolve in H. rewrite Hr in H. simpl in H.
      apply obind_err in H as [H|(x & _ & H)].
      + destruct (decide _); [exact (resolve_uni_ni _ _ H)|exact (resolve_first_ni _ _ _ H)].
      + destruct x; discriminate.
    - repeat (destruct (decide _); [discriminate|]). discriminate.
  Qed.
End Initialized.

Theorem not_initialized_iff cf h p mid m args :
  history cf h p -> cf_checks cf = true ->
  call cf (pr_world p) mid m args = Err ENotInitialized <-> ~ live h.
Proof.
  intros Hh Hc. split.
  - intros H Hl. exact (call_ni cf _ (require_live cf h p Hh Hl) mid m args H).
  - intros Hl. eapply call_uninitialized; eauto.
Qed.

Theorem acquire_not_initialized_iff cf h p t :
  history cf h p -> cf_checks cf = true ->
  acquire_vptr cf (pr_world p) t = Err ENotInitialized <-> ~ live h.
Proof.
  intros Hh Hc. split.
  - intros H Hl. exact (acquire_ni cf _ (require_live cf h p Hh Hl) t H).
  - intros Hl. eapply acquire_uninitialized; eauto.
Qed.

(* play computes histories. *)
Lemma play_history cf evs h p : play cf evs = Ok (h, p) -> history cf h p.
Proof.
  unfold play. intros H.
  assert (G : forall evs h0 p0, history cf h0 p0 ->
    foldM (fun ev hp => let* '(p', r) := step cf ev (snd hp) in Ok (fst hp ++ [(ev, r)], p'))
      evs (h0, p0) = Ok (h, p) -> history cf h p).
  { clear H evs. intros evs. induction evs as [|ev l IH]; intros h0 p0 H0 H; simpl in H.
    - injection H as <- <-. exact H0.
    - apply obind_ok in H as ([h1 p1] & Hs & H).
      apply obind_ok in Hs as ([p' r] & Hs & [= <- <-]).
      eapply IH; [|exact H]. econstructor; eauto. }
  eapply G; [constructor|exact H].
Qed.

Lemma history_present cf h p : history cf h p -> forall R, present h R -> pr_regs p = R.
Proof.
  induction 1 as [|h p ev p' r Hh IH Hs]; intros R (before & r0 & after & Heq & Hno).
  - destruct before; discriminate.
  - destruct after as [|x after _] using rev_ind.
    + apply app_inj_tail in Heq as [-> [= -> ->]]. simpl in Hs. injection Hs as <- <-. reflexivity.
    + rewrite app_comm_cons, app_assoc in Heq. apply app_inj_tail in Heq as [Heq <-].
      assert (HR : pr_regs p = R).
      { apply IH. exists before, r0, after. split; [exact Heq|].
        intros R' r' Hin. apply (Hno R' r'), elem_of_app. auto. }
      destruct ev as [R1|X n2216|]; simpl in Hs.
      * exfalso. apply (Hno R1 r), elem_of_app. right. constructor.
      * destruct (initialize cf X n2216 (pr_regs p) (pr_world p)) as [w [rep|e| |]]; try discriminate Hs;
          injection Hs as <- <-; exact HR.
      * injection Hs as <- <-. exact HR.
Qed.
