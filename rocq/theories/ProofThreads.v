(* Threads. *)
From stdpp Require Import base list numbers list_numbers.
From Verif Require Import Base Registry ModelClasses ModelMethods ModelTables ModelHash ModelWorld ModelCall
  ModelErrors Spec SpecCall SpecReads ModelThreads SpecThreads ProofBase ProofBehaviour.

(* ---- a thread on its own ---- *)
Lemma run_then {A B} (c : code A) (f : A -> code B) w w' o :
  run_code c w = (w', o) ->
  run_code (then_ c f) w =
    match o with
    | Ok x => run_code (f x) w' | Err e => (w', Err e) | Undef => (w', Undef) | Diverge => (w', Diverge)
    end.
Proof.
  revert w. induction c as [o'|l k IH|k IH|ls u k IH]; intros w; simpl; eauto.
  intros [= <- <-]. by destruct o'.
Qed.

(* A function that only reads and gives [o]. *)
Definition gives {A} (c : code A) (w : world) (o : outcome A) : Prop := run_code c w = (w, o).

Lemma gives_then {A B} (c : code A) (f : A -> code B) w o (o' : outcome B) :
  gives c w o ->
  (forall x, o = Ok x -> gives (f x) w o') ->
  (forall e, o = Err e -> o' = Err e) -> (o = Undef -> o' = Undef) -> (o = Diverge -> o' = Diverge) ->
  gives (then_ c f) w o'.
Proof.
  unfold gives. intros Hc H1 H2 H3 H4. rewrite (run_then _ _ _ _ _ Hc).
  destruct o; [by apply H1|by rewrite (H2 e)|by rewrite H3|by rewrite H4].
Qed.

Lemma gives_bind {A B} (c : code A) (f : A -> code B) w o (g : A -> outcome B) :
  gives c w o -> (forall x, o = Ok x -> gives (f x) w (g x)) -> gives (then_ c f) w (let* x := o in g x).
Proof.
  intros Hc Hf. eapply gives_then; [exact Hc|..]; destruct o; try done; simpl; try congruence.
  intros x [= <-]. by apply Hf.
Qed.

Lemma slot_gives a k w : gives (get_slot a k) w (at_ (w_ss w a) k).
Proof. unfold gives, get_slot, at_. simpl. by destruct (w_ss w a !! k). Qed.

Lemma word_gives v i w : gives (get_word v i) w (read_word w v i).
Proof.
  destruct v as [|b off]; [done|]. unfold gives, get_word, read_word, deref, at_.
  destruct (decide _) as [Hn|Hn]; simpl.
  - by destruct (w_heap w b).
  - destruct (w_heap w b) as [ws|]; simpl; [|done]. by destruct (ws !! _).
Qed.

Lemma initialized_gives cf w : gives (get_initialized cf) w (require_initialized cf w).
Proof.
  unfold gives, get_initialized, require_initialized. destruct (cf_checks cf), (w_initialized w) eqn:E; simpl;
    rewrite ?E; reflexivity.
Qed.

Lemma index_gives cf t w : gives (get_index cf t) w (vector_index cf (w_hash w) t).
Proof.
  unfold gives, get_index, vector_index, hash_type, hash_check. destruct (cf_hash cf); [|done]. simpl.
  set (i := hash_index _ _ _). destruct (cf_checks cf); [|done]. simpl.
  destruct (decide (i < h_min (w_hash w))%N).
  { rewrite decide_True by (by left). done. }
  simpl. destruct (decide (h_max (w_hash w) < i)%N).
  { rewrite decide_True by (by right). done. }
  rewrite decide_False by (by intros [?|?]). simpl. unfold at_.
  destruct (h_control (w_hash w) !! N.to_nat i) as [b|]; simpl; [|done]. by destruct (decide (b = t)).
Qed.

Lemma dynamic_gives cf t w : gives (get_dynamic cf t) w (dynamic_vptr cf w t).
Proof.
  unfold get_dynamic, dynamic_vptr. destruct (cf_vptr cf); [| |done].
  - apply gives_bind; [apply index_gives|]. intros i _. cbv zeta.
    assert (He : gives (if cf_indirect cf
        then Read (LIndirect (N.to_nat i)) (fun c => match c with
            | CAddress (Some (Some loc)) => Done (Ok (RStatic loc)) | _ => Done Undef end)
        else Read (LVector (N.to_nat i)) (fun c => match c with
            | CVptr (Some v) => Done (Ok (RElem v)) | _ => Done Undef end)) w
      (if cf_indirect cf then let* p := at_ (w_ivec w) (N.to_nat i) in let* loc := deref p in Ok (RStatic loc)
       else let* v := at_ (w_vec w) (N.to_nat i) in Ok (RElem v))).
    { unfold gives, at_, deref. destruct (cf_indirect cf); simpl.
      - by destruct (w_ivec w !! N.to_nat i) as [[loc|]|].
      - by destruct (w_vec w !! N.to_nat i). }
    destruct (cf_hash cf).
    { rewrite decide_False by naive_solver. exact He. }
    destruct (cf_checks cf).
    2:{ rewrite decide_False by naive_solver. exact He. }
    apply (gives_then _ _ _ (Ok (if cf_indirect cf then length (w_ivec w) else length (w_vec w)))); try done.
    { unfold gives, get_size. by destruct (cf_indirect cf). }
    intros n [= <-]. destruct (decide (_ <= N.to_nat i)) as [Hle|Hle].
    + rewrite decide_True by done. done.
    + rewrite decide_False by naive_solver. exact He.
  - unfold gives. simpl. destruct (map_find (w_map w) t); [done|]. by destruct (cf_checks cf).
Qed.

Lemma acquire_gives cf t w : gives (get_acquire cf t) w (acquire_vptr cf w t).
Proof.
  unfold get_acquire, acquire_vptr. apply gives_bind; [apply initialized_gives|]. intros _ _. apply dynamic_gives.
Qed.

Lemma value_gives r w : gives (get_value r) w (Ok (vref_value w r)).
Proof. by destruct r. Qed.

Lemma vptr_gives cf a w : gives (get_vptr cf a) w (arg_vptr cf w (unboxed w a)).
Proof.
  destruct a as [t|r t|t]; simpl; [|apply value_gives|done].
  apply gives_bind; [apply acquire_gives|]. intros r _. apply value_gives.
Qed.

Lemma virtual_unboxed w a : is_virtual_arg (unboxed w a) = is_virtual_targ a.
Proof. by destruct a. Qed.

Lemma uni_gives cf ss args w :
  gives (get_uni cf ss args) w (resolve_uni cf w (w_ss w ss) (map (unboxed w) args)).
Proof.
  induction args as [|a args IH]; [done|]. cbn [get_uni resolve_uni map]. rewrite virtual_unboxed.
  destruct (is_virtual_targ a); [|exact IH].
  apply gives_bind; [apply vptr_gives|]. intros v _. apply gives_bind; [apply slot_gives|].
  intros s _. apply word_gives.
Qed.

Lemma done_gives {A} (o : outcome A) w : gives (get_done o) w o.
Proof. done. Qed.

Lemma multi_next_gives cf ss arity w : forall args va d,
  gives (get_multi_next cf ss arity va d args) w
    (resolve_multi_next cf w (w_ss w ss) arity va d (map (unboxed w) args)).
Proof.
  induction args as [|a args IH]; intros va d; [done|]. cbn [get_multi_next resolve_multi_next map].
  rewrite virtual_unboxed. apply gives_bind.
  - destruct (is_virtual_targ a); [|done].
    apply gives_bind; [apply vptr_gives|]. intros v _. apply gives_bind; [apply slot_gives|].
    intros s _. apply gives_bind; [apply slot_gives|]. intros st _. apply gives_bind; [apply word_gives|].
    intros x _. apply gives_bind; [apply done_gives|]. intros i _. apply done_gives.
  - intros d' _. destruct (decide _); [apply word_gives|apply IH].
Qed.

Lemma multi_first_gives cf ss arity w args :
  gives (get_multi_first cf ss arity args) w
    (resolve_multi_first cf w (w_ss w ss) arity (map (unboxed w) args)).
Proof.
  induction args as [|a args IH]; [done|]. cbn [get_multi_first resolve_multi_first map]. rewrite virtual_unboxed.
  destruct (is_virtual_targ a); [|exact IH].
  apply gives_bind; [apply vptr_gives|]. intros v _. apply gives_bind; [apply slot_gives|].
  intros s _. apply gives_bind; [apply word_gives|]. intros x _. apply gives_bind; [apply done_gives|].
  intros d _. apply multi_next_gives.
Qed.

Lemma resolve_gives cf m args w : gives (get_resolve cf m args) w (resolve cf w m (map (unboxed w) args)).
Proof.
  unfold get_resolve, resolve. apply gives_bind; [apply initialized_gives|]. intros _ _. apply gives_bind.
  - destruct (decide _); [apply uni_gives|apply multi_first_gives].
  - intros x _. apply done_gives.
Qed.

Lemma types_unboxed w w' args : bad_call_types (map (unboxed w) args) = bad_call_types (map (unboxed w') args).
Proof.
  unfold bad_call_types. generalize (repeat (@None N) max_types). generalize 0.
  induction args as [|a args IH]; intros n l; [done|]. simpl.
  assert (arg_type (unboxed w a) = arg_type (unboxed w' a)) as -> by (by destruct a). apply IH.
Qed.

Lemma enter_call w w' mid m args f : enter mid m args w f = enter mid m args w' f.
Proof.
  unfold enter, bad_call_arity. rewrite (types_unboxed w w'). rewrite !map_length. done.
Qed.

Lemma next_gives loc w : gives (get_next loc) w (Ok (w_next w loc)).
Proof. done. Qed.

Lemma put_run cf X n2216 R w : run_code (put_initialize cf X n2216 R) w = initialize cf X n2216 R w.
Proof.
  unfold put_initialize, initialize. destruct (compile (r_env X) n2216 R) as [cp|e| |]; [|done..].
  cbn [run_code]. unfold install. cbv zeta. destruct (write_tables (w_fresh w) cp w) as [wr|e| |]; [|done..].
  cbn [run_code]. destruct (cf_vptr cf).
  - cbn [run_code]. unfold set_tables at 1.
    destruct (vector_initialize cf (r_rnd X) (cp_graph cp) (wr_static wr) _) as [[h [[vec ivec]|e]]|e| |]; done.
  - done.
  - done.
Qed.

Lemma op_run cf o w : run_code (get_op cf o) w = (afterwards cf w o, alone cf w o).
Proof.
  destruct o as [mid m args|mid m loc args|m loc|t|X n2216 R]; cbn [afterwards].
  - unfold alone, call. cbn [get_op].
    enough (gives (do* f := get_resolve cf m args in do* r := get_done (enter mid m args world0 f) in Done (Ok (Called r))) w
      (let* f := resolve cf w m (map (unboxed w) args) in let* r := enter mid m args w f in Ok (Called r))) as H.
    { unfold gives in H. rewrite H. f_equal. destruct (resolve cf w m _); done. }
    apply gives_bind; [apply resolve_gives|]. intros f _. rewrite (enter_call w world0).
    apply gives_bind; [apply done_gives|]. done.
  - unfold alone, call_next. cbn [get_op].
    enough (gives (do* f := get_next loc in do* f := get_done (deref f) in
      do* r := get_done (enter mid m args world0 f) in Done (Ok (Called r))) w
      (let* f := deref (w_next w loc) in let* r := enter mid m args w f in Ok (Called r))) as H.
    { unfold gives in H. rewrite H. f_equal. destruct (deref (w_next w loc)); done. }
    apply (gives_bind _ _ _ (Ok (w_next w loc)) (fun f => let* f := deref f in let* r := enter mid m args w f in Ok (Called r)));
      [apply next_gives|]. intros f _.
    apply gives_bind; [apply done_gives|]. intros g _. rewrite (enter_call w world0).
    apply gives_bind; [apply done_gives|]. done.
  - simpl. unfold has_next. destruct (decide (w_next w loc = Some (mr_not_implemented m))) as [E|E]; simpl.
    + rewrite bool_decide_true by done. done.
    + rewrite (bool_decide_false (w_next w loc = Some (mr_not_implemented m))) by done. done.
  - cbn [get_op alone]. apply gives_bind; [apply acquire_gives|]. intros r _.
    destruct (cf_indirect cf); [done|].
    apply (gives_bind _ _ _ (Ok (vref_value w r)) (fun v => Ok (Pointed (RElem v)))); [apply value_gives|done].
  - cbn [get_op alone]. pose proof (put_run cf X n2216 R w) as H. destruct (initialize cf X n2216 R w) as [w' o].
    rewrite (run_then _ _ _ _ _ H). by destruct o.
Qed.

(* ---- how long ---- *)
Fixpoint within {A} (n : nat) (c : code A) {struct c} : Prop :=
  match c with
  | Done _ => True
  | Read _ k => match n with 0 => False | S n => forall x, within n (k x) end
  | Look _ | Update _ _ _ => False
  end.

Lemma within_weaken {A} (c : code A) : forall n n', n <= n' -> within n c -> within n' c.
Proof.
  induction c as [o|l k IH|k IH|ls u k IH]; intros n n' Hle; simpl; try done.
  destruct n as [|n]; [done|]. destruct n' as [|n']; [lia|]. intros H x. apply (IH x n); [lia|apply H].
Qed.

Lemma within_then {A B} (c : code A) (f : A -> code B) : forall n k,
  within n c -> (forall x, within k (f x)) -> within (n + k) (then_ c f).
Proof.
  induction c as [o|l g IH|g IH|ls u g IH]; intros n k Hc Hf; simpl in *; try done.
  - destruct o; try done. apply (within_weaken _ k); [lia|apply Hf].
  - destruct n as [|n]; [done|]. intros x. apply (IH x); auto.
Qed.

Ltac one_read := intros; simpl; repeat case_match; done.

Lemma slot_within a k : within 1 (get_slot a k).
Proof. intros x. one_read. Qed.
Lemma word_within v i : within 1 (get_word v i).
Proof. unfold get_word. destruct v; [done|]. destruct (decide _); [done|]. intros x. one_read. Qed.
Lemma initialized_within cf : within (if cf_checks cf then 1 else 0) (get_initialized cf).
Proof. unfold get_initialized. destruct (cf_checks cf); [|done]. intros x. one_read. Qed.
Lemma number_within l : within 1 (get_number l).
Proof. intros x. one_read. Qed.

Lemma index_within cf t :
  within (if cf_hash cf then if cf_checks cf then 5 else 2 else 0) (get_index cf t).
Proof.
  unfold get_index. destruct (cf_hash cf); [|done]. destruct (cf_checks cf).
  - apply (within_then _ _ 1 4); [apply number_within|]. intros mu.
    apply (within_then _ _ 1 3); [apply number_within|]. intros sh. cbv zeta.
    apply (within_then _ _ 1 2); [apply number_within|]. intros mi. destruct (decide _); [done|].
    apply (within_then _ _ 1 1); [apply number_within|]. intros ma. destruct (decide _); [done|].
    apply (within_then _ _ 1 0); [apply number_within|]. intros b. destruct (decide _); done.
  - apply (within_then _ _ 1 1); [apply number_within|]. intros mu.
    apply (within_then _ _ 1 0); [apply number_within|]. done.
Qed.

Lemma value_within r : within (match r with RStatic _ => 1 | RElem _ => 0 end) (get_value r).
Proof. destruct r; [|done]. intros x. one_read. Qed.

(* The v-table pointer of an object. *)
Lemma then_assoc {A B C} (c : code A) (f : A -> code B) (g : B -> code C) n :
  within n (then_ c (fun x => then_ (f x) g)) -> within n (then_ (then_ c f) g).
Proof.
  revert n. induction c as [o|l k IH|k IH|ls u k IH]; intros n; simpl; try done.
  - by destruct o.
  - destruct n as [|n]; [done|]. intros H x. by apply IH.
Qed.

Lemma element_within {B} cf i (f : vref -> code B) :
  (forall v, within 0 (f (RElem v))) -> (forall a, within 1 (f (RStatic a))) ->
  within (1 + (if cf_indirect cf then 1 else 0)) (then_
    (if cf_indirect cf
     then Read (LIndirect i) (fun c => match c with
            | CAddress (Some (Some loc)) => Done (Ok (RStatic loc)) | _ => Done Undef end)
     else Read (LVector i) (fun c => match c with
            | CVptr (Some v) => Done (Ok (RElem v)) | _ => Done Undef end)) f).
Proof.
  intros H0 H1. destruct (cf_indirect cf); simpl; intros x; destruct x as [| | | |v|[[a|]|]| |]; simpl; try done.
  destruct v; simpl; [apply H0|done].
Qed.

Lemma dynamic_within {B} cf t (f : vref -> code B) :
  (forall v, within 0 (f (RElem v))) -> (forall a, within 1 (f (RStatic a))) ->
  within (object_reads cf - (if cf_checks cf then 1 else 0)) (then_ (get_dynamic cf t) f).
Proof.
  intros H0 H1. unfold get_dynamic, object_reads. destruct (cf_vptr cf); [| |done].
  - apply then_assoc.
    apply (within_weaken _ ((if cf_hash cf then if cf_checks cf then 5 else 2 else 0) +
      ((if cf_hash cf then 0 else if cf_checks cf then 1 else 0) + (1 + (if cf_indirect cf then 1 else 0))))).
    { destruct (cf_checks cf), (cf_hash cf), (cf_indirect cf); simpl; lia. }
    apply within_then; [apply index_within|]. intros i. cbv zeta.
    pose proof (element_within cf (N.to_nat i) f H0 H1) as He.
    destruct (cf_hash cf); [exact He|]. destruct (cf_checks cf); [|exact He].
    apply then_assoc. apply within_then.
    + intros x. one_read.
    + intros n. destruct (decide _); [done|exact He].
  - assert (forall x, within 1 (then_ match x with
        | CEntry (Some r) => Done (Ok r)
        | CEntry None => if cf_checks cf then Done (Err (EMissingClass t)) else Done Undef
        | _ => Done Undef end f)) as H.
    { intros x. destruct x as [| | | | | |[r|]|]; simpl; try done.
      - destruct r; [apply H1|]. apply (within_weaken _ 0); [lia|apply H0].
      - by destruct (cf_checks cf). }
    destruct (cf_checks cf); simpl; exact H.
Qed.

Lemma acquire_within {B} cf t (f : vref -> code B) :
  (forall v, within 0 (f (RElem v))) -> (forall a, within 1 (f (RStatic a))) ->
  within (object_reads cf) (then_ (get_acquire cf t) f).
Proof.
  intros H0 H1. unfold get_acquire. apply then_assoc.
  apply (within_weaken _ ((if cf_checks cf then 1 else 0) + (object_reads cf - (if cf_checks cf then 1 else 0)))).
  { unfold object_reads. destruct (cf_checks cf); lia. }
  apply within_then; [apply initialized_within|]. intros _. by apply dynamic_within.
Qed.

Definition targ_reads (cf : config) (a : targ) : nat :=
  argument_reads cf (unboxed world0 a) + match a with TPtr (RStatic _) _ => 1 | _ => 0 end.
Definition targs_reads (cf : config) (args : list targ) : nat := sum_list (map (targ_reads cf) args).

Lemma vptr_within cf a : within (targ_reads cf a) (get_vptr cf a).
Proof.
  unfold targ_reads. destruct a as [t|r t|t]; simpl; [|exact (value_within r)|done].
  rewrite Nat.add_0_r. apply acquire_within; [done|]. intros a x. one_read.
Qed.

Lemma uni_within cf ss args : within (targs_reads cf args + 2) (get_uni cf ss args).
Proof.
  induction args as [|a args IH]; [done|]. unfold targs_reads in *. cbn [get_uni map sum_list sum_list_with].
  destruct (is_virtual_targ a).
  - apply (within_weaken _ (targ_reads cf a + (1 + 1))); [simpl; lia|].
    apply within_then; [apply vptr_within|]. intros v. apply within_then; [apply slot_within|].
    intros s. apply word_within.
  - eapply within_weaken; [|exact IH]. simpl. lia.
Qed.

Lemma multi_next_within cf ss arity : forall args va d, va < arity ->
  within (targs_reads cf args + 3 * (arity - va) + 1) (get_multi_next cf ss arity va d args).
Proof.
  unfold targs_reads. induction args as [|a args IH]; intros va d Hva; [done|]. cbn [get_multi_next map sum_list sum_list_with].
  apply (within_weaken _ ((targ_reads cf a + 3) + (sum_list (map (targ_reads cf) args) + 3 * (arity - va - 1) + 1))).
  { simpl. lia. }
  apply within_then.
  - destruct (is_virtual_targ a); [|done].
    apply within_then; [apply vptr_within|]. intros v. apply (within_then _ _ 1 2); [apply slot_within|].
    intros s. apply (within_then _ _ 1 1); [apply slot_within|]. intros st.
    apply (within_then _ _ 1 0); [apply word_within|]. intros x.
    apply (within_then _ _ 0 0); done.
  - intros d'. destruct (decide (va + 1 = arity)).
    + apply (within_weaken _ 1); [lia|apply word_within].
    + eapply within_weaken; [|apply IH; lia]. unfold targs_reads. lia.
Qed.

Lemma multi_first_within cf ss arity args : 2 <= arity ->
  within (targs_reads cf args + 3 * arity) (get_multi_first cf ss arity args).
Proof.
  intros Har. induction args as [|a args IH]; [done|]. unfold targs_reads in *.
  cbn [get_multi_first map sum_list sum_list_with]. destruct (is_virtual_targ a).
  - apply (within_weaken _ (targ_reads cf a + (1 + (1 + (0 + (sum_list (map (targ_reads cf) args) + 3 * (arity - 1) + 1)))))).
    { simpl. lia. }
    apply within_then; [apply vptr_within|]. intros v. apply within_then; [apply slot_within|].
    intros s. apply within_then; [apply word_within|]. intros x. apply within_then; [done|].
    intros d. apply multi_next_within. lia.
  - eapply within_weaken; [|exact IH]. simpl. lia.
Qed.

Lemma targs_sum cf args :
  targs_reads cf args = sum_list (map (argument_reads cf) (map (unboxed world0) args)) + indirect_args args.
Proof.
  unfold targs_reads, indirect_args. induction args as [|a args IH]; [done|]. simpl in *.
  rewrite IH. unfold targ_reads. lia.
Qed.

Lemma resolve_within cf m args : mr_vp m <> [] ->
  within (call_reads cf m (map (unboxed world0) args) + indirect_args args) (get_resolve cf m args).
Proof.
  intros Hm. unfold get_resolve, call_reads, table_reads.
  destruct (mr_vp m) as [|p [|q ps]] eqn:Hvp; [done| |]; cbn [length].
  - rewrite decide_True by done.
    apply (within_weaken _ ((if cf_checks cf then 1 else 0) + ((targs_reads cf args + 2) + 0))).
    { rewrite targs_sum. lia. }
    apply within_then; [apply initialized_within|]. intros _. apply within_then; [apply uni_within|done].
  - rewrite decide_False by done.
    apply (within_weaken _ ((if cf_checks cf then 1 else 0) + ((targs_reads cf args + 3 * S (S (length ps))) + 0))).
    { rewrite targs_sum. lia. }
    apply within_then; [apply initialized_within|]. intros _.
    apply within_then; [apply multi_first_within; lia|done].
Qed.

Lemma op_within cf o : is_call o ->
  within (op_reads cf o) (get_op cf o).
Proof.
  intros Ho. destruct o as [mid m args|mid m loc args|m loc|t|X n2216 R]; cbn [get_op op_reads].
  - rewrite <- (Nat.add_0_r (_ + _)). apply within_then; [by apply resolve_within|].
    intros f. by apply (within_then _ _ 0 0).
  - intros x. destruct x as [| | |f| | | |]; simpl; try done. destruct f; simpl; [|done].
    by destruct (enter mid m args world0 _).
  - intros x. destruct x as [| | |f| | | |]; simpl; try done. destruct (decide _); [done|].
    intros y. by destruct y.
  - apply acquire_within; intros; destruct (cf_indirect cf); try done.
    intros x. one_read.
  - done.
Qed.

(* ---- several threads ---- *)
Section Threads.
  Context (cf : config) (ps : list program) (w : world) (Hps : calls_only ps).

  (* A thread that asks for [o] and has [c] left. *)
  Definition thread_ok (i : nat) (t : thread) : Prop :=
    exists p, ps !! i = Some p /\ answers_right cf w p (th_answers t) /\
      match th_current t with
      | None => True
      | Some c => exists o, p (th_answers t) = Some o /\ gives c w (alone cf w o) /\ within (op_reads cf o) c
      end.

  Definition state_ok (s : state) : Prop :=
    fst s = w /\ length (snd s) = length ps /\ forall i t, snd s !! i = Some t -> thread_ok i t.

  Lemma start_ok : state_ok (start w ps).
  Proof.
    split; [done|]. split; [apply map_length|]. intros i t Ht. simpl in Ht.
    rewrite list_lookup_fmap in Ht. destruct (ps !! i) as [p|] eqn:Hp; simplify_eq/=.
    exists p. split; [exact Hp|]. by split.
  Qed.

  Lemma answers_right_snoc p l r o : answers_right cf w p l -> p l = Some o -> r = alone cf w o ->
    answers_right cf w p (l ++ [r]).
  Proof.
    intros Hl Hp Hr n x Hx. apply lookup_app_Some in Hx as [Hx|[Hn Hx]].
    - destruct (Hl n x Hx) as (o' & Ho' & ->). exists o'. split; [|done].
      rewrite take_app_le; [done|]. apply lookup_lt_Some in Hx. lia.
    - destruct (n - length l) as [|k] eqn:Ek; [|done]. injection Hx as <-. exists o. split; [|done].
      replace n with (length l) by lia. by rewrite take_app.
  Qed.

  Lemma step_ok s i s' : state_ok s -> step cf ps s i s' -> state_ok s'.
  Proof.
    intros (Hw & Hlen & Hth) Hstep.
    assert (Hset : forall ths j t', length ths = length ps -> (forall k t, ths !! k = Some t -> thread_ok k t) ->
      thread_ok j t' -> length (<[j := t']> ths) = length ps /\
      forall k t, <[j := t']> ths !! k = Some t -> thread_ok k t).
    { intros ths j t' Hl Ht Ht'. rewrite insert_length. split; [done|]. intros k t Hk.
      destruct (decide (j = k)) as [<-|Hjk].
      - apply list_lookup_insert_Some in Hk as [(_ & <- & _)|[Hk _]]; done.
      - rewrite list_lookup_insert_ne in Hk by done. auto. }
    destruct Hstep as [v ths i p l o Hp Ht Ho|v ths i l x k Ht|v ths i l k Ht|v ths i l ls f k Ht|v ths i l r Ht];
      simpl in *; subst v; destruct (Hth i _ Ht) as (p' & Hp' & Ha & Hc); simpl in *.
    - split; [done|]. apply Hset; [done|done|]. pose proof (eq_trans (eq_sym Hp) Hp') as [= <-]. exists p. split; [done|]. split; [done|].
      simpl. exists o. split; [done|]. pose proof (Hps i p l o Hp Ho) as Hcall. split; [|by apply op_within].
      unfold gives. rewrite op_run. by destruct o.
    - destruct Hc as (o & Ho & Hg & Hn). split; [done|]. apply Hset; [done|done|].
      exists p'. split; [done|]. split; [done|]. exists o. split; [done|]. split; [exact Hg|].
      destruct (op_reads cf o) as [|n]; [done|]. apply (within_weaken _ n); [lia|]. apply Hn.
    - by destruct Hc as (o & _ & _ & ?).
    - by destruct Hc as (o & _ & _ & ?).
    - destruct Hc as (o & Ho & Hg & _). split; [done|]. apply Hset; [done|done|].
      exists p'. split; [done|]. split; [|done]. simpl. injection Hg as ->. by eapply answers_right_snoc.
  Qed.

  Lemma steps_ok s l s' : state_ok s -> steps cf ps s l s' -> state_ok s'.
  Proof. intros Hs Hst. induction Hst; eauto using step_ok. Qed.

  Theorem threads_right l s : steps cf ps (start w ps) l s ->
    fst s = w /\ ~ race s /\
    forall i p t, ps !! i = Some p -> snd s !! i = Some t -> answers_right cf w p (th_answers t).
  Proof.
    intros Hst. destruct (steps_ok _ _ _ start_ok Hst) as (Hw & Hlen & Hth).
    split; [exact Hw|]. split.
    - intros (i & j & t & t' & x & _ & Ht & _ & Hwr & _). destruct (Hth i t Ht) as (p & _ & _ & Hc).
      unfold writes in Hwr. destruct (th_current t) as [[]|]; try done. by destruct Hc as (o & _ & _ & ?).
    - intros i p t Hp Ht. destruct (Hth i t Ht) as (p' & Hp' & Ha & _). by simplify_eq.
  Qed.

  (* A thread can always go on. *)
  Theorem threads_progress l s i p t : steps cf ps (start w ps) l s ->
    ps !! i = Some p -> snd s !! i = Some t ->
    (exists s', step cf ps s i s') \/ (th_current t = None /\ p (th_answers t) = None).
  Proof.
    intros Hst Hp Ht. destruct s as [v ths]. destruct t as [a [[r|x k|k|ls f k]|]]; simpl in *.
    - left. eexists. by eapply step_finish.
    - left. eexists. by eapply step_read.
    - left. eexists. by eapply step_look.
    - left. eexists. by eapply step_update.
    - destruct (p a) as [o|] eqn:Ho; [left|by right]. eexists. by eapply step_begin.
  Qed.

  (* Steps of other threads. *)
  Lemma step_other s j s' i : step cf ps s j s' -> i <> j -> snd s' !! i = snd s !! i.
  Proof. intros Hst Hij. destruct Hst; simpl; by rewrite list_lookup_insert_ne. Qed.

  (* What a thread has left: it has got more answers, or has come nearer. *)
  Definition left_of (i n : nat) (a : nat) (s : state) : Prop :=
    exists t, snd s !! i = Some t /\
      (a < length (th_answers t) \/
       (length (th_answers t) = a /\ exists c, th_current t = Some c /\ 1 <= n /\ within (n - 1) c)).

  Lemma step_left s j s' i n a : state_ok s -> step cf ps s j s' -> left_of i n a s ->
    left_of i (n - (if decide (j = i) then 1 else 0)) a s'.
  Proof.
    intros Hs Hst (t & Ht & Hl). destruct (decide (j = i)) as [->|Hij].
    2:{ exists t. rewrite (step_other _ _ _ _ Hst) by done. split; [done|]. by rewrite Nat.sub_0_r. }
    destruct Hs as (_ & _ & Hth). 
    assert (Hins : forall (ths : list thread) j t' t0, ths !! j = Some t0 -> <[j := t']> ths !! j = Some t').
    { intros ths j t' t0 Hi. apply list_lookup_insert. by eapply lookup_lt_Some. }
    destruct Hst as [v ths i p l o Hp Hi Ho|v ths i l x k Hi|v ths i l k Hi|v ths i l ls f k Hi|v ths i l r Hi];
      simpl in *; rewrite Hi in Ht; injection Ht as <-; unfold left_of; simpl; rewrite (Hins _ _ _ _ Hi);
      (eexists; split; [reflexivity|]); simpl in *.
    - destruct Hl as [?|(_ & c & ? & _)]; [by left|done].
    - destruct Hl as [?|(Hl & c & [= <-] & Hn & Hw)]; [by left|]. right. split; [done|].
      eexists. split; [reflexivity|]. destruct (n - 1) as [|m] eqn:E; [done|]. split; [lia|].
      simpl in Hw. replace (S m - 1) with m by lia. apply Hw.
    - destruct Hl as [?|(_ & c & [= <-] & _ & Hw)]; [by left|done].
    - destruct Hl as [?|(_ & c & [= <-] & _ & Hw)]; [by left|done].
    - left. rewrite app_length. simpl. destruct Hl as [?|(<- & _)]; lia.
  Qed.

  Lemma steps_left s l s' i : forall n a, state_ok s -> steps cf ps s l s' -> left_of i n a s ->
    left_of i (n - steps_of i l) a s'.
  Proof.
    intros n a Hs Hst. revert n Hs. induction Hst as [s|s j s1 l s2 H1 H2 IH]; intros n Hs Hl; simpl.
    - by rewrite Nat.sub_0_r.
    - rewrite Nat.sub_add_distr. apply IH; [by eapply step_ok|]. by eapply step_left.
  Qed.

  (* No thread waits: after so many steps of its own it has another answer. *)
  Theorem threads_wait_free l s i p t o l' s' : steps cf ps (start w ps) l s ->
    ps !! i = Some p -> snd s !! i = Some t -> p (th_answers t) = Some o ->
    steps cf ps s l' s' -> op_reads cf o + 2 <= steps_of i l' ->
    exists t', snd s' !! i = Some t' /\ length (th_answers t) < length (th_answers t').
  Proof.
    intros Hst Hp Ht Ho Hst' Hn. pose proof (steps_ok _ _ _ start_ok Hst) as Hok.
    assert (Hgo : forall s1 l1, state_ok s1 -> steps cf ps s1 l1 s' ->
      left_of i (op_reads cf o + 1) (length (th_answers t)) s1 -> op_reads cf o + 1 <= steps_of i l1 ->
      exists t', snd s' !! i = Some t' /\ length (th_answers t) < length (th_answers t')).
    { intros s1 l1 Hok1 H1 Hl Hle. destruct (steps_left _ _ _ i _ _ Hok1 H1 Hl) as (t' & Ht' & Hd).
      exists t'. split; [done|]. destruct Hd as [?|(_ & c & _ & ? & _)]; [done|lia]. }
    destruct (th_current t) as [c|] eqn:Hc.
    - apply (Hgo s l'); [done|done| |lia]. exists t. split; [done|]. right. split; [done|].
      exists c. split; [done|]. split; [lia|].
      destruct Hok as (_ & _ & Hth). destruct (Hth i t Ht) as (p' & Hp' & _ & Hcur).
      rewrite Hc in Hcur. destruct Hcur as (o' & Ho' & _ & Hw).
      pose proof (eq_trans (eq_sym Hp) Hp') as [= <-]. pose proof (eq_trans (eq_sym Ho) Ho') as [= <-].
      by replace (op_reads cf o + 1 - 1) with (op_reads cf o) by lia.
    - (* until it begins *)
      clear Hst. revert Hok Ht Hn. induction Hst' as [s0|s0 j s1 l1 s2 H1 H2 IH]; intros Hok Ht Hn; simpl in Hn; [lia|].
      destruct (decide (j = i)) as [->|Hij].
      + apply (Hgo s1 l1); [by eapply step_ok|done| |lia].
        destruct H1 as [v ths i p1 a o1 Hp1 Hi Ho1|v ths i a x k Hi|v ths i a k Hi|v ths i a ls f k Hi|v ths i a r Hi];
          simpl in Ht; rewrite Hi in Ht; injection Ht as <-; simpl in Hc; try done.
        simpl in *. pose proof (eq_trans (eq_sym Hp) Hp1) as [= <-]. pose proof (eq_trans (eq_sym Ho) Ho1) as [= <-].
        eexists. split; [apply list_lookup_insert; by eapply lookup_lt_Some|].
        right. split; [done|]. eexists. split; [reflexivity|]. split; [lia|].
        replace (op_reads cf o + 1 - 1) with (op_reads cf o) by lia. apply op_within. by eapply Hps.
      + apply IH; [done|by eapply step_ok| |lia]. by rewrite (step_other _ _ _ _ H1).
  Qed.
End Threads.

(* Calls get to the overrider that they select. *)
Theorem threads_dispatch cf X R w ps l s i p t n r mid m all args :
  calls_only ps -> program_ok cf (r_env X) R -> bases_first (e_ti (r_env X)) R ->
  initialized_by cf X false R w -> steps cf ps (start w ps) l s ->
  ps !! i = Some p -> snd s !! i = Some t -> th_answers t !! n = Some r ->
  p (take n (th_answers t)) = Some (OpCall mid m all) ->
  call_ok cf (e_ti (r_env X)) R w m (map (unboxed w) all) args -> functions_ok m ->
  length (mr_vp m) = 1 \/ together (map (unboxed w) all) ->
  settled (e_ti (r_env X)) R (mr_overriders m) (candidate (e_ti (r_env X)) R (mr_overriders m) args) ->
  exists sel c,
    selects (e_ti (r_env X)) R (mr_overriders m) args sel /\
    (forall sel', selects (e_ti (r_env X)) R (mr_overriders m) args sel' -> sel' = sel) /\
    behaves m sel c /\ r = (let* x := c in Ok (Called x)).
Proof.
  intros Hps HP HB HI Hst Hp Ht Hr Ho Hc Hf Htog Hset.
  destruct (threads_right cf ps w Hps l s Hst) as (_ & _ & Ha).
  destruct (Ha i p t Hp Ht n r Hr) as (o & Ho' & ->).
  pose proof (eq_trans (eq_sym Ho) Ho') as [= <-].
  destruct (call_selects cf X R w HP HB mid m _ args HI Hc Hf Htog Hset) as (sel & H1 & H2 & H3).
  exists sel, (call cf w mid m (map (unboxed w) all)). done.
Qed.

(* ---- what is written is said to be ---- *)
Fixpoint honest {A} (c : code A) : Prop :=
  match c with
  | Done _ => True
  | Read _ k => forall x, honest (k x)
  | Look k => forall w, honest (k w)
  | Update ls f k => (forall w l, ls l = false -> contents (f w) l = contents w l) /\ honest k
  end.

Lemma within_honest {A} (c : code A) : forall n, within n c -> honest c.
Proof.
  induction c as [o|l k IH|k IH|ls f k IH]; intros [|n] H; simpl in *; try done.
  intros x. apply (IH x n). apply H.
Qed.

Lemma honest_then {A B} (c : code A) (f : A -> code B) : honest c -> (forall x, honest (f x)) -> honest (then_ c f).
Proof.
  intros Hc Hf. induction c as [[x|e| |]|l k IH|k IH|ls u k IH]; simpl in *; auto.
  destruct Hc as [H1 H2]. split; [exact H1|]. by apply IH.
Qed.

Lemma put_honest cf X n2216 R : honest (put_initialize cf X n2216 R).
Proof.
  assert (Hfin : forall buf ws r, honest (Update in_data (set_data buf ws)
    (Update in_flag set_initialized (Done (Ok r)))) (A := method_report)).
  { intros buf ws r. split; [|split; [|done]]; intros w []; simpl; intros H; try discriminate H; done. }
  unfold put_initialize. destruct (compile (r_env X) n2216 R) as [cp|e| |]; try done.
  intros w. destruct (write_tables _ cp w) as [wr|e| |]; try done.
  split; [intros w' []; simpl; intros H; try discriminate H; done|].
  destruct (cf_vptr cf); [|..].
  - intros w'. destruct (vector_initialize _ _ _ _ _) as [[h [v|e]]|e| |]; try done.
    + split; [intros w2 []; simpl; intros H; try discriminate H; done|].
      split; [intros w2 []; simpl; intros H; try discriminate H; done|apply Hfin].
    + split; [intros w2 []; simpl; intros H; try discriminate H; done|done].
  - split; [intros w2 []; simpl; intros H; try discriminate H; done|apply Hfin].
  - apply Hfin.
Qed.

Lemma op_honest cf o : (forall mid m args, o = OpCall mid m args -> mr_vp m <> []) -> honest (get_op cf o).
Proof.
  intros Ho. destruct o as [mid m args|mid m loc args|m loc|t|X n2216 R].
  1-4: eapply within_honest, op_within; simpl; eauto.
  apply honest_then; [apply put_honest|done].
Qed.

Theorem threads_honest cf ps w l s i s' x :
  virtual_calls ps ->
  steps cf ps (start w ps) l s -> step cf ps s i s' ->
  contents (fst s') x <> contents (fst s) x -> exists t, snd s !! i = Some t /\ writes t x.
Proof.
  intros Hps Hst Hstep Hx.
  set (ok := fun s : state => forall j t c, snd s !! j = Some t -> th_current t = Some c -> honest c).
  assert (Hone : forall s j s', ok s -> step cf ps s j s' -> ok s').
  { intros s1 j s2 Hs H1 k t c Hk Hc.
    assert (Hins : forall (ths : list thread) t', <[j := t']> ths !! k = Some t ->
      (j = k /\ t = t') \/ ths !! k = Some t).
    { intros ths t' E. destruct (decide (j = k)) as [<-|Hjk].
      - apply list_lookup_insert_Some in E as [(_ & -> & _)|[E _]]; [by left|done].
      - rewrite list_lookup_insert_ne in E by done. by right. }
    destruct H1 as [v ths j p a o Hp Hi Ho|v ths j a y k' Hi|v ths j a k' Hi|v ths j a ls f k' Hi|v ths j a r Hi];
      simpl in *; apply Hins in Hk as [[<- ->]|Hk]; try (by eapply Hs); simpl in Hc; try discriminate Hc;
      injection Hc as <-.
    - apply op_honest. intros mid m args ->. by eapply Hps.
    - apply (Hs j _ _ Hi eq_refl).
    - apply (Hs j _ _ Hi eq_refl).
    - apply (Hs j _ _ Hi eq_refl). }
  assert (Hok : ok s).
  { assert (H0 : ok (start w ps)).
    { intros j t c Hj Hc. simpl in Hj. rewrite list_lookup_fmap in Hj.
      destruct (ps !! j); simpl in Hj; [|discriminate Hj]. injection Hj as <-. discriminate Hc. }
    clear Hstep Hx. revert H0. induction Hst; intros H0; eauto. }
  destruct Hstep as [v ths i p a o Hp Hi Ho|v ths i a y k' Hi|v ths i a k' Hi|v ths i a ls f k' Hi|v ths i a r Hi];
    simpl in Hx; try done.
  exists (Thread a (Some (Update ls f k'))). split; [exact Hi|]. unfold writes. simpl.
  destruct (ls x) eqn:E; [done|]. destruct Hx. by apply (Hok i _ _ Hi eq_refl).
Qed.
