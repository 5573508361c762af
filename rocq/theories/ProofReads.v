(* Proofs about what a call reads (C45). *)
From stdpp Require Import base list numbers list_numbers.
From Verif Require Import Base Registry ModelClasses ModelHash ModelWorld ModelCall ModelErrors SpecCall
  SpecReads ProofBase.

Lemma reads_weaken {A} n n' (f : world -> A) w :
  n <= n' -> reads_at_most n f w -> reads_at_most n' f w.
Proof. intros Hn (L & HL & Hf). exists L. split; [lia|exact Hf]. Qed.

Lemma reads_nothing {A} (x : A) w : reads_at_most 0 (fun _ => x) w.
Proof. exists []. split; [reflexivity|]. reflexivity. Qed.

(* A read of one location. *)
Lemma reads_one {A} (l : location) (f : world -> A) w :
  (forall w', contents w' l = contents w l -> f w' = f w) -> reads_at_most 1 f w.
Proof. intros Hf. exists [l]. split; [reflexivity|]. intros w' Hw'. apply Hf, Hw'. left. Qed.

Lemma reads_ext {A} n (f g : world -> A) w :
  (forall w, f w = g w) -> reads_at_most n g w -> reads_at_most n f w.
Proof.
  intros Hfg (L & HL & Hg). exists L. split; [exact HL|]. intros w' Hw'. rewrite !Hfg. by apply Hg.
Qed.

(* A function of the result of another. *)
Lemma reads_after {A B} n k (f : world -> A) (g : A -> world -> B) w :
  reads_at_most n f w -> reads_at_most k (g (f w)) w ->
  reads_at_most (n + k) (fun w => g (f w) w) w.
Proof.
  intros (L & HL & Hf) (K & HK & Hg). exists (L ++ K). rewrite app_length. split; [lia|].
  intros w' Hw'. rewrite Hf; [apply Hg|]; intros l Hl; apply Hw', elem_of_app; auto.
Qed.

Lemma reads_map {A B} n (f : world -> A) (g : A -> B) w :
  reads_at_most n f w -> reads_at_most n (fun w => g (f w)) w.
Proof.
  intros (L & HL & Hf). exists L. split; [exact HL|]. intros w' Hw'. by rewrite Hf.
Qed.

Lemma reads_bind {A B} n k (f : world -> outcome A) (g : A -> world -> outcome B) w :
  reads_at_most n f w -> (forall x, f w = Ok x -> reads_at_most k (g x) w) ->
  reads_at_most (n + k) (fun w => let* x := f w in g x w) w.
Proof.
  intros Hf Hg.
  apply (reads_after n k f (fun x w => let* y := x in g y w) w Hf).
  destruct (f w) as [x| | |] eqn:Hx; simpl.
  - by apply Hg.
  - apply (reads_weaken 0); [lia|]. apply reads_nothing.
  - apply (reads_weaken 0); [lia|]. apply reads_nothing.
  - apply (reads_weaken 0); [lia|]. apply reads_nothing.
Qed.

Lemma read_slot a k w : reads_at_most 1 (fun w => at_ (w_ss w a) k) w.
Proof.
  apply (reads_one (LSlotStride a k)). simpl. intros w' H. injection H as H. unfold at_. by rewrite H.
Qed.

Lemma read_word_one v i w : reads_at_most 1 (fun w => read_word w v i) w.
Proof.
  destruct v as [|b off].
  { apply (reads_weaken 0); [lia|]. apply (reads_nothing Undef). }
  unfold read_word. destruct (decide (off + Z.of_nat i < 0)%Z) as [Hneg|Hpos].
  - apply (reads_weaken 0); [lia|]. exists []. split; [reflexivity|].
    intros w' _. unfold deref. destruct (w_heap w' b), (w_heap w b); reflexivity.
  - apply (reads_one (LWord b (Z.to_nat (off + Z.of_nat i)))). simpl. intros w' H. injection H as H.
    unfold deref, at_.
    destruct (w_heap w' b), (w_heap w b); simpl in *; try reflexivity; by rewrite ?H, <- ?H.
Qed.

Lemma read_flag cf w : reads_at_most (if cf_checks cf then 1 else 0) (require_initialized cf) w.
Proof.
  unfold require_initialized. destruct (cf_checks cf).
  - apply (reads_one LInitialized). simpl. intros w' H. injection H as H. by rewrite H.
  - exists []. split; [reflexivity|]. intros w' _.
    rewrite !decide_False by (intros [? _]; discriminate). reflexivity.
Qed.

Lemma read_hash cf t w : reads_at_most (if cf_hash cf then if cf_checks cf then 5 else 2 else 0)
  (fun w => vector_index cf (w_hash w) t) w.
Proof.
  unfold vector_index. destruct (cf_hash cf); [|apply (reads_nothing (Ok t))].
  unfold hash_type. destruct (cf_checks cf).
  - exists [LMult; LShift; LMin; LMax;
      LControl (N.to_nat (hash_index (h_mult (w_hash w)) (h_shift (w_hash w)) t))].
    split; [reflexivity|]. intros w' Hw'.
    pose proof (Hw' LMult ltac:(repeat constructor)) as H1.
    pose proof (Hw' LShift ltac:(repeat constructor)) as H2.
    pose proof (Hw' LMin ltac:(repeat constructor)) as H3.
    pose proof (Hw' LMax ltac:(repeat constructor)) as H4.
    pose proof (Hw' (LControl (N.to_nat (hash_index (h_mult (w_hash w)) (h_shift (w_hash w)) t)))
      ltac:(repeat constructor)) as H5.
    simpl in *. injection H1 as H1. injection H2 as H2. injection H3 as H3. injection H4 as H4.
    injection H5 as H5. unfold hash_check, at_. by rewrite H1, H2, H3, H4, H5.
  - exists [LMult; LShift]. split; [reflexivity|]. intros w' Hw'.
    pose proof (Hw' LMult ltac:(repeat constructor)) as H1.
    pose proof (Hw' LShift ltac:(repeat constructor)) as H2.
    simpl in *. injection H1 as H1. injection H2 as H2. by rewrite H1, H2.
Qed.

Lemma read_value r w : reads_at_most 1 (fun w => vref_value w r) w.
Proof.
  destruct r as [a|v]; simpl.
  - apply (reads_one (LStatic a)). simpl. intros w' H. by injection H as H.
  - apply (reads_weaken 0); [lia|]. apply reads_nothing.
Qed.

Lemma read_size cf w :
  reads_at_most 1 (fun w => if cf_indirect cf then length (w_ivec w) else length (w_vec w)) w.
Proof.
  destruct (cf_indirect cf).
  - apply (reads_one LIndirectSize). simpl. intros w' H. by injection H as H.
  - apply (reads_one LVectorSize). simpl. intros w' H. by injection H as H.
Qed.

(* The element of the vector, and the variable that it points to. *)
Lemma read_element cf i w :
  reads_at_most (1 + (if cf_indirect cf then 1 else 0))
    (fun w => let* r := (if cf_indirect cf then
                           let* p := at_ (w_ivec w) i in let* loc := deref p in Ok (RStatic loc)
                         else let* v := at_ (w_vec w) i in Ok (RElem v)) in
              Ok (vref_value w r)) w.
Proof.
  destruct (cf_indirect cf).
  - apply (reads_bind 1 1 (fun w => let* p := at_ (w_ivec w) i in let* loc := deref p in Ok (RStatic loc))
      (fun r w => Ok (vref_value w r))).
    + apply (reads_one (LIndirect i)). simpl. intros w' H. injection H as H. unfold at_. by rewrite H.
    + intros r _. apply reads_map, read_value.
  - apply (reads_one (LVector i)). simpl. intros w' H. injection H as H. unfold at_. rewrite H.
    destruct (w_vec w !! i); reflexivity.
Qed.

Lemma read_dynamic cf t w :
  reads_at_most (object_reads cf - (if cf_checks cf then 1 else 0))
    (fun w => let* r := dynamic_vptr cf w t in Ok (vref_value w r)) w.
Proof.
  unfold object_reads, dynamic_vptr. destruct (cf_vptr cf).
  - set (h := if cf_hash cf then if cf_checks cf then 5 else 2 else 0).
    set (z := if cf_hash cf then 0 else if cf_checks cf then 1 else 0).
    set (el := 1 + (if cf_indirect cf then 1 else 0)).
    apply (reads_weaken (h + (z + el))).
    { subst h z el. destruct (cf_hash cf), (cf_checks cf), (cf_indirect cf); simpl; lia. }
    assert (Hf : reads_at_most (h + (z + el)) (fun w =>
      let* index := vector_index cf (w_hash w) t in
      if bool_decide (cf_hash cf = false /\ cf_checks cf = true /\
                 (if cf_indirect cf then length (w_ivec w) else length (w_vec w)) <= N.to_nat index)
      then Err (EMissingClass t)
      else let* r := (if cf_indirect cf then
                        let* p := at_ (w_ivec w) (N.to_nat index) in let* loc := deref p in Ok (RStatic loc)
                      else let* v := at_ (w_vec w) (N.to_nat index) in Ok (RElem v)) in
           Ok (vref_value w r)) w).
    { apply (reads_bind h (z + el) (fun w => vector_index cf (w_hash w) t)).
      - apply read_hash.
      - intros index _.
        apply (reads_after z el
          (fun w => bool_decide (cf_hash cf = false /\ cf_checks cf = true /\
                      (if cf_indirect cf then length (w_ivec w) else length (w_vec w)) <= N.to_nat index))
          (fun b w => if b : bool then Err (EMissingClass t) else
             let* r := (if cf_indirect cf then
                        let* p := at_ (w_ivec w) (N.to_nat index) in let* loc := deref p in Ok (RStatic loc)
                      else let* v := at_ (w_vec w) (N.to_nat index) in Ok (RElem v)) in
             Ok (vref_value w r))) .
        + subst z. destruct (cf_hash cf) eqn:Hh; [|destruct (cf_checks cf) eqn:Hc].
          * exists []. split; [reflexivity|]. intros w' _.
            rewrite !bool_decide_eq_false_2; [reflexivity|intros [? _]; discriminate..].
          * destruct (read_size cf w) as (L & HL & HL'). exists L. split; [exact HL|].
            intros w' Hw'. by rewrite (HL' w' Hw').
          * exists []. split; [reflexivity|]. intros w' _.
            rewrite !bool_decide_eq_false_2; [reflexivity|intros (_ & ? & _); discriminate..].
        + destruct (bool_decide _).
          * apply (reads_weaken 0); [lia|]. apply reads_nothing.
          * apply read_element. }
    eapply reads_ext; [|exact Hf]. intros w'. simpl.
    destruct (vector_index cf (w_hash w') t) as [index| | |]; simpl; try reflexivity.
    rewrite decide_bool_decide. destruct (bool_decide _); reflexivity.
  - apply (reads_weaken 2); [lia|].
    apply (reads_bind 1 1 (fun w => match map_find (w_map w) t with
       | Some r => Ok r | None => if cf_checks cf then Err (EMissingClass t) else Undef end)
       (fun r w => Ok (vref_value w r))).
    + apply (reads_one (LMap t)). simpl. intros w' H. injection H as H. by rewrite H.
    + intros r _. apply reads_map, read_value.
  - apply (reads_weaken 0); [lia|]. apply (reads_nothing Undef).
Qed.

Lemma read_vptr cf a w :
  reads_at_most (argument_reads cf a) (fun w => arg_vptr cf w a) w.
Proof.
  destruct a as [t|v t|t]; simpl.
  - apply (reads_weaken ((if cf_checks cf then 1 else 0) + (object_reads cf - (if cf_checks cf then 1 else 0)))).
    { unfold object_reads. lia. }
    assert (Hf : reads_at_most
      ((if cf_checks cf then 1 else 0) + (object_reads cf - (if cf_checks cf then 1 else 0)))
      (fun w => let* _ := require_initialized cf w in
                let* r := dynamic_vptr cf w t in Ok (vref_value w r)) w).
    { apply reads_bind; [apply read_flag|]. intros [] _. apply read_dynamic. }
    destruct Hf as (L & HL & Hf). exists L. split; [exact HL|]. intros w' Hw'. specialize (Hf w' Hw').
    revert Hf. unfold acquire_vptr. by destruct (require_initialized cf w'), (require_initialized cf w).
  - apply (reads_nothing (Ok v)).
  - apply (reads_nothing Undef).
Qed.

Section Resolve.
  Context (cf : config).
  Notation args_reads args := (sum_list (map (argument_reads cf) args)).

  Lemma read_uni a args w :
    reads_at_most (args_reads args + 2) (fun w => resolve_uni cf w (w_ss w a) args) w.
  Proof.
    induction args as [|x args IH]; simpl.
    { apply (reads_weaken 0); [lia|]. apply (reads_nothing Undef). }
    destruct (is_virtual_arg x).
    - apply (reads_weaken (argument_reads cf x + (1 + 1))); [lia|].
      apply reads_bind; [apply read_vptr|]. intros vtbl _.
      apply (reads_bind 1 1 (fun w => at_ (w_ss w a) 0) (fun slot w => read_word w vtbl slot));
        [apply read_slot|]. intros slot _. apply read_word_one.
    - eapply reads_weaken; [|exact IH]. lia.
  Qed.

  Lemma read_next a arity va dispatch args w : va < arity ->
    reads_at_most (args_reads args + 3 * (arity - va) + 1)
      (fun w => resolve_multi_next cf w (w_ss w a) arity va dispatch args) w.
  Proof.
    revert va dispatch. induction args as [|x args IH]; intros va dispatch Hva; simpl.
    { apply (reads_weaken 0); [lia|]. apply (reads_nothing Undef). }
    apply (reads_weaken ((argument_reads cf x + 3) + (args_reads args + 3 * (arity - (va + 1)) + 1))); [lia|].
    apply (reads_bind _ _
      (fun w => if is_virtual_arg x then
           let* vtbl := arg_vptr cf w x in
           let* slot := at_ (w_ss w a) va in
           let* stride := at_ (w_ss w a) (arity + va - 1) in
           let* x := read_word w vtbl slot in
           let* i := word_i x in
           vptr_add dispatch (i * stride)
         else Ok dispatch)
      (fun dispatch w => if decide (va + 1 = arity) then read_word w dispatch 0
         else resolve_multi_next cf w (w_ss w a) arity (va + 1) dispatch args)).
    - destruct (is_virtual_arg x).
      + apply reads_bind; [apply read_vptr|]. intros vtbl _.
        apply (reads_bind 1 2 (fun w => at_ (w_ss w a) va)
          (fun slot w => let* stride := at_ (w_ss w a) (arity + va - 1) in
             let* x := read_word w vtbl slot in let* i := word_i x in vptr_add dispatch (i * stride)));
          [apply read_slot|]. intros slot _.
        apply (reads_bind 1 1 (fun w => at_ (w_ss w a) (arity + va - 1))
          (fun stride w => let* x := read_word w vtbl slot in let* i := word_i x in
             vptr_add dispatch (i * stride)));
          [apply read_slot|]. intros stride _.
        apply (reads_map 1 (fun w => read_word w vtbl slot)
          (fun x => let* x := x in let* i := word_i x in vptr_add dispatch (i * stride))).
        apply read_word_one.
      + apply (reads_weaken 0); [lia|]. apply (reads_nothing (Ok dispatch)).
    - intros d _. destruct (decide (va + 1 = arity)) as [Heq|Hne].
      + apply (reads_weaken 1); [lia|]. apply read_word_one.
      + apply IH. lia.
  Qed.

  Lemma read_first a arity args w : 1 < arity ->
    reads_at_most (args_reads args + 3 * arity)
      (fun w => resolve_multi_first cf w (w_ss w a) arity args) w.
  Proof.
    intros Ha. induction args as [|x args IH]; simpl.
    { apply (reads_weaken 0); [lia|]. apply (reads_nothing Undef). }
    destruct (is_virtual_arg x).
    - apply (reads_weaken (argument_reads cf x + (1 + (1 + (args_reads args + 3 * (arity - 1) + 1))))); [lia|].
      apply reads_bind; [apply read_vptr|]. intros vtbl _.
      apply (reads_bind 1 _ (fun w => at_ (w_ss w a) 0)
        (fun slot w => let* x := read_word w vtbl slot in let* dispatch := word_pw x in
           resolve_multi_next cf w (w_ss w a) arity 1 dispatch args)); [apply read_slot|].
      intros slot _.
      apply (reads_bind 1 _ (fun w => read_word w vtbl slot)
        (fun x w => let* dispatch := word_pw x in
           resolve_multi_next cf w (w_ss w a) arity 1 dispatch args)); [apply read_word_one|].
      intros y _. destruct (word_pw y) as [d| | |] eqn:Hy; simpl.
      + apply read_next. lia.
      + apply (reads_weaken 0); [lia|]. apply reads_nothing.
      + apply (reads_weaken 0); [lia|]. apply reads_nothing.
      + apply (reads_weaken 0); [lia|]. apply reads_nothing.
    - eapply reads_weaken; [|exact IH]. lia.
  Qed.

  Theorem call_reads_at_most w mid m all : mr_vp m <> [] ->
    reads_at_most (call_reads cf m all) (fun w => call cf w mid m all) w.
  Proof.
    intros Hm.
    assert (Hr : reads_at_most (call_reads cf m all) (fun w => resolve cf w m all) w).
    { unfold call_reads, resolve. rewrite <- Nat.add_assoc.
      apply reads_bind; [apply read_flag|]. intros [] _.
      unfold table_reads. destruct (decide (length (mr_vp m) = 1)) as [H1|H1].
      - rewrite H1.
        apply (reads_map _ (fun w => resolve_uni cf w (w_ss w (mr_slots_strides m)) all)
          (fun x => let* x := x in word_pf x)). apply read_uni.
      - destruct (length (mr_vp m)) as [|[|n]] eqn:Hn; [|done|].
        + destruct (mr_vp m); [done|discriminate].
        + apply (reads_map _ (fun w => resolve_multi_first cf w (w_ss w (mr_slots_strides m)) (S (S n)) all)
            (fun x => let* x := x in word_pf x)). apply read_first. lia. }
    exact (reads_map _ (fun w => resolve cf w m all) (fun f => let* f := f in
      if decide (f = mr_not_implemented m)
      then Err (ENoOverrider mid (bad_call_arity all) (bad_call_types all))
      else if decide (f = mr_ambiguous m)
      then Err (EAmbiguousCall mid (bad_call_arity all) (bad_call_types all))
      else Ok (Calls f)) w Hr).
  Qed.
End Resolve.

Theorem next_reads_at_most w mid m loc all : reads_at_most 1 (fun w => call_next w mid m loc all) w.
Proof.
  apply (reads_one (LNext loc)). simpl. intros w' H. injection H as H. unfold call_next. by rewrite H.
Qed.

Theorem has_next_reads_at_most w m loc : reads_at_most 1 (fun w => has_next w m loc) w.
Proof.
  apply (reads_one (LNext loc)). simpl. intros w' H. injection H as H. unfold has_next. by rewrite H.
Qed.

Lemma object_reads_bound cf : object_reads cf <= 8.
Proof.
  unfold object_reads. destruct (cf_checks cf), (cf_vptr cf), (cf_hash cf), (cf_indirect cf); simpl; lia.
Qed.

Lemma arguments_bound cf all :
  sum_list (map (argument_reads cf) all) <= 8 * length (virtual_args all).
Proof.
  unfold virtual_args. induction all as [|a all IH]; [simpl; lia|].
  pose proof (object_reads_bound cf). destruct a as [t|v t|t].
  - rewrite filter_cons_True by done. simpl in *. lia.
  - rewrite filter_cons_True by done. simpl in *. lia.
  - rewrite filter_cons_False by done. simpl in *. lia.
Qed.

Theorem call_reads_constant cf w mid m all :
  mr_vp m <> [] -> length (virtual_args all) = length (mr_vp m) ->
  reads_at_most (11 * length (mr_vp m) + 1) (fun w => call cf w mid m all) w.
Proof.
  intros Hm Hl. eapply reads_weaken; [|by apply call_reads_at_most].
  unfold call_reads, table_reads. pose proof (arguments_bound cf all).
  destruct (cf_checks cf), (length (mr_vp m)) as [|[|n]] eqn:Hn; try lia;
    destruct (mr_vp m); done.
Qed.

(* With virtual_ptrs and no checks, only the tables. *)
Theorem pointers_reads cf w mid m all :
  cf_checks cf = false -> mr_vp m <> [] -> (forall t, AObject t ∉ all) ->
  reads_at_most (table_reads m) (fun w => call cf w mid m all) w.
Proof.
  intros Hc Hm Ha. eapply reads_weaken; [|by apply call_reads_at_most].
  unfold call_reads. rewrite Hc.
  enough (sum_list (map (argument_reads cf) all) = 0) by lia.
  induction all as [|a all IH]; [reflexivity|]. simpl.
  destruct a as [t|v t|t].
  - destruct (Ha t). left.
  - apply IH. intros t' Ht'. apply (Ha t'). by right.
  - apply IH. intros t' Ht'. apply (Ha t'). by right.
Qed.
