(* Programs that run out of memory in initialize(). *)
From stdpp Require Import base list numbers list_numbers relations.
From Verif Require Import Base Registry Spec ModelClasses ModelMethods ModelSlots ModelTables
  ModelHash ModelWorld ModelCall SpecCall ModelLife SpecLife ModelMemory SpecMemory ProofBase
  ProofClasses ProofMethods ProofSlots ProofTables ProofWrite ProofWorld ProofLife ProofReinit ProofFail
  ProofCall ProofCompile ProofEntries ProofErrors ProofGraph ProofHash ProofVptr.

(* What initialize_short leaves. *)
Lemma short_inv cf X n2216 R w sh w' :
  initialize_short cf X n2216 R w sh = Some w' ->
  (w' = w /\ ~ in_policies sh) \/
  (in_policies sh /\ exists cp wr h, compile (r_env X) n2216 R = Ok cp /\
     write_tables (w_fresh w) cp w = Ok wr /\
     w' = World (w_heap w) (S (w_fresh w)) (w_data w) (wr_static wr) (wr_ss wr)
            (wr_next wr) (w_vec w) (w_ivec w) (w_map w) h (w_initialized w)).
Proof.
  unfold initialize_short. intros H.
  destruct sh as [| |pass| |]; [injection H as <-; left; split; [reflexivity|simpl; auto]|..];
    destruct (compile (r_env X) n2216 R) as [cp|e| |]; try discriminate;
    [injection H as <-; left; split; [reflexivity|simpl; auto]|..];
    destruct (write_tables (w_fresh w) cp w) as [wr|e| |] eqn:Hwr; try discriminate;
    right; (split; [exact I|]).
  - destruct (cf_vptr cf); try discriminate. destruct (cf_hash cf); try discriminate.
    destruct (hash_until _ _ _ _ _ _) as [[h|]|e| |]; try discriminate.
    injection H as <-. exists cp, wr, h. auto.
  - destruct (cf_vptr cf); try discriminate. destruct (cf_hash cf).
    + destruct (hash_initialize _ _ _ _ _) as [[h [e|]]|e| |]; try discriminate.
      injection H as <-. exists cp, wr, h. auto.
    + injection H as <-. exists cp, wr, (w_hash w). auto.
  - destruct (cf_vptr cf); try discriminate.
    destruct (cf_hash cf); injection H as <-; exists cp, wr, (w_hash w); auto.
Qed.

Lemma short_world_ok cf X n2216 R w sh w' :
  initialize_short cf X n2216 R w sh = Some w' -> world_ok w -> world_ok w'.
Proof.
  intros H [W1 W2]. apply short_inv in H as [[-> _]|(_ & cp & wr & h & _ & _ & ->)].
  - split; assumption.
  - split; simpl.
    + intros b Hb. specialize (W1 b Hb). lia.
    + intros b Hb. apply W2. lia.
Qed.

Lemma short_flag cf X n2216 R w sh w' :
  initialize_short cf X n2216 R w sh = Some w' -> w_initialized w' = w_initialized w.
Proof. intros H. apply short_inv in H as [[-> _]|(_ & cp & wr & h & _ & _ & ->)]; reflexivity. Qed.

Lemma troubled_world_ok cf h p : troubled cf h p -> world_ok (pr_world p).
Proof.
  induction 1 as [|h p ev p' r _ IH Hs|h p X n2216 sh w _ IH Hs]; [apply world0_ok| |].
  - destruct ev as [R|X n2216|]; simpl in Hs.
    + injection Hs as <- _. exact IH.
    + destruct (initialize cf X n2216 (pr_regs p) (pr_world p)) as [w o] eqn:Hi.
      apply initialize_world_ok in Hi; [|exact IH].
      destruct o; try discriminate; injection Hs as <- _; exact Hi.
    + injection Hs as <- _. apply finalize_world_ok. exact IH.
  - eapply short_world_ok; eauto.
Qed.

Lemma still_live_snoc h x :
  still_live (h ++ [x]) <->
  (exists X n2216, x = Ends (Initializes X n2216) Done) \/
  (still_live h /\ forall r, x <> Ends Finalizes r).
Proof.
  split.
  - intros (b & X & n & a & Heq & Hf). destruct a as [|y a _] using rev_ind.
    + apply app_inj_tail in Heq as [_ ->]. left. eauto.
    + rewrite app_comm_cons, app_assoc in Heq. apply app_inj_tail in Heq as [-> <-].
      right. split.
      * exists b, X, n, a. split; [reflexivity|]. intros r' Hr. apply (Hf r').
        apply elem_of_app. left. exact Hr.
      * intros r ->. apply (Hf r). apply elem_of_app. right. left.
  - intros [(X & n & ->)|[(b & X & n & a & -> & Hf) Hne]].
    + exists h, X, n, []. split; [reflexivity|]. intros r H. inversion H.
    + exists b, X, n, (a ++ [x]). rewrite app_comm_cons, app_assoc. split; [reflexivity|].
      intros r' [H|H]%elem_of_app; [exact (Hf r' H)|].
      apply elem_of_list_singleton in H. exact (Hne r' (eq_sym H)).
Qed.

Lemma troubled_live cf h p :
  troubled cf h p -> w_initialized (pr_world p) = true <-> still_live h.
Proof.
  induction 1 as [|h p ev p' r _ IH Hs|h p X n2216 sh w _ IH Hs].
  - split; [discriminate|]. intros (b & X & n & a & Heq & _). destruct b; discriminate.
  - rewrite still_live_snoc. destruct ev as [R|X n2216|]; simpl in Hs.
    + injection Hs as <- <-. simpl. rewrite IH. split.
      * intros H. right. split; [exact H|discriminate].
      * intros [(X & n & H)|[H _]]; [discriminate|exact H].
    + destruct (initialize cf X n2216 (pr_regs p) (pr_world p)) as [w o] eqn:Hi.
      apply initialize_flag in Hi. destruct o; try discriminate; injection Hs as <- <-; simpl; rewrite Hi.
      * split; [|reflexivity]. intros _. left. eauto.
      * rewrite IH. split.
        -- intros H. right. split; [exact H|discriminate].
        -- intros [(X' & n & H)|[H _]]; [discriminate|exact H].
    + injection Hs as <- <-. simpl. split; [discriminate|].
      intros [(X & n & H)|[_ H]]; [discriminate|]. destruct (H Done eq_refl).
  - rewrite still_live_snoc. simpl. rewrite (short_flag _ _ _ _ _ _ _ Hs), IH. split.
    + intros H. right. split; [exact H|discriminate].
    + intros [(X' & n & H)|[H _]]; [discriminate|exact H].
Qed.

(* ---- recovery ---- *)

Theorem recovers cf h p X n2216 w0 rep :
  troubled cf h p -> program_ok cf (r_env X) (pr_regs p) ->
  initialize cf X n2216 (pr_regs p) world0 = (w0, Ok rep) ->
  exists w', initialize cf X n2216 (pr_regs p) (pr_world p) = (w', Ok rep) /\
    (forall mid m args args0, m ∈ reg_methods (pr_regs p) ->
       Forall2 (same_arg (e_ti (r_env X)) (pr_regs p) w' w0) args args0 ->
       call cf w' mid m args = call cf w0 mid m args0) /\
    (forall m o f, m ∈ reg_methods (pr_regs p) -> o ∈ mr_overriders m ->
       w_next w0 (or_next o) = Some f -> w_next w' (or_next o) = Some f).
Proof.
  intros Hh HP H0. pose proof (troubled_world_ok cf h p Hh) as Hw.
  destruct (initialize cf X n2216 (pr_regs p) (pr_world p)) as [w' o] eqn:Hi.
  pose proof (initialize_outcome cf X n2216 (pr_regs p) (pr_world p) world0) as Ho.
  rewrite Hi, H0 in Ho. simpl in Ho. subst o.
  exists w'. split; [reflexivity|].
  destruct (worlds_same_ok cf X n2216 (pr_regs p) HP _ _ _ _ _ _ Hw world0_ok Hi H0)
    as (cp & Hcp & HI1 & HI2 & HS).
  split.
  - intros mid m args args0 Hm Ha.
    eapply (call_same cf X n2216 (pr_regs p) HP); eauto.
  - intros m o f Hm Hov Hf. eapply (ws_next _ _ _ _ _ _ HS); eauto.
Qed.

(* ---- detection ---- *)

Theorem short_not_initialized cf h p mid m args :
  troubled cf h p -> cf_checks cf = true ->
  call cf (pr_world p) mid m args = Err ENotInitialized <-> ~ still_live h.
Proof.
  intros Hh Hc. rewrite <- (troubled_live cf h p Hh). split.
  - intros H Hl. assert (Hr : require_initialized cf (pr_world p) = Ok tt).
    { unfold require_initialized. rewrite decide_False; [reflexivity|]. intros [_ ?]. congruence. }
    exact (call_ni cf _ Hr mid m args H).
  - intros Hl. unfold call, resolve, require_initialized. rewrite decide_True; [reflexivity|].
    split; [exact Hc|]. destruct (w_initialized (pr_world p)); [contradiction|reflexivity].
Qed.

Theorem short_acquire cf h p t :
  troubled cf h p -> cf_checks cf = true ->
  acquire_vptr cf (pr_world p) t = Err ENotInitialized <-> ~ still_live h.
Proof.
  intros Hh Hc. rewrite <- (troubled_live cf h p Hh). split.
  - intros H Hl. assert (Hr : require_initialized cf (pr_world p) = Ok tt).
    { unfold require_initialized. rewrite decide_False; [reflexivity|]. intros [_ ?]. congruence. }
    exact (acquire_ni cf _ Hr t H).
  - intros Hl. unfold acquire_vptr, require_initialized. rewrite decide_True; [reflexivity|].
    split; [exact Hc|]. destruct (w_initialized (pr_world p)); [contradiction|reflexivity].
Qed.

(* ---- the same registrations: what holds a v-table pointer keeps working ---- *)


Lemma stored_resolve_uni cf w w' ss args :
  (forall v i, read_word w' v i = read_word w v i) ->
  Forall (fun a => is_virtual_arg a = true -> arg_vptr cf w' a = arg_vptr cf w a) args ->
  resolve_uni cf w' ss args = resolve_uni cf w ss args.
Proof.
  intros Hread. induction 1 as [|a l Ha _ IH]; [reflexivity|]. simpl.
  destruct (is_virtual_arg a); [|exact IH]. rewrite (Ha eq_refl).
  destruct (arg_vptr cf w a) as [v|e| |]; try reflexivity. simpl.
  destruct (at_ ss 0) as [s|e| |]; try reflexivity. simpl. apply Hread.
Qed.

Lemma stored_resolve_next cf w w' ss arity va d args :
  (forall v i, read_word w' v i = read_word w v i) ->
  Forall (fun a => is_virtual_arg a = true -> arg_vptr cf w' a = arg_vptr cf w a) args ->
  resolve_multi_next cf w' ss arity va d args = resolve_multi_next cf w ss arity va d args.
Proof.
  intros Hread Hl. revert va d. induction Hl as [|a l Ha _ IH]; intros va d; [reflexivity|]. simpl.
  assert (Hd : (if is_virtual_arg a
      then let* vtbl := arg_vptr cf w' a in let* slot := at_ ss va in
           let* stride := at_ ss (arity + va - 1) in let* x := read_word w' vtbl slot in
           let* i := word_i x in vptr_add d (i * stride)
      else Ok d) =
    (if is_virtual_arg a
      then let* vtbl := arg_vptr cf w a in let* slot := at_ ss va in
           let* stride := at_ ss (arity + va - 1) in let* x := read_word w vtbl slot in
           let* i := word_i x in vptr_add d (i * stride)
      else Ok d)).
  { destruct (is_virtual_arg a); [|reflexivity]. rewrite (Ha eq_refl).
    destruct (arg_vptr cf w a) as [v|e| |]; try reflexivity. simpl.
    destruct (at_ ss va) as [s|e| |]; try reflexivity. simpl.
    destruct (at_ ss (arity + va - 1)) as [st|e| |]; try reflexivity. simpl.
    rewrite Hread. reflexivity. }
  rewrite Hd. match goal with |- obind ?x _ = _ => destruct x as [d'|e| |]; try reflexivity end. simpl.
  case_decide; [apply Hread|apply IH].
Qed.

Lemma stored_resolve_first cf w w' ss arity args :
  (forall v i, read_word w' v i = read_word w v i) ->
  Forall (fun a => is_virtual_arg a = true -> arg_vptr cf w' a = arg_vptr cf w a) args ->
  resolve_multi_first cf w' ss arity args = resolve_multi_first cf w ss arity args.
Proof.
  intros Hread. induction 1 as [|a l Ha Hl IH]; [reflexivity|]. simpl.
  destruct (is_virtual_arg a); [|exact IH]. rewrite (Ha eq_refl).
  destruct (arg_vptr cf w a) as [v|e| |]; try reflexivity. simpl.
  destruct (at_ ss 0) as [s|e| |]; try reflexivity. simpl. rewrite Hread.
  destruct (read_word w v s) as [x|e| |]; try reflexivity. simpl.
  destruct (word_pw x) as [d|e| |]; try reflexivity. simpl.
  apply stored_resolve_next; assumption.
Qed.

Lemma stored_call cf w w' mid m args :
  w_heap w' = w_heap w -> w_ss w' (mr_slots_strides m) = w_ss w (mr_slots_strides m) ->
  w_initialized w' = w_initialized w ->
  Forall (fun a => is_virtual_arg a = true -> arg_vptr cf w' a = arg_vptr cf w a) args ->
  call cf w' mid m args = call cf w mid m args.
Proof.
  intros Hheap Hss Hini Ha.
  assert (Hread : forall v i, read_word w' v i = read_word w v i)
    by (intros v i; unfold read_word; rewrite Hheap; reflexivity).
  unfold call. f_equal. unfold resolve. rewrite Hss. unfold require_initialized. rewrite Hini.
  rewrite (stored_resolve_uni cf w w' _ args Hread Ha), (stored_resolve_first cf w w' _ _ args Hread Ha).
  reflexivity.
Qed.

Section Same.
  Context (cf : config) (X : run) (n2216 : bool) (R : registrations).
  Context (HP : program_ok cf (r_env X) R) (w0 w w' : world) (rep : method_report).
  Context (Hw0 : world_ok w0) (Hi : initialize cf X n2216 R w0 = (w, Ok rep)).
  Context (sh : shortage) (Hs : initialize_short cf X n2216 R w sh = Some w').

  Lemma short_tables m : m ∈ reg_methods R ->
    w_ss w' (mr_slots_strides m) = w_ss w (mr_slots_strides m) /\
    forall o, o ∈ mr_overriders m -> w_next w' (or_next o) = w_next w (or_next o).
  Proof.
    intros Hm. destruct HP as [HE Hac Har Hids Hn HA].
    apply short_inv in Hs as [[-> _]|(_ & cp & wr & h & Hcp & Hwr & ->)]; [auto|]. simpl.
    destruct (initialize_written _ _ _ _ _ _ _ Hi Hw0) as (c1 & r1 & C1 & R1 & A1 & A2 & A3 & A4).
    assert (c1 = cp) as -> by congruence.
    destruct (write_tables_ok (r_env X) R HE Hac Har n2216 cp Hcp (w_fresh w0) w0) as (r1' & g1 & E1 & O1).
    destruct (write_tables_ok (r_env X) R HE Hac Har n2216 cp Hcp (w_fresh w) w) as (r2' & g2 & E2 & O2).
    assert (r1' = r1) as -> by congruence. assert (r2' = wr) as -> by congruence.
    pose proof (co_methods _ _ _ _ (compile_inv (r_env X) R HE Hac n2216 cp Hcp)) as HM.
    apply elem_of_list_lookup in Hm as [mi Hmi].
    destruct (Forall2_lookup_l _ _ _ _ _ HM Hmi) as (cm & Hcm & Hok).
    destruct (cp_tables_ok (r_env X) R HE Hac n2216 cp Hcp) as (gss & _ & _ & Htabs & _).
    destruct (Htabs mi cm Hcm) as (gs & t & _ & Ht & _).
    assert (Hl : zip (cp_methods cp) (tb_tables (cp_tables cp)) !! mi = Some (cm, t))
      by (apply (mts_lookup cp); auto).
    split.
    - rewrite A3, <- (mo_ss _ _ _ _ Hok).
      pose proof (ss_nodup (r_env X) R HE Hac n2216 cp Hcp HA) as Hnd.
      rewrite (wr_ss_ok _ _ _ _ _ O1 Hnd _ _ _ Hl), (wr_ss_ok _ _ _ _ _ O2 Hnd _ _ _ Hl). reflexivity.
    - intros o Ho. apply elem_of_list_lookup in Ho as [i Hi'].
      destruct (Forall2_lookup_l _ _ _ _ _ (mo_ovs _ _ _ _ Hok) Hi') as (co & Hco & Hoo).
      pose proof (next_nodup (r_env X) R HE Hac n2216 cp Hcp HA) as Hnd.
      pose proof (wr_next_ok _ _ _ _ _ O1 Hnd _ _ _ _ _ Hl Hco) as N1.
      pose proof (wr_next_ok _ _ _ _ _ O2 Hnd _ _ _ _ _ Hl Hco) as N2.
      rewrite (oo_next _ _ _ _ Hoo) in N1, N2.
      destruct (final_next (t_cells t) i) as [tg|].
      + destruct N1 as (f1 & T1 & N1). destruct N2 as (f2 & T2 & N2). rewrite A4. congruence.
      + exact N2.
  Qed.

  Theorem short_calls mid m args : m ∈ reg_methods R -> cf_indirect cf = false ->
    Forall (keeps_vptr cf) args ->
    call cf w' mid m args = call cf w mid m args /\
    forall o, o ∈ mr_overriders m -> w_next w' (or_next o) = w_next w (or_next o).
  Proof.
    intros Hm Hd Ha. destruct (short_tables m Hm) as [Hss Hnx]. split; [|exact Hnx].
    assert (Hfl : w_initialized w' = w_initialized w) by (eapply short_flag; exact Hs).
    assert (Hheap : w_heap w' = w_heap w /\ w_map w' = w_map w).
    { clear Hss Hnx Hfl. apply short_inv in Hs as [[-> _]|(_ & cp & wr & h & _ & _ & ->)]; auto. }
    destruct Hheap as [Hheap Hmap].
    apply stored_call; try assumption.
    eapply Forall_impl; [exact Ha|]. intros a Hst Hv. destruct a as [t|v t|t]; try reflexivity.
    simpl in Hst |- *. unfold acquire_vptr, require_initialized. rewrite Hfl.
    destruct (decide (cf_checks cf = true /\ w_initialized w = false)); [reflexivity|]. cbn [obind].
    unfold dynamic_vptr. rewrite Hst, Hmap.
    assert (Hmap0 : exists g stat, w_map w = map_initialize cf g stat).
    { unfold initialize, install in Hi. destruct (compile _ _ _) as [cp|e| |]; try discriminate.
      destruct (write_tables _ _ _) as [wr|e| |]; try discriminate. rewrite Hst in Hi.
      injection Hi as <- _. simpl. eauto. }
    destruct Hmap0 as (g & stat & Hmap0).
    destruct (map_find (w_map w) t) as [r|] eqn:Hr; [|destruct (cf_checks cf); reflexivity].
    simpl. f_equal. destruct r as [loc|v]; [|reflexivity]. exfalso.
    rewrite Hmap0 in Hr. revert Hr. unfold map_initialize. rewrite Hd.
    assert (G : forall l m, (forall t loc, map_find m t <> Some (RStatic loc)) ->
      forall t loc, map_find (foldl (fun m e => foldl (fun m t => map_emplace m t
        (RElem (stat (ce_static_vptr e)))) m (ce_type_ids e)) m l) t <> Some (RStatic loc)).
    { induction l as [|e l IH]; intros m0 Hm0; [exact Hm0|]. simpl. apply IH.
      generalize (ce_type_ids e). intros ts. revert m0 Hm0. induction ts as [|t' ts IHt]; intros m0 Hm0;
        [exact Hm0|]. simpl. apply IHt. intros t0 loc0. rewrite map_emplace_find.
      destruct (map_find m0 t0) as [x|] eqn:Hx; [|case_decide; discriminate].
      rewrite <- Hx. apply Hm0. }
    apply G. intros t0 loc0. discriminate.
  Qed.
End Same.

(* ---- what reads the new v-table pointers is undefined ---- *)
Section Dangling.
  Context (cf : config) (X : run) (n2216 : bool) (R : registrations) (w w' : world).
  Context (HP : program_ok cf (r_env X) R) (Hw : world_ok w).
  Context (sh : shortage) (Hs : initialize_short cf X n2216 R w sh = Some w').

  Lemma short_dangles a cr : in_policies sh -> first_record (e_ti (r_env X)) R a = Some cr ->
    exists buf o, w_static w' (cr_static_vptr cr) = VPtr buf o /\ w_heap w' buf = None.
  Proof.
    intros Hlate Hcr. destruct HP as [HE Hac Har Hids Hn HA].
    apply short_inv in Hs as [[_ Hne]|(_ & cp & wr & h & Hcp & Hwr & ->)]; [contradiction|].
    pose proof (compile_inv (r_env X) R HE Hac n2216 cp Hcp) as HI.
    pose proof (go_classes _ _ _ (co_graph _ _ _ _ HI)) as HC.
    destruct (write_tables_ok _ R HE Hac Har n2216 cp Hcp (w_fresh w) w) as (wr' & gvt & Hwr' & Hok).
    assert (wr' = wr) as -> by congruence.
    assert (Hc : exists c, g_map (cp_graph cp) a = Some c).
    { apply (co_dom _ _ _ _ HC). exists cr. unfold first_record in Hcr.
      apply head_filter in Hcr as [H1 H2]. split; [exact H1|]. exact H2. }
    destruct Hc as [c Hc].
    destruct (lookup_lt_is_Some_2 (g_classes (cp_graph cp)) c) as [e He];
      [apply (co_lt _ _ _ _ HC _ _ Hc)|].
    destruct (wr_class _ _ _ _ _ Hok c e He) as (it & _ & Hst & _).
    specialize (Hst (static_nodup _ R HE Hac n2216 cp Hcp HA)). simpl.
    rewrite <- (class_static _ R HE Hac n2216 cp Hcp a c e cr Hc He Hcr), Hst.
    eexists _, _. split; [reflexivity|]. apply (wo_heap _ Hw). lia.
  Qed.

  Theorem short_undef mid m cr t args a :
    in_policies sh -> w_initialized w = true \/ cf_checks cf = false ->
    first_record (e_ti (r_env X)) R a = Some cr ->
    call cf w' mid m (APtr (w_static w' (cr_static_vptr cr)) t :: args) = Undef.
  Proof.
    intros Hlate Hl Hcr. destruct (short_dangles a cr Hlate Hcr) as (buf & o & Hv & Hh).
    rewrite <- (short_flag _ _ _ _ _ _ _ Hs) in Hl.
    unfold call, resolve. unfold require_initialized. rewrite decide_False; [|intuition congruence].
    cbn [obind resolve_uni resolve_multi_first is_virtual_arg arg_vptr].
    destruct (at_ (w_ss w' (mr_slots_strides m)) 0) as [s|e| |] eqn:Hs0;
      [|exfalso; eapply at_not_err; exact Hs0|repeat case_decide; reflexivity|
        exfalso; unfold at_ in Hs0; destruct (_ !! _); discriminate].
    rewrite Hv. cbn [obind read_word]. rewrite Hh. cbn [obind deref]. case_decide; reflexivity.
  Qed.
End Dangling.

Theorem troubled_present cf h p : troubled cf h p -> forall R, still_present h R -> pr_regs p = R.
Proof.
  induction 1 as [|h p ev p' r Hh IH Hs|h p X n2216 sh w Hh IH Hs];
    intros R (before & r0 & after & Heq & Hno).
  - destruct before; discriminate.
  - destruct after as [|x after _] using rev_ind.
    + apply app_inj_tail in Heq as [-> [= -> ->]]. simpl in Hs. injection Hs as <- <-. reflexivity.
    + rewrite app_comm_cons, app_assoc in Heq. apply app_inj_tail in Heq as [Heq <-].
      assert (HR : pr_regs p = R).
      { apply IH. exists before, r0, after. split; [exact Heq|].
        intros R' r' Hin. apply (Hno R' r'), elem_of_app. auto. }
      destruct ev as [R1|X n2216|]; simpl in Hs.
      * exfalso. apply (Hno R1 r), elem_of_app. right. constructor.
      * destruct (initialize cf X n2216 (pr_regs p) (pr_world p)) as [w [rep|e| |]]; try discriminate Hs;
          injection Hs as <- <-; exact HR.
      * injection Hs as <- <-. exact HR.
  - destruct after as [|x after _] using rev_ind; [apply app_inj_tail in Heq as [_ Heq]; discriminate|].
    rewrite app_comm_cons, app_assoc in Heq. apply app_inj_tail in Heq as [Heq <-]. simpl.
    apply IH. exists before, r0, after. split; [exact Heq|].
    intros R' r' Hin. apply (Hno R' r'), elem_of_app. auto.
Qed.
