(* What a failed initialize() leaves behind. *)
From stdpp Require Import base list numbers list_numbers relations.
From Verif Require Import Base Registry Spec ModelClasses ModelMethods ModelSlots ModelTables
  ModelHash ModelWorld ModelCall SpecCall ModelLife SpecLife
  ProofBase ProofClasses ProofGraph ProofErrors ProofWrite ProofHash ProofWorld ProofCall ProofLife
  ProofReinit ProofVptr.

(* A failure other than that of the hash search changes nothing. *)
Theorem failed_unchanged cf h p X n2216 w' e :
  history cf h p -> program_ok cf (r_env X) (pr_regs p) ->
  initialize cf X n2216 (pr_regs p) (pr_world p) = (w', Err e) ->
  (forall attempts buckets, e <> ESearch attempts buckets) -> w' = pr_world p.
Proof.
  intros Hh [HE Hac Har Hids Hn HA] Hi He. pose proof (history_world_ok cf h p Hh) as Hw.
  destruct (compile (r_env X) n2216 (pr_regs p)) as [cp|e'| |] eqn:Hcp.
  - destruct (initialize_cases cf X n2216 (pr_regs p) (pr_world p) HE Hac Har cp Hcp Hids Hn Hw)
      as [(w2 & H & _)|(_ & _ & w2 & M & H & _)]; rewrite H in Hi.
    + discriminate.
    + injection Hi as _ <-. edestruct He. reflexivity.
  - rewrite (initialize_stage_error cf X n2216 (pr_regs p) (pr_world p) e' Hcp) in Hi.
    injection Hi as <- _. reflexivity.
  - unfold initialize, install in Hi. rewrite Hcp in Hi. discriminate.
  - unfold initialize, install in Hi. rewrite Hcp in Hi. discriminate.
Qed.

(* Without a type hash there is no other failure. *)
Theorem failed_no_hash cf h p X n2216 w' e :
  history cf h p -> program_ok cf (r_env X) (pr_regs p) ->
  initialize cf X n2216 (pr_regs p) (pr_world p) = (w', Err e) ->
  cf_vptr cf <> VptrVector \/ cf_hash cf = false -> w' = pr_world p.
Proof.
  intros Hh [HE Hac Har Hids Hn HA] Hi Hc. pose proof (history_world_ok cf h p Hh) as Hw.
  destruct (compile (r_env X) n2216 (pr_regs p)) as [cp|e'| |] eqn:Hcp.
  - destruct (initialize_cases cf X n2216 (pr_regs p) (pr_world p) HE Hac Har cp Hcp Hids Hn Hw)
      as [(w2 & H & _)|(Hv & Hh' & w2 & M & H & _)]; rewrite H in Hi.
    + discriminate.
    + destruct Hc; congruence.
  - rewrite (initialize_stage_error cf X n2216 (pr_regs p) (pr_world p) e' Hcp) in Hi.
    injection Hi as <- _. reflexivity.
  - unfold initialize, install in Hi. rewrite Hcp in Hi. discriminate.
  - unfold initialize, install in Hi. rewrite Hcp in Hi. discriminate.
Qed.

(* A failure of the hash search leaves the v-table pointers of the classes
   designating memory that was freed. *)
Section Search.
  Context (cf : config) (X : run) (R : registrations) (w : world).
  Context (HP : program_ok cf (r_env X) R) (Hw : world_ok w).

  Lemma initialize_search n2216 cp :
    compile (r_env X) n2216 R = Ok cp -> cf_vptr cf = VptrVector -> cf_hash cf = true ->
    (2 ^ (initial_M (N.of_nat (g_n (cp_graph cp))) + 3) <
       N.of_nat (length (all_type_ids (cp_graph cp))))%N ->
    exists w', initialize cf X n2216 R w =
      (w', Err (ESearch 400000 (2 ^ (initial_M (N.of_nat (g_n (cp_graph cp))) + 4)))).
  Proof.
    destruct HP as [HE Hac Har Hids Hn HA]. intros Hcp Hk Hh Hlen.
    pose proof (compile_inv _ R HE Hac n2216 cp Hcp) as HI.
    pose proof (go_classes _ _ _ (co_graph _ _ _ _ HI)) as HC.
    assert (Hn' : hash_size_ok cf (g_n (cp_graph cp))).
    { intros H. specialize (Hn H). pose proof (classes_count _ _ _ HC). lia. }
    destruct (initialize_cases cf X n2216 R w HE Hac Har cp Hcp Hids Hn Hw)
      as [(w2 & H & _)|(_ & _ & w2 & M & H & -> & _)].
    2: { exists w2. exact H. }
    exfalso. revert H. unfold initialize, install. rewrite Hcp, Hk.
    destruct (write_tables (w_fresh w) cp w) as [wr| | |]; try discriminate. cbv zeta.
    unfold vector_initialize. rewrite Hh. cbn [w_hash].
    destruct (hash_overflow (r_rnd X) (N.of_nat (g_n (cp_graph cp))) (all_type_ids (cp_graph cp))
      (w_hash w)) with (checks := cf_checks cf) as (h' & ->).
    - intros Hu. apply (type_id_elem _ _ _ HC) in Hu. change (map ?f ?l) with (f <$> l) in Hu.
      apply elem_of_list_fmap in Hu as (cr & Heq & Hcr). specialize (Hids cr Hcr).
      rewrite <- Heq in Hids. revert Hids. by vm_compute.
    - apply Hn'. exact Hh.
    - apply (all_type_ids_nodup _ _ _ HC).
    - exact Hlen.
    - discriminate.
  Qed.

  Context (w' : world) (attempts buckets : N).
  Context (Hi : initialize cf X false R w = (w', Err (ESearch attempts buckets))).

  Lemma search_dangles a cr :
    first_record (e_ti (r_env X)) R a = Some cr ->
    exists buf o, w_static w' (cr_static_vptr cr) = VPtr buf o /\ w_heap w' buf = None.
  Proof.
    destruct HP as [HE Hac Har Hids Hn HA]. intros Hcr.
    destruct (compile_cases _ R HE Hac Har)
      as [(cp & Hcp & HI)|[(t & He & _)|(b & d & He & _)]].
    2, 3: unfold initialize, install in Hi; rewrite He in Hi; discriminate.
    pose proof (go_classes _ _ _ (co_graph _ _ _ _ HI)) as HC.
    destruct (initialize_cases cf X false R w HE Hac Har cp Hcp Hids Hn Hw)
      as [(w2 & H & _)|(_ & _ & w2 & M & H & _ & _ & _ & Hheap & _)].
    { rewrite H in Hi. discriminate. }
    assert (w2 = w') as -> by congruence. clear H.
    destruct (write_tables_ok _ R HE Hac Har false cp Hcp (w_fresh w) w) as (wr & gvt & Hwr & Hok).
    assert (Hst : w_static w' = wr_static wr).
    { revert Hi. unfold initialize, install. rewrite Hcp, Hwr. cbv zeta.
      destruct (cf_vptr cf); try discriminate.
      destruct (vector_initialize _ _ _ _ _) as [[h [[vec ivec]|e]]| | |]; try discriminate;
        intros [= <- _]; reflexivity. }
    assert (Hc : exists c, g_map (cp_graph cp) a = Some c).
    { apply (co_dom _ _ _ _ HC). exists cr. unfold first_record in Hcr.
      apply head_filter in Hcr as [H1 H2]. split; [exact H1|]. exact H2. }
    destruct Hc as [c Hc].
    destruct (lookup_lt_is_Some_2 (g_classes (cp_graph cp)) c) as [e He];
      [apply (co_lt _ _ _ _ HC _ _ Hc)|].
    destruct (wr_class _ _ _ _ _ Hok c e He) as (it & _ & Hs & _).
    specialize (Hs (static_nodup _ R HE Hac false cp Hcp HA)).
    rewrite <- (class_static _ R HE Hac false cp Hcp a c e cr Hc He Hcr), Hst, Hs.
    eexists _, _. split; [reflexivity|]. rewrite Hheap. apply (wo_heap _ Hw). lia.
  Qed.

  (* A call through the present v-table pointer of a class then reads freed memory. *)
  Theorem search_undef mid m cr t all args a :
    m ∈ reg_methods R -> w_initialized w' = true \/ cf_checks cf = false ->
    first_record (e_ti (r_env X)) R a = Some cr ->
    all = APtr (w_static w' (cr_static_vptr cr)) t :: args ->
    call cf w' mid m all = Undef.
  Proof.
    intros Hm Hl Hcr ->. destruct (search_dangles a cr Hcr) as (buf & o & Hv & Hh).
    unfold call, resolve. unfold require_initialized. rewrite decide_False; [|intuition congruence].
    cbn [obind resolve_uni resolve_multi_first is_virtual_arg arg_vptr].
    destruct (at_ (w_ss w' (mr_slots_strides m)) 0) as [s|e| |] eqn:Hs;
      [|exfalso; eapply at_not_err; exact Hs|repeat case_decide; reflexivity|exfalso; unfold at_ in Hs; destruct (_ !! _); discriminate].
    rewrite Hv. cbn [obind read_word]. rewrite Hh. cbn [obind deref]. case_decide; reflexivity.
  Qed.
End Search.
