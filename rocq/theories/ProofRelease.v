(* What a registry has allocated. *)
From stdpp Require Import base list numbers.
From Verif Require Import Base Registry Spec ModelClasses ModelMethods ModelSlots ModelTables
  ModelHash ModelWorld ModelCall SpecCall ModelLife SpecLife ProofBase ProofClasses ProofGraph ProofErrors ProofHash ProofWorld
  ProofVptr ProofLife.

Record tidy (cf : config) (w : world) : Prop := {
  ti_data : forall b, w_heap w b <> None <-> w_data w = Some b;
  ti_flag : w_initialized w = true <-> w_data w <> None;
  ti_vec : cf_vptr cf <> VptrVector \/ cf_indirect cf = true -> w_vec w = [];
  ti_ivec : cf_vptr cf <> VptrVector \/ cf_indirect cf = false -> w_ivec w = [];
  ti_map : cf_vptr cf <> VptrMap -> w_map w = [];
  ti_control : cf_vptr cf <> VptrVector \/ cf_hash cf = false \/ cf_checks cf = false ->
    h_control (w_hash w) = []
}.

Lemma tidy0 cf : tidy cf world0.
Proof.
  split; simpl; try reflexivity.
  - intros b. split; [congruence|discriminate].
  - split; congruence.
Qed.

Lemma store_other cf stat h e t v v' : store_vptr cf stat h e t v = Ok v' ->
  (cf_indirect cf = true -> fst v' = fst v) /\ (cf_indirect cf = false -> snd v' = snd v) /\
  length (fst v') = length (fst v) /\ length (snd v') = length (snd v).
Proof.
  unfold store_vptr. destruct v as [vec ivec].
  intros H. apply obind_ok in H as (i & _ & H). cbv zeta in H.
  destruct (cf_indirect cf); destruct (decide _); try discriminate; injection H as <-; simpl;
    rewrite ?insert_length; repeat split; intros; congruence.
Qed.

Lemma store_class_other cf stat h e v v' : store_class cf stat h e v = Ok v' ->
  (cf_indirect cf = true -> fst v' = fst v) /\ (cf_indirect cf = false -> snd v' = snd v) /\
  length (fst v') = length (fst v) /\ length (snd v') = length (snd v).
Proof.
  unfold store_class. revert v. induction (ce_type_ids e) as [|t l IH]; intros v; simpl.
  - intros [= <-]. auto.
  - intros H. apply obind_ok in H as (v1 & H1 & H2). apply store_other in H1 as (A1 & A2 & A3 & A4).
    apply IH in H2 as (B1 & B2 & B3 & B4).
    split; [|split; [|split]]; [intros E; rewrite B1, A1; auto|intros E; rewrite B2, A2; auto|congruence..].
Qed.

Lemma store_all_other cf stat h l v v' : foldM (store_class cf stat h) l v = Ok v' ->
  (cf_indirect cf = true -> fst v' = fst v) /\ (cf_indirect cf = false -> snd v' = snd v) /\
  length (fst v') = length (fst v) /\ length (snd v') = length (snd v).
Proof.
  revert v. induction l as [|e l IH]; intros v; simpl.
  - intros [= <-]. auto.
  - intros H. apply obind_ok in H as (v1 & H1 & H2). apply store_class_other in H1 as (A1 & A2 & A3 & A4).
    apply IH in H2 as (B1 & B2 & B3 & B4).
    split; [|split; [|split]]; [intros E; rewrite B1, A1; auto|intros E; rewrite B2, A2; auto|congruence..].
Qed.

Lemma hash_initialize_control rnd checks n types h h' e :
  hash_initialize rnd checks n types h = Ok (h', e) -> checks = false -> h_control h' = h_control h.
Proof.
  unfold hash_initialize. intros H ->. apply obind_ok in H as ([h1 e1] & _ & H).
  injection H as <- _. reflexivity.
Qed.

Lemma vector_initialize_other cf rnd g stat w h r :
  vector_initialize cf rnd g stat w = Ok (h, r) ->
  (cf_hash cf = false \/ cf_checks cf = false -> h_control h = h_control (w_hash w)) /\
  (forall vec ivec, r = inl (vec, ivec) ->
     (cf_indirect cf = true -> vec = w_vec w) /\ (cf_indirect cf = false -> ivec = w_ivec w)).
Proof.
  unfold vector_initialize. intros H. apply obind_ok in H as ([h1 size] & H1 & H).
  assert (Hc : cf_hash cf = false \/ cf_checks cf = false -> h_control h1 = h_control (w_hash w)).
  { destruct (cf_hash cf).
    - apply obind_ok in H1 as ([h2 e] & H1 & H2). intros [Hf|Hf]; [discriminate|].
      assert (h1 = h2) as -> by (destruct e; congruence).
      eapply hash_initialize_control; eauto.
    - injection H1 as <- _. reflexivity. }
  destruct size as [size|e].
  - apply obind_ok in H as ([vec' ivec'] & Hs & H). injection H as <- <-. split; [exact Hc|].
    intros vec ivec [= <- <-]. apply store_all_other in Hs as (A1 & A2 & _). simpl in A1, A2.
    split; intros E; rewrite E in A1, A2; auto.
  - injection H as <- <-. split; [exact Hc|discriminate].
Qed.

Lemma commit_tidy cf w st ss nx vec ivec m h ws :
  world_ok w -> tidy cf w ->
  (cf_vptr cf <> VptrVector \/ cf_indirect cf = true -> vec = []) ->
  (cf_vptr cf <> VptrVector \/ cf_indirect cf = false -> ivec = []) ->
  (cf_vptr cf <> VptrMap -> m = []) ->
  (cf_vptr cf <> VptrVector \/ cf_hash cf = false \/ cf_checks cf = false -> h_control h = []) ->
  tidy cf (World (match w_data w with
                  | Some old => upd (upd (w_heap w) (w_fresh w) (Some ws)) old None
                  | None => upd (w_heap w) (w_fresh w) (Some ws) end) (S (w_fresh w))
             (Some (w_fresh w)) st ss nx vec ivec m h true).
Proof.
  intros [W1 W2] [T1 T2 _ _ _ _] Hv Hi Hm Hh. split; simpl; auto; [|split; congruence].
  intros b. destruct (w_data w) as [old|] eqn:Hd.
  - specialize (W1 old eq_refl). destruct (decide (b = old)) as [->|Hne].
    + rewrite upd_eq. split; [congruence|]. intros [= ?]. lia.
    + rewrite upd_ne by exact Hne. destruct (decide (b = w_fresh w)) as [->|Hf].
      * rewrite upd_eq. split; [reflexivity|discriminate].
      * rewrite upd_ne by exact Hf. rewrite T1. split; intros [= ?]; congruence.
  - destruct (decide (b = w_fresh w)) as [->|Hf].
    + rewrite upd_eq. split; [reflexivity|discriminate].
    + rewrite upd_ne by exact Hf. rewrite T1. split; intros [= ?]; congruence.
Qed.

Lemma initialize_tidy cf X n2216 R w w' o :
  initialize cf X n2216 R w = (w', o) -> world_ok w -> tidy cf w ->
  tidy cf w'.
Proof.
  unfold initialize, install. intros H Hw HT.
  destruct (compile (r_env X) n2216 R) as [cp|e| |]; try (injection H as <- <-; exact HT).
  destruct (write_tables (w_fresh w) cp w) as [wr|e| |]; try (injection H as <- <-; exact HT).
  pose proof HT as [T1 T2 T3 T4 T5 T6].
  destruct (cf_vptr cf) eqn:Hv.
  - match type of H with context [vector_initialize ?a ?b ?c ?d ?w] =>
      destruct (vector_initialize a b c d w) as [[hs r]|e| |] eqn:Hvi end;
      try (injection H as <- <-; split; simpl; rewrite ?Hv; assumption).
    apply vector_initialize_other in Hvi as [Hc Hr]. simpl in Hc, Hr.
    destruct r as [[vec ivec]|e].
    + injection H as <- <-. destruct (Hr vec ivec eq_refl) as [R1 R2].
      apply commit_tidy; [exact Hw|exact HT|..]; rewrite Hv.
      * intros [?|Hin]; [congruence|]. rewrite R1 by exact Hin. apply T3. auto.
      * intros [?|Hin]; [congruence|]. rewrite R2 by exact Hin. apply T4. auto.
      * intros _. apply T5. discriminate.
      * intros [?|Hh]; [congruence|]. rewrite Hc by exact Hh. apply T6. auto.
    + injection H as <- <-. split; simpl; rewrite ?Hv; try assumption.
      intros [?|Hh]; [congruence|]. rewrite Hc by exact Hh. apply T6. auto.
  - injection H as <- <-. apply commit_tidy; [exact Hw|exact HT|..]; rewrite Hv; try assumption. congruence.
  - injection H as <- <-. apply commit_tidy; [exact Hw|exact HT|..]; rewrite Hv; assumption.
Qed.

Lemma finalize_nothing cf w : tidy cf w -> holds_nothing (finalize cf w).
Proof.
  intros [T1 T2 T3 T4 T5 T6]. unfold holds_nothing, finalize; simpl.
  split; [|split; [|split; [|split]]].
  - intros b. destruct (w_data w) as [old|] eqn:Hd.
    + destruct (decide (b = old)) as [->|Hne]; [apply upd_eq|]. rewrite upd_ne by exact Hne.
      destruct (w_heap w b) eqn:Hb; [|reflexivity]. assert (Some old = Some b) by (apply T1; congruence). congruence.
    + destruct (w_heap w b) eqn:Hb; [|reflexivity]. assert (@None nat = Some b) by (apply T1; congruence). congruence.
  - destruct (cf_vptr cf); [|apply T3; left; discriminate..]. destruct (cf_indirect cf); [|reflexivity]. apply T3. auto.
  - destruct (cf_vptr cf); [|apply T4; left; discriminate..]. destruct (cf_indirect cf); [reflexivity|]. apply T4. auto.
  - destruct (cf_vptr cf); [apply T5; discriminate|reflexivity|apply T5; discriminate].
  - destruct (cf_hash cf); [reflexivity|]. apply T6. auto.
Qed.

Lemma nothing_tidy cf w : holds_nothing w -> w_data w = None -> w_initialized w = false -> tidy cf w.
Proof.
  intros (H1 & H2 & H3 & H4 & H5) Hd Hi. split; auto.
  - intros b. rewrite H1, Hd. split; [congruence|discriminate].
  - rewrite Hi, Hd. split; congruence.
Qed.

Lemma history_tidy cf h p : history cf h p -> tidy cf (pr_world p).
Proof.
  induction 1 as [|h p ev p' r Hh IH Hs]; [apply tidy0|].
  destruct ev as [R|X n2216|]; simpl in Hs.
  - injection Hs as <- _. exact IH.
  - destruct (initialize cf X n2216 (pr_regs p) (pr_world p)) as [w [rep|e| |]] eqn:Hi; try discriminate;
      injection Hs as <- _; simpl; eapply initialize_tidy; eauto; eapply history_world_ok; eauto.
  - injection Hs as <- _. simpl. apply nothing_tidy; [|reflexivity..]. apply finalize_nothing. exact IH.
Qed.

(* ---- theorems ---- *)

Lemma snoc_inv cf h ev r p : history cf (h ++ [(ev, r)]) p ->
  exists p0, history cf h p0 /\ step cf ev p0 = Ok (p, r).
Proof.
  inversion 1 as [Heq|h' p0 ev' p' r' Hh Hs Heq Hp]; [destruct h; discriminate|].
  apply app_inj_tail in Heq as [-> [= -> ->]]. eauto.
Qed.

Theorem finalize_releases cf h r p :
  history cf (h ++ [(Finalizes, r)]) p -> holds_nothing (pr_world p).
Proof.
  intros H. apply snoc_inv in H as (p0 & Hh & Hs). injection Hs as <- _. simpl.
  apply finalize_nothing. eapply history_tidy; eauto.
Qed.

Theorem one_buffer cf h p : history cf h p ->
  (forall b1 b2, w_heap (pr_world p) b1 <> None -> w_heap (pr_world p) b2 <> None -> b1 = b2) /\
  ((exists b, w_heap (pr_world p) b <> None) <-> live h).
Proof.
  intros Hh. destruct (history_tidy _ _ _ Hh) as [T1 T2 _ _ _ _]. split.
  - intros b1 b2 H1%T1 H2%T1. congruence.
  - rewrite <- (history_live _ _ _ Hh), T2. split.
    + intros [b Hb%T1]. congruence.
    + intros Hd. destruct (w_data (pr_world p)) as [b|] eqn:Heq; [|congruence]. exists b. apply T1. reflexivity.
Qed.

Lemma map_initialize_length cf g stat : length (map_initialize cf g stat) <= length (all_type_ids g).
Proof.
  rewrite map_initialize_ids, <- class_ids_snd, map_length.
  enough (G : forall l m, length (foldl (fun m (et : class_entry * N) =>
      map_emplace m (snd et) (map_ref cf stat (fst et))) m l) <= length m + length l)
    by (apply (G (class_ids g) [])).
  induction l as [|et l IH]; intros m; simpl; [lia|].
  specialize (IH (map_emplace m (snd et) (map_ref cf stat (fst et)))).
  unfold map_emplace in *. destruct (map_find m (snd et)); [lia|]. rewrite app_length in IH. simpl in IH. lia.
Qed.

Section Bounded.
  Context (cf : config) (X : run) (n2216 : bool) (R : registrations).
  Context (HP : program_ok cf (r_env X) R).

  Lemma buckets_bound (n : nat) M : (N.of_nat n <= max_classes)%N ->
    (M < initial_M (N.of_nat n) + 4)%N -> (2 ^ M <= 20 * N.of_nat (Nat.max 1 n))%N.
  Proof.
    intros Hn HM. transitivity (2 ^ (initial_M (N.of_nat n) + 3))%N; [apply N.pow_le_mono_r; lia|].
    rewrite N.pow_add_r. change (2 ^ 3)%N with 8%N. destruct n as [|n].
    - change (2 ^ initial_M (N.of_nat 0))%N with 2%N. lia.
    - destruct (initial_M_pow (N.of_nat (S n))) as [_ H]; [lia|].
      assert (4 * (N.of_nat (S n) * 5 / 4) <= N.of_nat (S n) * 5)%N by (apply N.mul_div_le; lia).
      lia.
  Qed.

  Lemma max_id_le l (top n : N) : (forall t, t ∈ l -> t <= top)%N -> (n <= top)%N ->
    (foldl N.max n l <= top)%N.
  Proof.
    revert n. induction l as [|t l IH]; intros n Hl Hn; simpl; [exact Hn|].
    apply IH; [intros t' Ht'; apply Hl; by constructor|].
    specialize (Hl t ltac:(by constructor)). lia.
  Qed.

  Theorem initialize_bounded h p w' rep top :
    history cf h p -> pr_regs p = R ->
    (forall cr, cr ∈ reg_classes R -> cr_type cr <= top)%N ->
    initialize cf X n2216 R (pr_world p) = (w', Ok rep) ->
    tables_bounded cf (length (reg_classes R)) top w'.
  Proof.
    intros Hh HR Htop Hi.
    assert (HT : tidy cf w').
    { eapply initialize_tidy; [exact Hi|eapply history_world_ok; eauto|eapply history_tidy; eauto]. }
    destruct HT as [_ _ T3 T4 T5 T6]. unfold initialize, install in Hi.
    destruct (compile (r_env X) n2216 R) as [cp|e| |] eqn:Hcp; try discriminate.
    destruct HP as [HE Hac Har Hids Hsize _].
    pose proof (compile_inv (r_env X) R HE Hac n2216 cp Hcp) as HI.
    pose proof (go_classes _ _ _ (co_graph _ _ _ _ HI)) as HC.
    pose proof (classes_count X R _ HC) as Hcount.
    pose proof (all_type_ids_nodup _ _ _ HC) as Hnd.
    assert (Hsub : forall t, t ∈ all_type_ids (cp_graph cp) -> t ∈ map cr_type (reg_classes R)).
    { intros t Ht. eapply type_id_elem; eauto. }
    destruct (write_tables (w_fresh (pr_world p)) cp (pr_world p)) as [wr|e| |]; try discriminate.
    unfold tables_bounded. destruct (cf_vptr cf) eqn:Hv.
    - match type of Hi with context [vector_initialize ?a ?b ?c ?d ?w] =>
        destruct (vector_initialize a b c d w) as [[hs [[vec ivec]|e]]|e| |] eqn:Hvi end; try discriminate.
      injection Hi as <- _. cbn [w_vec w_ivec w_map w_hash] in *.
      split; [apply T5; discriminate|].
      unfold vector_initialize in Hvi. destruct (cf_hash cf) eqn:Hhash.
      2:{ split; [|apply T6; auto]. simpl in Hvi.
        apply obind_ok in Hvi as ([vec' ivec'] & Hs & H2). injection H2 as <- <- <-.
        apply store_all_other in Hs as (_ & _ & L1 & L2). simpl in L1, L2.
        assert (Hle : ((foldl N.max 0 (all_type_ids (cp_graph cp)) + 1) mod word_size <= top + 1)%N).
        { etransitivity; [apply N.mod_le; discriminate|].
          enough (foldl N.max 0 (all_type_ids (cp_graph cp)) <= top)%N by lia.
          apply max_id_le; [|lia]. intros t Ht%Hsub. apply elem_of_list_fmap in Ht as (cr & -> & Hcr).
          apply Htop, Hcr. }
        destruct (cf_indirect cf).
        - rewrite (T3 ltac:(auto)). simpl. rewrite L2, resize_length. lia.
        - rewrite (T4 ltac:(auto)). simpl. rewrite L1, resize_length. lia. }
      specialize (Hsize Hhash).
      apply obind_ok in Hvi as ([h1 size] & H1 & H2). apply obind_ok in H1 as ([h2 e] & H1 & H3).
      assert (Hmax : uintptr_max ∉ all_type_ids (cp_graph cp)).
      { intros Hin%Hsub. apply elem_of_list_fmap in Hin as (cr & Heq & Hcr).
        specialize (Hids cr Hcr). rewrite <- Heq in Hids. unfold uintptr_max, word_size in Hids. lia. }
      destruct e as [e|]; injection H3 as <- <-; [discriminate|].
      assert (Hn : (N.of_nat (g_n (cp_graph cp)) <= max_classes)%N) by lia.
      destruct (hash_success _ _ _ _ Hmax Hn _ _ H1) as (control & M & HO & Hctl & HM & Hl).
      assert (HB : (2 ^ M <= 20 * N.of_nat (Nat.max 1 (g_n (cp_graph cp))))%N) by (apply buckets_bound; lia).
      apply obind_ok in H2 as ([vec' ivec'] & Hs & H2). injection H2 as <- <- <-.
      apply store_all_other in Hs as (_ & _ & L1 & L2). simpl in L1, L2.
      assert (Hle : ((h_max h2 + 1) mod word_size <= 2 ^ M)%N).
      { pose proof (ho_max _ _ _ HO) as Hm. rewrite Hl in Hm.
        etransitivity; [apply N.mod_le; discriminate|]. lia. }
      split.
      + destruct (cf_indirect cf).
        * rewrite (T3 ltac:(auto)). simpl. rewrite L2, resize_length. lia.
        * rewrite (T4 ltac:(auto)). simpl. rewrite L1, resize_length. lia.
      + destruct (cf_checks cf) eqn:Hck.
        * rewrite (Hctl eq_refl), Hl. lia.
        * rewrite T6 by auto. simpl. lia.
    - injection Hi as <- _. cbn [w_vec w_ivec w_map w_hash] in *.
      split; [|split; [|split]]; [|apply T3; left; discriminate|apply T4; left; discriminate|apply T6; left; discriminate].
      etransitivity; [apply map_initialize_length|].
      rewrite <- (map_length cr_type (reg_classes R)).
      apply submseteq_length, NoDup_submseteq; [exact Hnd|exact Hsub].
    - injection Hi as <- _. cbn [w_vec w_ivec w_map w_hash] in *.
      split; [|split; [|split]]; [apply T3; left; discriminate|apply T4; left; discriminate|
        apply T5; discriminate|apply T6; left; discriminate].
  Qed.
End Bounded.
