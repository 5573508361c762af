(* Without multiple inheritance every class has at most one direct base, its slots begin at 0 and its
   v-table pointer is a pointer into the array. *)
From stdpp Require Import base list numbers relations.
From Verif Require Import Base Registry Spec ModelClasses ModelMethods ModelSlots ModelTables
  ModelHash ModelWorld ModelCall SpecCall ModelFlat SpecFlat
  ProofBase ProofClasses ProofGraph ProofMethods ProofErrors ProofCompile ProofWrite ProofWorld ProofCall ProofFlat.

Lemma direct_marked tb mark l db mk :
  (forall y, y ∈ l -> mk y = mark) -> foldl (direct_step tb mark) (db, mk) l = (db, mk).
Proof.
  induction l as [|y l IH]; intros H; [reflexivity|]. cbn [foldl]. unfold direct_step at 2.
  rewrite decide_True by (apply H; left). apply IH. intros z Hz. apply H. right. exact Hz.
Qed.

Lemma direct_all_one E n w k :
  env_ok E -> (forall x, wk_mark w x <= wk_class_mark w) -> (forall c, c < n -> NoDup (wk_tb w c)) ->
  (forall c x, x ∈ wk_tb w c -> x < n) ->
  (forall c x y, x ∈ wk_tb w c -> y ∈ wk_tb w c -> x <> y -> y ∈ wk_tb w x \/ x ∈ wk_tb w y) ->
  (forall a b z, b ∈ wk_tb w a -> z ∈ wk_tb w b -> z ∈ wk_tb w a) ->
  (forall a, a ∉ wk_tb w a) -> k <= n ->
  forall c, length (snd (direct_all E k w) c) <= 1.
Proof.
  intros HE Hmk Hnd Hlt Hcmp Htr Hirr. induction k as [|k IH]; intros Hk c; [cbn; lia|].
  assert (HD : direct_ok (seq 0 k) w (direct_all E k w)).
  { apply direct_all_ok; [exact HE|exact Hmk|]. intros c' Hc'. apply Hnd. lia. }
  unfold direct_all in *. rewrite seq_S, foldl_app. cbn [foldl Nat.add].
  destruct (foldl (direct_class E) (w, fun _ => []) (seq 0 k)) as [w' db] eqn:Hs.
  destruct HD as [Dtb Dmk Dtodo _ _ _]. cbn [fst snd] in *. unfold direct_class.
  assert (Hdb : db k = []) by (apply Dtodo; rewrite elem_of_seq; lia). rewrite Hdb.
  set (key := fun a => length (wk_tb w' a)). set (l := e_sort E key (wk_tb w' k)).
  assert (Hl : l ≡ₚ wk_tb w k) by (unfold l; etransitivity; [apply (proj2 HE)|apply Dtb]).
  assert (Hsorted : sorted_desc key l) by apply (proj2 HE).
  rewrite upd_eq. set (tb := upd (wk_tb w') k l).
  assert (Htb : forall a, tb a ≡ₚ wk_tb w a).
  { intros a. unfold tb. destruct (decide (a = k)) as [->|Ha]; [rewrite upd_eq; exact Hl|].
    rewrite upd_ne by exact Ha. apply Dtb. }
  set (mark := S (wk_class_mark w')).
  destruct (foldl (direct_step tb mark) ([], wk_mark w') l) as [dbs mk] eqn:Hf. cbn [snd].
  destruct (decide (c = k)) as [->|Hck]; [|rewrite upd_ne by exact Hck; apply IH; lia].
  rewrite upd_eq. destruct l as [|x rest] eqn:Hll.
  { cbn in Hf. injection Hf as <- _. cbn. lia. }
  assert (Hx : x ∈ wk_tb w k) by (rewrite <- Hl; left).
  assert (Hndl : NoDup (x :: rest)) by (rewrite Hl; apply Hnd; lia).
  apply NoDup_cons in Hndl as [Hxr _].
  assert (Hrest : forall y, y ∈ rest -> y ∈ wk_tb w x).
  { intros y Hy. assert (Hyk : y ∈ wk_tb w k) by (rewrite <- Hl; right; exact Hy).
    assert (x <> y) by (intros ->; contradiction).
    destruct (Hcmp k x y Hx Hyk) as [?|Hxy]; [assumption|assumption|exfalso].
    assert (Hle : length (x :: wk_tb w x) <= length (wk_tb w y)).
    { apply submseteq_length, NoDup_submseteq.
      - apply NoDup_cons. split; [apply Hirr|]. apply Hnd. eapply Hlt. exact Hx.
      - intros z [->|Hz]%elem_of_cons; [exact Hxy|]. eapply Htr; eauto. }
    apply elem_of_list_lookup in Hy as [i Hi].
    specialize (Hsorted 0 (S i) x y ltac:(lia) eq_refl Hi). unfold key in Hsorted.
    rewrite !(Permutation_length (Dtb _)) in Hsorted. cbn in Hle. lia. }
  cbn [foldl] in Hf. unfold direct_step at 2 in Hf.
  rewrite decide_False in Hf by (specialize (Dmk x); unfold mark; lia).
  rewrite direct_marked in Hf.
  - injection Hf as <- _. cbn. lia.
  - intros y Hy. rewrite foldl_mark_ok, decide_True; [reflexivity|]. rewrite Htb. auto.
Qed.

Section Single.
  Context (E : env) (R : registrations).
  Context (HE : env_ok E) (Hac : acyclic (e_ti E) R) (Hreg : bases_registered (e_ti E) R).
  Context (HB : bases_first (e_ti E) R) (HS : single_inheritance (e_ti E) R).
  Notation ti := (e_ti E).
  Notation crs := (reg_classes R).

  Lemma single_direct g : augment_classes E crs = Ok g -> forall c, length (g_db g c) <= 1.
  Proof.
    unfold augment_classes.
    destruct (add_classes ti crs) as [cs cm] eqn:Hadd.
    pose proof (add_classes_ok _ _ _ _ Hadd) as HC.
    destruct (index_rank E R cs cm HC Hac) as (rk & Hrk & Hrkn).
    assert (Hraw : forall t b, (t, b) ∈ raw_pairs crs ->
              is_Some (cm (ti t)) /\ is_Some (cm (ti b))).
    { intros t b. apply (raw_registered E R cs cm t b HC Hreg). }
    rewrite collect_all_raw.
    2: { intros cr Hcr. apply (co_dom _ _ _ _ HC). eauto. }
    destruct (walk_total E (length cs) cm crs rk Hraw Hrk Hrkn) as (w & Hw & Hwok).
    rewrite Hw. cbn [obind].
    pose proof (dedup_all_ok (length cs) w (wo_marks _ _ _ _ _ Hwok)) as Hdd.
    set (w1 := dedup_all (length cs) w) in *.
    destruct (direct_all E (length cs) w1) as [w2 db] eqn:Hdir.
    assert (Htb : forall c x, x ∈ wk_tb w1 c <-> tc (irel E cm crs) c x).
    { intros c x. split.
      - intros Hx. apply (wo_sound _ _ _ _ _ Hwok). apply Hdd. exact Hx.
      - intros Hx. apply Hdd. eapply (walk_complete E (length cs) cm crs rk Hraw Hrk Hrkn); eauto.
        eapply (ibases_first_of E R); eauto. }
    assert (Hclass : forall c, c < length cs -> exists a, cm a = Some c).
    { intros c Hc. apply lookup_lt_is_Some in Hc as [e He].
      destruct (co_entry _ _ _ _ HC _ _ He) as (a & _ & Ha & _). eauto. }
    intros H. apply obind_ok in H as (td & _ & H). injection H as <-. cbn [g_db]. intros c.
    pose proof (direct_all_one E (length cs) w1 (length cs) HE) as G. rewrite Hdir in G. apply G; clear G.
    - apply Hdd.
    - intros c' Hc'. apply (do_nodup _ _ _ Hdd). apply elem_of_seq. lia.
    - intros c' x Hx. apply Htb, (tc_irel_lt E R _ _ HC) in Hx. tauto.
    - intros c' x y Hx Hy Hne. rewrite !Htb in *.
      pose proof (tc_irel_lt E R _ _ HC _ _ Hx) as [Lc Lx]. pose proof (tc_irel_lt E R _ _ HC _ _ Hy) as [_ Ly].
      destruct (Hclass _ Lc) as [k Mk]. destruct (Hclass _ Lx) as [a Ma]. destruct (Hclass _ Ly) as [b Mb].
      destruct (HS k a b) as [Hd|Hd].
      + apply (derives_irel E R cs cm HC k a c' x Mk Ma Hreg). apply tc_rtc. exact Hx.
      + apply (derives_irel E R cs cm HC k b c' y Mk Mb Hreg). apply tc_rtc. exact Hy.
      + apply (derives_irel E R cs cm HC a b x y Ma Mb Hreg), rtc_tc in Hd. destruct Hd as [?|Hd]; [contradiction|auto].
      + apply (derives_irel E R cs cm HC b a y x Mb Ma Hreg), rtc_tc in Hd.
        destruct Hd as [?|Hd]; [congruence|auto].
    - intros a b z Hb Hz. rewrite !Htb in *. eapply tc_transitive; eauto.
    - intros a Ha. apply Htb, (tc_irel_rank E cm crs rk Hrk) in Ha. lia.
    - lia.
  Qed.
End Single.

Lemma tree_first dd u fuel cls base s s' :
  assign_tree_slots dd u fuel cls base s = Ok s' ->
  (forall x, s_first s x = 0) -> (forall x, s_used s x = []) ->
  (forall x, s_first s' x = 0) /\ (forall x, s_used s' x = []).
Proof.
  revert cls base s s'. induction fuel as [|fuel IH]; intros cls base s s' H H1 H2; [discriminate|].
  cbn [assign_tree_slots] in H. destruct (foldl _ _ _) as [slots next] in H.
  apply (foldM_inv_ok (fun s => (forall x, s_first s x = 0) /\ (forall x, s_used s x = [])) _ _ _ _ H).
  - cbn. split; [|exact H2]. intros x. unfold upd. case_decide; [reflexivity|apply H1].
  - intros x s1 s2 _ [I1 I2] Hs. eapply IH; eauto.
Qed.

Lemma single_first E g u s :
  (forall c, length (g_db g c) <= 1) -> assign_slots E g u = Ok s -> forall c, s_first s c = 0.
Proof.
  intros Hdb H. unfold assign_slots in H. apply obind_ok in H as (s1 & H & Hs). injection Hs as <-.
  set (I := fun s => (forall x, s_first s x = 0) /\ (forall x, s_used s x = [])).
  assert (H1 : I s1).
  { apply (foldM_inv_ok I _ _ _ _ H).
    - split; reflexivity.
    - intros c s2 s3 _ [I1 I2] Hr. unfold assign_root in Hr. destruct (g_db g c) as [|? ?]; [|injection Hr as <-; split; assumption].
      destruct (decide _) as [Hex|_]; [|eapply tree_first; eauto].
      exfalso. apply list.Exists_exists in Hex as (x & _ & Hx). specialize (Hdb x). lia. }
  assert (H2 : I (foldl allocate_vtbl s1 (seq 0 (g_n g)))).
  { apply (foldl_inv I); [exact H1|]. intros x s2 _ [I1 I2]. unfold allocate_vtbl. rewrite I2. split; assumption. }
  apply H2.
Qed.

Theorem single_in_array cf X n2216 R w :
  program_ok cf (r_env X) R -> bases_first (e_ti (r_env X)) R -> single_inheritance (e_ti (r_env X)) R ->
  initialized_by cf X n2216 R w -> vptrs_in_array (e_ti (r_env X)) R w.
Proof.
  intros HP HB HS (w0 & rep & Hw & Hinit) k cr Hcr.
  destruct (program_written cf X n2216 R w0 w rep HP Hw Hinit)
    as (cp & buf & wr & gvt & Hcp & _ & Hok & Hheap & Hst & _).
  destruct (class_static_vptr cf X n2216 R w0 w HP k cr Hcr cp buf wr gvt Hcp Hok Hst)
    as (c & it & _ & Hit & Hv).
  destruct HP as [HE Hac Har Hids Hn HA].
  pose proof (go_reg _ _ _ (co_graph _ _ _ _ (compile_inv _ R HE Hac n2216 cp Hcp))) as Hreg.
  unfold compile in Hcp. apply obind_ok in Hcp as (g & Hg & Hcp). apply obind_ok in Hcp as ([ms u] & _ & Hcp).
  apply obind_ok in Hcp as (s & Hs & Hcp). apply obind_ok in Hcp as (t & _ & Hcp). injection Hcp as <-.
  cbn [cp_slots] in Hv.
  rewrite (single_first _ _ _ _ (single_direct _ R HE Hac Hreg HB HS g Hg) Hs c) in Hv.
  exists buf, (wr_words wr), it. split; [|split; [exact Hheap|exact Hit]].
  rewrite Hv. f_equal. lia.
Qed.
