(* initialize() depends only on what is registered: two runs from different states
   write the same data, up to the address of the buffer. *)
From stdpp Require Import base list numbers list_numbers relations.
From Verif Require Import Base Registry Spec ModelClasses ModelMethods ModelSlots ModelTables
  ModelHash ModelWorld ModelCall SpecCall ModelLife SpecLife
  ProofBase ProofClasses ProofGraph ProofMethods ProofCompile ProofErrors ProofEntries ProofWrite
  ProofWorld ProofLife ProofCall.

(* Outcomes of the same kind, with related values. *)
Definition orel {A B} (P : A -> B -> Prop) (x : outcome A) (y : outcome B) : Prop :=
  match x, y with
  | Ok a, Ok b => P a b
  | Err e, Err e' => e = e'
  | Undef, Undef => True
  | Diverge, Diverge => True
  | _, _ => False
  end.

Lemma orel_bind {A B A' B'} (P : A -> B -> Prop) (Q : A' -> B' -> Prop) x y f k :
  orel P x y -> (forall a b, P a b -> orel Q (f a) (k b)) -> orel Q (obind x f) (obind y k).
Proof. destruct x, y; simpl; try contradiction; auto. Qed.

Lemma orel_refl {A} (P : A -> A -> Prop) x : (forall a, P a a) -> orel P x x.
Proof. destruct x; simpl; auto. Qed.

Lemma orel_mono {A B} (P Q : A -> B -> Prop) x y :
  (forall a b, P a b -> Q a b) -> orel P x y -> orel Q x y.
Proof. destruct x, y; simpl; auto. Qed.

Lemma orel_eq {A} (x y : outcome A) : orel eq x y -> x = y.
Proof. destruct x, y; simpl; try contradiction; congruence. Qed.

Lemma foldM_rel {A S1 S2} (I : list A -> S1 -> S2 -> Prop) f k (l : list A) s1 s2 :
  I [] s1 s2 ->
  (forall l1 x l2 s1 s2, l = l1 ++ x :: l2 -> I l1 s1 s2 -> orel (I (l1 ++ [x])) (f x s1) (k x s2)) ->
  orel (I l) (foldM f l s1) (foldM k l s2).
Proof.
  intros H0 Hstep.
  assert (G : forall l2 l1 s1 s2, l = l1 ++ l2 -> I l1 s1 s2 ->
            orel (I l) (foldM f l2 s1) (foldM k l2 s2)).
  { induction l2 as [|x l2 IH]; intros l1 t1 t2 Hl H1; simpl.
    - rewrite app_nil_r in Hl. subst. exact H1.
    - eapply orel_bind; [eapply Hstep; eauto|]. intros a b Hab.
      apply (IH (l1 ++ [x])); [|exact Hab]. rewrite <- app_assoc. exact Hl. }
  apply (G l []); auto.
Qed.

Section Same.
  Context (b1 b2 : nat).

  (* The same place in two buffers. *)
  Inductive vsame : vptr -> vptr -> Prop :=
    | vsame_ptr off : vsame (VPtr b1 off) (VPtr b2 off).

  Inductive wsame : word -> word -> Prop :=
    | wsame_zero : wsame WZero WZero
    | wsame_pf f : wsame (WPf f) (WPf f)
    | wsame_idx i : wsame (WIdx i) (WIdx i)
    | wsame_pw p q : vsame p q -> wsame (WPw p) (WPw q).

  Definition st_same (s t : list word * nat) : Prop :=
    Forall2 wsame (fst s) (fst t) /\ snd s = snd t.

  Lemma put_same x y s t : wsame x y -> st_same s t -> orel st_same (put x s) (put y t).
  Proof.
    intros Hx [Hl Hi]. destruct s as [ws it], t as [ws' it']. simpl in *. subst it'.
    pose proof (Forall2_length _ _ _ Hl) as Hlen.
    case_decide as H1; case_decide as H2; try lia; simpl; [|exact I].
    split; [|reflexivity]. simpl. apply Forall2_insert; assumption.
  Qed.

  Context (cp : compiled) (w1 w2 : world).
  Notation mts := (zip (cp_methods cp) (tb_tables (cp_tables cp))).

  Definition gv_same (s t : gv_state) : Prop :=
    st_same (gv_words s, gv_iter s) (gv_words t, gv_iter t) /\ gv_tables s = gv_tables t.

  Lemma write_method_same imt s t : gv_same s t ->
    orel gv_same (write_method (cp_slots cp) imt s) (write_method (cp_slots cp) imt t).
  Proof.
    intros [Hs Ht]. destruct imt as [mi [m tb]]. unfold write_method.
    case_decide as H1.
    - eapply orel_bind; [apply (orel_refl eq); reflexivity|]. intros a ? <-. simpl.
      split; [exact Hs|]. simpl. rewrite Ht. reflexivity.
    - case_decide as H2; [|exact I].
      eapply (orel_bind st_same).
      + apply (foldM_rel (fun _ => st_same)); [exact Hs|].
        intros l1 c l2 s1 s2 _ Hss. eapply orel_bind; [apply (orel_refl eq); reflexivity|].
        intros pf ? <-. apply put_same; [constructor|exact Hss].
      + intros [ws it] [ws' it'] Hw. simpl. split; [exact Hw|]. simpl. destruct Hs as [_ Hs].
        simpl in Hs. congruence.
  Qed.

  Lemma write_next_same mt n1 n2 : orel (fun _ _ => True) (write_next mt n1) (write_next mt n2).
  Proof.
    destruct mt as [m t]. unfold write_next. apply (foldM_rel (fun _ _ _ => True)); [exact I|].
    intros l1 io l2 s1 s2 _ _. destruct (final_next (t_cells t) io.1); [|exact I].
    eapply orel_bind; [apply (orel_refl eq); reflexivity|]. intros pf ? <-. exact I.
  Qed.

  Lemma write_entry_same gvt e s t : st_same s t ->
    orel st_same (write_entry b1 mts gvt e s) (write_entry b2 mts gvt e t).
  Proof.
    intros Hs. unfold write_entry.
    eapply orel_bind; [apply (orel_refl eq); reflexivity|]. intros [m tb] ? <-.
    case_decide.
    - eapply orel_bind; [apply (orel_refl eq); reflexivity|]. intros c ? <-.
      eapply orel_bind; [apply (orel_refl eq); reflexivity|]. intros pf ? <-.
      apply put_same; [constructor|exact Hs].
    - case_decide.
      + eapply orel_bind; [apply (orel_refl eq); reflexivity|]. intros gv ? <-.
        apply put_same; [constructor; constructor|exact Hs].
      + apply put_same; [constructor|exact Hs].
  Qed.

  Definition cl_same (pre : list (nat * class_entry)) (s t : list word * nat * (nat -> vptr)) : Prop :=
    st_same (fst s) (fst t) /\
    forall ce, ce ∈ pre -> vsame (snd s (ce_static_vptr (snd ce))) (snd t (ce_static_vptr (snd ce))).

  Lemma write_class_same gvt pre ce s t : cl_same pre s t ->
    orel (cl_same (pre ++ [ce])) (write_class b1 cp mts gvt ce s) (write_class b2 cp mts gvt ce t).
  Proof.
    intros [Hs Hst]. destruct s as [[ws it] st1], t as [[ws' it'] st2], ce as [c e].
    simpl in Hst. unfold write_class.
    eapply (orel_bind st_same).
    - apply (foldM_rel (fun _ => st_same)); [exact Hs|].
      intros l1 x l2 s1 s2 _ H. apply write_entry_same. exact H.
    - intros [wa ia] [wb ib] H. simpl. split; [exact H|]. simpl.
      destruct Hs as [_ Hi]. simpl in Hi. subst it'.
      intros ce Hin. destruct (decide (ce_static_vptr (snd ce) = ce_static_vptr e)) as [Heq|Hne].
      + rewrite Heq, !upd_eq. constructor.
      + rewrite !upd_ne by exact Hne. apply elem_of_app in Hin as [Hin|Hin]; [auto|].
        apply elem_of_list_singleton in Hin as ->. simpl in Hne. congruence.
  Qed.

  Definition written_same (r1 r2 : written) : Prop :=
    Forall2 wsame (wr_words r1) (wr_words r2) /\
    forall e, e ∈ g_classes (cp_graph cp) ->
      vsame (wr_static r1 (ce_static_vptr e)) (wr_static r2 (ce_static_vptr e)).

  Lemma write_tables_same : orel written_same (write_tables b1 cp w1) (write_tables b2 cp w2).
  Proof.
    unfold write_tables. eapply (orel_bind gv_same).
    - apply (foldM_rel (fun _ => gv_same)).
      + split; [|reflexivity]. split; [|reflexivity]. simpl.
        induction (data_size cp); simpl; constructor; [constructor|assumption].
      + intros l1 x l2 s1 s2 _ H. apply write_method_same. exact H.
    - intros st1 st2 [Hst Htab]. eapply (orel_bind (fun _ _ => True)).
      { apply (foldM_rel (fun _ _ _ => True)); [exact I|].
        intros l1 x l2 s1 s2 _ _. apply write_next_same. }
      intros n1 n2 _. rewrite <- Htab.
      eapply orel_bind.
      { apply (foldM_rel cl_same).
        - split; [exact Hst|]. intros ce H. inversion H.
        - intros l1 x l2 s1 s2 _ H. apply write_class_same. exact H. }
      intros [[wa ia] sa] [[wb ib] sb] [[Hw _] Hs]. simpl in *. split; [exact Hw|]. simpl.
      intros e He. apply elem_of_list_lookup in He as [c Hc].
      apply (Hs (c, e)). apply elem_of_lookup_imap. exists c, e. auto.
  Qed.
End Same.

(* ---- the vptr policy ---- *)

Lemma passes_loop_any rnd types k M total h1 h2 :
  passes_loop rnd types (S k) M total h1 = passes_loop rnd types (S k) M total h2.
Proof.
  cbn [passes_loop]. case_decide as Hd; [reflexivity|].
  assert (H : attempts_loop rnd (64 - M) (2 ^ M) types max_attempts total (h_mult h1)
                (AttemptState uintptr_max 0 []) =
              attempts_loop rnd (64 - M) (2 ^ M) types max_attempts total (h_mult h2)
                (AttemptState uintptr_max 0 [])).
  { assert (Hs : exists n, max_attempts = S n).
    { assert (Hp : 0 < max_attempts) by (unfold max_attempts; lia). clear -Hp.
      revert Hp. generalize max_attempts as k. intros [|k] Hp; [lia|eauto]. }
    destruct Hs as [n ->]. reflexivity. }
  rewrite H. reflexivity.
Qed.

Lemma hash_initialize_any rnd checks n types h1 h2 :
  orel (fun r1 r2 => h_mult (fst r1) = h_mult (fst r2) /\ h_shift (fst r1) = h_shift (fst r2) /\
      h_min (fst r1) = h_min (fst r2) /\ h_max (fst r1) = h_max (fst r2) /\
      (checks = true -> fst r1 = fst r2) /\ snd r1 = snd r2)
    (hash_initialize rnd checks n types h1) (hash_initialize rnd checks n types h2).
Proof.
  unfold hash_initialize. rewrite (passes_loop_any rnd types 3 _ _ h1 h2).
  destruct (passes_loop _ _ _ _ _ _) as [[h e]|e| |]; simpl; auto.
  do 4 (split; [reflexivity|]). split; [intros ->|]; reflexivity.
Qed.

Lemma hash_type_same checks h1 h2 t :
  h_mult h1 = h_mult h2 -> h_shift h1 = h_shift h2 -> h_min h1 = h_min h2 -> h_max h1 = h_max h2 ->
  (checks = true -> h1 = h2) -> hash_type checks h1 t = hash_type checks h2 t.
Proof.
  intros H1 H2 H3 H4 H5. destruct checks.
  - rewrite (H5 eq_refl). reflexivity.
  - unfold hash_type. rewrite H1, H2. reflexivity.
Qed.

Definition lengths_same (indirect : bool) (v1 v2 : list vptr * list (option nat)) : Prop :=
  if indirect then length (snd v1) = length (snd v2) else length (fst v1) = length (fst v2).

Lemma store_vptr_any cf s1 s2 h1 h2 e t v1 v2 :
  vector_index cf h1 t = vector_index cf h2 t -> lengths_same (cf_indirect cf) v1 v2 ->
  orel (lengths_same (cf_indirect cf)) (store_vptr cf s1 h1 e t v1) (store_vptr cf s2 h2 e t v2).
Proof.
  intros Hi Hl. destruct v1 as [vec1 ivec1], v2 as [vec2 ivec2]. unfold store_vptr. rewrite Hi.
  eapply orel_bind; [apply (orel_refl eq); reflexivity|]. intros i ? <-.
  unfold lengths_same in *. destruct (cf_indirect cf); simpl in Hl.
  - case_decide; case_decide; try lia; simpl; [|exact I]. rewrite !insert_length. exact Hl.
  - case_decide; case_decide; try lia; simpl; [|exact I]. rewrite !insert_length. exact Hl.
Qed.

Lemma vector_initialize_any cf rnd g s1 s2 w1 w2 :
  orel (fun r1 r2 => match snd r1, snd r2 with
                     | inl _, inl _ => True
                     | inr e1, inr e2 => e1 = e2
                     | _, _ => False
                     end)
    (vector_initialize cf rnd g s1 w1) (vector_initialize cf rnd g s2 w2).
Proof.
  unfold vector_initialize.
  eapply (orel_bind (fun r1 r2 => snd r1 = snd r2 /\
            forall t, vector_index cf (fst r1) t = vector_index cf (fst r2) t)).
  - unfold vector_index. destruct (cf_hash cf).
    + eapply orel_bind; [apply hash_initialize_any|].
      intros [h1 e1] [h2 e2] (H1 & H2 & H3 & H4 & H5 & H6). simpl in *. subst e2.
      destruct e1; simpl; rewrite ?H4; (split; [reflexivity|]); intros t; apply hash_type_same; assumption.
    + simpl. auto.
  - intros [h1 r1] [h2 r2] [Hr Hix]. simpl in Hr, Hix. subst r2. destruct r1 as [size|e]; [|reflexivity].
    eapply (orel_bind (lengths_same (cf_indirect cf))); [|intros v1 v2 _; exact I].
    apply (foldM_rel (fun _ => lengths_same (cf_indirect cf))).
    + unfold lengths_same. destruct (cf_indirect cf); simpl; rewrite !resize_length; reflexivity.
    + intros l1 e l2 v1 v2 _ Hl. unfold store_class.
      apply (foldM_rel (fun _ => lengths_same (cf_indirect cf))); [exact Hl|].
      intros k1 t k2 u1 u2 _ Hu. apply store_vptr_any; [apply Hix|exact Hu].
Qed.

(* ---- initialize ---- *)

(* The outcome does not depend on the state. *)
Theorem initialize_outcome cf X n2216 R w1 w2 :
  snd (initialize cf X n2216 R w1) = snd (initialize cf X n2216 R w2).
Proof.
  unfold initialize, install. destruct (compile (r_env X) n2216 R) as [cp|e| |]; try reflexivity.
  pose proof (write_tables_same (w_fresh w1) (w_fresh w2) cp w1 w2) as Hw.
  destruct (write_tables (w_fresh w1) cp w1) as [r1|e| |], (write_tables (w_fresh w2) cp w2) as [r2|e'| |];
    simpl in Hw; try contradiction; try reflexivity; [|simpl; congruence].
  destruct (cf_vptr cf); try reflexivity.
  match goal with |- context [vector_initialize ?a ?b ?c ?d ?w] =>
    pose proof (fun s v => vector_initialize_any a b c d s w v) as Hv end.
  match goal with |- _ = snd (match vector_initialize ?a ?b ?c ?d ?w with _ => _ end) =>
    specialize (Hv d w) end.
  destruct (vector_initialize _ _ _ (wr_static r1) _) as [[h1 [[v1 i1]|e1]]|e1| |],
    (vector_initialize _ _ _ (wr_static r2) _) as [[h2 [[v2 i2]|e2]]|e2| |];
    simpl in Hv |- *; try contradiction; congruence.
Qed.

Lemma initialize_written cf X n2216 R w w' rep :
  initialize cf X n2216 R w = (w', Ok rep) -> world_ok w ->
  exists cp wr, compile (r_env X) n2216 R = Ok cp /\ write_tables (w_fresh w) cp w = Ok wr /\
    w_heap w' (w_fresh w) = Some (wr_words wr) /\ w_static w' = wr_static wr /\
    w_ss w' = wr_ss wr /\ w_next w' = wr_next wr.
Proof.
  unfold initialize, install. intros H [W1 W2].
  destruct (compile (r_env X) n2216 R) as [cp|e| |]; try discriminate.
  destruct (write_tables (w_fresh w) cp w) as [wr|e| |] eqn:Hwr; try discriminate.
  exists cp, wr. split; [reflexivity|]. split; [exact Hwr|].
  assert (Hheap : match w_data w with
            | Some old => upd (upd (w_heap w) (w_fresh w) (Some (wr_words wr))) old None
            | None => upd (w_heap w) (w_fresh w) (Some (wr_words wr)) end (w_fresh w) = Some (wr_words wr)).
  { destruct (w_data w) as [old|]; [|apply upd_eq]. specialize (W1 old eq_refl).
    rewrite upd_ne by lia. apply upd_eq. }
  destruct (cf_vptr cf).
  - destruct (vector_initialize _ _ _ _ _) as [[hs [[vec ivec]|e]]|e| |]; try discriminate.
    injection H as <- _. simpl. auto.
  - injection H as <- _. simpl. auto.
  - injection H as <- _. simpl. auto.
Qed.

Section Reinit.
  Context (cf : config) (X : run) (n2216 : bool) (R : registrations).
  Context (HP : program_ok cf (r_env X) R).
  Context (w1 w2 v1 v2 : world) (rep1 rep2 : method_report).
  Context (Hw1 : world_ok w1) (Hw2 : world_ok w2).
  Context (H1 : initialize cf X n2216 R w1 = (v1, Ok rep1))
    (H2 : initialize cf X n2216 R w2 = (v2, Ok rep2)).
  Notation ti := (e_ti (r_env X)).
  Notation b1 := (w_fresh w1).
  Notation b2 := (w_fresh w2).
  Notation vs := (vsame (w_fresh w1) (w_fresh w2)).

  Record worlds_same (cp : compiled) : Prop := {
    ws_words : exists l1 l2, w_heap v1 b1 = Some l1 /\ w_heap v2 b2 = Some l2 /\
      Forall2 (wsame b1 b2) l1 l2;
    ws_static : forall e, e ∈ g_classes (cp_graph cp) ->
      vs (w_static v1 (ce_static_vptr e)) (w_static v2 (ce_static_vptr e));
    ws_ss : forall m, m ∈ reg_methods R ->
      w_ss v1 (mr_slots_strides m) = w_ss v2 (mr_slots_strides m);
    ws_init : w_initialized v1 = true /\ w_initialized v2 = true;
    ws_next : forall m o f, m ∈ reg_methods R -> o ∈ mr_overriders m ->
      w_next w2 (or_next o) = None -> w_next v2 (or_next o) = Some f ->
      w_next v1 (or_next o) = Some f
  }.

  Lemma worlds_same_ok : exists cp, compile (r_env X) n2216 R = Ok cp /\
    installed cf cp w1 v1 /\ installed cf cp w2 v2 /\ worlds_same cp.
  Proof.
    destruct HP as [HE Hac Har Hids Hn HA].
    destruct (initialize_ok_inv cf X n2216 R w1 HE Hac Har v1 rep1 Hids Hn Hw1 H1)
      as (cp & Hcp & _ & HI1 & _).
    destruct (initialize_ok_inv cf X n2216 R w2 HE Hac Har v2 rep2 Hids Hn Hw2 H2)
      as (cp2 & Hcp2 & _ & HI2 & _).
    assert (cp2 = cp) as -> by congruence.
    exists cp. split; [exact Hcp|]. split; [exact HI1|]. split; [exact HI2|].
    destruct (initialize_written _ _ _ _ _ _ _ H1 Hw1) as (c1 & r1 & C1 & R1 & A1 & A2 & A3 & A4).
    destruct (initialize_written _ _ _ _ _ _ _ H2 Hw2) as (c2 & r2 & C2 & R2 & B1 & B2 & B3 & B4).
    assert (c1 = cp) as -> by congruence. assert (c2 = cp) as -> by congruence.
    pose proof (write_tables_same b1 b2 cp w1 w2) as Hs. rewrite R1, R2 in Hs.
    destruct Hs as [S1 S2].
    destruct (write_tables_ok (r_env X) R HE Hac Har n2216 cp Hcp b1 w1) as (r1' & g1 & E1 & O1).
    destruct (write_tables_ok (r_env X) R HE Hac Har n2216 cp Hcp b2 w2) as (r2' & g2 & E2 & O2).
    assert (r1' = r1) as -> by congruence. assert (r2' = r2) as -> by congruence.
    pose proof (co_methods _ _ _ _ (compile_inv (r_env X) R HE Hac n2216 cp Hcp)) as HM.
    assert (Hmts : forall m, m ∈ reg_methods R -> exists mi cm t,
      zip (cp_methods cp) (tb_tables (cp_tables cp)) !! mi = Some (cm, t) /\
      method_ok (r_env X) (cp_graph cp) m cm).
    { intros m Hm. apply elem_of_list_lookup in Hm as [mi Hmi].
      destruct (Forall2_lookup_l _ _ _ _ _ HM Hmi) as (cm & Hcm & Hok).
      destruct (cp_tables_ok (r_env X) R HE Hac n2216 cp Hcp) as (gss & _ & _ & Htabs & _).
      destruct (Htabs mi cm Hcm) as (gs & t & _ & Ht & _). exists mi, cm, t.
      split; [|exact Hok]. apply (mts_lookup cp). auto. }
    split.
    - eauto.
    - intros e He. rewrite A2, B2. apply S2. exact He.
    - intros m Hm. destruct (Hmts m Hm) as (mi & cm & t & Hl & Hok).
      rewrite A3, B3. rewrite <- (mo_ss _ _ _ _ Hok).
      pose proof (ss_nodup (r_env X) R HE Hac n2216 cp Hcp HA) as Hnd.
      rewrite (wr_ss_ok _ _ _ _ _ O1 Hnd _ _ _ Hl), (wr_ss_ok _ _ _ _ _ O2 Hnd _ _ _ Hl). reflexivity.
    - split; [apply (in_init _ _ _ _ HI1)|apply (in_init _ _ _ _ HI2)].
    - intros m o f Hm Ho Hnone Hf. destruct (Hmts m Hm) as (mi & cm & t & Hl & Hok).
      apply elem_of_list_lookup in Ho as [i Hi].
      destruct (Forall2_lookup_l _ _ _ _ _ (mo_ovs _ _ _ _ Hok) Hi) as (co & Hco & Hoo).
      pose proof (next_nodup (r_env X) R HE Hac n2216 cp Hcp HA) as Hnd.
      pose proof (wr_next_ok _ _ _ _ _ O1 Hnd _ _ _ _ _ Hl Hco) as N1.
      pose proof (wr_next_ok _ _ _ _ _ O2 Hnd _ _ _ _ _ Hl Hco) as N2.
      rewrite (oo_next _ _ _ _ Hoo) in N1, N2. rewrite A4. rewrite B4 in Hf.
      destruct (final_next (t_cells t) i) as [tg|]; [|congruence].
      destruct N1 as (f1 & T1 & N1). destruct N2 as (f2 & T2 & N2). congruence.
  Qed.

  Section Calls.
  Context (cp : compiled) (Hcp : compile (r_env X) n2216 R = Ok cp).
  Context (HI1 : installed cf cp w1 v1) (HI2 : installed cf cp w2 v2) (HS : worlds_same cp).

  Lemma read_same p q i : vs p q -> orel (wsame b1 b2) (read_word v1 p i) (read_word v2 q i).
  Proof.
    intros [off]. destruct (ws_words _ HS) as (l1 & l2 & A & B & Hl).
    unfold read_word. rewrite A, B. simpl. case_decide; [exact I|].
    unfold at_. destruct (l1 !! _) as [x|] eqn:Hx.
    - destruct (Forall2_lookup_l _ _ _ _ _ Hl Hx) as (y & -> & Hxy). exact Hxy.
    - destruct (l2 !! _) as [y|] eqn:Hy; [|exact I].
      destruct (Forall2_lookup_r _ _ _ _ _ Hl Hy) as (x & Hx' & _). congruence.
  Qed.

  Lemma acquire_initialized v t : w_initialized v = true -> acquire_vptr cf v t = dynamic_vptr cf v t.
  Proof.
    intros H. unfold acquire_vptr, require_initialized. rewrite H.
    rewrite decide_False by (intros [_ ?]; discriminate). reflexivity.
  Qed.

  Lemma arg_same a1 a2 : same_arg ti R v1 v2 a1 a2 ->
    is_virtual_arg a1 = is_virtual_arg a2 /\
    (is_virtual_arg a1 = true -> orel vs (arg_vptr cf v1 a1) (arg_vptr cf v2 a2)).
  Proof.
    destruct HP as [HE Hac Har Hids Hn HA].
    pose proof (go_classes _ _ _ (co_graph _ _ _ _ (compile_inv _ R HE Hac n2216 cp Hcp))) as HC.
    intros [t Ht|t cr Hcr|t].
    - split; [reflexivity|]. intros _. simpl. destruct (ws_init _ HS) as [I1 I2].
      rewrite !acquire_initialized by assumption.
      assert (Hk : cf_vptr cf = VptrNone \/ cf_vptr cf <> VptrNone).
      { destruct (cf_vptr cf); auto. }
      destruct Hk as [Hk|Hk].
      { unfold dynamic_vptr. rewrite Hk. exact I. }
      apply elem_of_list_fmap in Ht as (cr & Ht & Hin).
      destruct (type_id_class _ _ _ HC t cr Hin (eq_sym Ht)) as (c & e & Hc & He & Hid).
      apply elem_of_list_lookup_2 in He.
      destruct (in_vptr _ _ _ _ HI1 Hk e t He Hid) as (r1 & D1 & V1 & _).
      destruct (in_vptr _ _ _ _ HI2 Hk e t He Hid) as (r2 & D2 & V2 & _).
      rewrite D1, D2. simpl. rewrite V1, V2. apply (ws_static _ HS). exact He.
    - split; [reflexivity|]. intros _. simpl.
      assert (exists c, g_map (cp_graph cp) (ti t) = Some c) as [c Hc].
      { apply (co_dom _ _ _ _ HC). apply head_filter in Hcr as [Hin Heq]. exists cr. auto. }
      destruct (lookup_lt_is_Some_2 (g_classes (cp_graph cp)) c) as [e He];
        [apply (co_lt _ _ _ _ HC _ _ Hc)|].
      rewrite <- (class_static _ R HE Hac n2216 cp Hcp _ _ _ _ Hc He Hcr).
      apply (ws_static _ HS). eapply elem_of_list_lookup_2; eauto.
    - split; [reflexivity|]. discriminate.
  Qed.

  Notation args_same := (Forall2 (same_arg ti R v1 v2)).

  Lemma resolve_uni_same ss a1 a2 : args_same a1 a2 ->
    orel (wsame b1 b2) (resolve_uni cf v1 ss a1) (resolve_uni cf v2 ss a2).
  Proof.
    induction 1 as [|x y l k Hxy _ IH]; simpl; [exact I|].
    destruct (arg_same x y Hxy) as [Hv Ho]. rewrite <- Hv.
    destruct (is_virtual_arg x); [|exact IH].
    eapply orel_bind; [apply Ho; reflexivity|]. intros p q Hpq.
    eapply orel_bind; [apply (orel_refl eq); reflexivity|]. intros s ? <-.
    apply read_same. exact Hpq.
  Qed.

  Lemma resolve_next_same ss arity va d1 d2 a1 a2 : args_same a1 a2 -> vs d1 d2 ->
    orel (wsame b1 b2) (resolve_multi_next cf v1 ss arity va d1 a1)
      (resolve_multi_next cf v2 ss arity va d2 a2).
  Proof.
    intros H. revert va d1 d2. induction H as [|x y l k Hxy _ IH]; intros va d1 d2 Hd; simpl; [exact I|].
    destruct (arg_same x y Hxy) as [Hv Ho]. rewrite <- Hv.
    eapply (orel_bind vs).
    - destruct (is_virtual_arg x); [|exact Hd].
      eapply orel_bind; [apply Ho; reflexivity|]. intros p q Hpq.
      eapply orel_bind; [apply (orel_refl eq); reflexivity|]. intros s ? <-.
      eapply orel_bind; [apply (orel_refl eq); reflexivity|]. intros st ? <-.
      eapply orel_bind; [apply read_same; exact Hpq|]. intros wx wy Hw.
      eapply (orel_bind eq); [destruct Hw; simpl; auto|]. intros i ? <-.
      destruct Hd. simpl. constructor.
    - intros e1 e2 He. case_decide; [apply read_same; exact He|apply IH; exact He].
  Qed.

  Lemma resolve_first_same ss arity a1 a2 : args_same a1 a2 ->
    orel (wsame b1 b2) (resolve_multi_first cf v1 ss arity a1) (resolve_multi_first cf v2 ss arity a2).
  Proof.
    induction 1 as [|x y l k Hxy Hl IH]; simpl; [exact I|].
    destruct (arg_same x y Hxy) as [Hv Ho]. rewrite <- Hv.
    destruct (is_virtual_arg x); [|exact IH].
    eapply orel_bind; [apply Ho; reflexivity|]. intros p q Hpq.
    eapply orel_bind; [apply (orel_refl eq); reflexivity|]. intros s ? <-.
    eapply orel_bind; [apply read_same; exact Hpq|]. intros wx wy Hw.
    eapply (orel_bind vs); [destruct Hw; simpl; auto|]. intros d1 d2 Hd.
    apply resolve_next_same; assumption.
  Qed.

  Lemma resolve_same m a1 a2 : m ∈ reg_methods R -> args_same a1 a2 ->
    resolve cf v1 m a1 = resolve cf v2 m a2.
  Proof.
    intros Hm Ha. apply orel_eq. unfold resolve. rewrite (ws_ss _ HS m Hm).
    destruct (ws_init _ HS) as [I1 I2].
    assert (G : forall v, w_initialized v = true -> require_initialized cf v = Ok tt).
    { intros v Hv. unfold require_initialized. rewrite Hv.
      rewrite decide_False by (intros [_ ?]; discriminate). reflexivity. }
    rewrite !G by assumption. cbn [obind].
    eapply (orel_bind (wsame b1 b2)).
    - case_decide; [apply resolve_uni_same|apply resolve_first_same]; exact Ha.
    - intros x y Hxy. destruct Hxy; simpl; auto.
  Qed.

  Lemma types_same a1 a2 : args_same a1 a2 -> map arg_type a1 = map arg_type a2.
  Proof. induction 1 as [|x y l k Hxy _ IH]; [reflexivity|]. simpl. f_equal; [|exact IH]. destruct Hxy; reflexivity. Qed.

  Lemma init_bad_call_types i a1 a2 ts : map arg_type a1 = map arg_type a2 ->
    init_bad_call i a1 ts = init_bad_call i a2 ts.
  Proof.
    revert i a2 ts. induction a1 as [|x l IH]; intros i [|y k] ts H; try discriminate; [reflexivity|].
    injection H as Hx H. simpl. rewrite Hx. apply IH. exact H.
  Qed.

  Lemma call_same mid m a1 a2 : m ∈ reg_methods R -> args_same a1 a2 ->
    call cf v1 mid m a1 = call cf v2 mid m a2.
  Proof.
    intros Hm Ha. unfold call. rewrite (resolve_same m a1 a2 Hm Ha).
    unfold bad_call_types, bad_call_arity.
    rewrite (init_bad_call_types 0 a1 a2 _ (types_same _ _ Ha)), (Forall2_length _ _ _ Ha). reflexivity.
  Qed.
  End Calls.
End Reinit.

Theorem reinitialize cf h p X n2216 w' rep :
  history cf h p -> program_ok cf (r_env X) (pr_regs p) ->
  initialize cf X n2216 (pr_regs p) (pr_world p) = (w', Ok rep) ->
  exists w0, initialize cf X n2216 (pr_regs p) world0 = (w0, Ok rep) /\
    (forall mid m args args0, m ∈ reg_methods (pr_regs p) ->
       Forall2 (same_arg (e_ti (r_env X)) (pr_regs p) w' w0) args args0 ->
       call cf w' mid m args = call cf w0 mid m args0) /\
    (forall m o f, m ∈ reg_methods (pr_regs p) -> o ∈ mr_overriders m ->
       w_next w0 (or_next o) = Some f -> w_next w' (or_next o) = Some f).
Proof.
  intros Hh HP Hi. pose proof (history_world_ok cf h p Hh) as Hw.
  destruct (initialize cf X n2216 (pr_regs p) world0) as [w0 o] eqn:H0.
  pose proof (initialize_outcome cf X n2216 (pr_regs p) (pr_world p) world0) as Ho.
  rewrite Hi, H0 in Ho. simpl in Ho. subst o.
  exists w0. split; [reflexivity|].
  destruct (worlds_same_ok cf X n2216 (pr_regs p) HP _ _ _ _ _ _ Hw world0_ok Hi H0)
    as (cp & Hcp & HI1 & HI2 & HS).
  split.
  - intros mid m args args0 Hm Ha.
    eapply (call_same cf X n2216 (pr_regs p) HP); eauto.
  - intros m o f Hm Hov Hf. eapply (ws_next _ _ _ _ _ _ HS); eauto.
Qed.

Theorem refails cf h p X n2216 w' e :
  history cf h p -> initialize cf X n2216 (pr_regs p) (pr_world p) = (w', Err e) ->
  exists w0, initialize cf X n2216 (pr_regs p) world0 = (w0, Err e).
Proof.
  intros _ Hi. pose proof (initialize_outcome cf X n2216 (pr_regs p) (pr_world p) world0) as Ho.
  destruct (initialize cf X n2216 (pr_regs p) world0) as [w0 o] eqn:H0.
  rewrite Hi in Ho. simpl in Ho. subst o. eauto.
Qed.
