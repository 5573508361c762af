(* Several registries: what the code of one registry leaves alone. *)
From stdpp Require Import base list numbers list_numbers relations.
From Verif Require Import Base Registry Spec ModelClasses ModelMethods ModelSlots ModelTables
  ModelHash ModelWorld ModelCall SpecCall ModelLife SpecLife ModelRegistries SpecRegistries
  ProofBase ProofClasses ProofGraph ProofMethods ProofCompile ProofErrors ProofEntries ProofWrite
  ProofWorld ProofLife ProofCall ProofReinit.

(* ---- what write_tables leaves alone ---- *)

Section Writes.
  Context (buf : nat) (cp : compiled) (w : world) (wr : written).
  Context (Hwr : write_tables buf cp w = Ok wr).
  Notation mts := (zip (cp_methods cp) (tb_tables (cp_tables cp))).

  Lemma zip_method m t : (m, t) ∈ mts -> m ∈ cp_methods cp.
  Proof. apply elem_of_zip_l. Qed.

  Lemma imap_snd {A} (l : list A) i x : (i, x) ∈ imap pair l -> x ∈ l.
  Proof.
    intros H. apply elem_of_lookup_imap in H as (j & y & E & H). injection E as -> ->.
    eapply elem_of_list_lookup_2; eauto.
  Qed.

  Lemma write_static_other a :
    (forall e, e ∈ g_classes (cp_graph cp) -> ce_static_vptr e <> a) -> wr_static wr a = w_static w a.
  Proof.
    intros Ha. revert Hwr. unfold write_tables. intros H.
    apply obind_ok in H as (st & _ & H). apply obind_ok in H as (nx & _ & H).
    apply obind_ok in H as ([[ws it] stat] & H & E). injection E as <-. simpl.
    apply (foldM_inv_ok (fun s => snd s a = w_static w a) _ _ _ _ H); [reflexivity|].
    clear H. intros [c e] [[ws1 it1] st1] [[ws2 it2] st2] Hin Hs H. unfold write_class in H. simpl in Hs.
    apply obind_ok in H as ([ws3 it3] & _ & E). injection E as <- <- <-. simpl.
    rewrite upd_ne; [exact Hs|]. intros ->. eapply Ha; [eapply imap_snd; eauto|reflexivity].
  Qed.

  Lemma write_ss_other a :
    (forall m, m ∈ cp_methods cp -> m_ss m <> a) -> wr_ss wr a = w_ss w a.
  Proof.
    intros Ha. revert Hwr. unfold write_tables. intros H.
    apply obind_ok in H as (st & H & H'). apply obind_ok in H' as (nx & _ & H').
    apply obind_ok in H' as ([[ws it] stat] & _ & E). injection E as <-. simpl.
    apply (foldM_inv_ok (fun s => gv_ss s a = w_ss w a) _ _ _ _ H); [reflexivity|].
    clear H. intros [mi [m t]] s1 s2 Hin Hs H. unfold write_method in H.
    assert (Hne : a <> m_ss m).
    { intros ->. eapply Ha; [|reflexivity]. eapply zip_method, imap_snd; eauto. }
    case_decide.
    - apply obind_ok in H as (sl & _ & E). injection E as <-. simpl. rewrite upd_ne by exact Hne. exact Hs.
    - case_decide; [|discriminate]. apply obind_ok in H as ([ws1 it1] & _ & E). injection E as <-. simpl.
      rewrite upd_ne by exact Hne. exact Hs.
  Qed.

  Lemma write_next_other a :
    (forall m o, m ∈ cp_methods cp -> o ∈ m_ovs m -> ov_next o <> a) -> wr_next wr a = w_next w a.
  Proof.
    intros Ha. revert Hwr. unfold write_tables. intros H.
    apply obind_ok in H as (st & _ & H'). apply obind_ok in H' as (nx & H & H').
    apply obind_ok in H' as ([[ws it] stat] & _ & E). injection E as <-. simpl.
    apply (foldM_inv_ok (fun s => s a = w_next w a) _ _ _ _ H); [reflexivity|].
    clear H. intros [m t] s1 s2 Hin Hs H. unfold write_next in H.
    apply (foldM_inv_ok (fun s => s a = w_next w a) _ _ _ _ H); [exact Hs|].
    clear H. intros [i o] n1 n2 Hio Hn H. simpl in H.
    destruct (final_next (t_cells t) i) as [tg|]; [|injection H as <-; exact Hn].
    apply obind_ok in H as (pf & _ & E). injection E as <-.
    rewrite upd_ne; [exact Hn|]. intros ->. eapply Ha; [|eapply imap_snd; eauto|reflexivity].
    eapply zip_method; eauto.
  Qed.
End Writes.

(* ---- data that belong to one registry ---- *)

(* [O]: the buffers of the registry; [S]: its static_vptr variables. *)
Definition vown (O : nat -> Prop) (v : vptr) : Prop :=
  match v with VNull => True | VPtr b _ => O b end.

Record sealed (O S : nat -> Prop) (w : world) : Prop := {
  sl_above : forall b, w_fresh w <= b -> w_heap w b = None;
  sl_fresh : forall b, O b -> b < w_fresh w;
  sl_data : forall b, w_data w = Some b -> O b;
  sl_static : forall a, S a -> vown O (w_static w a);
  sl_vec : forall v, v ∈ w_vec w -> vown O v;
  sl_ivec : forall a, Some a ∈ w_ivec w -> S a;
  sl_map : forall t x, (t, x) ∈ w_map w -> match x with RStatic a => S a | RElem v => vown O v end;
  sl_words : forall b ws q, O b -> w_heap w b = Some ws -> WPw q ∈ ws -> vown O q
}.

(* Two states with the same data of that registry; [T]: its slots_strides arrays. *)
Record agree (O S T : nat -> Prop) (w1 w2 : world) : Prop := {
  ag_heap : forall b, O b -> w_heap w1 b = w_heap w2 b;
  ag_static : forall a, S a -> w_static w1 a = w_static w2 a;
  ag_ss : forall a, T a -> w_ss w1 a = w_ss w2 a;
  ag_vec : w_vec w1 = w_vec w2;
  ag_ivec : w_ivec w1 = w_ivec w2;
  ag_map : w_map w1 = w_map w2;
  ag_hash : w_hash w1 = w_hash w2;
  ag_init : w_initialized w1 = w_initialized w2
}.

Definition arg_own (O : nat -> Prop) (a : arg) : Prop :=
  match a with APtr v _ => vown O v | _ => True end.

Section Agree.
  Context (O S T : nat -> Prop) (cf : config) (w1 w2 : world).
  Context (HS : sealed O S w1) (HA : agree O S T w1 w2).

  Lemma read_agree p i : vown O p ->
    read_word w1 p i = read_word w2 p i /\
    (forall q, read_word w1 p i = Ok (WPw q) -> vown O q).
  Proof.
    intros Hp. destruct p as [|b off]; simpl; [split; [reflexivity|discriminate]|].
    rewrite <- (ag_heap _ _ _ _ _ HA b Hp). split; [reflexivity|].
    intros q H. apply obind_ok in H as (ws & Hws & H).
    destruct (w_heap w1 b) as [ws'|] eqn:Hb; [|discriminate]. injection Hws as ->.
    case_decide; [discriminate|]. apply (sl_words _ _ _ HS b ws q Hp Hb).
    unfold at_ in H. destruct (ws !! _) as [x|] eqn:Hx; [|discriminate]. injection H as ->.
    eapply elem_of_list_lookup_2; eauto.
  Qed.

  Lemma map_find_in (m : list (N * vref)) t x : map_find m t = Some x -> exists t', (t', x) ∈ m.
  Proof.
    unfold map_find. destruct (list_find _ m) as [[i [t' y]]|] eqn:H; simpl; [|discriminate].
    intros [= <-]. exists t'. apply list_find_Some in H as (H & _). eapply elem_of_list_lookup_2; eauto.
  Qed.

  Lemma dynamic_agree t :
    dynamic_vptr cf w1 t = dynamic_vptr cf w2 t /\
    (forall x, dynamic_vptr cf w1 t = Ok x ->
       vref_value w1 x = vref_value w2 x /\ vown O (vref_value w1 x)).
  Proof.
    split.
    - unfold dynamic_vptr. destruct HA as [H1 H2 H3 H4 H5 H6 H7 H8]. rewrite H4, H5, H6, H7. reflexivity.
    - intros x H.
      assert (G : match x with RStatic a => S a | RElem v => vown O v end).
      { unfold dynamic_vptr in H. destruct (cf_vptr cf).
        - apply obind_ok in H as (ix & _ & H). simpl in H.
          case_decide; [discriminate|]. destruct (cf_indirect cf).
          + apply obind_ok in H as (p & Hp & H). apply obind_ok in H as (loc & Hl & E). injection E as <-.
            destruct p as [a|]; [|discriminate]. injection Hl as ->. apply (sl_ivec _ _ _ HS).
            unfold at_ in Hp. destruct (w_ivec w1 !! _) eqn:Hx; [|discriminate]. injection Hp as ->.
            eapply elem_of_list_lookup_2; eauto.
          + apply obind_ok in H as (v & Hv & E). injection E as <-. apply (sl_vec _ _ _ HS).
            unfold at_ in Hv. destruct (w_vec w1 !! _) eqn:Hx; [|discriminate]. injection Hv as ->.
            eapply elem_of_list_lookup_2; eauto.
        - destruct (map_find (w_map w1) t) as [y|] eqn:Hm;
            [|destruct (cf_checks cf); discriminate].
          injection H as ->. apply map_find_in in Hm as [t' Hm]. apply (sl_map _ _ _ HS t' x Hm).
        - discriminate. }
      destruct x as [a|v]; simpl; [|auto].
      split; [apply (ag_static _ _ _ _ _ HA); exact G|apply (sl_static _ _ _ HS); exact G].
  Qed.

  Lemma acquire_agree t :
    acquire_vptr cf w1 t = acquire_vptr cf w2 t /\
    (forall x, acquire_vptr cf w1 t = Ok x ->
       vref_value w1 x = vref_value w2 x /\ vown O (vref_value w1 x)).
  Proof.
    destruct (dynamic_agree t) as [E H]. unfold acquire_vptr, require_initialized.
    rewrite <- (ag_init _ _ _ _ _ HA). case_decide; simpl; [|auto]. split; [reflexivity|discriminate].
  Qed.

  Lemma arg_agree a : arg_own O a ->
    arg_vptr cf w1 a = arg_vptr cf w2 a /\ (forall v, arg_vptr cf w1 a = Ok v -> vown O v).
  Proof.
    destruct a as [t|v t|t]; simpl; intros Ha.
    - destruct (acquire_agree t) as [E H]. rewrite <- E.
      destruct (acquire_vptr cf w1 t) as [x|e| |]; simpl; try (split; [reflexivity|discriminate]).
      destruct (H x eq_refl) as [H1 H2]. rewrite <- H1. split; [reflexivity|]. intros v [= <-]. exact H2.
    - split; [reflexivity|]. intros v' [= <-]. exact Ha.
    - split; [reflexivity|discriminate].
  Qed.

  Lemma resolve_uni_agree ss args : Forall (arg_own O) args ->
    resolve_uni cf w1 ss args = resolve_uni cf w2 ss args.
  Proof.
    induction 1 as [|a l Ha _ IH]; simpl; [reflexivity|].
    destruct (is_virtual_arg a); [|exact IH].
    destruct (arg_agree a Ha) as [E H]. rewrite <- E.
    destruct (arg_vptr cf w1 a) as [v|e| |]; simpl; try reflexivity.
    destruct (at_ ss 0) as [s|e| |]; simpl; try reflexivity.
    apply read_agree. auto.
  Qed.

  Lemma resolve_next_agree ss arity va d args : Forall (arg_own O) args -> vown O d ->
    resolve_multi_next cf w1 ss arity va d args = resolve_multi_next cf w2 ss arity va d args.
  Proof.
    intros H. revert va d. induction H as [|a l Ha _ IH]; intros va d Hd; simpl; [reflexivity|].
    assert (G : forall d', vown O d' ->
      (if decide (va + 1 = arity) then read_word w1 d' 0
       else resolve_multi_next cf w1 ss arity (va + 1) d' l) =
      (if decide (va + 1 = arity) then read_word w2 d' 0
       else resolve_multi_next cf w2 ss arity (va + 1) d' l)).
    { intros d' Hd'. case_decide; [apply read_agree; exact Hd'|apply IH; exact Hd']. }
    destruct (is_virtual_arg a); simpl; [|apply G; exact Hd].
    destruct (arg_agree a Ha) as [E H]. rewrite <- E.
    destruct (arg_vptr cf w1 a) as [v|e| |]; simpl; try reflexivity.
    destruct (at_ ss va) as [s|e| |]; simpl; try reflexivity.
    destruct (at_ ss (arity + va - 1)) as [st|e| |]; simpl; try reflexivity.
    destruct (read_agree v s) as [Er _]; [auto|]. rewrite <- Er.
    destruct (read_word w1 v s) as [x|e| |]; simpl; try reflexivity.
    destruct (word_i x) as [i|e| |]; simpl; try reflexivity.
    unfold vptr_add. destruct d as [|b o].
    - destruct (decide (i * st = 0)); simpl; [|reflexivity]. apply (G VNull). exact I.
    - cbn [obind]. apply G. exact Hd.
  Qed.

  Lemma resolve_first_agree ss arity args : Forall (arg_own O) args ->
    resolve_multi_first cf w1 ss arity args = resolve_multi_first cf w2 ss arity args.
  Proof.
    induction 1 as [|a l Ha Hl IH]; simpl; [reflexivity|].
    destruct (is_virtual_arg a); [|exact IH].
    destruct (arg_agree a Ha) as [E H]. rewrite <- E.
    destruct (arg_vptr cf w1 a) as [v|e| |]; simpl; try reflexivity.
    destruct (at_ ss 0) as [s|e| |]; simpl; try reflexivity.
    destruct (read_agree v s) as [Er Hr]; [auto|]. rewrite <- Er.
    destruct (read_word w1 v s) as [x|e| |]; simpl; try reflexivity.
    destruct x; simpl; try reflexivity. apply resolve_next_agree; [exact Hl|]. auto.
  Qed.

  Lemma call_agree mid m args : T (mr_slots_strides m) -> Forall (arg_own O) args ->
    call cf w1 mid m args = call cf w2 mid m args.
  Proof.
    intros Hm Ha. unfold call.
    assert (E : resolve cf w1 m args = resolve cf w2 m args); [|rewrite E; reflexivity].
    unfold resolve, require_initialized. rewrite (ag_init _ _ _ _ _ HA), (ag_ss _ _ _ _ _ HA _ Hm).
    case_decide; simpl; [reflexivity|]. case_decide.
    - rewrite (resolve_uni_agree _ args Ha). reflexivity.
    - rewrite (resolve_first_agree _ _ args Ha). reflexivity.
  Qed.
End Agree.

(* ---- what initialize() and finalize() do ---- *)

(* [O]: the buffers of the registry before the call. *)
Record effect (O S T U : nat -> Prop) (w w' : world) : Prop := {
  ef_fresh : w_fresh w <= w_fresh w';
  ef_sealed : sealed (fun b => O b \/ w_fresh w <= b < w_fresh w') S w';
  ef_heap : forall b, ~ O b -> b < w_fresh w -> w_heap w' b = w_heap w b;
  ef_static : forall a, ~ S a -> w_static w' a = w_static w a;
  ef_ss : forall a, ~ T a -> w_ss w' a = w_ss w a;
  ef_next : forall a, ~ U a -> w_next w' a = w_next w a
}.

Lemma vown_mono (O O' : nat -> Prop) v : (forall b, O b -> O' b) -> vown O v -> vown O' v.
Proof. destruct v; simpl; auto. Qed.

Lemma effect_refl O S T U w : sealed O S w -> effect O S T U w w.
Proof.
  intros HS. split; auto.
  assert (HO : forall b, O b <-> O b \/ w_fresh w <= b < w_fresh w).
  { intros b. split; [auto|]. intros [?|?]; [assumption|lia]. }
  destruct HS as [H0 H1 H2 H3 H4 H5 H6 H7]. split.
  - exact H0.
  - intros b Hb. apply H1, HO, Hb.
  - intros b Hb. apply HO. auto.
  - intros a Ha. eapply vown_mono; [intros b; apply HO|auto].
  - intros v Hv. eapply vown_mono; [intros b; apply HO|auto].
  - auto.
  - intros t x Hx. specialize (H6 t x Hx). destruct x; [auto|]. eapply vown_mono; [intros b; apply HO|auto].
  - intros b ws q Hb Hh Hq. eapply vown_mono; [intros b'; apply HO|]. eapply H7; eauto. apply HO, Hb.
Qed.

Lemma elem_of_resize {A} n (d x : A) l : x ∈ resize n d l -> x ∈ l \/ x = d.
Proof.
  rewrite resize_spec. intros H. apply elem_of_app in H as [H|H].
  - left. eapply elem_of_take in H as (i & H & _). eapply elem_of_list_lookup_2; eauto.
  - right. apply elem_of_replicate in H as [-> _]. reflexivity.
Qed.

Section Effect.
  Context (O S T U : nat -> Prop) (cf : config) (X : run) (R : registrations).
  Context (HE : env_ok (r_env X)) (Hac : acyclic (e_ti (r_env X)) R).
  Context (HRc : forall cr, cr ∈ reg_classes R -> S (cr_static_vptr cr)).
  Context (HRm : forall m, m ∈ reg_methods R -> T (mr_slots_strides m)).
  Context (HRo : forall m o, m ∈ reg_methods R -> o ∈ mr_overriders m -> U (or_next o)).
  Context (w : world) (HS : sealed O S w).

  Section Compiled.
    Context (n2216 : bool) (cp : compiled) (Hcp : compile (r_env X) n2216 R = Ok cp).
    Context (wr : written) (Hwr : write_tables (w_fresh w) cp w = Ok wr).
    Notation O' := (fun b => O b \/ w_fresh w <= b < Datatypes.S (w_fresh w)).

    Lemma class_in e : e ∈ g_classes (cp_graph cp) -> S (ce_static_vptr e).
    Proof.
      intros He.
      pose proof (go_classes _ _ _ (co_graph _ _ _ _ (compile_inv _ R HE Hac n2216 cp Hcp))) as HC.
      apply elem_of_list_lookup in He as [c He].
      destruct (co_entry _ _ _ _ HC _ _ He) as (a & cr & _ & Hcr & Hst & _).
      rewrite Hst. apply HRc. apply head_filter in Hcr as [Hin _]. exact Hin.
    Qed.

    Lemma method_in m : m ∈ cp_methods cp -> T (m_ss m) /\ forall o, o ∈ m_ovs m -> U (ov_next o).
    Proof.
      intros Hm. pose proof (co_methods _ _ _ _ (compile_inv _ R HE Hac n2216 cp Hcp)) as HM.
      apply elem_of_list_lookup in Hm as [i Hi].
      destruct (Forall2_lookup_r _ _ _ _ _ HM Hi) as (mr & Hmr & Hok).
      apply elem_of_list_lookup_2 in Hmr. split.
      - rewrite (mo_ss _ _ _ _ Hok). auto.
      - intros o Ho. apply elem_of_list_lookup in Ho as [j Hj].
        destruct (Forall2_lookup_r _ _ _ _ _ (mo_ovs _ _ _ _ Hok) Hj) as (r & Hr & Hro).
        rewrite (oo_next _ _ _ _ Hro). eapply HRo; eauto. eapply elem_of_list_lookup_2; eauto.
    Qed.

    Lemma wr_static_frame a : ~ S a -> wr_static wr a = w_static w a.
    Proof. intros Ha. eapply write_static_other; eauto. intros e He <-. apply Ha, class_in, He. Qed.
    Lemma wr_ss_frame a : ~ T a -> wr_ss wr a = w_ss w a.
    Proof. intros Ha. eapply write_ss_other; eauto. intros m Hm <-. apply Ha, method_in, Hm. Qed.
    Lemma wr_next_frame a : ~ U a -> wr_next wr a = w_next w a.
    Proof.
      intros Ha. eapply write_next_other; eauto. intros m o Hm Ho <-.
      apply Ha. eapply method_in; eauto.
    Qed.

    Lemma wr_self : written_same (w_fresh w) (w_fresh w) cp wr wr.
    Proof. pose proof (write_tables_same (w_fresh w) (w_fresh w) cp w w) as H. rewrite Hwr in H. exact H. Qed.

    Lemma wr_words_own q : WPw q ∈ wr_words wr -> vown O' q.
    Proof.
      intros Hq. destruct wr_self as [Hw _]. apply elem_of_list_lookup in Hq as [i Hi].
      destruct (Forall2_lookup_l _ _ _ _ _ Hw Hi) as (y & _ & Hy). inversion Hy as [| | |p q' Hv E1 E2]; subst.
      inversion Hv; subst. simpl. right. lia.
    Qed.

    Lemma wr_class_own e : e ∈ g_classes (cp_graph cp) -> vown O' (wr_static wr (ce_static_vptr e)).
    Proof.
      intros He. destruct wr_self as [_ Hs]. specialize (Hs e He). inversion Hs as [off E1]. simpl. right. lia.
    Qed.

    Lemma wr_static_own a : S a -> vown O' (wr_static wr a).
    Proof.
      intros Ha.
      destruct (decide (Exists (fun e => ce_static_vptr e = a) (g_classes (cp_graph cp)))) as [H|H].
      - apply list.Exists_exists in H as (e & He & <-). apply wr_class_own, He.
      - rewrite (write_static_other _ _ _ _ Hwr a).
        + eapply vown_mono; [|apply (sl_static _ _ _ HS a Ha)]. auto.
        + intros e He Heq. apply H. apply list.Exists_exists. eauto.
    Qed.

    Lemma vector_own w1 h vec ivec : w_vec w1 = w_vec w -> w_ivec w1 = w_ivec w ->
      vector_initialize cf (r_rnd X) (cp_graph cp) (wr_static wr) w1 = Ok (h, inl (vec, ivec)) ->
      (forall v, v ∈ vec -> vown O' v) /\ (forall a, Some a ∈ ivec -> S a).
    Proof.
      intros Hv Hi H. unfold vector_initialize in H.
      apply obind_ok in H as ([h' [size|e]] & _ & H); [|discriminate].
      apply obind_ok in H as (v & H & E). injection E as <- ->.
      set (I := fun v : list vptr * list (option nat) =>
             (forall x, x ∈ fst v -> vown O' x) /\ (forall a, Some a ∈ snd v -> S a)).
      assert (G : I (vec, ivec)); [|exact G].
      apply (foldM_inv_ok I _ _ _ _ H); clear H.
      - rewrite Hv, Hi. split; simpl.
        + intros x Hx.
          assert (Hx' : x ∈ w_vec w \/ x = VNull).
          { destruct (cf_indirect cf); [auto|].
            apply elem_of_resize in Hx. exact Hx. }
          destruct Hx' as [Hx'| ->]; [|exact Logic.I].
          eapply vown_mono; [|apply (sl_vec _ _ _ HS x Hx')]. auto.
        + intros a Ha. apply (sl_ivec _ _ _ HS).
          destruct (cf_indirect cf); [|exact Ha].
          apply elem_of_resize in Ha as [Ha|Ha]; [exact Ha|discriminate].
      - intros e s s' He Hs H. unfold store_class in H.
        apply (foldM_inv_ok I _ _ _ _ H); [exact Hs|]. clear H Hs s s'.
        intros t [v1 i1] [v2 i2] _ [Hs1 Hs2] H. unfold store_vptr in H. simpl in Hs1, Hs2.
        apply obind_ok in H as (ix & _ & H). simpl in H. destruct (cf_indirect cf).
        + case_decide; [|discriminate]. injection H as <- <-. split; simpl; [exact Hs1|].
          intros a Ha. apply elem_of_list_lookup in Ha as [j Hj].
          apply list_lookup_insert_Some in Hj as [(_ & Hj & _)|(_ & Hj)].
          * injection Hj as <-. apply class_in, He.
          * apply Hs2. eapply elem_of_list_lookup_2; eauto.
        + case_decide; [|discriminate]. injection H as <- <-. split; simpl; [|exact Hs2].
          intros x Hx. apply elem_of_list_lookup in Hx as [j Hj].
          apply list_lookup_insert_Some in Hj as [(_ & <- & _)|(_ & Hj)].
          * apply wr_class_own, He.
          * apply Hs1. eapply elem_of_list_lookup_2; eauto.
    Qed.

    Lemma map_own t x : (t, x) ∈ map_initialize cf (cp_graph cp) (wr_static wr) ->
      match x with RStatic a => S a | RElem v => vown O' v end.
    Proof.
      unfold map_initialize.
      set (I := fun m : list (N * vref) => forall t x, (t, x) ∈ m ->
             match x with RStatic a => S a | RElem v => vown O' v end).
      assert (G : I (map_initialize cf (cp_graph cp) (wr_static wr))); [|apply G].
      unfold map_initialize. apply foldl_inv; [intros t' x' H; inversion H|].
      intros e m He Hm. apply foldl_inv; [exact Hm|].
      clear m Hm. intros t' m _ Hm. unfold map_emplace. destruct (map_find m t'); [exact Hm|].
      intros t1 x1 H. apply elem_of_app in H as [H|H]; [apply (Hm _ _ H)|].
      apply elem_of_list_singleton in H. injection H as -> ->.
      destruct (cf_indirect cf); [apply class_in, He|apply wr_class_own, He].
    Qed.

    Lemma effect_uncommitted h :
      effect O S T U w (World (w_heap w) (Datatypes.S (w_fresh w)) (w_data w) (wr_static wr) (wr_ss wr)
        (wr_next wr) (w_vec w) (w_ivec w) (w_map w) h (w_initialized w)).
    Proof.
      split; simpl; try (intros; auto using wr_static_frame, wr_ss_frame, wr_next_frame; lia).
      split; simpl.
      - intros b Hb. apply (sl_above _ _ _ HS). lia.
      - intros b [Hb|Hb]; [|lia]. apply (sl_fresh _ _ _ HS) in Hb. lia.
      - intros b Hb. left. apply (sl_data _ _ _ HS b Hb).
      - apply wr_static_own.
      - intros v Hv. eapply vown_mono; [|apply (sl_vec _ _ _ HS v Hv)]. auto.
      - apply (sl_ivec _ _ _ HS).
      - intros t x Hx. pose proof (sl_map _ _ _ HS t x Hx) as H. destruct x; [exact H|].
        eapply vown_mono; [|exact H]. auto.
      - intros b ws q [Hb|Hb] Hh Hq.
        + eapply vown_mono; [|apply (sl_words _ _ _ HS b ws q Hb Hh Hq)]. auto.
        + rewrite (sl_above _ _ _ HS) in Hh by lia. discriminate.
    Qed.

    Lemma effect_committed h vec ivec mp :
      (forall v, v ∈ vec -> vown O' v) -> (forall a, Some a ∈ ivec -> S a) ->
      (forall t x, (t, x) ∈ mp -> match x with RStatic a => S a | RElem v => vown O' v end) ->
      effect O S T U w
        (World (match w_data w with
                | Some old => upd (upd (w_heap w) (w_fresh w) (Some (wr_words wr))) old None
                | None => upd (w_heap w) (w_fresh w) (Some (wr_words wr)) end)
           (Datatypes.S (w_fresh w)) (Some (w_fresh w)) (wr_static wr) (wr_ss wr) (wr_next wr)
           vec ivec mp h true).
    Proof.
      intros Hvec Hivec Hmp.
      set (heap := match w_data w with
                | Some old => upd (upd (w_heap w) (w_fresh w) (Some (wr_words wr))) old None
                | None => upd (w_heap w) (w_fresh w) (Some (wr_words wr)) end).
      assert (Hheap : forall b, heap b = None \/ (b = w_fresh w /\ heap b = Some (wr_words wr)) \/
                (b <> w_fresh w /\ heap b = w_heap w b)).
      { intros b. unfold heap. destruct (w_data w) as [old|].
        - destruct (decide (b = old)) as [->|Hne]; [left; apply upd_eq|]. right. rewrite upd_ne by exact Hne.
          destruct (decide (b = w_fresh w)) as [->|Hne']; [left; rewrite upd_eq; auto|].
          right. rewrite upd_ne by exact Hne'. auto.
        - right. destruct (decide (b = w_fresh w)) as [->|Hne']; [left; rewrite upd_eq; auto|].
          right. rewrite upd_ne by exact Hne'. auto. }
      split; simpl; try (intros; auto using wr_static_frame, wr_ss_frame, wr_next_frame; lia).
      - split; simpl.
        + intros b Hb. destruct (Hheap b) as [H|[[H _]|[_ H]]]; [exact H|lia|].
          rewrite H. apply (sl_above _ _ _ HS). lia.
        + intros b [Hb|Hb]; [|lia]. apply (sl_fresh _ _ _ HS) in Hb. lia.
        + intros b [= <-]. right. lia.
        + apply wr_static_own.
        + exact Hvec.
        + exact Hivec.
        + exact Hmp.
        + intros b ws q Hb Hh Hq. destruct (Hheap b) as [H|[[_ H]|[Hne H]]]; rewrite Hh in H.
          * discriminate.
          * injection H as ->. apply wr_words_own, Hq.
          * destruct Hb as [Hb|Hb]; [|lia].
            eapply vown_mono; [|apply (sl_words _ _ _ HS b ws q Hb (eq_sym H) Hq)]. auto.
      - intros b Hb Hlt. unfold heap. destruct (w_data w) as [old|] eqn:Hd.
        + rewrite upd_ne; [apply upd_ne; lia|]. intros ->. apply Hb, (sl_data _ _ _ HS _ Hd).
        + apply upd_ne. lia.
    Qed.
  End Compiled.

  Lemma initialize_effect n2216 w' o : initialize cf X n2216 R w = (w', o) -> effect O S T U w w'.
  Proof.
    unfold initialize, install. intros H.
    destruct (compile (r_env X) n2216 R) as [cp|e| |] eqn:Hcp;
      try (injection H as <- <-; apply effect_refl, HS).
    destruct (write_tables (w_fresh w) cp w) as [wr|e| |] eqn:Hwr;
      try (injection H as <- <-; apply effect_refl, HS).
    destruct (cf_vptr cf).
    - destruct (vector_initialize _ _ _ _ _) as [[h [[vec ivec]|e]]|e| |] eqn:Hv;
        injection H as <- <-; try (eapply effect_uncommitted; eassumption).
      destruct (vector_own n2216 cp Hcp wr Hwr _ _ _ _ eq_refl eq_refl Hv) as [H1 H2].
      eapply effect_committed; try eassumption.
      intros t x Hx. pose proof (sl_map _ _ _ HS t x Hx) as H. destruct x; [exact H|].
      eapply vown_mono; [|exact H]. auto.
    - injection H as <- <-. eapply effect_committed; try eassumption.
      + intros v Hv. eapply vown_mono; [|apply (sl_vec _ _ _ HS v Hv)]. auto.
      + apply (sl_ivec _ _ _ HS).
      + eapply map_own; eassumption.
    - injection H as <- <-. eapply effect_committed; try eassumption.
      + intros v Hv. eapply vown_mono; [|apply (sl_vec _ _ _ HS v Hv)]. auto.
      + apply (sl_ivec _ _ _ HS).
      + intros t x Hx. pose proof (sl_map _ _ _ HS t x Hx) as H. destruct x; [exact H|].
        eapply vown_mono; [|exact H]. auto.
  Qed.
End Effect.

Lemma finalize_effect O S T U cf w : sealed O S w -> effect O S T U w (finalize cf w).
Proof.
  intros HS. assert (HO : forall b, O b \/ w_fresh w <= b < w_fresh w -> O b).
  { intros b [?|?]; [assumption|lia]. }
  assert (Hheap : forall b, w_heap (finalize cf w) b = None \/ w_heap (finalize cf w) b = w_heap w b).
  { intros b. simpl. destruct (w_data w) as [old|]; [|auto].
    destruct (decide (b = old)) as [->|Hne]; [left; apply upd_eq|right; apply upd_ne, Hne]. }
  split; try reflexivity.
  - split.
    + intros b Hb. destruct (Hheap b) as [H|H]; rewrite H; [reflexivity|]. apply (sl_above _ _ _ HS). exact Hb.
    + intros b Hb. apply (sl_fresh _ _ _ HS), HO, Hb.
    + discriminate.
    + intros a Ha. eapply vown_mono; [|apply (sl_static _ _ _ HS a Ha)]. auto.
    + intros v Hv. eapply vown_mono; [|apply (sl_vec _ _ _ HS v)]; [auto|].
      simpl in Hv. destruct (cf_vptr cf); [destruct (cf_indirect cf)|..]; try assumption; inversion Hv.
    + intros a Ha. apply (sl_ivec _ _ _ HS).
      simpl in Ha. destruct (cf_vptr cf); [destruct (cf_indirect cf)|..]; try assumption; inversion Ha.
    + intros t x Hx.
      assert (Hx' : (t, x) ∈ w_map w).
      { simpl in Hx. destruct (cf_vptr cf); try assumption; inversion Hx. }
      pose proof (sl_map _ _ _ HS t x Hx') as H. destruct x; [exact H|].
      eapply vown_mono; [|exact H]. auto.
    + intros b ws q Hb Hh Hq. destruct (Hheap b) as [H|H]; rewrite Hh in H; [discriminate|].
      eapply vown_mono; [|apply (sl_words _ _ _ HS b ws q (HO b Hb) (eq_sym H) Hq)]. auto.
  - intros b Hb _. simpl. destruct (w_data w) as [old|] eqn:Hd; [|reflexivity].
    apply upd_ne. intros ->. apply Hb, (sl_data _ _ _ HS _ Hd).
Qed.

(* ---- a program with several registries ---- *)

Section Programs.
  Context (cfs : list N -> config) (P : places) (HP : separate P).

  (* [owner]: which registry a buffer was allocated for. *)
  Record sound (owner : nat -> list N) (p : program) : Prop := {
    so_sealed : forall r, sealed (fun b => b < pg_fresh p /\ owner b = r) (pl_static P r) (view p r);
    so_placed : forall r, placed P r (regs p r)
  }.

  Lemma program0_sound : sound (fun _ => []) program0.
  Proof.
    split; intros r.
    - split; simpl; try (intros; reflexivity); try discriminate; try (intros; exact I).
      + intros b [Hb _]. lia.
      + intros v Hv. inversion Hv.
      + intros a Ha. inversion Ha.
      + intros t x Hx. inversion Hx.
    - split; simpl; intros; set_solver.
  Qed.

  Lemma step_effect r ev p q res owner : sound owner p -> allowed cfs P r ev p ->
    step (cfs r) ev (Process (regs p r) (view p r)) = Ok (q, res) ->
    effect (fun b => b < pg_fresh p /\ owner b = r) (pl_static P r) (pl_ss P r) (pl_next P r)
      (view p r) (pr_world q) /\ placed P r (pr_regs q).
  Proof.
    intros [HS HR] Ha H. destruct ev as [R|X n2216|].
    - simpl in H. injection H as <- <-. split; [apply effect_refl, HS|exact Ha].
    - unfold step in H. simpl in H.
      destruct (initialize (cfs r) X n2216 (regs p r) (view p r)) as [w' o] eqn:Hi.
      assert (q = Process (regs p r) w') as -> by (destruct o; congruence).
      simpl. split; [|apply HR]. destruct Ha as [HE Hac _ _ _ _]. destruct (HR r) as [H1 H2 H3].
      eapply initialize_effect; eauto.
    - simpl in H. injection H as <- <-. split; [apply finalize_effect, HS|apply HR].
  Qed.

  (* What an event in [r] does to the data of [r']. *)
  Definition untouched (r' : list N) (owner : nat -> list N) (p p' : program) : Prop :=
    pg_members p' r' = pg_members p r' /\
    (forall b, b < pg_fresh p -> owner b = r' -> pg_heap p' b = pg_heap p b) /\
    (forall a, pl_static P r' a -> pg_static p' a = pg_static p a) /\
    (forall a, pl_ss P r' a -> pg_ss p' a = pg_ss p a) /\
    (forall a, pl_next P r' a -> pg_next p' a = pg_next p a).

  Lemma step_sound r ev p p' res owner : sound owner p -> allowed cfs P r ev p ->
    step_in cfs r ev p = Ok (p', res) ->
    exists owner', sound owner' p' /\ pg_fresh p <= pg_fresh p' /\
      (forall b, b < pg_fresh p -> owner' b = owner b) /\
      forall r', r' <> r -> untouched r' owner p p'.
  Proof.
    intros HS Ha H. unfold step_in in H. apply obind_ok in H as ([q res'] & Hq & E).
    injection E as <- <-.
    destruct (step_effect r ev p q res' owner HS Ha Hq) as [[E1 E2 E3 E4 E5 E6] Hpl].
    set (owner' := fun b => if decide (b < pg_fresh p) then owner b else r).
    change (w_fresh (view p r)) with (pg_fresh p) in *.
    assert (Hold : forall b, b < pg_fresh p -> owner' b = owner b).
    { intros b Hb. unfold owner'. rewrite decide_True by exact Hb. reflexivity. }
    assert (HU : forall r', r' <> r -> untouched r' owner p (write_back p r q)).
    { intros r' Hr. split; [simpl; rewrite decide_False by exact Hr; reflexivity|].
      split; [|split; [|split]].
      - intros b Hb Ho. apply E3; [intros [_ Ho']; congruence|exact Hb].
      - intros a H1. apply E4. intros H2. apply Hr, (se_static P HP r' r a H1 H2).
      - intros a H1. apply E5. intros H2. apply Hr, (se_ss P HP r' r a H1 H2).
      - intros a H1. apply E6. intros H2. apply Hr, (se_next P HP r' r a H1 H2). }
    exists owner'. split; [|split; [exact E1|split; [exact Hold|exact HU]]].
    split.
    - intros r'. destruct (decide (r' = r)) as [->|Hr].
      + assert (Hv : view (write_back p r q) r = pr_world q).
        { unfold view, write_back. simpl. rewrite decide_True by reflexivity. destruct (pr_world q); reflexivity. }
        rewrite Hv. simpl.
        assert (HO : forall b, (b < pg_fresh p /\ owner b = r) \/ pg_fresh p <= b < w_fresh (pr_world q) <->
                  b < w_fresh (pr_world q) /\ owner' b = r).
        { intros b. unfold owner'. case_decide; [|intuition lia]. intuition lia. }
        destruct E2 as [H0 H1 H2 H3 H4 H5 H6 H7]. split.
        * exact H0.
        * intros b [Hb _]. exact Hb.
        * intros b Hb. apply HO. auto.
        * intros a H. eapply vown_mono; [intros b; apply HO|auto].
        * intros v H. eapply vown_mono; [intros b; apply HO|auto].
        * exact H5.
        * intros t x H. specialize (H6 t x H). destruct x; [exact H6|].
          eapply vown_mono; [intros b; apply HO|auto].
        * intros b ws y Hb Hh Hy. eapply vown_mono; [intros b'; apply HO|].
          eapply H7; eauto. apply HO, Hb.
      + destruct (HU r' Hr) as (U1 & U2 & U3 & U4 & U5).
        destruct (so_sealed owner p HS r') as [H0 H1 H2 H3 H4 H5 H6 H7].
        assert (HO : forall b, b < pg_fresh p /\ owner b = r' ->
                  b < pg_fresh (write_back p r q) /\ owner' b = r').
        { intros b [Hb Ho]. split; [simpl; lia|]. rewrite Hold by exact Hb. exact Ho. }
        unfold view in H0, H1, H2, H3, H4, H5, H6, H7 |- *. rewrite U1. simpl in *. split; simpl.
        * apply (sl_above _ _ _ E2).
        * intros b [Hb _]. exact Hb.
        * intros b Hb. apply HO. auto.
        * intros a H. rewrite (U3 a H). eapply vown_mono; [intros b; apply HO|auto].
        * intros v H. eapply vown_mono; [intros b; apply HO|auto].
        * exact H5.
        * intros t x H. specialize (H6 t x H). destruct x; [exact H6|].
          eapply vown_mono; [intros b; apply HO|auto].
        * intros b ws y [Hb Ho] Hh Hy.
          assert (Hlt : b < pg_fresh p).
          { unfold owner' in Ho. case_decide; [assumption|congruence]. }
          rewrite Hold in Ho by exact Hlt. rewrite (U2 b Hlt Ho) in Hh.
          eapply vown_mono; [intros b'; apply HO|]. eapply H7; eauto.
    - intros r'. unfold regs, write_back. simpl. destruct (decide (r' = r)) as [->|Hr].
      + exact Hpl.
      + apply (so_placed owner p HS).
  Qed.

  Lemma runs_sound h p : runs cfs P program0 h p -> exists owner, sound owner p.
  Proof.
    remember program0 as p0 eqn:Hp0. induction 1 as [p|p h p1 r ev p2 res _ IH Ha Hs].
    - subst. exists (fun _ => []). apply program0_sound.
    - destruct (IH Hp0) as [owner HS].
      destruct (step_sound _ _ _ _ _ _ HS Ha Hs) as (owner' & HS' & _). eauto.
  Qed.

  Lemma runs_untouched r h p p' owner : sound owner p -> runs cfs P p h p' -> idle r h ->
    untouched r owner p p' /\ pg_fresh p <= pg_fresh p' /\
    exists owner', sound owner' p' /\ (forall b, b < pg_fresh p -> owner' b = owner b).
  Proof.
    intros HS. induction 1 as [p|p h p1 r' ev p2 res _ IH Ha Hs]; intros Hid.
    - split; [split; auto|]. split; [lia|]. eauto.
    - destruct IH as (HU & Hf & owner1 & HS1 & Ho1); [exact HS| |].
      { intros x Hx. apply Hid. apply elem_of_app. auto. }
      assert (Hr : r <> r').
      { intros ->. apply (Hid (r', ev, res)); [|reflexivity]. apply elem_of_app. right. left. }
      destruct (step_sound _ _ _ _ _ _ HS1 Ha Hs) as (owner2 & HS2 & Hf2 & Ho2 & HU2).
      destruct (HU2 r Hr) as (V1 & V2 & V3 & V4 & V5). destruct HU as (U1 & U2 & U3 & U4 & U5).
      split; [|split; [lia|]].
      + split; [congruence|]. split; [|split; [|split]].
        * intros b Hb Ho. rewrite V2; [auto|lia|]. rewrite Ho1 by exact Hb. exact Ho.
        * intros a H. rewrite V3, U3; auto.
        * intros a H. rewrite V4, U4; auto.
        * intros a H. rewrite V5, U5; auto.
      + exists owner2. split; [exact HS2|]. intros b Hb. rewrite Ho2 by lia. auto.
  Qed.

  Lemma arg_of_own r p owner a : sound owner p -> arg_of P r p a ->
    arg_own (fun b => b < pg_fresh p /\ owner b = r) a.
  Proof.
    intros HS [t|a' t Ha|t]; simpl; auto. apply (sl_static _ _ _ (so_sealed owner p HS r) a' Ha).
  Qed.

  Theorem others_unchanged r h p h' p' :
    runs cfs P program0 h p -> runs cfs P p h' p' -> idle r h' ->
    regs p' r = regs p r /\
    (forall a, pl_static P r a -> pg_static p' a = pg_static p a) /\
    (forall a, pl_next P r a -> pg_next p' a = pg_next p a) /\
    (forall t, acquire_vptr (cfs r) (view p' r) t = acquire_vptr (cfs r) (view p r) t) /\
    (forall mid m args, pl_ss P r (mr_slots_strides m) -> Forall (arg_of P r p) args ->
       call (cfs r) (view p' r) mid m args = call (cfs r) (view p r) mid m args).
  Proof.
    intros H H' Hid. destruct (runs_sound h p H) as [owner HS].
    destruct (runs_untouched r h' p p' owner HS H' Hid) as ((U1 & U2 & U3 & U4 & U5) & Hf & _).
    set (O := fun b => b < pg_fresh p /\ owner b = r).
    assert (HA : agree O (pl_static P r) (pl_ss P r) (view p r) (view p' r)).
    { unfold view. rewrite U1. split; simpl; try reflexivity.
      - intros b [Hb Ho]. symmetry. auto.
      - intros a Ha. symmetry. auto.
      - intros a Ha. symmetry. auto. }
    pose proof (so_sealed owner p HS r) as HSr.
    split; [unfold regs; rewrite U1; reflexivity|]. split; [exact U3|]. split; [exact U5|]. split.
    - intros t. symmetry. eapply acquire_agree; eauto.
    - intros mid m args Hm Hargs. symmetry. eapply call_agree; eauto.
      eapply Forall_impl; [exact Hargs|]. intros a. apply arg_of_own. exact HS.
  Qed.

  (* ---- as if alone ---- *)

  Lemma sound_world_ok owner p r : sound owner p -> world_ok (view p r).
  Proof.
    intros HS. destruct (so_sealed owner p HS r) as [H0 H1 H2 _ _ _ _ _]. split.
    - intros b Hb. apply H1, H2, Hb.
    - exact H0.
  Qed.

  Theorem results_alone r h p : runs cfs P program0 h p ->
    exists q, history (cfs r) (events_of r h) q /\ pr_regs q = regs p r.
  Proof.
    remember program0 as p0 eqn:Hp0. induction 1 as [p|p h p1 r' ev p2 res _ IH Ha Hs].
    - subst. exists process0. split; [constructor|reflexivity].
    - destruct (IH Hp0) as (q & Hq & Hr). unfold events_of. rewrite omap_app. simpl.
      unfold step_in in Hs. apply obind_ok in Hs as ([q' res'] & Hs & E). injection E as <- <-.
      case_decide as Hd.
      + subst r'. 
        assert (G : exists q2, step (cfs r) ev q = Ok (q2, res') /\ pr_regs q2 = pr_regs q').
        { destruct ev as [R|X n2216|].
          - simpl in Hs. injection Hs as <- <-. simpl. eauto.
          - unfold step in *. simpl in Hs. rewrite Hr.
            pose proof (initialize_outcome (cfs r) X n2216 (regs p1 r) (view p1 r) (pr_world q)) as Ho.
            destruct (initialize (cfs r) X n2216 (regs p1 r) (view p1 r)) as [w o].
            destruct (initialize (cfs r) X n2216 (regs p1 r) (pr_world q)) as [w' o'].
            simpl in Ho. subst o'. destruct o; try discriminate; injection Hs as <- <-; simpl; eauto.
          - simpl in Hs. injection Hs as <- <-. simpl. eauto. }
        destruct G as (q2 & Hst & Hr2). exists q2. split.
        * econstructor; eauto.
        * rewrite Hr2. unfold regs, write_back. simpl. rewrite decide_True by reflexivity. reflexivity.
      + exists q. rewrite app_nil_r. split; [exact Hq|].
        rewrite Hr. unfold regs, write_back. simpl. rewrite decide_False by congruence. reflexivity.
  Qed.

  Lemma runs_split p h1 r ev res h2 p' : runs cfs P p (h1 ++ (r, ev, res) :: h2) p' ->
    exists p1 p2, runs cfs P p h1 p1 /\ allowed cfs P r ev p1 /\
      step_in cfs r ev p1 = Ok (p2, res) /\ runs cfs P p2 h2 p'.
  Proof.
    revert p'. induction h2 as [|x h2 IH] using rev_ind; intros p' H.
    - inversion H as [|q h q1 r' ev' q2 res' H1 H2 H3 E1 E2]; [destruct h1; discriminate|]. subst.
      apply app_inj_tail in E2 as [-> [= -> -> ->]]. exists q1, p'. repeat split; auto. constructor.
    - rewrite app_comm_cons, app_assoc in H.
      inversion H as [|q h q1 r' ev' q2 res' H1 H2 H3 E1 E2];
        [match goal with E : _ ++ [_] = [] |- _ => apply app_eq_nil in E as [_ ?]; discriminate
                       | E : [] = _ ++ [_] |- _ => symmetry in E; apply app_eq_nil in E as [_ ?]; discriminate end|].
      subst. apply app_inj_tail in E2 as [-> <-].
      destruct (IH _ H1) as (p1 & p2 & A & B & C & D). exists p1, p2. repeat split; auto.
      econstructor; eauto.
  Qed.

  Theorem as_alone r X n2216 h1 h2 p :
    runs cfs P program0 (h1 ++ (r, Initializes X n2216, Done) :: h2) p -> idle r h2 ->
    exists w0 rep, initialize (cfs r) X n2216 (regs p r) world0 = (w0, Ok rep) /\
      forall mid m args args0, m ∈ reg_methods (regs p r) ->
        Forall2 (same_arg (e_ti (r_env X)) (regs p r) (view p r) w0) args args0 ->
        call (cfs r) (view p r) mid m args = call (cfs r) w0 mid m args0.
  Proof.
    intros H Hid. destruct (runs_split _ _ _ _ _ _ _ H) as (p1 & p2 & H1 & Ha & Hs & H2).
    assert (H12 : runs cfs P program0 (h1 ++ [(r, Initializes X n2216, Done)]) p2).
    { econstructor; eauto. }
    destruct (others_unchanged r _ _ _ _ H12 H2 Hid) as (Hregs & Hst & _ & _ & Hcall).
    destruct (runs_sound _ _ H1) as [owner HS]. pose proof (sound_world_ok owner p1 r HS) as Hw.
    destruct (runs_sound _ _ H12) as [owner2 HS2].
    unfold step_in in Hs. apply obind_ok in Hs as ([q res] & Hs & E). injection E as E1 E2. subst res.
    unfold step in Hs. simpl in Hs, Ha.
    destruct (initialize (cfs r) X n2216 (regs p1 r) (view p1 r)) as [w' o] eqn:Hi.
    destruct o as [rep|e| |]; try discriminate. injection Hs as <-.
    assert (Hr2 : regs p2 r = regs p1 r).
    { rewrite <- E1. unfold regs, write_back. simpl. rewrite decide_True by reflexivity. reflexivity. }
    assert (Hv : view p2 r = w').
    { rewrite <- E1. unfold view, write_back. simpl. rewrite decide_True by reflexivity. destruct w'; reflexivity. }
    rewrite Hr2 in Hregs. rewrite Hregs.
    destruct (initialize (cfs r) X n2216 (regs p1 r) world0) as [w0 o] eqn:H0.
    pose proof (initialize_outcome (cfs r) X n2216 (regs p1 r) (view p1 r) world0) as Ho.
    rewrite Hi, H0 in Ho. simpl in Ho. subst o.
    exists w0, rep. split; [reflexivity|]. intros mid m args args0 Hm Hargs.
    pose proof (so_placed owner p1 HS r) as [Pc Pm _].
    assert (Hargs' : Forall2 (same_arg (e_ti (r_env X)) (regs p1 r) w' w0) args args0 /\
              Forall (arg_of P r p2) args).
    { clear Hcall. induction Hargs as [|x y l k Hxy _ [IH1 IH2]]; [split; constructor|]. split; constructor; auto.
      - destruct Hxy as [t Ht|t cr Hcr|t]; [constructor; assumption| |constructor].
        simpl. rewrite Hst.
        + change (pg_static p2 (cr_static_vptr cr)) with (w_static (view p2 r) (cr_static_vptr cr)).
          rewrite Hv. constructor. exact Hcr.
        + apply Pc. apply head_filter in Hcr as [Hin _]. exact Hin.
      - destruct Hxy as [t Ht|t cr Hcr|t]; [constructor| |constructor].
        simpl. assert (Hp : pl_static P r (cr_static_vptr cr)).
        { apply Pc. apply head_filter in Hcr as [Hin _]. exact Hin. }
        rewrite (Hst _ Hp). constructor. exact Hp. }
    destruct Hargs' as [Hsame Hown]. rewrite Hcall; [|apply Pm, Hm|exact Hown]. rewrite Hv.
    destruct (worlds_same_ok (cfs r) X n2216 (regs p1 r) Ha _ _ _ _ _ _ Hw world0_ok Hi H0)
      as (cp & Hcp & HI1 & HI2 & HW).
    eapply (call_same (cfs r) X n2216 (regs p1 r) Ha); eauto.
  Qed.
End Programs.
