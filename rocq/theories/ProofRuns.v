(* Two runs of a program build the same tables. *)
From stdpp Require Import base list numbers list_numbers relations sorting.
From Verif Require Import Base Registry Spec ModelClasses ModelMethods ModelSlots ModelTables
  ModelHash ModelWorld ModelCall ModelErrors SpecCall SpecN2216 SpecRuns
  ProofBase ProofClasses ProofGraph ProofMethods ProofBits ProofSlots ProofSelect ProofTables
  ProofCompile ProofErrors ProofEntries ProofWrite ProofHash ProofWorld ProofCall ProofCells
  ProofDispatch ProofBehaviour ProofReport ProofRows ProofInvariance ProofN2216.

(* ---- outcomes related up to the types named in the errors ---- *)
Section Outcomes.
  Context (RE : error -> error -> Prop).

  Definition orel2 {A B} (P : A -> B -> Prop) (x : outcome A) (y : outcome B) : Prop :=
    match x, y with
    | Ok a, Ok b => P a b
    | Err e, Err e' => RE e e'
    | Undef, Undef => True
    | Diverge, Diverge => True
    | _, _ => False
    end.

  Lemma orel2_bind {A B A' B'} (P : A -> B -> Prop) (Q : A' -> B' -> Prop) x y f k :
    orel2 P x y -> (forall a b, x = Ok a -> y = Ok b -> P a b -> orel2 Q (f a) (k b)) ->
    orel2 Q (obind x f) (obind y k).
  Proof. destruct x, y; simpl; try contradiction; auto. Qed.

  Lemma orel2_mono {A B} (P Q : A -> B -> Prop) x y :
    (forall a b, P a b -> Q a b) -> orel2 P x y -> orel2 Q x y.
  Proof. destruct x, y; simpl; auto. Qed.

  Lemma mapM_rel2 {A B A' B'} (T : A -> B -> Prop) (P : A' -> B' -> Prop) f k l l' :
    Forall2 T l l' -> (forall x y, x ∈ l -> y ∈ l' -> T x y -> orel2 P (f x) (k y)) ->
    orel2 (Forall2 P) (mapM f l) (mapM k l').
  Proof.
    induction 1 as [|x y l l' Hxy Hl IH]; intros H; simpl; [constructor|].
    eapply orel2_bind; [apply H; [left|left|exact Hxy]|]. intros a b _ _ Hab.
    eapply orel2_bind; [apply IH; intros u v Hu Hv; apply H; right; assumption|].
    intros as' bs _ _ Has. simpl. constructor; assumption.
  Qed.

  Lemma foldM_rel2 {A B S S'} (T : A -> B -> Prop) (I : S -> S' -> Prop) f k l l' s s' :
    Forall2 T l l' -> I s s' ->
    (forall x y s s', x ∈ l -> y ∈ l' -> T x y -> I s s' -> orel2 I (f x s) (k y s')) ->
    orel2 I (foldM f l s) (foldM k l' s').
  Proof.
    intros Hl. revert s s'. induction Hl as [|x y l l' Hxy Hl IH]; intros s s' Hs H; simpl; [exact Hs|].
    eapply orel2_bind; [apply H; [left|left|exact Hxy|exact Hs]|]. intros a b _ _ Hab.
    apply IH; [exact Hab|]. intros u v t t' Hu Hv. apply H; right; assumption.
  Qed.
End Outcomes.

Lemma Forall2_imap_pair {A B} (T : A -> B -> Prop) l l' :
  Forall2 T l l' -> Forall2 (fun (p : nat * A) (q : nat * B) => fst p = fst q /\ T (snd p) (snd q)) (imap pair l) (imap pair l').
Proof.
  intros H. apply Forall2_same_length_lookup_2; [rewrite !imap_length; apply (Forall2_length _ _ _ H)|].
  intros i [a x] [b y] Hx Hy. rewrite list_lookup_imap in Hx. rewrite list_lookup_imap in Hy.
  destruct (l !! i) as [x'|] eqn:Hl; [|discriminate]. destruct (l' !! i) as [y'|] eqn:Hl'; [|discriminate].
  simpl in *. injection Hx as <- <-. injection Hy as <- <-. split; [reflexivity|].
  eapply Forall2_lookup_lr; eauto.
Qed.

(* ---- the keys of the groups are sorted ---- *)
Lemma dim_groups_sorted E g m dim vp gm :
  (forall o, o ∈ m_ovs m -> dim < length (ov_vp o)) ->
  dim_groups E g m dim vp = Ok gm -> StronglySorted blt (keys gm).
Proof.
  intros Hdim Hgm. unfold dim_groups in Hgm.
  pose proof (foldM_inv_prefix_ok (fun _ gm =>
      StronglySorted blt (keys gm) /\
      (forall k, k ∈ keys gm -> length k = length (m_ovs m))) _ _ _ _ Hgm) as HI.
  apply HI; clear HI.
  - split; [constructor|]. intros k H. inversion H.
  - intros l1 c l2 gm1 gm2 _ [I1 I2] Hs. rewrite class_mask_ok in Hs by exact Hdim. cbn [obind] in Hs.
    injection Hs as <-.
    destruct (group_insert_spec (mask_at g m dim c) c (ce_abstract_at g c) gm1 I1) as [S1 S2].
    { intros k Hk. rewrite (I2 k Hk). symmetry. apply mask_at_length. }
    split; [exact S1|]. intros k Hk. apply keys_elem in Hk as (gp & Hin).
    apply S2 in Hin as [[_ Hin]|[-> _]]; [|apply mask_at_length].
    apply I2, keys_elem. eauto.
Qed.

Lemma sorted_same (l l' : list bitset) :
  StronglySorted blt l -> StronglySorted blt l' -> (forall k, k ∈ l <-> k ∈ l') -> l = l'.
Proof.
  intros Hl. revert l'. induction Hl as [|x l Hl IH Hx]; intros l' Hl' Hiff.
  - destruct l' as [|y l']; [reflexivity|]. exfalso. assert (H : y ∈ @nil bitset) by (apply Hiff; left). inversion H.
  - destruct Hl' as [|y l' Hl' Hy].
    + exfalso. assert (H : x ∈ @nil bitset) by (apply Hiff; left). inversion H.
    + assert (Hirr : forall a, ~ blt a a).
      { intros a. unfold bitset_lt. rewrite msb_lt_irrefl. discriminate. }
      assert (Htr : forall a b c, blt a b -> blt b c -> blt a c).
      { intros a b c. unfold bitset_lt. apply msb_lt_trans. }
      rewrite Forall_forall in Hx, Hy.
      assert (x = y) as <-.
      { destruct (decide (x = y)) as [?|Hne]; [assumption|]. exfalso.
        assert (H1 : x ∈ y :: l') by (apply Hiff; left).
        assert (H2 : y ∈ x :: l) by (apply Hiff; left).
        apply elem_of_cons in H1 as [?|H1]; [contradiction|].
        apply elem_of_cons in H2 as [?|H2]; [congruence|].
        apply (Hirr x). eapply Htr; [apply Hx; exact H2|apply Hy; exact H1]. }
      f_equal. apply IH; [exact Hl'|]. intros k. split; intros Hk.
      * assert (H : k ∈ x :: l') by (apply Hiff; right; exact Hk).
        apply elem_of_cons in H as [->|H]; [|exact H]. destruct (Hirr x). apply Hx. exact Hk.
      * assert (H : k ∈ x :: l) by (apply Hiff; right; exact Hk).
        apply elem_of_cons in H as [->|H]; [|exact H]. destruct (Hirr x). apply Hy. exact Hk.
Qed.

Lemma Forall2_rev' {A B} (T : A -> B -> Prop) l l' : Forall2 T l l' -> Forall2 T (rev l) (rev l').
Proof.
  induction 1 as [|x y l l' Hxy _ IH]; simpl; [constructor|].
  apply Forall2_app; [exact IH|]. constructor; [exact Hxy|constructor].
Qed.

(* ---- the construction of the tables signals no error ---- *)
Definition noerr {A} (x : outcome A) : Prop := match x with Err _ => False | _ => True end.

Lemma noerr_bind {A B} (x : outcome A) (k : A -> outcome B) :
  noerr x -> (forall a, noerr (k a)) -> noerr (obind x k).
Proof. destruct x; simpl; auto. Qed.

Lemma noerr_at {A} (l : list A) i : noerr (at_ l i).
Proof. unfold at_. destruct (l !! i); exact I. Qed.

Lemma noerr_deref {A} (x : option A) : noerr (deref x).
Proof. destruct x; exact I. Qed.

Lemma noerr_foldM {A S} (f : A -> S -> outcome S) l s :
  (forall x s, noerr (f x s)) -> noerr (foldM f l s).
Proof.
  revert s. induction l as [|x l IH]; intros s H; simpl; [exact I|].
  apply noerr_bind; [apply H|]. intros s'. apply IH. exact H.
Qed.

Lemma covariant_base_noerr g m a b : noerr (covariant_base g m a b).
Proof.
  unfold covariant_base. apply noerr_bind; [apply noerr_at|]. intros oa.
  apply noerr_bind; [apply noerr_at|]. intros ob. apply noerr_bind; [apply noerr_deref|]. intros ra.
  destruct (ov_cov ob); exact I.
Qed.

Lemma covariant_inner_noerr rb ci js : (forall a b, noerr (rb a b)) -> noerr (covariant_inner rb ci js).
Proof.
  intros H. revert ci. induction js as [|[b|] js IH]; intros ci; simpl; [exact I| |].
  - apply noerr_bind; [apply noerr_deref|]. intros a. apply noerr_bind; [apply H|]. intros [|].
    + apply noerr_bind; [apply IH|]. intros [? ?]. exact I.
    + apply noerr_bind; [apply H|]. intros [|]; (apply noerr_bind; [apply IH|]; intros [? ?]; exact I).
  - apply noerr_bind; [apply IH|]. intros [? ?]. exact I.
Qed.

Lemma covariant_outer_noerr rb k cs : (forall a b, noerr (rb a b)) -> noerr (covariant_outer rb k cs).
Proof.
  intros H. revert cs. induction k as [|k IH]; intros [|[a|] js]; simpl; try exact I.
  - apply noerr_bind; [apply covariant_inner_noerr; exact H|]. intros [? ?].
    apply noerr_bind; [apply IH|]. intros ?. exact I.
  - apply noerr_bind; [apply IH|]. intros ?. exact I.
Qed.

Lemma select_noerr g n2216 m cs : noerr (select_dominant_overriders g n2216 m cs).
Proof.
  unfold select_dominant_overriders. destruct (survey 0 _ 0 0) as [pick remaining].
  case_decide; [exact I|]. destruct n2216; [|exact I].
  apply noerr_bind; [apply noerr_at|]. intros p. apply noerr_bind; [apply noerr_deref|]. intros q.
  apply noerr_bind; [apply noerr_at|]. intros o. destruct (ov_cov o); [|exact I].
  apply noerr_bind; [apply covariant_outer_noerr; apply covariant_base_noerr|]. intros cs'.
  destruct (survey 0 cs' pick 0). exact I.
Qed.

Lemma build_cell_noerr g n2216 m mask : noerr (build_cell g n2216 m mask).
Proof.
  unfold build_cell. apply noerr_bind; [apply select_noerr|]. intros [[doms pick] remaining].
  case_decide; [exact I|]. case_decide; [exact I|].
  apply noerr_bind; [apply noerr_at|]. intros o. apply noerr_bind; [apply noerr_deref|]. intros o'.
  cbv zeta. destruct (remove_dominants _ _) as [ovs rem]. case_decide; [exact I|].
  apply noerr_bind; [apply select_noerr|]. intros [[nexts p] r]. case_decide; [exact I|].
  apply noerr_bind; [apply noerr_at|]. intros x. apply noerr_bind; [apply noerr_deref|]. intros y. exact I.
Qed.

Lemma build_table_noerr g n2216 m gs mask : noerr (build_dispatch_table g n2216 m gs mask).
Proof.
  revert mask. induction gs as [|gm gs IH]; intros mask; [exact I|]. cbn [build_dispatch_table].
  apply noerr_foldM. intros [k gp] cells. destruct gs as [|gm' gs].
  - apply noerr_bind; [apply build_cell_noerr|]. intros c. exact I.
  - apply noerr_bind; [apply IH|]. intros c. exact I.
Qed.

(* The groups and the v-table entries of one method. *)
Lemma method_groups E g s mi m vt :
  env_ok E -> (forall o, o ∈ m_ovs m -> length (ov_vp o) = length (m_vp m)) ->
  (forall dim vp c, m_vp m !! dim = Some vp -> c ∈ g_td g vp ->
     s_first s c <= s_slots s mi dim < s_first s c + length (s_vtbl s c)) ->
  (forall c, length (vt c) = length (s_vtbl s c)) ->
  exists gs vt', mapM (fun dv => dim_groups E g m (fst dv) (snd dv)) (imap pair (m_vp m)) = Ok gs /\
    Forall2 (fun dv gm => dim_groups E g m (fst dv) (snd dv) = Ok gm) (imap pair (m_vp m)) gs /\
    foldM (set_dim s mi) (imap pair gs) vt = Ok vt' /\ forall c, length (vt' c) = length (s_vtbl s c).
Proof.
  intros HE Har Hrange Hlen.
  assert (Hg : exists gs, Forall2 (fun dv gm => dim_groups E g m (fst dv) (snd dv) = Ok gm)
            (imap pair (m_vp m)) gs).
  { assert (Hall : forall l, (forall dv, dv ∈ l -> dv ∈ imap pair (m_vp m)) ->
        exists gs, Forall2 (fun dv gm => dim_groups E g m (fst dv) (snd dv) = Ok gm) l gs).
    { induction l as [|[d v] l IH]; intros Hl; [exists []; constructor|].
      destruct IH as [gs IH]; [intros dv Hdv; apply Hl; right; exact Hdv|].
      destruct (dim_groups_ok E g HE m d v) as (gm & Hgm & _).
      - intros o Ho. rewrite (Har o Ho).
        assert (H : (d, v) ∈ imap pair (m_vp m)) by (apply Hl; left).
        apply elem_of_imap_pair in H. eapply lookup_lt_Some; eauto.
      - exists (gm :: gs). constructor; [exact Hgm|exact IH]. }
    apply Hall. auto. }
  destruct Hg as [gs Hg]. exists gs.
  assert (Hgr : forall dim vp gm, m_vp m !! dim = Some vp -> gs !! dim = Some gm -> groups_ok g m dim vp gm).
  { intros dim vp gm Hvp Hgm.
    assert (Hi : imap pair (m_vp m) !! dim = Some (dim, vp)).
    { rewrite list_lookup_imap, Hvp. reflexivity. }
    pose proof (Forall2_lookup_lr _ _ _ _ _ _ Hg Hi Hgm) as Hd. simpl in Hd.
    destruct (dim_groups_ok E g HE m dim vp) as (gm' & Hgm' & H).
    - intros o Ho. rewrite (Har o Ho). eapply lookup_lt_Some; eauto.
    - congruence. }
  assert (Hgl : length gs = length (m_vp m)).
  { rewrite <- (Forall2_length _ _ _ Hg), imap_length. reflexivity. }
  destruct (writes_total s (method_writes mi gs) vt) as (vt' & Hvt).
  { intros q Hq. apply method_writes_elem in Hq
      as (dim & gm & gi & k & gp & c & -> & H1 & H2 & Hc). unfold q_class, q_slot.
    assert (Hd : dim < length (m_vp m)) by (rewrite <- Hgl; eapply lookup_lt_Some; eauto).
    apply lookup_lt_is_Some in Hd as [vp Hvp].
    pose proof (Hgr dim vp gm Hvp H1) as [_ G2 _].
    assert (Hctd : c ∈ g_td g vp).
    { apply (G2 k gp); [eapply elem_of_list_lookup_2; eauto|exact Hc]. }
    destruct (Hrange dim vp c Hvp Hctd). rewrite Hlen. lia. }
  exists vt'. split; [apply mapM_ok; exact Hg|]. split; [exact Hg|].
  rewrite set_method_writes. split; [exact Hvt|].
  destruct (writes_ok _ _ _ _ Hvt) as (Hl & _). intros c. rewrite Hl. apply Hlen.
Qed.

(* ---- compilation ---- *)
Section Compile.
  Context (E E' : env) (rho : N -> N) (R R' : registrations).
  Notation ti := (e_ti E).
  Notation ti' := (e_ti E').
  Context (HE : env_ok E) (Hac : acyclic ti R) (Har : arity_ok R).
  Context (HE' : env_ok E') (Hac' : acyclic ti' R') (Har' : arity_ok R').
  Context (HS : same_program ti ti' (e_void E) (e_void E') rho R R').
  Notation RE := (same_error rho).

  Lemma types_iff x y : ti' (rho x) = ti' (rho y) <-> ti x = ti y.
  Proof. apply (sp_types _ _ _ _ _ _ _ HS). Qed.

  Lemma run_registered x : registered ti R (ti x) <-> registered ti' R' (ti' (rho x)).
  Proof.
    split; intros (cr & Hcr & Ht); apply elem_of_list_lookup in Hcr as [i Hi].
    - destruct (Forall2_lookup_l _ _ _ _ _ (sp_classes _ _ _ _ _ _ _ HS) Hi) as (cr' & Hi' & H1 & _).
      exists cr'. split; [eapply elem_of_list_lookup_2; eauto|]. rewrite H1. apply types_iff. exact Ht.
    - destruct (Forall2_lookup_r _ _ _ _ _ (sp_classes _ _ _ _ _ _ _ HS) Hi) as (cr' & Hi' & H1 & _).
      exists cr'. split; [eapply elem_of_list_lookup_2; eauto|]. rewrite H1 in Ht. apply types_iff. exact Ht.
  Qed.

  (* The first loop of augment_classes. *)
  Definition same_entry (e e' : class_entry) : Prop :=
    head (ce_type_ids e') = rho <$> head (ce_type_ids e).

  Definition same_map (cm cm' : class_map) : Prop := forall x, cm (ti x) = cm' (ti' (rho x)).

  Lemma push_head t e : head (ce_type_ids (push_type_id t e)) =
    Some (default t (head (ce_type_ids e))).
  Proof.
    unfold push_type_id. case_decide as H; simpl.
    - destruct (ce_type_ids e); [inversion H|reflexivity].
    - destruct (ce_type_ids e); reflexivity.
  Qed.

  Lemma add_class_same s s' cr cr' :
    Forall2 same_entry (fst s) (fst s') -> same_map (snd s) (snd s') -> cr_type cr' = rho (cr_type cr) ->
    Forall2 same_entry (fst (add_class ti s cr)) (fst (add_class ti' s' cr')) /\
    same_map (snd (add_class ti s cr)) (snd (add_class ti' s' cr')).
  Proof.
    destruct s as [cs cm], s' as [cs' cm']. simpl. intros He Hm Ht.
    assert (Hpush : forall l l' i, Forall2 same_entry l l' ->
      Forall2 same_entry (alter (push_type_id (cr_type cr)) i l) (alter (push_type_id (cr_type cr')) i l')).
    { intros l l' i H. apply Forall2_alter; [exact H|]. intros e e' Hi Hi' Hs. unfold same_entry in *.
      rewrite !push_head, Hs, Ht. destruct (head (ce_type_ids e)); reflexivity. }
    unfold add_class. rewrite Ht, <- (Hm (cr_type cr)).
    destruct (cm (ti (cr_type cr))) as [id|]; simpl.
    - split; [|exact Hm]. rewrite <- Ht. apply Hpush. exact He.
    - rewrite <- (Forall2_length _ _ _ He). split.
      + rewrite <- Ht. apply Hpush. apply Forall2_app; [exact He|]. constructor; [reflexivity|constructor].
      + intros x. unfold upd. destruct (decide (ti x = ti (cr_type cr))) as [H|H].
        * rewrite decide_True by (apply types_iff; exact H). reflexivity.
        * rewrite decide_False by (rewrite types_iff; exact H). apply Hm.
  Qed.

  Lemma add_classes_same :
    Forall2 same_entry (fst (add_classes ti (reg_classes R))) (fst (add_classes ti' (reg_classes R'))) /\
    same_map (snd (add_classes ti (reg_classes R))) (snd (add_classes ti' (reg_classes R'))).
  Proof.
    unfold add_classes.
    assert (G : forall l l', Forall2 (fun c c' => cr_type c' = rho (cr_type c) /\
        cr_bases c' = map rho (cr_bases c)) l l' ->
      forall s s', Forall2 same_entry (fst s) (fst s') -> same_map (snd s) (snd s') ->
      Forall2 same_entry (fst (foldl (add_class ti) s l)) (fst (foldl (add_class ti') s' l')) /\
      same_map (snd (foldl (add_class ti) s l)) (snd (foldl (add_class ti') s' l'))).
    { induction 1 as [|cr cr' l l' [Ht _] _ IH]; intros s s' He Hm; simpl; [auto|].
      destruct (add_class_same s s' cr cr' He Hm Ht) as [H1 H2]. apply IH; assumption. }
    apply G; [apply (sp_classes _ _ _ _ _ _ _ HS)|constructor|]. intros x. reflexivity.
  Qed.

  (* What two runs have in common after augment_classes. *)
  Record same_graph (g g' : graph) : Prop := {
    sg_ok : graph_ok E R g;
    sg_ok' : graph_ok E' R' g';
    sg_entries : Forall2 same_entry (g_classes g) (g_classes g');
    sg_map : same_map (g_map g) (g_map g')
  }.

  Lemma raw_pairs_same : raw_pairs (reg_classes R') =
    map (fun p => (rho (fst p), rho (snd p))) (raw_pairs (reg_classes R)).
  Proof.
    pose proof (sp_classes _ _ _ _ _ _ _ HS) as H. unfold raw_pairs.
    induction H as [|cr cr' l l' [H1 H2] _ IH]; simpl; [reflexivity|].
    rewrite map_app, IH, H1, H2, !map_map. reflexivity.
  Qed.

  Lemma augment_graph E0 crs g : augment_classes E0 crs = Ok g ->
    add_classes (e_ti E0) crs = (g_classes g, g_map g).
  Proof.
    unfold augment_classes. destruct (add_classes (e_ti E0) crs) as [cs cm].
    intros H. apply obind_ok in H as (w & _ & H).
    destruct (direct_all E0 (length cs) (dedup_all (length cs) w)) as [w' db].
    apply obind_ok in H as (td & _ & [= <-]). reflexivity.
  Qed.

  Lemma augment_classes_same :
    orel2 RE same_graph (augment_classes E (reg_classes R)) (augment_classes E' (reg_classes R')).
  Proof.
    assert (G : forall l : list (N * N), (forall p, p ∈ l -> registered ti R (ti (snd p))) \/
      exists l1 t b l2, l = l1 ++ (t, b) :: l2 /\
        (forall p, p ∈ l1 -> registered ti R (ti (snd p))) /\ ~ registered ti R (ti b)).
    { induction l as [|[t b] l IH]; [left; intros p Hp; inversion Hp|].
      destruct (registered_dec E R (ti b)) as [Hb|Hb].
      - destruct IH as [IH|(l1 & t' & b' & l2 & -> & H1 & H2)].
        + left. intros p [->|Hp]%elem_of_cons; auto.
        + right. exists ((t, b) :: l1), t', b', l2. split; [reflexivity|]. split; [|exact H2].
          intros p [->|Hp]%elem_of_cons; auto.
      - right. exists [], t, b, l. split; [reflexivity|]. split; [|exact Hb].
        intros p Hp. inversion Hp. }
    pose proof raw_pairs_same as Hraw.
    destruct (G (raw_pairs (reg_classes R))) as [H|(l1 & t & b & l2 & Hs & H1 & Hb)].
    - assert (Hreg : bases_registered ti R).
      { intros cr t Hcr Ht. apply (H (cr_type cr, t)). apply raw_pairs_elem. eauto. }
      assert (Hreg' : bases_registered ti' R').
      { intros cr t Hcr Ht.
        assert (Hin : (cr_type cr, t) ∈ raw_pairs (reg_classes R')) by (apply raw_pairs_elem; eauto).
        rewrite Hraw in Hin. apply elem_of_list_fmap in Hin as (p & Heq & Hp). injection Heq as _ ->.
        apply run_registered, H. exact Hp. }
      destruct (augment_classes_ok E R HE Hac Hreg) as (g & Hg & HG).
      destruct (augment_classes_ok E' R' HE' Hac' Hreg') as (g' & Hg' & HG').
      rewrite Hg, Hg'. simpl. destruct add_classes_same as [S1 S2].
      apply augment_graph in Hg, Hg'. rewrite Hg, Hg' in S1, S2. split; assumption.
    - rewrite (augment_classes_missing E R Hac l1 t b l2 Hs H1 Hb).
      rewrite (augment_classes_missing E' R' Hac' (map (fun p => (rho (fst p), rho (snd p))) l1)
        (rho t) (rho b) (map (fun p => (rho (fst p), rho (snd p))) l2)).
      + constructor.
      + rewrite Hraw, Hs, map_app. reflexivity.
      + intros p Hp. apply elem_of_list_fmap in Hp as (q & -> & Hq). simpl. apply run_registered. auto.
      + rewrite <- run_registered. exact Hb.
  Qed.

  Section Graph.
  Context (g g' : graph) (HG : same_graph g g').

  Definition samec (c c' : nat) : Prop := c' = c /\ c < g_n g.

  Record same_ov (o o' : overrider) : Prop := {
    so_vp : Forall2 samec (ov_vp o) (ov_vp o');
    so_cov : option_Forall2 samec (ov_cov o) (ov_cov o')
  }.

  Record same_cm (m m' : cmethod) : Prop := {
    sm_vp : Forall2 samec (m_vp m) (m_vp m');
    sm_ovs : Forall2 same_ov (m_ovs m) (m_ovs m')
  }.

  Lemma samec_eq l l' : Forall2 samec l l' -> l' = l /\ forall c, c ∈ l -> c < g_n g.
  Proof.
    induction 1 as [|c c' l l' [-> Hc] _ [-> IH]].
    - split; [reflexivity|]. intros c H. inversion H.
    - split; [reflexivity|]. intros x [->|Hx]%elem_of_cons; auto.
  Qed.

  Lemma same_n : g_n g' = g_n g.
  Proof. symmetry. apply (Forall2_length _ _ _ (sg_entries _ _ HG)). Qed.

  Lemma class_type c : c < g_n g -> exists x, g_map g (ti x) = Some c /\ g_map g' (ti' (rho x)) = Some c.
  Proof.
    intros Hc. destruct (lookup_lt_is_Some_2 (g_classes g) c Hc) as [e He].
    pose proof (go_classes _ _ _ (sg_ok _ _ HG)) as HC.
    destruct (co_entry _ _ _ _ HC _ _ He) as (a & cr & Ha & _).
    assert (is_Some (g_map g a)) as Hs by eauto.
    apply (co_dom _ _ _ _ HC) in Hs as (cr' & _ & <-).
    exists (cr_type cr'). split; [exact Ha|]. rewrite <- (sg_map _ _ HG). exact Ha.
  Qed.

  Lemma base_same c o : c < g_n g -> o < g_n g -> is_base_of g' c o = is_base_of g c o.
  Proof.
    intros Hc Ho. destruct (class_type c Hc) as (x & X1 & X2). destruct (class_type o Ho) as (y & Y1 & Y2).
    unfold is_base_of. apply bool_decide_ext.
    rewrite (map_td E' R' g' (sg_ok' _ _ HG) _ _ _ _ Y2 X2).
    rewrite (map_td E R g (sg_ok _ _ HG) _ _ _ _ Y1 X1).
    symmetry. apply (run_derives _ _ _ _ _ _ _ HS).
  Qed.

  Lemma find_class_same t :
    orel2 RE samec (find_class E (g_map g) t) (find_class E' (g_map g') (rho t)).
  Proof.
    unfold find_class. rewrite <- (sg_map _ _ HG t). destruct (g_map g (ti t)) as [c|] eqn:Hc; simpl.
    - split; [reflexivity|]. eapply (map_lt E R g (sg_ok _ _ HG)); eauto.
    - constructor.
  Qed.

  Lemma find_classes_same ts : orel2 RE (Forall2 samec)
    (mapM (find_class E (g_map g)) ts) (mapM (find_class E' (g_map g')) (map rho ts)).
  Proof.
    eapply (mapM_rel2 RE (fun x y => y = rho x)).
    - induction ts; constructor; auto.
    - intros x y _ _ ->. apply find_class_same.
  Qed.

  Lemma augment_method_same m m' : same_method_record rho m m' ->
    orel2 RE same_cm (augment_method E (g_map g) m) (augment_method E' (g_map g') m').
  Proof.
    intros (Hvp & Hret & Hovs). unfold augment_method. rewrite Hvp.
    eapply orel2_bind; [apply find_classes_same|]. intros vp vp' _ _ Hv. cbv zeta.
    assert (Hcov : (if decide (ti (mr_return m) = ti (e_void E)) then None else g_map g (ti (mr_return m))) =
      (if decide (ti' (mr_return m') = ti' (e_void E')) then None else g_map g' (ti' (mr_return m')))).
    { rewrite Hret, <- (sg_map _ _ HG), <- (sp_void _ _ _ _ _ _ _ HS).
      destruct (decide (ti (mr_return m) = ti (e_void E))) as [H|H].
      - rewrite decide_True by (apply types_iff; exact H). reflexivity.
      - rewrite decide_False by (rewrite types_iff; exact H). reflexivity. }
    rewrite <- Hcov.
    set (cov := if decide (ti (mr_return m) = ti (e_void E)) then None else g_map g (ti (mr_return m))).
    eapply orel2_bind.
    - eapply (mapM_rel2 RE _ same_ov); [exact Hovs|]. intros o o' _ _ [Ho Hr]. unfold augment_overrider.
      rewrite Ho. eapply orel2_bind; [apply find_classes_same|]. intros ovp ovp' _ _ Hovp.
      eapply (orel2_bind _ (option_Forall2 samec)).
      + destruct cov as [c|]; [|constructor]. rewrite Hr.
        eapply orel2_bind; [apply find_class_same|]. intros x x' _ _ Hx. constructor. exact Hx.
      + intros oc oc' _ _ Hoc. simpl. split; assumption.
    - intros ovs ovs' _ _ Ho. simpl. split; assumption.
  Qed.

  Lemma check_base_same c p o o' : c < g_n g -> same_ov o o' ->
    orel2 RE eq (check_base g c p o) (check_base g' c p o').
  Proof.
    intros Hc [Hvp _]. apply samec_eq in Hvp as [Hvp Hlt]. unfold check_base, at_. rewrite Hvp.
    destruct (ov_vp o !! p) as [x|] eqn:Hx; [|exact I]. cbn [obind].
    assert (Hxn : x < g_n g) by (apply Hlt; eapply elem_of_list_lookup_2; eauto).
    case_decide as Hxc; [reflexivity|]. rewrite (base_same c x Hc Hxn).
    destruct (is_base_of g c x); [reflexivity|].
    assert (G : forall y, y < g_n g -> exists e e' t l l', g_classes g !! y = Some e /\ g_classes g' !! y = Some e' /\
      ce_type_ids e = t :: l /\ ce_type_ids e' = rho t :: l').
    { intros y Hy. destruct (lookup_lt_is_Some_2 (g_classes g) y Hy) as [e He].
      destruct (Forall2_lookup_l _ _ _ _ _ (sg_entries _ _ HG) He) as (e' & He' & Hs).
      destruct (co_entry _ _ _ _ (go_classes _ _ _ (sg_ok _ _ HG)) _ _ He) as (a & cr & _ & _ & _ & _ & Hh & _).
      unfold same_entry in Hs. rewrite Hh in Hs. simpl in Hs.
      destruct (ce_type_ids e) as [|t l] eqn:Ht; [discriminate|]. injection Hh as ->.
      destruct (ce_type_ids e') as [|t' l'] eqn:Ht'; [discriminate|]. injection Hs as ->.
      exists e, e', (cr_type cr), l, l'. auto. }
    destruct (G x Hxn) as (ex & ex' & tx & lx & lx' & H1 & H2 & H3 & H4).
    destruct (G c Hc) as (ec & ec' & tc & lc & lc' & H5 & H6 & H7 & H8).
    rewrite H1, H2. cbn [obind]. rewrite H5, H6. cbn [obind]. rewrite H3, H4, H7, H8. simpl. constructor.
  Qed.

  Lemma check_method_same i m m' u : same_cm m m' ->
    orel2 RE eq (check_method g (i, m) u) (check_method g' (i, m') u).
  Proof.
    intros [Hvp Hovs]. unfold check_method.
    eapply foldM_rel2; [apply (Forall2_imap_pair _ _ _ Hvp)|reflexivity|].
    intros [p c] [p' c'] v v' _ _ [Hp [Hc Hlt]] <-. simpl in *. subst p' c'. unfold check_param.
    eapply (orel2_bind _ eq).
    - eapply foldM_rel2; [exact Hovs|reflexivity|]. intros o o' s s' _ _ Ho _.
      apply check_base_same; assumption.
    - intros _ _ _ _ _. reflexivity.
  Qed.

  Lemma augment_methods_same :
    orel2 RE (fun r r' => Forall2 same_cm (fst r) (fst r') /\ snd r' = snd r)
      (augment_methods E g (reg_methods R)) (augment_methods E' g' (reg_methods R')).
  Proof.
    unfold augment_methods. eapply orel2_bind.
    - eapply mapM_rel2; [apply (sp_methods _ _ _ _ _ _ _ HS)|]. intros m m' _ _ Hm.
      apply augment_method_same. exact Hm.
    - intros ms ms' _ _ Hms. eapply (orel2_bind _ eq).
      + eapply foldM_rel2; [apply (Forall2_imap_pair _ _ _ Hms)|reflexivity|].
        intros [i m] [i' m'] u u' _ _ [Hi Hm] <-. simpl in *. subst i'. apply check_method_same. exact Hm.
      + intros u u' _ _ <-. simpl. auto.
  Qed.

  (* ---- the dispatch tables ---- *)
  Lemma more_specific_same a b r : (forall c, c ∈ a -> c < g_n g) -> (forall c, c ∈ b -> c < g_n g) ->
    more_specific_loop g' a b r = more_specific_loop g a b r.
  Proof.
    revert b r. induction a as [|x a IH]; intros [|y b] r Ha Hb; simpl; try reflexivity.
    assert (x < g_n g) by (apply Ha; left). assert (y < g_n g) by (apply Hb; left).
    rewrite !base_same by assumption.
    assert (Ha' : forall c, c ∈ a -> c < g_n g) by (intros c Hc; apply Ha; right; exact Hc).
    assert (Hb' : forall c, c ∈ b -> c < g_n g) by (intros c Hc; apply Hb; right; exact Hc).
    rewrite !IH by assumption. reflexivity.
  Qed.

  Lemma build_cell_same n2216 m m' mask : same_cm m m' ->
    build_cell g' n2216 m' mask = build_cell g n2216 m mask.
  Proof.
    intros [_ Hovs]. pose proof (Forall2_length _ _ _ Hovs) as Hlen. symmetry. apply build_cell_ext.
    - intros a b. unfold ms_at. destruct (m_ovs m !! a) as [oa|] eqn:Ha.
      2: { rewrite (lookup_ge_None_2 (m_ovs m') a); [reflexivity|]. apply lookup_ge_None in Ha. lia. }
      destruct (Forall2_lookup_l _ _ _ _ _ Hovs Ha) as (oa' & Ha' & Sa). rewrite Ha'.
      destruct (m_ovs m !! b) as [ob|] eqn:Hb.
      2: { rewrite (lookup_ge_None_2 (m_ovs m') b); [reflexivity|]. apply lookup_ge_None in Hb. lia. }
      destruct (Forall2_lookup_l _ _ _ _ _ Hovs Hb) as (ob' & Hb' & Sb). rewrite Hb'.
      destruct (samec_eq _ _ (so_vp _ _ Sa)) as [Ea La], (samec_eq _ _ (so_vp _ _ Sb)) as [Eb Lb].
      unfold is_more_specific. rewrite Ea, Eb. symmetry. apply more_specific_same; assumption.
    - intros a b. unfold covariant_base, at_. destruct (m_ovs m !! a) as [oa|] eqn:Ha.
      2: { rewrite (lookup_ge_None_2 (m_ovs m') a); [reflexivity|]. apply lookup_ge_None in Ha. lia. }
      destruct (Forall2_lookup_l _ _ _ _ _ Hovs Ha) as (oa' & Ha' & Sa). rewrite Ha'. cbn [obind].
      destruct (m_ovs m !! b) as [ob|] eqn:Hb.
      2: { rewrite (lookup_ge_None_2 (m_ovs m') b); [reflexivity|]. apply lookup_ge_None in Hb. lia. }
      destruct (Forall2_lookup_l _ _ _ _ _ Hovs Hb) as (ob' & Hb' & Sb). rewrite Hb'. cbn [obind].
      destruct (so_cov _ _ Sa) as [ra ra' [-> La]|]; [|reflexivity]. cbn [obind deref].
      destruct (so_cov _ _ Sb) as [rb rb' [-> Lb]|]; [|reflexivity].
      rewrite base_same by assumption. reflexivity.
    - exact Hlen.
    - intros i o o' Ho Ho'. pose proof (Forall2_lookup_lr _ _ _ _ _ _ Hovs Ho Ho') as [_ Hc].
      inversion Hc; split; congruence.
    - unfold mask_set. rewrite Hlen. reflexivity.
  Qed.

  Lemma mask_at_same m m' dim c : same_cm m m' -> c < g_n g -> mask_at g' m' dim c = mask_at g m dim c.
  Proof.
    intros [_ Hovs] Hc. unfold mask_at. induction Hovs as [|o o' l l' Ho _ IH]; simpl; [reflexivity|].
    f_equal; [|exact IH]. destruct (samec_eq _ _ (so_vp _ _ Ho)) as [-> Hlt].
    destruct (ov_vp o !! dim) as [v|] eqn:Hv; [|reflexivity]. apply base_same; [|exact Hc].
    apply Hlt. eapply elem_of_list_lookup_2; eauto.
  Qed.

  Lemma td_same vp c : vp < g_n g -> c ∈ g_td g vp <-> c ∈ g_td g' vp.
  Proof.
    intros Hvp. split; intros Hc.
    - assert (c < g_n g) by (eapply (td_lt E R g (sg_ok _ _ HG)); eauto).
      pose proof (base_same vp c Hvp H) as Hb. unfold is_base_of in Hb.
      rewrite (bool_decide_eq_true_2 (c ∈ g_td g vp)) in Hb by exact Hc.
      apply bool_decide_eq_true in Hb. exact Hb.
    - assert (c < g_n g).
      { rewrite <- same_n. eapply (td_lt E' R' g' (sg_ok' _ _ HG)); [exact Hc|]. rewrite same_n. exact Hvp. }
      pose proof (base_same vp c Hvp H) as Hb. unfold is_base_of in Hb.
      rewrite (bool_decide_eq_true_2 (c ∈ g_td g' vp)) in Hb by exact Hc.
      symmetry in Hb. apply bool_decide_eq_true in Hb. exact Hb.
  Qed.

  Lemma dim_groups_same m m' dim vp gm gm' :
    same_cm m m' -> vp < g_n g -> (forall o, o ∈ m_ovs m -> dim < length (ov_vp o)) ->
    dim_groups E g m dim vp = Ok gm -> dim_groups E' g' m' dim vp = Ok gm' -> keys gm' = keys gm.
  Proof.
    intros Hm Hvp Hdim Hgm Hgm'. pose proof (sm_ovs _ _ Hm) as Hovs.
    assert (Hdim' : forall o, o ∈ m_ovs m' -> dim < length (ov_vp o)).
    { intros o' Ho'. apply elem_of_list_lookup in Ho' as [i Hi].
      destruct (Forall2_lookup_r _ _ _ _ _ Hovs Hi) as (o & Ho & Hs).
      rewrite <- (Forall2_length _ _ _ (so_vp _ _ Hs)). apply Hdim. eapply elem_of_list_lookup_2; eauto. }
    apply sorted_same.
    - apply (dim_groups_sorted E' g' m' dim vp gm' Hdim' Hgm').
    - apply (dim_groups_sorted E g m dim vp gm Hdim Hgm).
    - destruct (dim_groups_ok E g HE m dim vp Hdim) as (x & Hx & X). replace x with gm in * by congruence.
      destruct (dim_groups_ok E' g' HE' m' dim vp Hdim') as (x' & Hx' & X'). replace x' with gm' in * by congruence.
      intros k. split; intros Hk; apply keys_elem in Hk as (gp & Hin).
      + destruct (gr_classes _ _ _ _ _ X' k gp Hin) as [Hne Hcl].
        destruct (gp_classes gp) as [|c cl]; [contradiction|].
        destruct (proj1 (Hcl c) ltac:(left)) as [Hc <-]. apply (td_same vp c Hvp) in Hc.
        rewrite (mask_at_same m m' dim c Hm) by (eapply (td_lt E R g (sg_ok _ _ HG)); eauto).
        apply (gr_mask _ _ _ _ _ X). exact Hc.
      + destruct (gr_classes _ _ _ _ _ X k gp Hin) as [Hne Hcl].
        destruct (gp_classes gp) as [|c cl]; [contradiction|].
        destruct (proj1 (Hcl c) ltac:(left)) as [Hc <-].
        rewrite <- (mask_at_same m m' dim c Hm) by (eapply (td_lt E R g (sg_ok _ _ HG)); eauto).
        apply (gr_mask _ _ _ _ _ X'). apply (td_same vp c Hvp). exact Hc.
  Qed.

  Lemma build_table_same n2216 m m' gs gs' mask : same_cm m m' ->
    Forall2 (fun a b : group_map => keys b = keys a) gs gs' ->
    build_dispatch_table g' n2216 m' gs' mask = build_dispatch_table g n2216 m gs mask.
  Proof.
    intros Hm Hgs. 
    assert (G : build_rest g' n2216 m' gs' mask = build_rest g n2216 m gs mask).
    { revert mask. induction Hgs as [|gm gm' gs gs' Hk Hgs IH]; intros mask.
      - unfold build_rest. rewrite (build_cell_same n2216 m m' mask Hm). reflexivity.
      - change (build_dispatch_table g' n2216 m' (gm' :: gs') mask =
                build_dispatch_table g n2216 m (gm :: gs) mask).
        rewrite !build_cons.
        assert (F : forall (a b : group_map) s, keys b = keys a ->
          foldM (fun (kg : bitset * group) cells =>
            let* cs := build_rest g' n2216 m' gs' (zip_with andb mask (fst kg)) in Ok (cells ++ cs)) b s =
          foldM (fun (kg : bitset * group) cells =>
            let* cs := build_rest g n2216 m gs (zip_with andb mask (fst kg)) in Ok (cells ++ cs)) a s).
        { induction a as [|[k gp] a IHa]; intros [|[k' gp'] b] s Hab; try discriminate; [reflexivity|].
          injection Hab as -> Hab. simpl. rewrite IH.
          destruct (build_rest g n2216 m gs (zip_with andb mask k)); simpl; auto. }
        apply F. exact Hk. }
    destruct Hgs as [|gm gm' gs gs' Hk Hgs]; [reflexivity|exact G].
  Qed.

  Lemma build_tables_same n2216 ms ms' s s' :
    Forall2 same_cm ms ms' ->
    (forall m, m ∈ ms -> forall o, o ∈ m_ovs m -> length (ov_vp o) = length (m_vp m)) ->
    (forall mi m dim vp c, ms !! mi = Some m -> m_vp m !! dim = Some vp -> c ∈ g_td g vp ->
       s_first s c <= s_slots s mi dim < s_first s c + length (s_vtbl s c)) ->
    (forall mi m dim vp c, ms' !! mi = Some m -> m_vp m !! dim = Some vp -> c ∈ g_td g' vp ->
       s_first s' c <= s_slots s' mi dim < s_first s' c + length (s_vtbl s' c)) ->
    orel2 RE (fun T T' => tb_tables T' = tb_tables T /\ tb_report T' = tb_report T)
      (build_dispatch_tables E g n2216 ms s) (build_dispatch_tables E' g' n2216 ms' s').
  Proof.
    intros Hms Ha Hr Hr'. unfold build_dispatch_tables.
    eapply (orel2_bind _ (fun a b => fst b = fst a /\
      (forall c, length (snd a c) = length (s_vtbl s c)) /\ forall c, length (snd b c) = length (s_vtbl s' c))).
    - eapply foldM_rel2; [apply (Forall2_imap_pair _ _ _ Hms)|simpl; auto|].
      intros [i m] [i' m'] [ts vt] [ts' vt'] Hin Hin' [Hi Hm] (Hts & Hl & Hl'). simpl in *. subst i' ts'.
      apply elem_of_imap_pair in Hin, Hin'.
      assert (Hao : forall o, o ∈ m_ovs m -> length (ov_vp o) = length (m_vp m)).
      { apply Ha. eapply elem_of_list_lookup_2; eauto. }
      destruct (samec_eq _ _ (sm_vp _ _ Hm)) as [Hvp Hlt].
      assert (Hao' : forall o, o ∈ m_ovs m' -> length (ov_vp o) = length (m_vp m')).
      { intros o' Ho'. apply elem_of_list_lookup in Ho' as [j Hj].
        destruct (Forall2_lookup_r _ _ _ _ _ (sm_ovs _ _ Hm) Hj) as (o & Ho & Hs).
        rewrite <- (Forall2_length _ _ _ (so_vp _ _ Hs)), Hvp. apply Hao. eapply elem_of_list_lookup_2; eauto. }
      destruct (method_groups E g s i m vt HE Hao (fun d v c => Hr i m d v c Hin) Hl)
        as (gs & vt1 & H1 & H2 & H3 & H4).
      destruct (method_groups E' g' s' i m' vt' HE' Hao' (fun d v c => Hr' i m' d v c Hin') Hl')
        as (gs' & vt1' & H1' & H2' & H3' & H4').
      unfold build_method. rewrite H1, H1'. cbn [obind]. rewrite H3, H3'. cbn [obind].
      assert (Hk : Forall2 (fun a b : group_map => keys b = keys a) gs gs').
      { rewrite Hvp in H2'. apply Forall2_same_length_lookup_2.
        { rewrite <- (Forall2_length _ _ _ H2). apply (Forall2_length _ _ _ H2'). }
        intros d gm gm' Hd Hd'. destruct (Forall2_lookup_r _ _ _ _ _ H2 Hd) as ([d1 v] & Hv & Hg).
        destruct (Forall2_lookup_r _ _ _ _ _ H2' Hd') as ([d2 v'] & Hv' & Hg').
        rewrite Hv in Hv'. injection Hv' as <- <-. simpl in *.
        assert (Hin2 : (d1, v) ∈ imap pair (m_vp m)) by (eapply elem_of_list_lookup_2; eauto).
        apply elem_of_imap_pair in Hin2.
        apply (dim_groups_same m m' d1 v gm gm' Hm); [|  |exact Hg|exact Hg'].
        - apply Hlt. eapply elem_of_list_lookup_2; eauto.
        - intros o Ho. rewrite (Hao o Ho). eapply lookup_lt_Some; eauto. }
      assert (Hlens : map length gs' = map length gs).
      { clear -Hk. induction Hk as [|a b l l' Hab _ IH]; simpl; [reflexivity|]. rewrite IH. f_equal.
        apply (f_equal length) in Hab. rewrite !map_length in Hab. exact Hab. }
      rewrite (build_table_same n2216 m m' (rev gs) (rev gs') _ Hm).
      2: { apply Forall2_rev'. exact Hk. }
      rewrite <- (Forall2_length _ _ _ (sm_ovs _ _ Hm)).
      destruct (build_dispatch_table g n2216 m (rev gs) (repeat true (length (m_ovs m)))) as [cells|e| |] eqn:Hb;
        simpl; try exact I.
      + rewrite Hlens, Hvp. auto.
      + exfalso. pose proof (build_table_noerr g n2216 m (rev gs) (repeat true (length (m_ovs m)))) as H.
        rewrite Hb in H. exact H.
    - intros [ts vt] [ts' vt'] _ _ (Hts & _ & _). simpl in *. subst ts'. auto.
  Qed.
  End Graph.

  Record same_compiled (cp cp' : compiled) : Prop := {
    sc_tables : tb_tables (cp_tables cp') = tb_tables (cp_tables cp);
    sc_report : tb_report (cp_tables cp') = tb_report (cp_tables cp)
  }.

  Lemma compile_same n2216 : orel2 RE same_compiled (compile E n2216 R) (compile E' n2216 R').
  Proof.
    unfold compile. eapply orel2_bind; [apply augment_classes_same|]. intros g g' Hg Hg' HG.
    eapply orel2_bind; [apply augment_methods_same; exact HG|].
    intros [ms u] [ms' u'] Hms Hms' [Hcm Hu]. simpl in Hcm, Hu. subst u'.
    destruct (augment_methods_ok _ _ _ _ _ Hms) as (H1 & H2 & H3).
    destruct (augment_methods_ok _ _ _ _ _ Hms') as (H1' & H2' & H3').
    destruct (assign_slots_ok E R g ms u HE (sg_ok _ _ HG) H3) as (s & Hs & Hsok).
    destruct (assign_slots_ok E' R' g' ms' u HE' (sg_ok' _ _ HG) H3') as (s' & Hs' & Hsok').
    rewrite Hs, Hs'. cbn [obind]. eapply orel2_bind.
    - apply (build_tables_same g g' HG n2216 ms ms' s s' Hcm).
      + intros m Hm o Ho. apply elem_of_list_lookup in Hm as [i Hi].
        destruct (Forall2_lookup_r _ _ _ _ _ H1 Hi) as (mr & Hmr & Hok).
        apply elem_of_list_lookup_2 in Hmr. destruct (Har mr Hmr) as [_ Hl].
        apply (ovs_arity E g mr m Hok Hl o Ho).
      + intros mi m d vp c Hm Hd Hc. eapply (slot_range E R g ms u s); eauto. apply (sg_ok _ _ HG).
      + intros mi m d vp c Hm Hd Hc. eapply (slot_range E' R' g' ms' u s'); eauto. apply (sg_ok' _ _ HG).
    - intros T T' _ _ [HT1 HT2]. simpl. split; simpl; assumption.
  Qed.
End Compile.

(* ---- initialize ---- *)
Lemma target_pf_sel E g mr m tg f :
  method_ok E g mr m -> target_pf m tg = Ok f -> selected_fn mr (sel_of tg) = Some f.
Proof.
  intros HM H. destruct (target_fn E g mr m HM tg) as (f' & Hf' & Hs); [|congruence].
  destruct tg as [| |i]; auto. simpl in H. apply obind_ok in H as (o & Ho & _). apply at_ok in Ho.
  apply lookup_lt_Some in Ho. rewrite (Forall2_length _ _ _ (mo_ovs _ _ _ _ HM)). exact Ho.
Qed.

Lemma call_next_sel w mid m loc sel f args :
  functions_ok m -> selected_fn m sel = Some f -> w_next w loc = Some f ->
  behaves m sel (call_next w mid m loc args).
Proof.
  intros [Hne Hov] Hf Hn. unfold call_next. rewrite Hn. simpl. destruct sel as [| |j]; simpl in Hf.
  - injection Hf as <-. rewrite decide_True by reflexivity. constructor.
  - injection Hf as <-. rewrite decide_False by congruence. rewrite decide_True by reflexivity. constructor.
  - destruct (mr_overriders m !! j) as [oj|] eqn:Hj; [|discriminate]. injection Hf as <-.
    destruct (Hov oj (elem_of_list_lookup_2 _ _ _ Hj)).
    rewrite !decide_False by assumption. constructor. exact Hj.
Qed.

Lemma has_next_sel w m loc sel f :
  functions_ok m -> selected_fn m sel = Some f -> w_next w loc = Some f ->
  has_next w m loc = match sel with SOverrider _ => true | _ => false end.
Proof.
  intros [Hne Hov] Hf Hn. unfold has_next. rewrite Hn. destruct sel as [| |j]; simpl in Hf.
  - injection Hf as <-. rewrite bool_decide_true by reflexivity. reflexivity.
  - injection Hf as <-. rewrite bool_decide_false by congruence. rewrite bool_decide_true by reflexivity. reflexivity.
  - destruct (mr_overriders m !! j) as [oj|] eqn:Hj; [|discriminate]. injection Hf as <-.
    destruct (Hov oj (elem_of_list_lookup_2 _ _ _ Hj)). rewrite !bool_decide_false by congruence. reflexivity.
Qed.

Section Initialize.
  Context (cf cf' : config) (X X' : run) (rho : N -> N) (R R' : registrations) (w0 w0' : world).
  Notation ti := (e_ti (r_env X)).
  Notation ti' := (e_ti (r_env X')).
  Context (HS : same_program ti ti' (e_void (r_env X)) (e_void (r_env X')) rho R R').
  Context (HP : program_ok cf (r_env X) R) (HP' : program_ok cf' (r_env X') R').
  Context (Hw : world_ok w0) (Hw' : world_ok w0').

  Theorem initialize_same n2216 :
    (n2216 = true -> untangled ti (e_void (r_env X)) R) ->
    same_result rho (snd (initialize cf X n2216 R w0)) (snd (initialize cf' X' n2216 R' w0')).
  Proof.
    intros Hu. pose proof HP as [HE Hac Har Hids Hn HA]. pose proof HP' as [HE' Hac' Har' Hids' Hn' HA'].
    pose proof (compile_same _ _ rho R R' HE Hac Har HE' Hac' HS n2216) as Hc.
    assert (Hgood : good (compile_error (r_env X) R) (compile (r_env X) n2216 R)).
    { pose proof (compile_good (r_env X) R HE Hac Har) as Hf. destruct n2216; [|exact Hf].
      pose proof (compile_n2216 (r_env X) R HE Hac Har (Hu eq_refl)) as H2.
      destruct (compile (r_env X) false R) as [cp|e| |], (compile (r_env X) true R) as [cp'|e'| |];
        simpl in *; try contradiction; try exact I. subst. exact Hf. }
    destruct (compile (r_env X) n2216 R) as [cp|e| |] eqn:Hcp; try contradiction.
    - destruct (compile (r_env X') n2216 R') as [cp'|e'| |] eqn:Hcp'; try contradiction.
      destruct Hc as [_ Hr].
      destruct (initialize_cases cf X n2216 R w0 HE Hac Har cp Hcp Hids Hn Hw)
        as [(w1 & -> & _)|(_ & _ & w1 & M & -> & _)];
      destruct (initialize_cases cf' X' n2216 R' w0' HE' Hac' Har' cp' Hcp' Hids' Hn' Hw')
        as [(w1' & -> & _)|(_ & _ & w1' & M' & -> & _)]; simpl.
      + rewrite Hr. constructor.
      + apply same_search; unfold search_failed; eauto.
      + apply same_search; unfold search_failed; eauto.
      + apply same_search; unfold search_failed; eauto.
    - destruct (compile (r_env X') n2216 R') as [cp'|e'| |] eqn:Hcp'; try contradiction.
      unfold initialize, install. rewrite Hcp, Hcp'. simpl. apply same_failure. exact Hc.
  Qed.

  Context (w w' : world) (rep rep' : method_report) (n2216 : bool).
  Context (Hi : initialize cf X n2216 R w0 = (w, Ok rep)).
  Context (Hi' : initialize cf' X' n2216 R' w0' = (w', Ok rep')).

  (* The next pointers designate corresponding functions. *)
  Lemma next_same k m m' i o o' :
    reg_methods R !! k = Some m -> reg_methods R' !! k = Some m' ->
    mr_overriders m !! i = Some o -> mr_overriders m' !! i = Some o' ->
    (w_next w (or_next o) = w_next w0 (or_next o) /\ w_next w' (or_next o') = w_next w0' (or_next o')) \/
    exists sel f f', selected_fn m sel = Some f /\ w_next w (or_next o) = Some f /\
      selected_fn m' sel = Some f' /\ w_next w' (or_next o') = Some f'.
  Proof.
    intros Hk Hk' Ho Ho'. pose proof HP as [HE Hac Har Hids Hn HA]. pose proof HP' as [HE' Hac' Har' Hids' Hn' HA'].
    destruct (initialize_ok_inv cf X n2216 R w0 HE Hac Har w rep Hids Hn Hw Hi) as (cp & Hcp & _ & HI & _).
    destruct (initialize_ok_inv cf' X' n2216 R' w0' HE' Hac' Har' w' rep' Hids' Hn' Hw' Hi') as (cp' & Hcp' & _ & HI' & _).
    pose proof (compile_same _ _ rho R R' HE Hac Har HE' Hac' HS n2216) as Hc. rewrite Hcp, Hcp' in Hc.
    destruct Hc as [Ht _].
    destruct (has_table_exists _ R HE Hac Har n2216 cp Hcp k m Hk) as (c & gs & t & HT).
    destruct (has_table_exists _ R' HE' Hac' Har' n2216 cp' Hcp' k m' Hk') as (c' & gs' & t' & HT').
    assert (t' = t) as ->.
    { pose proof (ht_table _ _ _ _ _ _ _ _ _ HT) as H1. pose proof (ht_table _ _ _ _ _ _ _ _ _ HT') as H2.
      rewrite Ht in H2. congruence. }
    pose proof (ht_ok _ _ _ _ _ _ _ _ _ HT) as Hm. pose proof (ht_ok _ _ _ _ _ _ _ _ _ HT') as Hm'.
    destruct (in_written _ _ _ _ HI) as (buf & wr & gvt & Hok & _ & _ & _ & _ & Hwn).
    destruct (in_written _ _ _ _ HI') as (buf' & wr' & gvt' & Hok' & _ & _ & _ & _ & Hwn').
    destruct (Forall2_lookup_l _ _ _ _ _ (mo_ovs _ _ _ _ Hm) Ho) as (x & Hx & Hook).
    destruct (Forall2_lookup_l _ _ _ _ _ (mo_ovs _ _ _ _ Hm') Ho') as (x' & Hx' & Hook').
    assert (Hmt : zip (cp_methods cp) (tb_tables (cp_tables cp)) !! k = Some (c, t)).
    { apply mts_lookup. split; [apply (ht_method _ _ _ _ _ _ _ _ _ HT)|apply (ht_table _ _ _ _ _ _ _ _ _ HT)]. }
    assert (Hmt' : zip (cp_methods cp') (tb_tables (cp_tables cp')) !! k = Some (c', t)).
    { apply mts_lookup. split; [apply (ht_method _ _ _ _ _ _ _ _ _ HT')|apply (ht_table _ _ _ _ _ _ _ _ _ HT')]. }
    pose proof (wr_next_ok _ _ _ _ _ Hok (next_nodup _ R HE Hac n2216 cp Hcp HA) k c t i x Hmt Hx) as H1.
    pose proof (wr_next_ok _ _ _ _ _ Hok' (next_nodup _ R' HE' Hac' n2216 cp' Hcp' HA') k c' t i x' Hmt' Hx') as H2.
    rewrite Hwn, Hwn', <- (oo_next _ _ _ _ Hook), <- (oo_next _ _ _ _ Hook').
    destruct (final_next (t_cells t) i) as [tg|]; [|left; auto].
    destruct H1 as (f & F1 & F2), H2 as (f' & F1' & F2'). right.
    exists (sel_of tg), f, f'.
    split; [exact (target_pf_sel _ _ _ _ _ _ Hm F1)|]. split; [exact F2|].
    split; [exact (target_pf_sel _ _ _ _ _ _ Hm' F1')|exact F2'].
  Qed.

  (* Calls through next do the same, and has_next returns the same. *)
  Theorem next_same_behaviour k m m' i o o' mid mid' args args' :
    reg_methods R !! k = Some m -> reg_methods R' !! k = Some m' ->
    mr_overriders m !! i = Some o -> mr_overriders m' !! i = Some o' ->
    functions_ok m -> functions_ok m' ->
    w_next w0 (or_next o) = None -> w_next w0' (or_next o') = None ->
    has_next w' m' (or_next o') = has_next w m (or_next o) /\
    ((exists sel, behaves m sel (call_next w mid m (or_next o) args) /\
        behaves m' sel (call_next w' mid' m' (or_next o') args')) \/
     (call_next w mid m (or_next o) args = Undef /\ call_next w' mid' m' (or_next o') args' = Undef)).
  Proof.
    intros Hk Hk' Ho Ho' Hf Hf' Hn Hn'.
    destruct (next_same k m m' i o o' Hk Hk' Ho Ho') as [[H1 H2]|(sel & f & f' & S1 & N1 & S2 & N2)].
    - rewrite Hn in H1. rewrite Hn' in H2. split.
      + unfold has_next. rewrite H1, H2. reflexivity.
      + right. unfold call_next. rewrite H1, H2. auto.
    - split.
      + rewrite (has_next_sel w m _ sel f Hf S1 N1), (has_next_sel w' m' _ sel f' Hf' S2 N2). reflexivity.
      + left. exists sel. split; eapply call_next_sel; eauto.
  Qed.
End Initialize.
