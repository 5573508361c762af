(* vptr policies: after initialization every registered type id leads to the
   v-table pointer of its class. *)
From stdpp Require Import base list numbers list_numbers relations.
From Verif Require Import Base Registry Spec ModelClasses ModelMethods ModelSlots ModelTables
  ModelHash ModelWorld ModelCall SpecCall
  ProofBase ProofClasses ProofGraph ProofMethods ProofBits ProofSlots ProofSelect ProofTables
  ProofCompile ProofErrors ProofEntries ProofWrite ProofHash.

(* The (class, type id) pairs, in the order in which the policies see them. *)
Definition class_ids (g : graph) : list (class_entry * N) :=
  flat_map (fun e => map (pair e) (ce_type_ids e)) (g_classes g).

Lemma class_ids_elem g e t : (e, t) ∈ class_ids g <-> e ∈ g_classes g /\ t ∈ ce_type_ids e.
Proof.
  unfold class_ids. rewrite elem_of_list_In, in_flat_map. split.
  - intros (e' & H1 & H2). apply in_map_iff in H2 as (t' & [= -> ->] & H2).
    rewrite !elem_of_list_In. auto.
  - rewrite !elem_of_list_In. intros [H1 H2]. exists e. split; [exact H1|].
    apply in_map_iff. eauto.
Qed.

Lemma class_ids_snd g : map snd (class_ids g) = all_type_ids g.
Proof.
  unfold class_ids, all_type_ids. induction (g_classes g) as [|e l IH]; [reflexivity|].
  simpl. rewrite map_app, IH, map_map. simpl. rewrite map_id. reflexivity.
Qed.

Lemma all_type_ids_elem g t :
  t ∈ all_type_ids g <-> exists e, e ∈ g_classes g /\ t ∈ ce_type_ids e.
Proof.
  rewrite <- class_ids_snd. change (map snd ?l) with (snd <$> l). rewrite elem_of_list_fmap. split.
  - intros ([e t'] & -> & H). apply class_ids_elem in H. eauto.
  - intros (e & H). exists (e, t). split; [reflexivity|]. apply class_ids_elem. exact H.
Qed.

Section Ids.
  Context (ti : N -> N) (R : registrations) (g : graph).
  Context (HC : classes_ok ti (reg_classes R) (g_classes g) (g_map g)).

  Lemma all_type_ids_nodup : NoDup (all_type_ids g).
  Proof.
    unfold all_type_ids.
    assert (G : forall l off, (forall i e, l !! i = Some e -> g_classes g !! (off + i) = Some e) ->
              NoDup (flat_map ce_type_ids l)).
    { induction l as [|e l IH]; intros off Hl; simpl; [constructor|].
      apply NoDup_app.
      assert (He : g_classes g !! off = Some e).
      { rewrite <- (Nat.add_0_r off). apply Hl. reflexivity. }
      destruct (co_entry _ _ _ _ HC _ _ He) as (a & cr & Ha & _ & _ & _ & _ & Hnd & Hids).
      split; [exact Hnd|]. split.
      - intros t Ht Ht2. apply Hids in Ht as (_ & _ & _ & Hta).
        apply elem_of_list_In, in_flat_map in Ht2 as (e2 & H1 & H2).
        apply elem_of_list_In, elem_of_list_lookup in H1 as [j Hj].
        assert (He2 : g_classes g !! (off + S j) = Some e2) by (apply Hl; exact Hj).
        destruct (co_entry _ _ _ _ HC _ _ He2) as (a2 & cr2 & Ha2 & _ & _ & _ & _ & _ & Hids2).
        apply elem_of_list_In, Hids2 in H2 as (_ & _ & _ & Hta2).
        assert (off = off + S j) by congruence. lia.
      - apply (IH (S off)). intros i e2 Hi. replace (S off + i) with (off + S i) by lia.
        apply Hl. exact Hi. }
    apply (G _ 0). intros i e H. exact H.
  Qed.

  (* The type ids of the registrations. *)
  Lemma type_id_class t cr :
    cr ∈ reg_classes R -> cr_type cr = t ->
    exists c e, g_map g (ti t) = Some c /\ g_classes g !! c = Some e /\ t ∈ ce_type_ids e.
  Proof.
    intros Hcr Ht.
    assert (is_Some (g_map g (ti t))) as [c Hc].
    { apply (co_dom _ _ _ _ HC). exists cr. subst t. auto. }
    destruct (lookup_lt_is_Some_2 (g_classes g) c) as [e He]; [apply (co_lt _ _ _ _ HC _ _ Hc)|].
    exists c, e. split; [exact Hc|]. split; [exact He|].
    destruct (co_entry _ _ _ _ HC _ _ He) as (a & cr' & Ha & _ & _ & _ & _ & _ & Hids).
    apply Hids. exists cr. split; [exact Hcr|]. split; [exact Ht|].
    apply (co_inj _ _ _ _ HC _ _ _ Hc Ha).
  Qed.

  Lemma type_id_elem t : t ∈ all_type_ids g <-> t ∈ map cr_type (reg_classes R).
  Proof.
    rewrite all_type_ids_elem. change (map ?f ?l) with (f <$> l). rewrite elem_of_list_fmap. split.
    - intros (e & He & Ht). apply elem_of_list_lookup in He as [c Hc].
      destruct (co_entry _ _ _ _ HC _ _ Hc) as (a & cr' & Ha & _ & _ & _ & _ & _ & Hids).
      apply (proj1 (Hids t)) in Ht. destruct Ht as (cr & H1 & H2 & _). exists cr. auto.
    - intros (cr & Ht & Hcr). destruct (type_id_class t cr Hcr (eq_sym Ht)) as (c & e & _ & He & Hin).
      exists e. split; [|exact Hin]. eapply elem_of_list_lookup_2; eauto.
  Qed.
End Ids.

(* ---- vptr_vector ---- *)

Lemma store_classes cf stat h g v :
  foldM (store_class cf stat h) (g_classes g) v =
  foldM (fun et => store_vptr cf stat h (fst et) (snd et)) (class_ids g) v.
Proof.
  unfold class_ids. rewrite foldM_flat_map. apply foldM_ext. intros e v' _.
  unfold store_class. rewrite foldM_map. reflexivity.
Qed.

(* What the containers hold for a (class, type id) pair. *)
Definition stored (cf : config) (stat : nat -> vptr) (i : nat) (e : class_entry)
    (v : list vptr * list (option nat)) : Prop :=
  if cf_indirect cf then snd v !! i = Some (Some (ce_static_vptr e))
  else fst v !! i = Some (stat (ce_static_vptr e)).

Definition max_index (cf : config) (v : list vptr * list (option nat)) : nat :=
  if cf_indirect cf then length (snd v) else length (fst v).

Lemma store_list cf stat h (ix : N -> nat) (l : list (class_entry * N)) v :
  (forall e t, (e, t) ∈ l -> exists i, vector_index cf h t = Ok i /\ N.to_nat i = ix t /\
     ix t < max_index cf v) ->
  (forall e1 t1 e2 t2, (e1, t1) ∈ l -> (e2, t2) ∈ l -> ix t1 = ix t2 -> t1 = t2) ->
  NoDup (map snd l) ->
  exists v', foldM (fun et => store_vptr cf stat h (fst et) (snd et)) l v = Ok v' /\
    max_index cf v' = max_index cf v /\
    (forall e t, (e, t) ∈ l -> stored cf stat (ix t) e v') /\
    (if cf_indirect cf then fst v' = fst v else snd v' = snd v) /\
    (forall i, i ∉ map (fun et => ix (snd et)) l -> fst v' !! i = fst v !! i /\ snd v' !! i = snd v !! i).
Proof.
  intros Hix Hinj Hnd.
  assert (Hinj' : forall e t, (e, t) ∈ l -> forall l1 l2, l = l1 ++ (e, t) :: l2 ->
            ix t ∉ map (fun et : class_entry * N => ix (snd et)) l1).
  { intros e t Het l1 l2 Hl Hin. change (map ?f ?l) with (f <$> l) in Hin.
    apply elem_of_list_fmap in Hin as ([e' t'] & Heq & Hin). simpl in Heq.
    assert (H' : (e', t') ∈ l) by (rewrite Hl; apply elem_of_app; auto).
    rewrite (Hinj _ _ _ _ Het H' Heq) in Hl. rewrite Hl in Hnd. rewrite map_app in Hnd. simpl in Hnd.
    apply NoDup_app in Hnd as (_ & Hd & _). apply (Hd t'); [|left].
    apply elem_of_list_fmap. exists (e', t'). auto. }
  destruct (foldM_inv_prefix (fun pre v' => max_index cf v' = max_index cf v /\
    (forall e t, (e, t) ∈ pre -> stored cf stat (ix t) e v') /\
    (if cf_indirect cf then fst v' = fst v else snd v' = snd v) /\
    (forall i, i ∉ map (fun et => ix (snd et)) pre -> fst v' !! i = fst v !! i /\ snd v' !! i = snd v !! i))
    (fun et => store_vptr cf stat h (fst et) (snd et)) l v) as (v' & Hok & H1 & H2 & H3 & H4).
  - split; [reflexivity|]. split; [intros e t H; inversion H|].
    split; [destruct (cf_indirect cf); reflexivity|auto].
  - intros l1 [e t] l2 [vec ivec] Hl (I1 & I2 & I3 & I4).
    assert (Hin : (e, t) ∈ l) by (rewrite Hl; apply elem_of_app; right; left).
    destruct (Hix e t Hin) as (i & Hi & Hix' & Hlt). pose proof (Hinj' e t Hin l1 l2 Hl) as Hnew.
    rewrite <- I1 in Hlt. simpl. rewrite Hi. cbn [obind]. rewrite Hix'.
    unfold max_index, stored in *. simpl in *.
    destruct (cf_indirect cf); simpl in *.
    + rewrite decide_True by exact Hlt. eexists. split; [reflexivity|]. simpl.
      rewrite insert_length. split; [exact I1|]. split.
      * intros e' t' [Hin'|Hin']%elem_of_app.
        -- rewrite list_lookup_insert_ne; [apply I2; exact Hin'|]. intros Heq. apply Hnew.
           rewrite Heq. apply elem_of_list_fmap. exists (e', t'). auto.
        -- apply elem_of_list_singleton in Hin' as [= -> ->]. apply list_lookup_insert. exact Hlt.
      * split; [exact I3|]. intros k Hk. rewrite map_app, not_elem_of_app in Hk. destruct Hk as [Hk1 Hk2].
        destruct (I4 k Hk1) as [J1 J2]. split; [exact J1|].
        rewrite list_lookup_insert_ne; [exact J2|]. intros <-. apply Hk2. left.
    + rewrite decide_True by exact Hlt. eexists. split; [reflexivity|]. simpl.
      rewrite insert_length. split; [exact I1|]. split.
      * intros e' t' [Hin'|Hin']%elem_of_app.
        -- rewrite list_lookup_insert_ne; [apply I2; exact Hin'|]. intros Heq. apply Hnew.
           rewrite Heq. apply elem_of_list_fmap. exists (e', t'). auto.
        -- apply elem_of_list_singleton in Hin' as [= -> ->]. apply list_lookup_insert. exact Hlt.
      * split; [exact I3|]. intros k Hk. rewrite map_app, not_elem_of_app in Hk. destruct Hk as [Hk1 Hk2].
        destruct (I4 k Hk1) as [J1 J2]. split; [|exact J2].
        rewrite list_lookup_insert_ne; [exact J1|]. intros <-. apply Hk2. left.
  - exists v'. auto.
Qed.

Lemma foldl_max_ge l a : (a <= foldl N.max a l)%N /\ forall x, x ∈ l -> (x <= foldl N.max a l)%N.
Proof.
  revert a. induction l as [|y l IH]; intros a; simpl.
  - split; [lia|]. intros x H. inversion H.
  - destruct (IH (N.max a y)) as [H1 H2]. split; [lia|].
    intros x [->|Hx]%elem_of_cons; [lia|auto].
Qed.

Lemma foldl_max_elem l a : foldl N.max a l = a \/ foldl N.max a l ∈ l.
Proof.
  revert a. induction l as [|y l IH]; intros a; simpl; [auto|].
  destruct (IH (N.max a y)) as [H|H]; [|right; right; exact H].
  rewrite H. destruct (N.max_spec a y) as [[_ ->]|[_ ->]]; [right; left|auto].
Qed.

(* After vptr_vector::initialize. *)
Record vector_ready (cf : config) (g : graph) (stat : nat -> vptr) (h : hash_state)
    (v : list vptr * list (option nat)) : Prop := {
  vr_found : forall e t, e ∈ g_classes g -> t ∈ ce_type_ids e ->
    exists i, vector_index cf h t = Ok i /\ stored cf stat (N.to_nat i) e v;
  vr_control : cf_hash cf = true -> exists control,
    hash_ok (all_type_ids g) h control /\ (cf_checks cf = true -> h_control h = control);
  vr_size : cf_hash cf = true -> N.to_nat (h_max h) < max_index cf v;
  vr_size_nohash : cf_hash cf = false ->
    max_index cf v = N.to_nat (foldl N.max 0%N (all_type_ids g) + 1)
}.

Lemma vector_initialize_cases ti R cf rnd g stat w :
  classes_ok ti (reg_classes R) (g_classes g) (g_map g) ->
  ids_ok R -> hash_size_ok cf (g_n g) ->
  (exists h v, vector_initialize cf rnd g stat w = Ok (h, inl v) /\ vector_ready cf g stat h v) \/
  (cf_hash cf = true /\ exists h, vector_initialize cf rnd g stat w =
     Ok (h, inr (ESearch 400000 (2 ^ (initial_M (N.of_nat (g_n g)) + 4))))).
Proof.
  intros HC Hids Hn.
  assert (Hlt : forall t, t ∈ all_type_ids g -> (t < uintptr_max)%N).
  { intros t Ht. apply (type_id_elem ti R g HC) in Ht.
    apply elem_of_list_fmap in Ht as (cr & -> & Hcr). apply Hids. exact Hcr. }
  assert (Hmax : uintptr_max ∉ all_type_ids g) by (intros H; apply Hlt in H; lia).
  assert (Hel : forall e t, (e, t) ∈ class_ids g -> t ∈ all_type_ids g).
  { intros e t H. apply all_type_ids_elem. exists e. apply class_ids_elem. exact H. }
  assert (Hnd : NoDup (map snd (class_ids g))).
  { rewrite class_ids_snd. eapply all_type_ids_nodup; eauto. }
  unfold vector_initialize.
  destruct (cf_hash cf) eqn:Hh.
  - destruct (hash_initialize_cases rnd (cf_checks cf) (N.of_nat (g_n g)) (all_type_ids g) (w_hash w) Hmax (Hn Hh))
      as [(h & control & Hok & Ho & Hc)|(h & Hok)]; rewrite Hok; cbn [obind]; cbv beta iota zeta.
    2:{ right. split; [reflexivity|]. exists h. reflexivity. }
    left. rewrite store_classes.
    assert (Hsz : ((h_max h + 1) mod word_size = h_max h + 1)%N).
    { apply N.mod_small. pose proof (ho_small _ _ _ Ho).
      assert (2 ^ 30 + 1 < word_size)%N by reflexivity. lia. }
    rewrite Hsz.
    set (v0 := (if cf_indirect cf then w_vec w else resize (N.to_nat (h_max h + 1)) VNull (w_vec w),
                if cf_indirect cf then resize (N.to_nat (h_max h + 1)) None (w_ivec w) else w_ivec w)).
    assert (Hm : max_index cf v0 = N.to_nat (h_max h + 1)).
    { unfold max_index, v0. destruct (cf_indirect cf); simpl; apply resize_length. }
    destruct (store_list cf stat h (fun t => N.to_nat (hash_index (h_mult h) (h_shift h) t))
                (class_ids g) v0) as (v & Hv & V1 & V2 & _ & _).
    + intros e t Het. exists (hash_index (h_mult h) (h_shift h) t).
      split; [unfold vector_index; rewrite Hh; eapply hash_type_ok; eauto|].
      split; [reflexivity|]. rewrite Hm. pose proof (ho_perfect _ _ _ Ho t (Hel _ _ Het)) as [? _]. lia.
    + intros e1 t1 e2 t2 H1 H2 Heq. apply N2Nat.inj in Heq.
      apply (hash_injective _ _ _ _ _ Ho (Hel _ _ H1) (Hel _ _ H2) Heq).
    + exact Hnd.
    + exists h, v. rewrite Hv. split; [reflexivity|]. split.
      * intros e t He Ht. exists (hash_index (h_mult h) (h_shift h) t).
        split; [unfold vector_index; rewrite Hh; eapply hash_type_ok; eauto|].
        -- apply (Hel e). apply class_ids_elem. auto.
        -- apply V2. apply class_ids_elem. auto.
      * intros _. exists control. auto.
      * intros _. rewrite V1, Hm. lia.
      * congruence.
  - left. cbn [obind]. cbv beta iota zeta. rewrite store_classes.
    destruct (foldl_max_ge (all_type_ids g) 0%N) as [_ Hge].
    assert (Hsz : ((foldl N.max 0%N (all_type_ids g) + 1) mod word_size = foldl N.max 0%N (all_type_ids g) + 1)%N).
    { apply N.mod_small. assert (uintptr_max + 1 = word_size)%N by reflexivity.
      assert (0 < uintptr_max)%N by reflexivity.
      destruct (foldl_max_elem (all_type_ids g) 0%N) as [Hz|Hz]; [lia|]. apply Hlt in Hz. lia. }
    rewrite Hsz.
    set (v0 := (if cf_indirect cf then w_vec w
                else resize (N.to_nat (foldl N.max 0%N (all_type_ids g) + 1)) VNull (w_vec w),
                if cf_indirect cf then resize (N.to_nat (foldl N.max 0%N (all_type_ids g) + 1)) None (w_ivec w)
                else w_ivec w)).
    assert (Hm : max_index cf v0 = N.to_nat (foldl N.max 0%N (all_type_ids g) + 1)).
    { unfold max_index, v0. destruct (cf_indirect cf); simpl; apply resize_length. }
    destruct (store_list cf stat (w_hash w) N.to_nat (class_ids g) v0) as (v & Hv & V1 & V2 & _ & _).
    + intros e t Het. exists t. unfold vector_index. rewrite Hh. split; [reflexivity|].
      split; [reflexivity|]. rewrite Hm. specialize (Hge t (Hel _ _ Het)). lia.
    + intros e1 t1 e2 t2 _ _ Heq. apply N2Nat.inj in Heq. exact Heq.
    + exact Hnd.
    + exists (w_hash w), v. rewrite Hv. split; [reflexivity|]. split.
      * intros e t He Ht. exists t. unfold vector_index. rewrite Hh. split; [reflexivity|].
        apply V2. apply class_ids_elem. auto.
      * congruence.
      * congruence.
      * intros _. rewrite V1. exact Hm.
Qed.

(* ---- vptr_map ---- *)

Lemma map_find_app m t r k :
  map_find (m ++ [(t, r)]) k =
  match map_find m k with Some x => Some x | None => if decide (t = k) then Some r else None end.
Proof.
  unfold map_find. destruct (list_find (fun p => fst p = k) m) as [[i p]|] eqn:Hf.
  - rewrite (list_find_app_l _ _ _ _ _ Hf). reflexivity.
  - rewrite (list_find_app_r _ _ _ Hf). simpl. destruct (decide (t = k)); reflexivity.
Qed.

Lemma map_emplace_find m t r k :
  map_find (map_emplace m t r) k =
  match map_find m k with Some x => Some x | None => if decide (t = k) then Some r else None end.
Proof.
  unfold map_emplace. destruct (map_find m t) eqn:Hm; [|apply map_find_app].
  destruct (map_find m k) eqn:Hk; [reflexivity|]. rewrite decide_False; congruence.
Qed.

Definition map_ref (cf : config) (stat : nat -> vptr) (e : class_entry) : vref :=
  if cf_indirect cf then RStatic (ce_static_vptr e) else RElem (stat (ce_static_vptr e)).

Lemma map_initialize_ids cf g stat :
  map_initialize cf g stat =
  foldl (fun m et => map_emplace m (snd et) (map_ref cf stat (fst et))) [] (class_ids g).
Proof.
  unfold map_initialize, class_ids. generalize (@nil (N * vref)) as m0.
  induction (g_classes g) as [|e l IH]; intros m0; [reflexivity|]. simpl. rewrite foldl_app, IH.
  f_equal. clear IH. revert m0. induction (ce_type_ids e) as [|t ids IH]; intros m0; [reflexivity|].
  simpl. rewrite IH. reflexivity.
Qed.

Lemma map_initialize_find cf g stat :
  NoDup (all_type_ids g) ->
  (forall e t, e ∈ g_classes g -> t ∈ ce_type_ids e ->
     map_find (map_initialize cf g stat) t = Some (map_ref cf stat e)) /\
  (forall t, t ∉ all_type_ids g -> map_find (map_initialize cf g stat) t = None).
Proof.
  rewrite map_initialize_ids, <- class_ids_snd. intros Hnd.
  assert (G : forall l m, NoDup (map snd l) -> (forall t, t ∈ map snd l -> map_find m t = None) ->
    let m' := foldl (fun m (et : class_entry * N) => map_emplace m (snd et) (map_ref cf stat (fst et))) m l in
    (forall e t, (e, t) ∈ l -> map_find m' t = Some (map_ref cf stat e)) /\
    (forall t, t ∉ map snd l -> map_find m' t = map_find m t)).
  { induction l as [|[e t] l IH]; intros m Hn Hm; simpl.
    - split; [intros e t H; inversion H|auto].
    - simpl in Hn. apply NoDup_cons in Hn as [Hn1 Hn2].
      destruct (IH (map_emplace m t (map_ref cf stat e)) Hn2) as [I1 I2].
      { intros t' Ht'. rewrite map_emplace_find. rewrite (Hm t') by (right; exact Ht').
        rewrite decide_False; [reflexivity|]. intros ->. contradiction. }
      split.
      + intros e' t' [[= -> ->]|H]%elem_of_cons; [|apply I1; exact H].
        rewrite (I2 t Hn1), map_emplace_find, (Hm t) by left. rewrite decide_True; reflexivity.
      + intros t' Ht'. rewrite not_elem_of_cons in Ht'. destruct Ht' as [Hne Ht'].
        rewrite (I2 t' Ht'), map_emplace_find. rewrite decide_False by congruence.
        destruct (map_find m t'); reflexivity. }
  destruct (G (class_ids g) [] Hnd) as [G1 G2]; [reflexivity|]. split.
  - intros e t He Ht. apply G1. apply class_ids_elem. auto.
  - intros t Ht. apply G2. exact Ht.
Qed.

(* ---- initialize ---- *)

Lemma world0_ok : world_ok world0.
Proof. split; [discriminate|reflexivity]. Qed.


(* The registry holds the result [cp] of a compilation. *)
Record installed (cf : config) (cp : compiled) (w0 w : world) : Prop := {
  in_init : w_initialized w = true;
  in_written : exists buf wr gvt, written_ok cp buf w0 wr gvt /\
    w_data w = Some buf /\ w_heap w buf = Some (wr_words wr) /\
    w_static w = wr_static wr /\ w_ss w = wr_ss wr /\ w_next w = wr_next wr;
  in_vptr : cf_vptr cf <> VptrNone -> forall e t,
    e ∈ g_classes (cp_graph cp) -> t ∈ ce_type_ids e ->
    exists r, dynamic_vptr cf w t = Ok r /\ vref_value w r = w_static w (ce_static_vptr e) /\
      (cf_indirect cf = true -> r = RStatic (ce_static_vptr e)) /\
      (cf_indirect cf = false -> r = RElem (w_static w (ce_static_vptr e)));
  in_missing : cf_checks cf = true ->
    cf_vptr cf = VptrMap \/ (cf_vptr cf = VptrVector /\ cf_hash cf = true) ->
    forall t, t <> uintptr_max -> t ∉ all_type_ids (cp_graph cp) ->
      dynamic_vptr cf w t = Err (EMissingClass t);
  in_missing_vector : cf_checks cf = true -> cf_vptr cf = VptrVector -> cf_hash cf = false ->
    forall t, (forall t', t' ∈ all_type_ids (cp_graph cp) -> t' < t)%N -> (0 < t)%N ->
      dynamic_vptr cf w t = Err (EMissingClass t)
}.

Lemma foldl_max_lt l t : (forall t', t' ∈ l -> t' < t)%N -> (0 < t)%N -> (foldl N.max 0 l < t)%N.
Proof. intros H H0. destruct (foldl_max_elem l 0%N) as [->|Hin]; [exact H0|auto]. Qed.

Section Init.
  Context (cf : config) (X : run) (n2216 : bool) (R : registrations) (w : world).
  Notation E := (r_env X).
  Context (HE : env_ok E) (Hac : acyclic (e_ti E) R) (Har : arity_ok R).

  Lemma classes_count g :
    classes_ok (e_ti E) (reg_classes R) (g_classes g) (g_map g) -> g_n g <= length (reg_classes R).
  Proof.
    intros HC.
    assert (G : forall k, k <= g_n g -> exists keys, length keys = k /\ NoDup keys /\
              forall a, a ∈ keys -> a ∈ map (fun cr => e_ti E (cr_type cr)) (reg_classes R) /\
                exists i, i < k /\ g_map g a = Some i).
    { induction k as [|k IH]; intros Hk.
      - exists []. split; [reflexivity|]. split; [constructor|]. intros a H. inversion H.
      - destruct IH as (keys & K1 & K2 & K3); [lia|].
        destruct (lookup_lt_is_Some_2 (g_classes g) k) as [e He]; [exact Hk|].
        destruct (co_entry _ _ _ _ HC _ _ He) as (a & cr & Ha & _).
        exists (a :: keys). split; [simpl; lia|]. split.
        + constructor; [|exact K2]. intros Hin. destruct (K3 a Hin) as (_ & i & Hi & Hm).
          assert (i = k) by congruence. lia.
        + intros b [->|Hb]%elem_of_cons.
          * split; [|exists k; split; [lia|exact Ha]].
            assert (Hs : is_Some (g_map g a)) by (exists k; exact Ha).
            apply (co_dom _ _ _ _ HC) in Hs as (cr' & H1 & H2).
            apply elem_of_list_fmap. exists cr'. auto.
          * destruct (K3 b Hb) as (H1 & i & Hi & Hm). split; [exact H1|]. exists i. split; [lia|exact Hm]. }
    destruct (G (g_n g) ltac:(lia)) as (keys & K1 & K2 & K3). rewrite <- K1.
    rewrite <- (map_length (fun cr => e_ti E (cr_type cr)) (reg_classes R)).
    apply submseteq_length, NoDup_submseteq; [exact K2|]. intros a Ha. apply K3. exact Ha.
  Qed.

  Lemma initialize_stage_error e :
    compile E n2216 R = Err e -> initialize cf X n2216 R w = (w, Err e).
  Proof. intros H. unfold initialize, install. rewrite H. reflexivity. Qed.

  Lemma initialize_cases cp :
    compile E n2216 R = Ok cp -> ids_ok R -> hash_size_ok cf (length (reg_classes R)) -> world_ok w ->
    (exists w', initialize cf X n2216 R w = (w', Ok (tb_report (cp_tables cp))) /\
       installed cf cp w w' /\ world_ok w') \/
    (cf_vptr cf = VptrVector /\ cf_hash cf = true /\ exists w' M,
       initialize cf X n2216 R w = (w', Err (ESearch 400000 (2 ^ M)%N)) /\
       M = (initial_M (N.of_nat (g_n (cp_graph cp))) + 4)%N /\
       world_ok w' /\ w_data w' = w_data w /\ w_heap w' = w_heap w /\ w_vec w' = w_vec w /\
       w_ivec w' = w_ivec w /\ w_map w' = w_map w /\ w_initialized w' = w_initialized w).
  Proof.
    intros Hcp Hids Hn Hw.
    pose proof (compile_inv E R HE Hac n2216 cp Hcp) as HI.
    pose proof (go_classes _ _ _ (co_graph _ _ _ _ HI)) as HC.
    assert (Hn' : hash_size_ok cf (g_n (cp_graph cp))).
    { intros Hh. specialize (Hn Hh). pose proof (classes_count _ HC). lia. }
    pose proof (all_type_ids_nodup _ _ _ HC) as Hnd.
    destruct (write_tables_ok E R HE Hac Har n2216 cp Hcp (w_fresh w) w) as (wr & gvt & Hwr & Hok).
    destruct Hw as [W1 W2].
    assert (Hheap : match w_data w with
              | Some old => upd (upd (w_heap w) (w_fresh w) (Some (wr_words wr))) old None
              | None => upd (w_heap w) (w_fresh w) (Some (wr_words wr)) end (w_fresh w) = Some (wr_words wr)).
    { destruct (w_data w) as [old|]; [|apply upd_eq]. specialize (W1 old eq_refl).
      rewrite upd_ne by lia. apply upd_eq. }
    assert (Hok' : forall stat ss nx vec ivec m h i, world_ok (World (match w_data w with
              | Some old => upd (upd (w_heap w) (w_fresh w) (Some (wr_words wr))) old None
              | None => upd (w_heap w) (w_fresh w) (Some (wr_words wr)) end) (S (w_fresh w))
              (Some (w_fresh w)) stat ss nx vec ivec m h i)).
    { intros. split; simpl.
      - intros b [= <-]. lia.
      - intros b Hb. destruct (w_data w) as [old|].
        + specialize (W1 old eq_refl). rewrite !upd_ne by lia. apply W2. lia.
        + rewrite upd_ne by lia. apply W2. lia. }
    unfold initialize, install. rewrite Hcp, Hwr. cbv zeta.
    destruct (cf_vptr cf) eqn:Hk.
    - destruct (vector_initialize_cases (e_ti E) R cf (r_rnd X) (cp_graph cp) (wr_static wr)
        (World (w_heap w) (S (w_fresh w)) (w_data w) (wr_static wr) (wr_ss wr)
                      (wr_next wr) (w_vec w) (w_ivec w) (w_map w) (w_hash w)
                      (w_initialized w)) HC Hids Hn') as [(h & [vec ivec] & Hv & HV)|(Hh & h & Hv)].
      + left. rewrite Hv. eexists. split; [reflexivity|]. split; [|apply Hok'].
        destruct HV as [V1 V2 V3 V4]. split.
        * reflexivity.
        * exists (w_fresh w), wr, gvt. auto 10.
        * intros _ e t He Ht. destruct (V1 e t He Ht) as (i & Hi & Hs).
          unfold dynamic_vptr. rewrite Hk. cbn [w_hash w_vec w_ivec]. rewrite Hi. cbn [obind].
          unfold stored in Hs. simpl in Hs.
          rewrite decide_False.
          2:{ intros (_ & _ & Hle). destruct (cf_indirect cf); apply lookup_lt_Some in Hs; lia. }
          destruct (cf_indirect cf).
          -- assert (Hat : at_ ivec (N.to_nat i) = Ok (Some (ce_static_vptr e))) by (apply at_ok; exact Hs).
             rewrite Hat. simpl. eexists. split; [reflexivity|]. auto.
             split; [reflexivity|]. split; [reflexivity|discriminate].
          -- assert (Hat : at_ vec (N.to_nat i) = Ok (wr_static wr (ce_static_vptr e)))
               by (apply at_ok; exact Hs).
             rewrite Hat. simpl. eexists. split; [reflexivity|].
             split; [reflexivity|]. split; [discriminate|reflexivity].
        * intros Hc [Hbad|[_ Hh]] t Ht Hnot; [congruence|].
          unfold dynamic_vptr. rewrite Hk. unfold vector_index. rewrite Hh, Hc. cbn [w_hash].
          destruct (V2 Hh) as (control & Ho & Hctl). rewrite <- (Hctl Hc) in Ho.
          rewrite (hash_type_check _ _ _ Ho Ht), decide_False by exact Hnot. reflexivity.
        * intros Hc _ Hh t Ht Ht0. unfold dynamic_vptr. rewrite Hk. unfold vector_index. rewrite Hh.
          cbn [obind w_vec w_ivec]. specialize (V4 Hh). unfold max_index in V4. simpl in V4.
          pose proof (foldl_max_lt _ _ Ht Ht0) as Hlt.
          rewrite decide_True; [reflexivity|]. split; [reflexivity|]. split; [exact Hc|].
          rewrite V4. lia.
      + right. split; [reflexivity|]. split; [exact Hh|]. rewrite Hv. eexists _, _.
        split; [reflexivity|]. split; [reflexivity|]. split; [|simpl; auto 10].
        split; simpl.
        * intros b Hb. specialize (W1 b Hb). lia.
        * intros b Hb. apply W2. lia.
    - left. eexists. split; [reflexivity|]. split; [|apply Hok'].
      destruct (map_initialize_find cf (cp_graph cp) (wr_static wr) Hnd) as [F1 F2]. split.
      + reflexivity.
      + exists (w_fresh w), wr, gvt. auto 10.
      + intros _ e t He Ht. unfold dynamic_vptr. rewrite Hk. cbn [w_map].
        rewrite (F1 e t He Ht). eexists. split; [reflexivity|]. unfold map_ref.
        destruct (cf_indirect cf); simpl; (split; [reflexivity|]; split; [|]; (reflexivity || discriminate)).
      + intros Hc _ t _ Hnot. unfold dynamic_vptr. rewrite Hk. cbn [w_map]. rewrite (F2 t Hnot), Hc.
        reflexivity.
      + congruence.
    - left. eexists. split; [reflexivity|]. split; [|apply Hok']. split.
      + reflexivity.
      + exists (w_fresh w), wr, gvt. auto 10.
      + contradiction.
      + intros _ [?|[? _]]; congruence.
      + congruence.
  Qed.

  (* initialize returns normally exactly when it installs the tables. *)
  Lemma initialize_ok_inv w' rep :
    ids_ok R -> hash_size_ok cf (length (reg_classes R)) -> world_ok w ->
    initialize cf X n2216 R w = (w', Ok rep) ->
    exists cp, compile E n2216 R = Ok cp /\ rep = tb_report (cp_tables cp) /\
      installed cf cp w w' /\ world_ok w'.
  Proof.
    intros Hids Hn Hw Hinit.
    destruct (compile E n2216 R) as [cp|e| |] eqn:Hcp; try (unfold initialize, install in Hinit; rewrite Hcp in Hinit; discriminate).
    exists cp. split; [reflexivity|].
    destruct (initialize_cases cp Hcp Hids Hn Hw) as [(w2 & H & Hi & Ho)|(_ & _ & w2 & M & H & _)].
    - rewrite H in Hinit. injection Hinit as <- <-. auto.
    - rewrite H in Hinit. discriminate.
  Qed.
End Init.
