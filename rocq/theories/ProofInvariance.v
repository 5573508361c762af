(* Consequences of the end-to-end theorem: n2216, order of registration, slots,
   errors of initialize. *)
From stdpp Require Import base list numbers list_numbers relations.
From Verif Require Import Base Registry Spec ModelClasses ModelMethods ModelSlots ModelTables
  ModelHash ModelWorld ModelCall SpecCall
  ProofBase ProofClasses ProofGraph ProofMethods ProofBits ProofSlots ProofSelect ProofTables
  ProofCompile ProofErrors ProofEntries ProofWrite ProofHash ProofWorld ProofCall ProofDispatch.

(* ---- with or without n2216 ---- *)
Theorem dispatch_any cf X R w w' rep n2216 :
  program_ok cf (r_env X) R -> bases_first (e_ti (r_env X)) R -> world_ok w ->
  initialize cf X n2216 R w = (w', Ok rep) ->
  forall mr all args,
    mr ∈ reg_methods R -> Forall2 (passes cf (e_ti (r_env X)) R w') (virtual_args all) args ->
    valid_args (e_ti (r_env X)) R mr args -> (length (mr_vp mr) <> 1 -> together all) ->
    exists sel f, resolve cf w' mr all = Ok f /\ selected_fn mr sel = Some f /\
      forall i, sel = SOverrider i -> candidate (e_ti (r_env X)) R (mr_overriders mr) args i.
Proof.
  intros HP HB Hw Hinit mr all args Hmr Hvs Hva Htog.
  destruct (dispatch_cell cf X R w w' rep HP HB Hw n2216 Hinit mr all args Hmr Hvs Hva Htog)
    as (cp & mi & m & t & gs & cs & is & Hcp & Hm & Hmi & Hmok & Htok & Hcs & Htd & Hin & Hres).
  destruct HP as [HE Hac Har Hids Hn HA].
  pose proof (co_graph _ _ _ _ (compile_inv _ R HE Hac n2216 cp Hcp)) as HG.
  assert (Hao : forall o, o ∈ mr_overriders mr -> length (or_vp o) = length (mr_vp mr))
    by (apply Har; exact Hmr).
  destruct (cell_at _ _ HE mr m Hmok Hao n2216 gs t cs is Htok Htd Hin) as (c & Hcell & Hb).
  destruct (Hres c Hcell) as (f & Hf & Hr).
  apply build_cell_in in Hb as [Hb _].
  assert (Hcand : forall i, cl_target c = TOverrider i ->
            candidate (e_ti (r_env X)) R (mr_overriders mr) args i).
  { intros i Hi. rewrite Hi in Hb. simpl in Hb.
    eapply mask_set_iff; eauto. apply (Forall2_length _ _ _ Hva). }
  assert (Htin : match cl_target c with TOverrider i => i < length (mr_overriders mr) | _ => True end).
  { destruct (cl_target c) as [| |i] eqn:Ht; auto. destruct (Hcand i eq_refl) as (o & Ho & _).
    eapply lookup_lt_Some; eauto. }
  destruct (target_fn _ _ mr m Hmok (cl_target c) Htin) as (f' & Hf' & Hs).
  assert (f' = f) as -> by congruence.
  exists (sel_of (cl_target c)), f. split; [exact Hr|]. split; [exact Hs|].
  intros i Hi. apply Hcand. destruct (cl_target c); try discriminate. injection Hi as ->. reflexivity.
Qed.

(* ---- order of registration ---- *)

(* The same method, its overriders being registered in another order. *)
Definition same_method (m m' : method_record) : Prop :=
  mr_vp m' = mr_vp m /\ mr_not_implemented m' = mr_not_implemented m /\
  mr_ambiguous m' = mr_ambiguous m /\ mr_overriders m ≡ₚ mr_overriders m'.

Section Invariant.
  Context (ti : N -> N) (R R' : registrations).
  Context (Hder : forall a b, derives ti R a b <-> derives ti R' a b).

  Lemma strictly_inv a b : strictly ti R a b <-> strictly ti R' a b.
  Proof. unfold strictly. rewrite Hder. reflexivity. Qed.

  Lemma some_inv a b : some_more_specialized ti R a b <-> some_more_specialized ti R' a b.
  Proof.
    unfold some_more_specialized. split; intros (i & x & y & H1 & H2 & H3); exists i, x, y;
      (split; [exact H1|]; split; [exact H2|]; apply strictly_inv; exact H3).
  Qed.

  Lemma dominates_inv a b : dominates ti R a b <-> dominates ti R' a b.
  Proof. unfold dominates. rewrite !some_inv. reflexivity. Qed.

  Lemma applicable_inv args o : applicable ti R args o <-> applicable ti R' args o.
  Proof.
    unfold applicable. split; intros H; (eapply Forall2_impl; [exact H|]); intros a b; apply Hder.
  Qed.

  Section Perm.
    Context (ovs ovs' : list overrider_record) (args : list N).
    Context (f : nat -> nat) (Hf : forall i, ovs !! i = ovs' !! f i).
    Context (g : nat -> nat) (Hg : forall i, ovs' !! i = ovs !! g i) (Hinj : forall i j, g i = g j -> i = j).
    Notation cand := (candidate ti R ovs args).
    Notation cand' := (candidate ti R' ovs' args).

    Lemma cand_f i : cand i -> cand' (f i).
    Proof. intros (o & Ho & Ha). exists o. rewrite <- Hf. rewrite <- applicable_inv. auto. Qed.

    Lemma cand_g i : cand' i -> cand (g i).
    Proof. intros (o & Ho & Ha). exists o. rewrite <- Hg. rewrite applicable_inv. auto. Qed.

    Lemma undominated_f i : undominated ti R ovs cand i -> undominated ti R' ovs' cand' (f i).
    Proof.
      intros [Hc Hd]. split; [apply cand_f; exact Hc|]. intros (j & oi & oj & Hi & Hj & Hcj & Hdom).
      apply Hd. exists (g j), oi, oj. rewrite Hf, <- Hg, dominates_inv. auto using cand_g.
    Qed.

    Lemma undominated_g i : undominated ti R' ovs' cand' i -> undominated ti R ovs cand (g i).
    Proof.
      intros [Hc Hd]. split; [apply cand_g; exact Hc|]. intros (j & oi & oj & Hi & Hj & Hcj & Hdom).
      apply Hd. exists (f j), oi, oj. rewrite Hg, <- Hf, <- dominates_inv. auto using cand_f.
    Qed.

    Lemma unique_f i :
      undominated ti R ovs cand i -> (forall j, undominated ti R ovs cand j -> j = i) ->
      undominated ti R' ovs' cand' (f i) /\ forall j, undominated ti R' ovs' cand' j -> j = f i.
    Proof.
      intros Hu Huniq. split; [apply undominated_f; exact Hu|]. intros j Hj. apply Hinj.
      rewrite (Huniq _ (undominated_g _ Hj)).
      symmetry. apply Huniq. apply undominated_g, undominated_f. exact Hu.
    Qed.

    Lemma settled_f :
      settled ti R ovs cand -> settled ti R' ovs' cand'.
    Proof.
      intros Hs i oi Hoi Ci (j & oi' & oj & Hoi' & Hoj & Cj & Hd).
      destruct (Hs (g i) oi) as (t & ot & Hot & Hu & Htd); [rewrite <- Hg; exact Hoi|apply cand_g; exact Ci| |].
      - exists (g j), oi', oj. rewrite <- !Hg, dominates_inv. auto using cand_g.
      - exists (f t), ot. rewrite <- Hf, <- dominates_inv. auto using undominated_f.
    Qed.
  End Perm.

  Lemma selects_perm m m' args s s' fn fn' :
    same_method m m' ->
    selects ti R (mr_overriders m) args s -> selects ti R' (mr_overriders m') args s' ->
    selected_fn m s = Some fn -> selected_fn m' s' = Some fn' -> fn = fn'.
  Proof.
    intros (_ & Hni & Hamb & Hp) Hs Hs' Hfn Hfn'.
    destruct (proj1 (Permutation_inj _ _) Hp) as (_ & f & Hfi & Hf).
    symmetry in Hp. destruct (proj1 (Permutation_inj _ _) Hp) as (_ & g & Hgi & Hg).
    assert (Hginj : forall i j, g i = g j -> i = j) by (intros i j; apply Hgi).
    assert (Hfinj : forall i j, f i = f j -> i = j) by (intros i j; apply Hfi).
    unfold selects in *. destruct s as [| |i], s' as [| |j]; simpl in *.
    - congruence.
    - destruct Hs' as [[k Hk] _]. destruct (Hs (g k)). eapply cand_g; eauto.
    - destruct Hs' as [[Hk _] _]. destruct (Hs (g j)). eapply cand_g; eauto.
    - destruct Hs as [[k Hk] _]. destruct (Hs' (f k)). eapply cand_f; eauto.
    - congruence.
    - destruct Hs as [_ Hno]. destruct Hno. destruct Hs' as [Hu Huniq].
      exists (g j). split; [eapply undominated_g; eauto|]. intros k Hk. apply Hfinj.
      rewrite (Huniq (f k)) by (eapply undominated_f; eauto).
      symmetry. apply Huniq. eapply undominated_f; eauto. eapply undominated_g; eauto.
    - destruct Hs as [[Hk _] _]. destruct (Hs' (f i)). eapply cand_f; eauto.
    - destruct Hs' as [_ Hno]. destruct Hno. destruct Hs as [Hu Huniq].
      exists (f i). eapply unique_f; eauto.
    - destruct Hs as [Hu Huniq]. destruct Hs' as [_ Huniq'].
      assert (f i = j) by (apply Huniq'; eapply undominated_f; eauto). subst j.
      rewrite <- Hf in Hfn'. congruence.
  Qed.
End Invariant.

(* Two programs that register the same inheritance relation and the same
   overriders, in any order, behave the same. *)
Theorem dispatch_invariant cf cf' X X' R R' w w1 w' w1' rep rep' :
  e_ti (r_env X') = e_ti (r_env X) ->
  program_ok cf (r_env X) R -> program_ok cf' (r_env X') R' ->
  bases_first (e_ti (r_env X)) R -> bases_first (e_ti (r_env X)) R' ->
  world_ok w -> world_ok w1 ->
  initialize cf X false R w = (w', Ok rep) -> initialize cf' X' false R' w1 = (w1', Ok rep') ->
  (forall a b, derives (e_ti (r_env X)) R a b <-> derives (e_ti (r_env X)) R' a b) ->
  forall m m' all all' args,
    m ∈ reg_methods R -> m' ∈ reg_methods R' -> same_method m m' ->
    Forall2 (passes cf (e_ti (r_env X)) R w') (virtual_args all) args ->
    Forall2 (passes cf' (e_ti (r_env X)) R' w1') (virtual_args all') args ->
    valid_args (e_ti (r_env X)) R m args -> valid_args (e_ti (r_env X)) R' m' args ->
    (length (mr_vp m) <> 1 -> together all /\ together all') ->
    settled (e_ti (r_env X)) R (mr_overriders m)
      (candidate (e_ti (r_env X)) R (mr_overriders m) args) ->
    resolve cf w' m all = resolve cf' w1' m' all'.
Proof.
  intros Hti HP HP' HB HB' Hw Hw1 Hinit Hinit' Hder m m' all all' args Hm Hm' Hsame Hvs Hvs' Hva Hva' Htog Htr.
  assert (Hvp : mr_vp m' = mr_vp m) by apply Hsame.
  destruct (dispatch cf X R w w' rep HP HB Hw Hinit m all args Hm Hvs Hva (fun H => proj1 (Htog H)))
    as (s & f & Hr & Hs & _ & _ & Hsel & _).
  rewrite <- Hti in HB', Hvs', Hva'.
  destruct (dispatch cf' X' R' w1 w1' rep' HP' HB' Hw1 Hinit' m' all' args Hm' Hvs' Hva')
    as (s' & f' & Hr' & Hs' & _ & _ & Hsel' & _).
  { rewrite Hvp. intros H. apply (Htog H). }
  rewrite Hr, Hr'. f_equal. rewrite Hti in Hsel'.
  eapply selects_perm; [exact Hder|exact Hsame|apply Hsel; exact Htr| |exact Hs|exact Hs'].
  apply Hsel'. destruct Hsame as (_ & _ & _ & Hp).
  destruct (proj1 (Permutation_inj _ _) Hp) as (_ & g1 & _ & Hg1).
  symmetry in Hp. destruct (proj1 (Permutation_inj _ _) Hp) as (_ & g2 & _ & Hg2).
  eapply settled_f; eauto.
Qed.

(* ---- slots ---- *)
Theorem slots_separate cf X R w w' rep n2216 :
  program_ok cf (r_env X) R -> bases_first (e_ti (r_env X)) R -> world_ok w ->
  initialize cf X n2216 R w = (w', Ok rep) ->
  forall z m1 m2 d1 d2 v1 v2,
    m1 ∈ reg_methods R -> m2 ∈ reg_methods R ->
    mr_vp m1 !! d1 = Some v1 -> mr_vp m2 !! d2 = Some v2 ->
    registered (e_ti (r_env X)) R z ->
    derives (e_ti (r_env X)) R z (e_ti (r_env X) v1) ->
    derives (e_ti (r_env X)) R z (e_ti (r_env X) v2) ->
    m1 <> m2 \/ d1 <> d2 ->
    exists s1 s2, w_ss w' (mr_slots_strides m1) !! d1 = Some s1 /\
      w_ss w' (mr_slots_strides m2) !! d2 = Some s2 /\ s1 <> s2.
Proof.
  intros HP HB Hw Hinit z m1 m2 d1 d2 v1 v2 Hm1 Hm2 Hv1 Hv2 Hz Hz1 Hz2 Hne.
  destruct HP as [HE Hac Har Hids Hn HA].
  destruct (initialize_ok_inv cf X n2216 R w HE Hac Har w' rep Hids Hn Hw Hinit)
    as (cp & Hcp & _ & HI & _).
  pose proof (bases_first_complete _ R HE Hac n2216 cp Hcp HB) as HT.
  pose proof (compile_inv _ R HE Hac n2216 cp Hcp) as HCI.
  pose proof (co_graph _ _ _ _ HCI) as HG.
  destruct (in_written _ _ _ _ HI) as (buf & wr & gvt & Hok & _ & Hheap & Hst & Hss & _).
  destruct (co_uses _ _ _ _ HCI) as (u & HU & HS).
  assert (is_Some (g_map (cp_graph cp) z)) as [c Hc] by (apply (co_dom _ _ _ _ (go_classes _ _ _ HG)); exact Hz).
  assert (G : forall m d v, m ∈ reg_methods R -> mr_vp m !! d = Some v ->
    derives (e_ti (r_env X)) R z (e_ti (r_env X) v) ->
    exists mi x, reg_methods R !! mi = Some m /\ (mi, d) ∈ u x /\ x < g_n (cp_graph cp) /\
      rtc (irel (r_env X) (g_map (cp_graph cp)) (reg_classes R)) c x /\
      w_ss w' (mr_slots_strides m) !! d = Some (s_slots (cp_slots cp) mi d)).
  { intros m d v Hm Hv Hd. apply elem_of_list_lookup in Hm as [mi Hmi].
    destruct (Forall2_lookup_l _ _ _ _ _ (co_methods _ _ _ _ HCI) Hmi) as (cm & Hcm & Hmok).
    destruct (Forall2_lookup_l _ _ _ _ _ (mo_vp _ _ _ _ Hmok) Hv) as (x & Hx & Hxm).
    exists mi, x. split; [exact Hmi|]. split; [apply HU; eauto|].
    assert (Hxlt : x < g_n (cp_graph cp)) by (eapply map_lt; eauto).
    split; [exact Hxlt|]. split.
    - assert (Htd : c ∈ g_td (cp_graph cp) x) by (eapply map_td; eauto).
      apply (go_td_sound _ _ _ HG). exact Htd.
    - rewrite Hss. rewrite <- (mo_ss _ _ _ _ Hmok).
      destruct (cp_tables_ok _ R HE Hac n2216 cp Hcp) as (gss & _ & _ & Htabs & _).
      destruct (Htabs mi cm Hcm) as (gs & t & _ & Ht & _).
      rewrite (wr_ss_ok _ _ _ _ _ Hok (ss_nodup _ R HE Hac n2216 cp Hcp HA) mi cm t)
        by (apply mts_lookup; auto).
      unfold method_slots. apply lookup_lt_Some in Hx.
      rewrite lookup_app_l by (rewrite map_length, seq_length; exact Hx).
      change (map ?f ?l) with (f <$> l). rewrite list_lookup_fmap, lookup_seq_lt by exact Hx.
      reflexivity. }
  destruct (G m1 d1 v1 Hm1 Hv1 Hz1) as (i1 & x1 & Hi1 & Hu1 & Hl1 & Hr1 & Hs1).
  destruct (G m2 d2 v2 Hm2 Hv2 Hz2) as (i2 & x2 & Hi2 & Hu2 & Hl2 & Hr2 & Hs2).
  exists (s_slots (cp_slots cp) i1 d1), (s_slots (cp_slots cp) i2 d2).
  split; [exact Hs1|]. split; [exact Hs2|].
  apply (so_sep _ _ _ _ _ HS HT x1 x2 (i1, d1) (i2, d2) c); try assumption.
  intros [= -> ->]. destruct Hne as [Hne|Hne]; [|contradiction]. apply Hne. congruence.
Qed.

(* ---- the derived classes ---- *)
Theorem derived_sets E R g :
  env_ok E -> acyclic (e_ti E) R -> augment_classes E (reg_classes R) = Ok g ->
  (forall a, is_Some (g_map g a) <-> registered (e_ti E) R a) /\
  (forall a b i, g_map g a = Some i -> g_map g b = Some i -> a = b) /\
  forall a b i j, g_map g a = Some i -> g_map g b = Some j ->
    NoDup (g_td g j) /\ (i ∈ g_td g j <-> derives (e_ti E) R a b).
Proof.
  intros HE Hac Hg. destruct (augment_classes_inv E R HE Hac g Hg) as [_ HG].
  split; [|split].
  - intros a. apply (co_dom _ _ _ _ (go_classes _ _ _ HG)).
  - intros a b i. apply (co_inj _ _ _ _ (go_classes _ _ _ HG)).
  - intros a b i j Hi Hj. split; [apply (go_td _ _ _ HG); eapply map_lt; eauto|].
    eapply map_td; eauto.
Qed.

(* ---- errors of initialize ---- *)
Lemma initialize_errors cf X R w :
  env_ok (r_env X) -> acyclic (e_ti (r_env X)) R -> arity_ok R -> ids_ok R ->
  hash_size_ok cf (length (reg_classes R)) -> world_ok w ->
  (exists w' rep, initialize cf X false R w = (w', Ok rep) /\
     all_named_registered (e_ti (r_env X)) (e_void (r_env X)) R /\
     forall m o v x, ~ misfit (e_ti (r_env X)) R m o v x) \/
  (exists t, initialize cf X false R w = (w, Err (EMissingClass t)) /\
     named (e_ti (r_env X)) (e_void (r_env X)) R t /\ ~ registered (e_ti (r_env X)) R (e_ti (r_env X) t)) \/
  (exists b d, initialize cf X false R w = (w, Err (EMissingBase b d)) /\
     compile_error (r_env X) R (EMissingBase b d)) \/
  (exists w' a n, initialize cf X false R w = (w', Err (ESearch a n)) /\ cf_vptr cf = VptrVector /\
     cf_hash cf = true /\
     all_named_registered (e_ti (r_env X)) (e_void (r_env X)) R /\
     forall m o v x, ~ misfit (e_ti (r_env X)) R m o v x).
Proof.
  intros HE Hac Har Hids Hn Hw.
  destruct (compile_cases (r_env X) R HE Hac Har) as [(cp & Hcp & HC)|[(t & Ht & H)|(b & d & Hc & H)]].
  - destruct (initialize_cases cf X false R w HE Hac Har cp Hcp Hids Hn Hw)
      as [(w' & Hi & _)|(Hv & Hh & w' & M & Hi & _)].
    + left. exists w', (tb_report (cp_tables cp)). split; [exact Hi|]. split; [apply (co_named _ _ _ _ HC)|apply (co_fit _ _ _ _ HC)].
    + right. right. right. eexists w', _, _. split; [exact Hi|].
      split; [exact Hv|]. split; [exact Hh|]. split; [apply (co_named _ _ _ _ HC)|apply (co_fit _ _ _ _ HC)].
  - right. left. exists t. split; [apply initialize_stage_error; exact Ht|exact H].
  - right. right. left. exists b, d. split; [apply initialize_stage_error; exact Hc|exact H].
Qed.

Theorem missing_class_iff cf X R w :
  program_ok cf (r_env X) R -> world_ok w ->
  ((exists t w', initialize cf X false R w = (w', Err (EMissingClass t))) <->
   ~ all_named_registered (e_ti (r_env X)) (e_void (r_env X)) R) /\
  forall t w', initialize cf X false R w = (w', Err (EMissingClass t)) ->
    w' = w /\ named (e_ti (r_env X)) (e_void (r_env X)) R t /\
    ~ registered (e_ti (r_env X)) R (e_ti (r_env X) t).
Proof.
  intros [HE Hac Har Hids Hn HA] Hw.
  destruct (initialize_errors cf X R w HE Hac Har Hids Hn Hw)
    as [(w' & rep & Hi & Hall & _)|[(t & Hi & Hnm & Hnr)|[(b & d & Hi & Hall & _)|(w' & a & n & Hi & _ & _ & Hall & _)]]];
    rewrite Hi; (split; [split|]).
  - intros (t & w2 & [=]).
  - intros H. contradiction.
  - intros t w2 [=].
  - intros _ H. apply Hnr, H. exact Hnm.
  - intros _. eauto.
  - intros t2 w2 [= <- <-]. auto.
  - intros (t & w2 & [=]).
  - intros H. contradiction.
  - intros t w2 [=].
  - intros (t & w2 & [=]).
  - intros H. contradiction.
  - intros t w2 [=].
Qed.

Theorem missing_base_iff cf X R w :
  program_ok cf (r_env X) R -> world_ok w ->
  all_named_registered (e_ti (r_env X)) (e_void (r_env X)) R ->
  ((exists b d w', initialize cf X false R w = (w', Err (EMissingBase b d))) <->
   exists m o v x, misfit (e_ti (r_env X)) R m o v x) /\
  forall b d w', initialize cf X false R w = (w', Err (EMissingBase b d)) ->
    w' = w /\ exists m o v x cv cx, misfit (e_ti (r_env X)) R m o v x /\
      first_record (e_ti (r_env X)) R (e_ti (r_env X) x) = Some cx /\ b = cr_type cx /\
      first_record (e_ti (r_env X)) R (e_ti (r_env X) v) = Some cv /\ d = cr_type cv.
Proof.
  intros [HE Hac Har Hids Hn HA] Hw Hreg.
  destruct (initialize_errors cf X R w HE Hac Har Hids Hn Hw)
    as [(w' & rep & Hi & Hall & Hfit)|[(t & Hi & Hnm & Hnr)|[(b & d & Hi & Hall & Hmis)|(w' & a & n & Hi & _ & _ & Hall & Hfit)]]].
  2:{ destruct Hnr. apply Hreg. exact Hnm. }
  all: rewrite Hi; (split; [split|]).
  - intros (t & d & w2 & [=]).
  - intros (m & o & v & x & H). destruct (Hfit m o v x H).
  - intros t d w2 [=].
  - intros _. destruct Hmis as (m & o & v & x & _ & _ & H & _). eauto.
  - intros _. eauto.
  - intros b2 d2 w2 [= <- <- <-]. split; [reflexivity|]. exact Hmis.
  - intros (t & d & w2 & [=]).
  - intros (m & o & v & x & H). destruct (Hfit m o v x H).
  - intros t d w2 [=].
Qed.
