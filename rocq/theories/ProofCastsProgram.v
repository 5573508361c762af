(* Casts of the arguments of calls, in an initialized program. *)
From stdpp Require Import base list numbers relations.
From Verif Require Import Base Registry Spec SpecCall ModelClasses ModelHash ModelWorld ModelCall ModelErrors
  ModelUseClasses SpecUseClasses ProofUseClasses ModelCasts SpecCasts ProofCasts
  ProofBase ProofWorld ProofCells ProofBehaviour ProofNext ProofHandlers.

Lemma overrider_valid cf X n2216 R w m i o :
  program_ok cf (r_env X) R -> initialized_by cf X n2216 R w ->
  m ∈ reg_methods R -> mr_overriders m !! i = Some o ->
  valid_args (e_ti (r_env X)) R m (map (e_ti (r_env X)) (or_vp o)).
Proof.
  intros HP (w0 & rep & Hw0 & Hi) Hm Ho. pose proof HP as [HE Hac Har Hids Hn HA].
  destruct (initialize_ok_inv cf X n2216 R w0 HE Hac Har w rep Hids Hn Hw0 Hi) as (cp & Hcp & _ & HI & _).
  pose proof Hm as Hm'. apply elem_of_list_lookup in Hm' as [mi Hmi].
  destruct (has_table_exists (r_env X) R HE Hac Har n2216 cp Hcp mi m Hmi) as (mm & gs & t & HT).
  eapply own_valid; eauto.
Qed.

Section Program.
  Context (H : hierarchy) (HO : hierarchy_ok H) (ti key : N -> N) (R : registrations).
  Hypothesis HU : forall c b, registered ti R (key c) -> derives ti R (key c) (key b) -> unambiguous H c b.

  Lemma parts_received m cs bs ds o :
    valid_args ti R m (map key cs) -> applicable ti R (map key cs) o ->
    valid_args ti R m (map ti (or_vp o)) ->
    map ti (mr_vp m) = map key bs -> map ti (or_vp o) = map key ds ->
    length bs = length cs /\ length ds = length cs /\
    forall k how c b d s, cs !! k = Some c -> bs !! k = Some b -> ds !! k = Some d ->
      contains H c s -> list.last s = Some b ->
      exists sd t, only_part H c d sd /\ only_part H d b t /\ embeds H d sd t s /\
        cast_part how H c b d s = Ok (Some sd).
  Proof.
    intros Hva Hap Hov Hb Hd. unfold valid_args, applicable in *.
    pose proof (Forall2_length _ _ _ Hva) as L1. pose proof (Forall2_length _ _ _ Hap) as L2.
    pose proof (f_equal length Hb) as L3. pose proof (f_equal length Hd) as L4.
    rewrite !map_length in *. split; [congruence|]. split; [congruence|].
    intros k how c b d s Hc Hbk Hdk Hs Hl.
    assert (Kc : map key cs !! k = Some (key c)) by (rewrite list_lookup_fmap, Hc; reflexivity).
    assert (Kb : map ti (mr_vp m) !! k = Some (key b)) by (rewrite Hb, list_lookup_fmap, Hbk; reflexivity).
    assert (Kd : map ti (or_vp o) !! k = Some (key d)) by (rewrite Hd, list_lookup_fmap, Hdk; reflexivity).
    destruct (Forall2_lookup_l _ _ _ _ _ Hva Kc) as (v & Hv & Hrc & Hcb).
    destruct (Forall2_lookup_l _ _ _ _ _ Hap Kc) as (u & Hu & Hcd).
    destruct (Forall2_lookup_l _ _ _ _ _ Hov Kd) as (v' & Hv' & Hrd & Hdb).
    rewrite list_lookup_fmap, Hv in Kb. injection Kb as Kb.
    rewrite list_lookup_fmap, Hu in Kd. injection Kd as Kd.
    replace v' with v in * by congruence. rewrite Kb in *. rewrite Kd in *.
    apply cast_whole; auto.
  Qed.
End Program.

Theorem call_casts H key cf X n2216 R w mid m all cs bs ovs f :
  hierarchy_ok H ->
  (forall c b, registered (e_ti (r_env X)) R (key c) -> derives (e_ti (r_env X)) R (key c) (key b) ->
     unambiguous H c b) ->
  program_ok cf (r_env X) R -> bases_first (e_ti (r_env X)) R ->
  initialized_by cf X n2216 R w -> call_ok cf (e_ti (r_env X)) R w m all (map key cs) -> functions_ok m ->
  (length (mr_vp m) = 1 \/ together all) ->
  map (e_ti (r_env X)) (mr_vp m) = map key bs -> takes (e_ti (r_env X)) key m ovs ->
  call cf w mid m all = Ok (Calls f) ->
  exists i o ds, mr_overriders m !! i = Some o /\ or_pf o = f /\ ovs !! i = Some ds /\
    length bs = length cs /\ length ds = length cs /\
    forall k how c b d s, cs !! k = Some c -> bs !! k = Some b -> ds !! k = Some d ->
      contains H c s -> list.last s = Some b ->
      exists sd t, only_part H c d sd /\ only_part H d b t /\ embeds H d sd t s /\
        cast_part how H c b d s = Ok (Some sd).
Proof.
  intros HO HU HP HB HI HC HF HT Hbs Htk Hcall.
  destruct (call_applicable cf X R w HP HB n2216 mid m all (map key cs) HI HC HF HT)
    as [(i & n & tys & Hc)|[(i & n & tys & Hc)|(o & Ho & Hap & Hc)]]; rewrite Hcall in Hc; try discriminate.
  injection Hc as ->. apply elem_of_list_lookup in Ho as [i Hi].
  destruct (Forall2_lookup_l _ _ _ _ _ Htk Hi) as (ds & Hds & Hmap).
  exists i, o, ds. split; [exact Hi|]. split; [reflexivity|]. split; [exact Hds|].
  eapply parts_received; eauto.
  - exact (ca_valid _ _ _ _ _ _ _ HC).
  - eapply overrider_valid; eauto. exact (ca_method _ _ _ _ _ _ _ HC).
Qed.

Theorem next_casts H key cf X R w mid m i oi all cs bs ovs f :
  hierarchy_ok H ->
  (forall c b, registered (e_ti (r_env X)) R (key c) -> derives (e_ti (r_env X)) R (key c) (key b) ->
     unambiguous H c b) ->
  program_ok cf (r_env X) R -> initialized_by cf X false R w ->
  m ∈ reg_methods R -> mr_overriders m !! i = Some oi ->
  unique_signature (e_ti (r_env X)) (mr_overriders m) i ->
  (forall args, valid_args (e_ti (r_env X)) R m args ->
     pointwise (e_ti (r_env X)) R (mr_overriders m)
       (candidate (e_ti (r_env X)) R (mr_overriders m) args)) ->
  functions_ok m -> NoDup (map or_pf (mr_overriders m)) ->
  valid_args (e_ti (r_env X)) R m (map key cs) -> applicable (e_ti (r_env X)) R (map key cs) oi ->
  map (e_ti (r_env X)) (mr_vp m) = map key bs -> takes (e_ti (r_env X)) key m ovs ->
  call_next w mid m (or_next oi) all = Ok (Calls f) ->
  exists j o ds, mr_overriders m !! j = Some o /\ or_pf o = f /\ ovs !! j = Some ds /\
    length bs = length cs /\ length ds = length cs /\
    forall k how c b d s, cs !! k = Some c -> bs !! k = Some b -> ds !! k = Some d ->
      contains H c s -> list.last s = Some b ->
      exists sd t, only_part H c d sd /\ only_part H d b t /\ embeds H d sd t s /\
        cast_part how H c b d s = Ok (Some sd).
Proof.
  intros HO HU HP HI Hm Hoi Hu Hpw HF Hnd Hva Hap Hbs Htk Hcall.
  destruct (next_behaves cf X R w mid m i oi all HP HI Hm Hoi Hu Hpw HF) as (sel & _ & _ & Hb).
  rewrite Hcall in Hb. inversion Hb as [| |j oj Hoj E1 E2]. subst f.
  assert (Hn : w_next w (or_next oi) = Some (or_pf oj)).
  { unfold call_next in Hcall. destruct (w_next w (or_next oi)) as [f|]; [|discriminate]. simpl in Hcall.
    destruct (decide (f = mr_not_implemented m)); [discriminate|].
    destruct (decide (f = mr_ambiguous m)); [discriminate|]. congruence. }
  destruct (next_down cf X R w HP HI m i oi Hm Hoi Hu j oj Hpw HF Hnd Hoj Hn) as [_ Hdown].
  destruct (Forall2_lookup_l _ _ _ _ _ Htk Hoj) as (ds & Hds & Hmap).
  exists j, oj, ds. split; [exact Hoj|]. split; [reflexivity|]. split; [exact Hds|].
  apply (parts_received H HO (e_ti (r_env X)) key R HU m cs bs ds oj); auto.
  eapply overrider_valid; eauto.
Qed.

(* ---- what the static_assert of use_classes checks ---- *)
Lemma inherits_hierarchy H is_base :
  hierarchy_ok H -> (forall b c, is_base b c = true <-> inherits H c b) -> cpp_hierarchy is_base.
Proof.
  intros HO HB. split.
  - intros c. apply HB. constructor.
  - intros a b c H1 H2. apply HB in H1, H2. apply HB. unfold inherits in *. etransitivity; eauto.
  - intros a b H1 H2. apply HB in H1, H2. apply (inherits_antisym H); assumption.
Qed.

Theorem listed_unambiguous H is_base abstract vptr_of static_type ti key ls R :
  hierarchy_ok H -> (forall b c, is_base b c = true <-> inherits H c b) ->
  identifies ti static_type key -> registers is_base abstract vptr_of static_type ls R ->
  complete is_base ls ->
  (forall c b, listed_together ls c b -> is_base b c = true -> unambiguous H c b) ->
  forall c b, registered ti R (key c) -> derives ti R (key c) (key b) -> unambiguous H c b.
Proof.
  intros HO HB HI HR HK HA c b Hr Hd.
  pose proof (inherits_hierarchy H is_base HO HB) as HC.
  apply (registered_key is_base abstract vptr_of static_type ti key ls R HI HR) in Hr.
  destruct (derives_sound is_base abstract vptr_of static_type ti key ls R HC HI HR _ _ Hd c eq_refl)
    as (b' & Hb & Hcb & HL). apply (proj2 HI) in Hb. subst b'.
  apply HA; [|exact Hcb]. apply (complete_together is_base ls); auto.
Qed.

(* ---- for examples ---- *)
Definition isb (H : hierarchy) (b c : N) : bool :=
  bool_decide (Exists (fun s => list.last s = Some b) (subobjects H c)).

Lemma isb_spec H b c : hierarchy_ok H -> isb H b c = true <-> inherits H c b.
Proof.
  intros HO. unfold isb. rewrite bool_decide_eq_true, list.Exists_exists. split.
  - intros (s & Hs & Hl). apply subobjects_spec in Hs; [|exact HO]. eapply contains_last; eauto.
  - intros Hi. apply inherits_contains in Hi as (s & Hs & Hl); [|exact HO].
    exists s. split; [apply subobjects_spec; assumption|exact Hl].
Qed.

Fixpoint hierarchyb (H : hierarchy) : bool :=
  match H with
  | [] => true
  | (c, bs) :: H' =>
      bool_decide (c ∉ map fst H') && forallb (fun bv => bool_decide (bv.1 ∈ map fst H')) bs && hierarchyb H'
  end.

Lemma hierarchyb_ok H : hierarchyb H = true -> hierarchy_ok H.
Proof.
  induction H as [|[c bs] H IH]; intros Hb.
  - split; [constructor|]. intros [|] c bs H2 b v [=].
  - simpl in Hb. apply andb_true_iff in Hb as [Hb H3]. apply andb_true_iff in Hb as [H1 H2].
    apply bool_decide_eq_true in H1. destruct (IH H3) as [Hnd Hbs]. split; [constructor; assumption|].
    intros L c' bs' K b v E Hin. destruct L as [|e L].
    + injection E as <- <- <-. rewrite forallb_forall in H2.
      apply elem_of_list_In, H2, bool_decide_eq_true in Hin. exact Hin.
    + injection E as _ E. eapply Hbs; eauto.
Qed.

Lemma unambiguousb H c b : hierarchy_ok H -> bool_decide (is_Some (conversion H c b)) = true -> unambiguous H c b.
Proof.
  intros HO Hb. apply bool_decide_eq_true in Hb as [t Ht]. exists t. apply conversion_spec; assumption.
Qed.
