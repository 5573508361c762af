(* What the trace tells of next. *)
From stdpp Require Import base list numbers list_numbers strings relations.
From Verif Require Import Base Registry Spec ModelClasses ModelMethods ModelSlots ModelTables
  ModelHash ModelWorld ModelCall SpecCall ModelTrace SpecTrace
  ProofBase ProofClasses ProofGraph ProofMethods ProofBits ProofSlots ProofSelect ProofTables
  ProofCompile ProofErrors ProofEntries ProofWrite ProofWorld ProofCall ProofCells ProofDispatch ProofBehaviour
  ProofNext ProofTrace ProofTraceRead ProofTraceCalls.

(* The next of a cell is that of its overrider. *)
Definition next_matches (c : cell) : Prop :=
  match cl_target c with
  | TOverrider i => exists tg, cl_next c = Some (i, tg)
  | _ => cl_next c = None
  end.

Lemma build_cell_next g n2216 m mask c : build_cell g n2216 m mask = Ok c -> next_matches c.
Proof.
  unfold build_cell. intros H. apply obind_ok in H as ([[doms pick] rem] & _ & H).
  case_decide; [injection H as <-; reflexivity|].
  case_decide; [injection H as <-; reflexivity|].
  apply obind_ok in H as (o & _ & H). apply obind_ok in H as (i & _ & H).
  destruct (remove_dominants _ doms) as [ovs rem'].
  case_decide; [injection H as <-; eexists; reflexivity|].
  apply obind_ok in H as ([[nexts pick'] rem''] & _ & H).
  case_decide; [injection H as <-; eexists; reflexivity|].
  apply obind_ok in H as (o' & _ & H). apply obind_ok in H as (i' & _ & H).
  injection H as <-. eexists; reflexivity.
Qed.

Lemma tells_of_cell mi m ts c i : next_matches c ->
  tells_of mi i (Reading mi ts (verdict_of m c) (next_of m c)) = true <->
  exists tg, cl_next c = Some (i, tg).
Proof.
  intros Hn. unfold tells_of, next_matches, verdict_of in *. cbn [rg_method rg_says].
  rewrite bool_decide_eq_true_2 by reflexivity. cbn [andb].
  destruct (cl_target c) as [| |j]; cbn [verdict_to].
  - rewrite Hn. split; [discriminate|]. intros [tg H]. discriminate.
  - rewrite Hn. split; [discriminate|]. intros [tg H]. discriminate.
  - destruct Hn as [tg Hn]. rewrite bool_decide_eq_true, Hn. split.
    + intros ->. eauto.
    + intros [tg' H]. congruence.
Qed.

(* The last that is told of an overrider is the last that is assigned to its next. *)
Lemma last_told mi m i ps cells r : length ps = length cells -> Forall next_matches cells ->
  last (filter (fun r => tells_of mi i r = true) (entries mi m [] ps cells)) = Some r ->
  exists tg, final_next cells i = Some tg /\ rg_next r = Some (verdict_to m tg).
Proof.
  revert ps. induction cells as [|c cells IH] using rev_ind; intros ps Hl Hn H.
  { destruct ps; discriminate. }
  destruct ps as [|p ps _] using rev_ind; [rewrite app_length in Hl; cbn in Hl; lia|].
  rewrite !app_length in Hl. cbn in Hl.
  apply Forall_app in Hn as [Hn Hc]. apply Forall_cons in Hc as [Hc _].
  rewrite entries_app in H by lia. rewrite filter_app in H.
  unfold final_next. rewrite foldl_app. cbn [foldl].
  fold (final_next cells i). unfold entries in H at 2. cbn [zip_with] in H.
  set (r0 := Reading mi (p ++ map snd []) (verdict_of m c) (next_of m c)) in *.
  destruct (decide (tells_of mi i r0 = true)) as [Ht|Ht].
  - rewrite filter_cons_True in H by exact Ht. rewrite filter_nil, last_snoc in H. injection H as <-.
    apply tells_of_cell in Ht as [tg Htg]; [|exact Hc]. rewrite Htg.
    rewrite decide_True by reflexivity. exists tg. split; [reflexivity|].
    cbn [rg_next r0]. unfold next_of. rewrite Htg. reflexivity.
  - rewrite filter_cons_False in H by exact Ht. rewrite filter_nil, app_nil_r in H.
    destruct (IH ps ltac:(lia) Hn H) as (tg & Hf & Hr). exists tg. split; [|exact Hr].
    destruct (cl_next c) as [[j tg']|] eqn:Hcn; [|exact Hf].
    destruct (decide (j = i)) as [->|]; [|exact Hf].
    destruct Ht. apply tells_of_cell; [exact Hc|]. eauto.
Qed.

Section Told.
  Context (E : env) (R : registrations) (HE : env_ok E) (Hac : acyclic (e_ti E) R) (Har : arity_ok R).
  Context (n2216 : bool) (cp : compiled) (Hcp : compile E n2216 R = Ok cp).
  Notation g := (cp_graph cp).
  Notation rds := (readings (fst (trace_compile E n2216 R))).

  Lemma chunk_method im r : r ∈ chunk E g n2216 im -> rg_method r = fst im.
  Proof.
    unfold chunk. destruct (mapM _ _) as [gs|e| |]; try (intros H; inversion H; fail).
    destruct (build_dispatch_table _ _ _ _ _) as [cells|e| |]; try (intros H; inversion H; fail).
    intros H. apply elem_of_list_lookup in H as [j Hj]. unfold entries in Hj.
    rewrite lookup_zip_with in Hj. destruct (paths _ !! j); [|discriminate].
    destruct (cells !! j); [|discriminate]. injection Hj as <-. reflexivity.
  Qed.

  Lemma filter_chunks mi i (l : list (nat * cmethod)) m : NoDup (map fst l) -> (mi, m) ∈ l ->
    filter (fun r => tells_of mi i r = true) (flat_map (chunk E g n2216) l) =
    filter (fun r => tells_of mi i r = true) (chunk E g n2216 (mi, m)).
  Proof.
    assert (Hother : forall l, mi ∉ map fst l ->
      filter (fun r => tells_of mi i r = true) (flat_map (chunk E g n2216) l) = []).
    { intros l' Hl. apply elem_of_nil_inv. intros r Hr. apply elem_of_list_filter in Hr as [Ht Hr].
      apply elem_of_list_In, in_flat_map in Hr as (im & Him & Hr). apply elem_of_list_In in Him, Hr.
      apply chunk_method in Hr. apply andb_true_iff in Ht as [Ht _]. apply bool_decide_eq_true in Ht.
      destruct Hl. apply elem_of_list_fmap. exists im. split; [congruence|exact Him]. }
    induction l as [|[mi' m'] l IH]; intros Hnd Hin; [inversion Hin|].
    cbn [map fst] in Hnd. apply NoDup_cons in Hnd as [Hni Hnd]. cbn [flat_map]. rewrite filter_app.
    apply elem_of_cons in Hin as [[= <- <-]|Hin].
    - rewrite Hother by exact Hni. apply app_nil_r.
    - rewrite IH by assumption.
      assert (filter (fun r => tells_of mi i r = true) (chunk E g n2216 (mi', m')) = []) as ->; [|reflexivity].
      specialize (Hother [(mi', m')]). cbn [flat_map] in Hother. rewrite app_nil_r in Hother.
      apply Hother. intros Hmi. apply elem_of_list_singleton in Hmi. cbn in Hmi. subst mi'.
      destruct Hni. apply elem_of_list_fmap. exists (mi, m). auto.
  Qed.

  Context (mi : nat) (mr : method_record) (m : cmethod) (gs : list group_map) (t : table).
  Context (HT : has_table E R n2216 cp mi mr m gs t).

  Lemma cells_match : Forall next_matches (t_cells t).
  Proof.
    apply Forall_lookup. intros j c Hj. pose proof (ht_tok _ _ _ _ _ _ _ _ _ HT) as Htok.
    destruct (build_table_ok _ _ _ _ _ _ (to_cells _ _ _ _ _ _ Htok)) as [Hlen Hcell].
    pose proof (lookup_lt_Some _ _ _ Hj) as Hlt. rewrite Hlen in Hlt.
    destruct (tbl_index_surj _ _ Hlt) as (ris & ks & Htup & Hidx).
    destruct (Hcell ris ks Htup) as (c' & Hc' & Hb). rewrite Hidx, Hj in Hc'. injection Hc' as <-.
    eapply build_cell_next; exact Hb.
  Qed.

  Lemma last_told_final i r : last (filter (fun r => tells_of mi i r = true) rds) = Some r ->
    exists tg, final_next (t_cells t) i = Some tg /\ rg_next r = Some (verdict_to m tg).
  Proof.
    rewrite (trace_readings E R HE Hac n2216 cp Hcp).
    pose proof (ht_tok _ _ _ _ _ _ _ _ _ HT) as Htok.
    rewrite (filter_chunks mi i _ m).
    - unfold chunk. cbn [fst snd].
      rewrite (to_groups _ _ _ _ _ _ Htok), (to_cells _ _ _ _ _ _ Htok).
      apply last_told; [|apply cells_match].
      destruct (build_table_ok _ _ _ _ _ _ (to_cells _ _ _ _ _ _ Htok)) as [-> _]. apply paths_length.
    - change (map fst) with (fmap (M := list) (@fst nat cmethod)). rewrite fmap_imap.
      change (imap (fun n => fst ∘ pair n) (cp_methods cp)) with (imap (fun n _ => n) (cp_methods cp)).
      rewrite (imap_seq_0 (cp_methods cp) (fun n => n)), list_fmap_id. apply NoDup_seq.
    - apply elem_of_list_lookup. exists mi.
      rewrite list_lookup_imap, (ht_method _ _ _ _ _ _ _ _ _ HT). reflexivity.
  Qed.

  (* Whatever is told of an overrider is told of a cell. *)
  Lemma told_cell i r : r ∈ rds -> tells_of mi i r = true ->
    exists j c tg, t_cells t !! j = Some c /\ cl_next c = Some (i, tg) /\
      rg_next r = Some (verdict_to m tg).
  Proof.
    intros Hr Ht. apply (readings_in E R HE Hac Har n2216 cp Hcp) in Hr as (mi' & mr' & m' & gs' & t' & HT' & Hr).
    destruct (entry_inv E R n2216 cp mi' mr' m' gs' t' HT' r Hr) as (is & ks & c & Htup & L & Hc & ->).
    assert (mi' = mi) as ->.
    { apply andb_true_iff in Ht as [Ht _]. apply bool_decide_eq_true in Ht. exact Ht. }
    assert (m' = m /\ t' = t) as [-> ->].
    { destruct HT as [A1 A2 A3 _ _ _ _ _], HT' as [B1 B2 B3 _ _ _ _ _]. split; congruence. }
    apply tells_of_cell in Ht as [tg Htg];
      [|apply (proj1 (Forall_lookup _ _) cells_match _ _ Hc)].
    eexists _, c, tg. split; [exact Hc|]. split; [exact Htg|].
    cbn [rg_next]. unfold next_of. rewrite Htg. reflexivity.
  Qed.

  (* And of each cell that designates a next, something is told. *)
  Lemma cell_told i j c tg : t_cells t !! j = Some c -> cl_next c = Some (i, tg) ->
    exists r, r ∈ rds /\ tells_of mi i r = true.
  Proof.
    intros Hj Htg. pose proof (ht_tok _ _ _ _ _ _ _ _ _ HT) as Htok.
    destruct (build_table_ok _ _ _ _ _ _ (to_cells _ _ _ _ _ _ Htok)) as [Hlen _].
    pose proof (lookup_lt_Some _ _ _ Hj) as Hlt.
    destruct (lookup_lt_is_Some_2 (paths (map (group_names g) (rev gs))) j) as [p Hp];
      [rewrite paths_length; lia|].
    eexists. split.
    - apply (readings_in E R HE Hac Har n2216 cp Hcp). exists mi, mr, m, gs, t. split; [exact HT|].
      apply elem_of_list_lookup. exists j. unfold entries. rewrite lookup_zip_with, Hp, Hj. reflexivity.
    - apply tells_of_cell; [apply (proj1 (Forall_lookup _ _) cells_match _ _ Hj)|]. eauto.
  Qed.
End Told.

(* The last that the trace tells of an overrider is what it calls by next. *)
Theorem trace_next_last cf X n2216 R w mi m i o r :
  program_ok cf (r_env X) R -> initialized_by cf X n2216 R w ->
  reg_methods R !! mi = Some m -> mr_overriders m !! i = Some o ->
  last (filter (fun r => tells_of mi i r = true) (readings (fst (trace_compile (r_env X) n2216 R)))) = Some r ->
  exists v sel f, rg_next r = Some v /\ says m v sel /\
    selected_fn m sel = Some f /\ w_next w (or_next o) = Some f.
Proof.
  intros HP (w0 & rep & Hw0 & Hi) Hmi Hoi Hr. destruct HP as [HE Hac Har Hids Hn HA].
  destruct (initialize_ok_inv cf X n2216 R w0 HE Hac Har w rep Hids Hn Hw0 Hi) as (cp & Hcp & _ & HI & _).
  destruct (has_table_exists (r_env X) R HE Hac Har n2216 cp Hcp mi m Hmi) as (cm & gs & t & HT).
  pose proof (ht_ok _ _ _ _ _ _ _ _ _ HT) as Hmok.
  destruct (last_told_final (r_env X) R HE Hac n2216 cp Hcp mi m cm gs t HT i r Hr) as (tg & Htg & Hnx).
  destruct (in_written _ _ _ _ HI) as (buf & wr & gvt & Hok & _ & _ & _ & _ & Hwn).
  destruct (Forall2_lookup_l _ _ _ _ _ (mo_ovs _ _ _ _ Hmok) Hoi) as (o' & Ho' & Hook).
  pose proof (wr_next_ok _ _ _ _ _ Hok) as Hw.
  assert (Hmt : zip (cp_methods cp) (tb_tables (cp_tables cp)) !! mi = Some (cm, t)).
  { apply mts_lookup. split; [apply (ht_method _ _ _ _ _ _ _ _ _ HT)|apply (ht_table _ _ _ _ _ _ _ _ _ HT)]. }
  specialize (Hw (next_nodup (r_env X) R HE Hac n2216 cp Hcp HA) mi cm t i o' Hmt Ho').
  rewrite Htg in Hw. destruct Hw as (f & Hf & Hv).
  destruct (verdict_says (r_env X) (cp_graph cp) m cm tg f Hmok Hf) as [Hs Hsel].
  exists (verdict_to cm tg), (sel_of tg), f. split; [exact Hnx|]. split; [exact Hs|]. split; [exact Hsel|].
  rewrite Hwn, <- (oo_next _ _ _ _ Hook). exact Hv.
Qed.

(* Where next is what the rule selects, the trace says so wherever it tells of the overrider. *)
Theorem trace_next cf X R w mi m i o :
  program_ok cf (r_env X) R -> initialized_by cf X false R w ->
  reg_methods R !! mi = Some m -> mr_overriders m !! i = Some o ->
  unique_signature (e_ti (r_env X)) (mr_overriders m) i ->
  (forall args, valid_args (e_ti (r_env X)) R m args ->
     pointwise (e_ti (r_env X)) R (mr_overriders m)
       (candidate (e_ti (r_env X)) R (mr_overriders m) args)) ->
  exists sel f, selects_next (e_ti (r_env X)) R (mr_overriders m) i sel /\
    selected_fn m sel = Some f /\ w_next w (or_next o) = Some f /\
    let rds := readings (fst (trace_compile (r_env X) false R)) in
    (exists r, r ∈ rds /\ tells_of mi i r = true) /\
    forall r, r ∈ rds -> tells_of mi i r = true -> exists v, rg_next r = Some v /\ says m v sel.
Proof.
  intros HP HW Hmi Hoi Hu Hpw.
  pose proof (elem_of_list_lookup_2 _ _ _ Hmi) as Hm.
  destruct (next_selects cf X R w HP HW m i o Hm Hoi Hu Hpw) as (sel & f & Hsel & Huniq & Hf & Hw).
  exists sel, f. split; [exact Hsel|]. split; [exact Hf|]. split; [exact Hw|].
  intros rds. pose proof HP as HP'. destruct HP' as [HE Hac Har Hids Hn HA].
  destruct HW as (w0 & rep & Hw0 & Hi).
  destruct (initialize_ok_inv cf X false R w0 HE Hac Har w rep Hids Hn Hw0 Hi) as (cp & Hcp & _ & HI & _).
  destruct (has_table_exists (r_env X) R HE Hac Har false cp Hcp mi m Hmi) as (cm & gs & t & HT).
  pose proof (ht_ok _ _ _ _ _ _ _ _ _ HT) as Hmok.
  split.
  { destruct (own_cell_next cf X R HP m i o Hm Hoi Hu cp mi cm gs t Hcp HT) as [tg Htg].
    destruct (final_next_in _ _ _ Htg) as (c & Hc & Hnx). apply elem_of_list_lookup in Hc as [j Hj].
    eapply (cell_told (r_env X) R HE Hac Har false cp Hcp mi m cm gs t HT); eauto. }
  intros r Hr Ht.
  destruct (told_cell (r_env X) R HE Hac Har false cp Hcp mi m cm gs t HT i r Hr Ht)
    as (j & c & tg & Hj & Htg & Hnx).
  destruct (cell_next_selects cf X R HP m i o Hm Hoi cp mi cm gs t j c tg Hpw Hcp HT Hj Htg)
    as (Hs & _ & f' & Hf' & _).
  exists (verdict_to cm tg). split; [exact Hnx|]. rewrite <- (Huniq _ Hs).
  apply (verdict_says (r_env X) (cp_graph cp) m cm tg f' Hmok Hf').
Qed.
