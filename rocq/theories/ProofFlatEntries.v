(* The pointers that initialize() stores in v-tables are pointers into the array. *)
From stdpp Require Import base list numbers relations.
From Verif Require Import Base Registry Spec ModelClasses ModelMethods ModelSlots ModelTables
  ModelHash ModelWorld ModelCall SpecCall ModelFlat SpecFlat
  ProofBase ProofClasses ProofGraph ProofMethods ProofTables ProofErrors ProofCompile ProofEntries
  ProofWrite ProofWorld ProofCall ProofReinit ProofFlat.

Lemma prod_pos l : (forall x, x ∈ l -> 0 < x) -> 0 < prod l.
Proof.
  induction l as [|x l IH]; intros H; [cbn; lia|]. cbn. fold (prod l).
  assert (0 < x) by (apply H; left). assert (0 < prod l) by (apply IH; intros y Hy; apply H; right; exact Hy). nia.
Qed.

Section Words.
  Context (E : env) (R : registrations).
  Context (HE : env_ok E) (Hac : acyclic (e_ti E) R) (Har : arity_ok R).
  Context (n2216 : bool) (cp : compiled) (Hcp : compile E n2216 R = Ok cp).
  Context (buf : nat) (w : world) (wr : written) (Hwr : write_tables buf cp w = Ok wr).
  Notation mts := (zip (cp_methods cp) (tb_tables (cp_tables cp))).

  Lemma entry_from gvt e p a a' :
    write_entry buf mts gvt e a = Ok a' -> WPw p ∈ fst a' ->
    WPw p ∈ fst a \/ entry_word cp buf gvt e = Ok (WPw p).
  Proof.
    rewrite write_entry_word. intros H Hp. apply obind_ok in H as (y & Hy & H).
    destruct a as [ws it]. unfold put in H. case_decide; [|discriminate]. injection H as <-. cbn in *.
    apply elem_of_list_lookup in Hp as [i Hi]. apply list_lookup_insert_Some in Hi as [(-> & E' & _)|[_ Hi]].
    - right. rewrite Hy. congruence.
    - left. eapply elem_of_list_lookup_2; eauto.
  Qed.

  Lemma words_from st ws it stat :
    foldM (write_method (cp_slots cp)) (imap pair mts)
      (GvState (repeat WZero (data_size cp)) 0 (w_ss w) []) = Ok st ->
    foldM (write_class buf cp mts (gv_tables st)) (imap pair (g_classes (cp_graph cp)))
      (gv_words st, gv_iter st, w_static w) = Ok (ws, it, stat) ->
    forall p, WPw p ∈ ws -> exists c e, e ∈ tb_vtbl (cp_tables cp) c /\ entry_word cp buf (gv_tables st) e = Ok (WPw p).
  Proof.
    intros Hm H p.
    assert (H0 : WPw p ∉ gv_words st).
    { apply (foldM_inv_ok (fun s => WPw p ∉ gv_words s) _ _ _ _ Hm).
      - intros Hp. apply elem_of_list_In, repeat_spec in Hp. discriminate.
      - intros [mi [m t]] s1 s2 _ Hs Hr. unfold write_method in Hr. case_decide.
        + apply obind_ok in Hr as (sl & _ & E'). injection E' as <-. exact Hs.
        + case_decide; [|discriminate]. apply obind_ok in Hr as ([ws1 it1] & Hf & E'). injection E' as <-. cbn.
          change ws1 with (fst (ws1, it1)).
          apply (foldM_inv_ok (fun a => WPw p ∉ fst a) _ _ _ _ Hf); [exact Hs|].
          intros c [ws2 it2] a' _ Ha Hp. apply obind_ok in Hp as (pf & _ & Hp).
          unfold put in Hp. case_decide; [|discriminate]. injection Hp as <-. cbn in *. intros Hin.
          apply elem_of_list_lookup in Hin as [i Hi].
          apply list_lookup_insert_Some in Hi as [(_ & E' & _)|[_ Hi]]; [discriminate|].
          apply Ha. eapply elem_of_list_lookup_2; eauto. }
    set (Q := exists c e, e ∈ tb_vtbl (cp_tables cp) c /\ entry_word cp buf (gv_tables st) e = Ok (WPw p)).
    change (WPw p ∈ fst (fst (ws, it, stat)) -> Q).
    apply (foldM_inv_ok (fun s => WPw p ∈ fst (fst s) -> Q) _ _ _ _ H); [intros Hp; contradiction|].
    intros [c e] [[ws1 it1] st1] [[ws2 it2] st2] _ Hs Hc. unfold write_class in Hc.
    apply obind_ok in Hc as ([ws3 it3] & Hf & E'). injection E' as <- <- <-. cbn in *.
    change ws3 with (fst (ws3, it3)).
    apply (foldM_inv_ok (fun a => WPw p ∈ fst a -> Q) _ _ _ _ Hf); [exact Hs|].
    intros en a a' Hen Ha Hw' Hp. destruct (entry_from _ _ _ _ _ Hw' Hp) as [Hin|Hw2]; [auto|].
    exists c, en. split; [exact Hen|exact Hw2].
  Qed.

  Lemma stored_in_array p : WPw p ∈ wr_words wr ->
    exists i f, p = VPtr buf (Z.of_nat i) /\ wr_words wr !! i = Some (WPf f).
  Proof.
    intros Hp. pose proof Hwr as H. unfold write_tables in H.
    apply obind_ok in H as (st & Hm & H). apply obind_ok in H as (nx & _ & H).
    apply obind_ok in H as ([[ws it] stat] & H & E').
    assert (Hws : wr_words wr = ws) by (injection E' as <-; reflexivity). clear E'. rewrite Hws in Hp |- *.
    destruct (words_from st ws it stat Hm H p Hp) as (c & e & He & Hw).
    destruct (all_entries_valid E R HE Hac Har n2216 cp Hcp c e He)
      as (m & t & gs & gm & Hcm & Ht & HT & Hgm & Hlt).
    assert (Hmt : mts !! ve_method e = Some (m, t)) by (apply mts_lookup; auto).
    unfold entry_word in Hw.
    assert (Hat : at_ mts (ve_method e) = Ok (m, t)) by (apply at_ok; exact Hmt).
    rewrite Hat in Hw. cbn [obind] in Hw.
    destruct (decide (length (m_vp m) = 1)) as [H1|H1].
    { apply obind_ok in Hw as (cl & _ & Hw). apply obind_ok in Hw as (pf & _ & Hw). discriminate. }
    destruct (decide (ve_vp e = 0)) as [Hz|Hz]; [|discriminate].
    apply obind_ok in Hw as (gv & Hgv & Hw). injection Hw as <-. apply at_ok in Hgv.
    assert (Hcells : size_cells mts = sum (map (fun t => length (t_cells t)) (tb_tables (cp_tables cp)))).
    { unfold size_cells. f_equal. pose proof (mts_length E R HE Hac n2216 cp Hcp) as Hl. revert Hl.
      generalize (cp_methods cp) as ms, (tb_tables (cp_tables cp)) as ts.
      induction ms as [|m' ms IH]; intros [|t' ts] Hl; try discriminate; [reflexivity|].
      simpl. f_equal. apply IH. simpl in Hl. lia. }
    assert (Hsize : size_cells mts <= data_size cp) by (unfold data_size; lia).
    destruct (write_methods_ok E R HE Hac Har n2216 cp Hcp w (data_size cp) Hsize) as (st' & Hm' & MW).
    assert (st' = st) as -> by congruence.
    destruct (mw_cells _ _ _ _ _ MW (ve_method e) m t) as (gv' & Hgv' & Hle & Hcell);
      [apply elem_of_imap_pair; exact Hmt|exact H1|].
    assert (gv' = gv) as -> by congruence.
    assert (Hiter : gv_iter st <= size_cells mts).
    { pose proof (mw_iter _ _ _ _ _ MW) as Hi. rewrite (map_imap_pair (fun x => x)), map_id in Hi. exact Hi. }
    assert (Hds : data_size cp = size_cells mts + vtbl_size cp (seq 0 (g_n (cp_graph cp))))
      by (unfold data_size; rewrite Hcells; reflexivity).
    destruct (write_classes_ok E R HE Hac Har n2216 cp Hcp buf w (data_size cp) (gv_iter st) (gv_words st) (gv_tables st))
      as (st2 & Hc2 & CW); [exact (mw_len _ _ _ _ _ MW)| |lia|].
    { rewrite (mw_tables _ _ _ _ _ MW), imap_length. reflexivity. }
    rewrite H in Hc2. injection Hc2 as <-. destruct CW as [_ _ C3 _ _]. cbn in C3.
    enough (length gm <= length (t_cells t)) as Hfit.
    { destruct (lookup_lt_is_Some_2 (t_cells t) (ve_group e)) as [cl Hcl]; [lia|].
      destruct (Hcell _ _ Hcl) as (f & _ & Hf). exists (gv + ve_group e), f. split; [reflexivity|].
      rewrite C3; [exact Hf|lia]. }
    destruct (build_table_ok _ _ _ _ _ _ (to_cells _ _ _ _ _ _ HT)) as [Hl _]. rewrite Hl, tbl_size_rev.
    rewrite Hz in Hgm. destruct gs as [|gm0 gs]; [discriminate|]. injection Hgm as ->. cbn. fold (prod (map length gs)).
    assert (0 < prod (map length gs)); [|nia].
    apply prod_pos. intros x Hx. apply elem_of_list_fmap in Hx as (gm' & -> & Hin).
    apply elem_of_list_lookup in Hin as [d Hd].
    apply (groups_nonempty E R HE Hac Har n2216 cp Hcp (ve_method e) m (gm :: gs) t (S d) gm' Hcm HT Hd).
  Qed.
End Words.

Lemma initialize_data cf X n2216 R w w' rep :
  initialize cf X n2216 R w = (w', Ok rep) -> w_data w' = Some (w_fresh w).
Proof.
  unfold initialize, install. intros H.
  destruct (compile (r_env X) n2216 R) as [cp|e| |]; try discriminate.
  destruct (write_tables (w_fresh w) cp w) as [wr|e| |] eqn:Hwr; try discriminate.
  repeat (case_match; try discriminate); injection H as <- _; reflexivity.
Qed.

Theorem entries_in_array cf X n2216 R w b ws p :
  program_ok cf (r_env X) R -> initialized_by cf X n2216 R w ->
  w_data w = Some b -> w_heap w b = Some ws -> WPw p ∈ ws ->
  exists i f, p = VPtr b (Z.of_nat i) /\ ws !! i = Some (WPf f).
Proof.
  intros [HE Hac Har Hids Hn HA] (w0 & rep & Hw & Hinit) Hb Hws Hp.
  destruct (initialize_written _ _ _ _ _ _ _ Hinit Hw) as (cp & wr & Hcp & Hwr & Hheap & _).
  rewrite (initialize_data _ _ _ _ _ _ _ Hinit) in Hb. injection Hb as <-.
  rewrite Hheap in Hws. injection Hws as <-.
  exact (stored_in_array _ R HE Hac Har n2216 cp Hcp _ _ wr Hwr p Hp).
Qed.
