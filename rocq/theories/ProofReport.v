(* The report returned by initialize(). *)
From stdpp Require Import base list numbers list_numbers relations.
From Verif Require Import Base Registry Spec ModelClasses ModelMethods ModelSlots ModelTables
  ModelHash ModelWorld ModelCall SpecCall
  ProofBase ProofClasses ProofGraph ProofMethods ProofBits ProofSlots ProofSelect ProofTables
  ProofCompile ProofErrors ProofEntries ProofWrite ProofHash ProofWorld ProofCall ProofCells
  ProofDispatch ProofBehaviour.

Lemma accumulate_ni ts r :
  rp_ni (foldl accumulate r ts) = rp_ni r + length (filter (fun t => rp_ni (t_report t) <> 0) ts).
Proof.
  revert r. induction ts as [|t ts IH]; intros r; simpl; [lia|]. rewrite IH, filter_cons. simpl.
  destruct (decide (rp_ni (t_report t) = 0)) as [H|H].
  - rewrite decide_False by lia. lia.
  - rewrite decide_True by lia. simpl. lia.
Qed.

Lemma accumulate_amb ts r :
  rp_amb (foldl accumulate r ts) = rp_amb r + length (filter (fun t => rp_amb (t_report t) <> 0) ts).
Proof.
  revert r. induction ts as [|t ts IH]; intros r; simpl; [lia|]. rewrite IH, filter_cons. simpl.
  destruct (decide (rp_amb (t_report t) = 0)) as [H|H].
  - rewrite decide_False by lia. lia.
  - rewrite decide_True by lia. simpl. lia.
Qed.

Lemma accumulate_cells ts r :
  rp_cells (foldl accumulate r ts) = rp_cells r + sum_list (map (fun t => rp_cells (t_report t)) ts).
Proof.
  revert r. induction ts as [|t ts IH]; intros r; simpl; [lia|]. rewrite IH. simpl. lia.
Qed.

Lemma filter_zip {A B} (P : B -> Prop) `{forall x, Decision (P x)} (l : list A) (k : list B) :
  length l = length k ->
  length (filter P k) = length (map fst (filter (fun p : A * B => P (snd p)) (zip l k))).
Proof.
  revert k. induction l as [|a l IH]; intros [|b k] Hl; simpl in *; try lia.
  rewrite !filter_cons. simpl. destruct (decide (P b)); simpl; rewrite IH by lia; reflexivity.
Qed.

Lemma filter_zip_nodup {A B} (P : A * B -> Prop) `{forall x, Decision (P x)} (l : list A) (k : list B) :
  NoDup l -> NoDup (map fst (filter P (zip l k))).
Proof.
  revert k. induction l as [|a l IH]; intros [|b k] Hn; simpl; try constructor.
  apply NoDup_cons in Hn as [Ha Hn].
  assert (Hin : a ∉ map fst (filter P (zip l k))).
  { intros Hi. apply elem_of_list_fmap in Hi as ([x y] & -> & Hi).
    apply elem_of_list_filter in Hi as [_ Hi]. apply elem_of_zip_l in Hi. contradiction. }
  rewrite filter_cons. destruct (decide _); simpl; [constructor|]; auto.
Qed.

Lemma count_nonzero p cs : count_cells p cs <> 0 <-> exists c, c ∈ cs /\ p c = true.
Proof.
  unfold count_cells. split.
  - intros H. destruct (filter (fun c => p c = true) cs) as [|c l] eqn:Hf; [simpl in H; lia|].
    assert (Hc : c ∈ filter (fun c => p c = true) cs) by (rewrite Hf; left).
    apply elem_of_list_filter in Hc. exists c. tauto.
  - intros (c & Hc & Hp) H. apply length_zero_iff_nil in H.
    assert (Hi : c ∈ filter (fun c => p c = true) cs) by (apply elem_of_list_filter; auto).
    rewrite H in Hi. inversion Hi.
Qed.

Section Report.
  Context (cf : config) (X : run) (R : registrations) (w0 w : world) (rep : method_report).
  Notation E := (r_env X).
  Notation ti := (e_ti (r_env X)).
  Context (HP : program_ok cf (r_env X) R) (Hw0 : world_ok w0).
  Context (Hinit : initialize cf X false R w0 = (w, Ok rep)).

  Definition fails_none (m : method_record) : Prop :=
    exists args, valid_args ti R m args /\ selects ti R (mr_overriders m) args SNone.
  Definition fails_ambiguous (m : method_record) : Prop :=
    exists args, valid_args ti R m args /\ selects ti R (mr_overriders m) args SAmbiguous.
  Definition transitive_method (m : method_record) : Prop :=
    forall args, valid_args ti R m args ->
      settled ti R (mr_overriders m) (candidate ti R (mr_overriders m) args).

  Lemma compiled_report : exists cp, compile E false R = Ok cp /\ rep = tb_report (cp_tables cp) /\
    installed cf cp w0 w.
  Proof.
    destruct HP as [HE Hac Har Hids Hn HA].
    destruct (initialize_ok_inv cf X false R w0 HE Hac Har w rep Hids Hn Hw0 Hinit)
      as (cp & H1 & H2 & H3 & _). eauto.
  Qed.

  Lemma methods_nodup : NoDup (reg_methods R).
  Proof. eapply NoDup_fmap_1. apply (ad_slots _ _ (po_addresses _ _ _ HP)). Qed.

  (* The cells of a method, and its argument tuples. *)
  Lemma table_fails cp mi mr m gs t :
    compile E false R = Ok cp -> has_table E R false cp mi mr m gs t ->
    (rp_ni (t_report t) <> 0 <-> fails_none mr) /\
    (transitive_method mr -> rp_amb (t_report t) <> 0 <-> fails_ambiguous mr).
  Proof.
    intros Hcp HT. destruct HP as [HE Hac Har Hids Hn HA].
    pose proof (compile_inv E R HE Hac false cp Hcp) as HCI. pose proof (co_graph _ _ _ _ HCI) as HG.
    pose proof (ht_ok _ _ _ _ _ _ _ _ _ HT) as Hmok. pose proof (ht_arity _ _ _ _ _ _ _ _ _ HT) as Hao.
    pose proof (ht_tok _ _ _ _ _ _ _ _ _ HT) as Htok.
    set (ovs := mr_overriders mr).
    (* from arguments to cells, and back *)
    assert (F : forall args, valid_args ti R mr args -> exists c l, c ∈ t_cells t /\
      (forall i, i ∈ l <-> candidate ti R ovs args i) /\ cell_ok (cp_graph cp) m l c).
    { intros args Hva. destruct (args_at_exists E R HE Hac false cp Hcp _ _ _ _ _ HT args Hva) as (cs & is & [A1 A2 A3]).
      destruct (cell_selects E R (cp_graph cp) HE HG mr m Hmok Hao gs t args cs is Htok A1 A2 A3)
        as (c & l & Hcell & Hnd & Hl & Hck). exists c, l. split; [eapply elem_of_list_lookup_2; eauto|auto]. }
    assert (B : forall c, c ∈ t_cells t -> exists args l, valid_args ti R mr args /\
      (forall i, i ∈ l <-> candidate ti R ovs args i) /\ cell_ok (cp_graph cp) m l c).
    { intros c Hc. apply elem_of_list_lookup in Hc as [j Hj].
      destruct (cell_args E R HE Hac false cp Hcp _ _ _ _ _ HT j c Hj) as (args & cs & is & Hva & [A1 A2 A3] & Hidx).
      destruct (cell_selects E R (cp_graph cp) HE HG mr m Hmok Hao gs t args cs is Htok A1 A2 A3)
        as (c' & l & Hcell & Hnd & Hl & Hck).
      rewrite <- Hidx, Hj in Hcell. injection Hcell as <-. eauto. }
    assert (Hlt : forall args i, candidate ti R ovs args i -> i < length ovs).
    { intros args i (oi & Hoi & _). eapply lookup_lt_Some; eauto. }
    rewrite (to_report _ _ _ _ _ _ Htok). simpl. split.
    - rewrite count_nonzero. split.
      + intros (c & Hc & Hp). destruct (B c Hc) as (args & l & Hva & Hl & Hck). exists args. split; [exact Hva|].
        pose proof (ck_target _ _ _ _ Hck) as Hel. unfold is_not_implemented in Hp.
        destruct (cl_target c) eqn:Ht; try discriminate.
        assert (l = []) as -> by (eapply elim_none; [exact Hel|reflexivity]).
        intros i Hi. apply Hl in Hi. inversion Hi.
      + intros (args & Hva & Hs). destruct (F args Hva) as (c & l & Hc & Hl & Hck). exists c. split; [exact Hc|].
        unfold is_not_implemented. enough (cl_target c = TNotImplemented) as -> by reflexivity.
        eapply elim_none; [apply (ck_target _ _ _ _ Hck)|].
        destruct l as [|x l]; [reflexivity|]. destruct (Hs x). apply Hl. left.
    - intros Htr. rewrite count_nonzero. split.
      + intros (c & Hc & Hp). destruct (B c Hc) as (args & l & Hva & Hl & Hck). exists args. split; [exact Hva|].
        apply (ck_ambiguous _ _ _ _ Hck) in Hp. pose proof (ck_target _ _ _ _ Hck) as Hel. rewrite Hp in Hel.
        apply (elim_selects E R (cp_graph cp) HG mr m Hmok l _ _ Hl (Hlt args) (Htr args Hva) Hel).
      + intros (args & Hva & Hs). destruct (F args Hva) as (c & l & Hc & Hl & Hck). exists c. split; [exact Hc|].
        apply (ck_ambiguous _ _ _ _ Hck). pose proof (ck_target _ _ _ _ Hck) as Hel.
        pose proof (elim_selects E R (cp_graph cp) HG mr m Hmok l _ _ Hl (Hlt args) (Htr args Hva) Hel) as Hs'.
        pose proof (selects_from_unique _ _ _ _ _ _ Hs Hs') as Heq. destruct (cl_target c); [discriminate|reflexivity|discriminate].
  Qed.

  Lemma tables_report cp : compile E false R = Ok cp ->
    tb_report (cp_tables cp) = foldl accumulate (Report 0 0 0) (tb_tables (cp_tables cp)).
  Proof.
    intros Hcp. destruct HP as [HE Hac Har Hids Hn HA].
    pose proof (compile_inv E R HE Hac false cp Hcp) as HCI.
    destruct (build_tables_ok _ _ _ _ _ _ (co_tables _ _ _ _ HCI)) as (gss & H). apply H.
  Qed.

  Lemma tables_length cp : compile E false R = Ok cp ->
    length (reg_methods R) = length (tb_tables (cp_tables cp)).
  Proof.
    intros Hcp. destruct HP as [HE Hac Har Hids Hn HA].
    pose proof (compile_inv E R HE Hac false cp Hcp) as HCI.
    rewrite (Forall2_length _ _ _ (co_methods _ _ _ _ HCI)).
    destruct (cp_tables_ok E R HE Hac false cp Hcp) as (gss & L1 & L2 & _). lia.
  Qed.

  Lemma bad_methods cp (P : table -> Prop) `{forall t, Decision (P t)} (Q : method_record -> Prop) :
    compile E false R = Ok cp ->
    (forall mi mr m gs t, has_table E R false cp mi mr m gs t -> P t <-> Q mr) ->
    exists bad, NoDup bad /\ (forall m, m ∈ bad <-> m ∈ reg_methods R /\ Q m) /\
      length (filter P (tb_tables (cp_tables cp))) = length bad.
  Proof.
    intros Hcp HPQ. destruct HP as [HE Hac Har Hids Hn HA].
    exists (map fst (filter (fun p => P (snd p)) (zip (reg_methods R) (tb_tables (cp_tables cp))))).
    split; [apply filter_zip_nodup, methods_nodup|]. split; [|apply filter_zip, (tables_length _ Hcp)].
    intros mr. rewrite elem_of_list_fmap. split.
    - intros ([x t] & -> & Hi). apply elem_of_list_filter in Hi as [Hp Hi]. simpl in *.
      apply elem_of_list_lookup in Hi as [mi Hmi].
      apply lookup_zip_with_Some in Hmi as (? & ? & [= <- <-] & Hm & Ht).
      split; [eapply elem_of_list_lookup_2; exact Hm|].
      destruct (has_table_exists E R HE Hac Har false cp Hcp mi x Hm) as (m & gs & t' & HT).
      replace t' with t in * by (pose proof (ht_table _ _ _ _ _ _ _ _ _ HT); congruence).
      eapply HPQ; eauto.
    - intros [Hm Hq]. apply elem_of_list_lookup in Hm as [mi Hmi].
      destruct (has_table_exists E R HE Hac Har false cp Hcp mi mr Hmi) as (m & gs & t & HT).
      exists (mr, t). split; [reflexivity|]. apply elem_of_list_filter. split; [eapply HPQ; eauto|].
      eapply elem_of_list_lookup_2 with (i := mi). apply lookup_zip_with_Some.
      exists mr, t. split; [reflexivity|]. split; [exact Hmi|apply (ht_table _ _ _ _ _ _ _ _ _ HT)].
  Qed.

  Theorem report_not_implemented :
    exists bad, NoDup bad /\ (forall m, m ∈ bad <-> m ∈ reg_methods R /\ fails_none m) /\
      rp_ni rep = length bad.
  Proof.
    destruct compiled_report as (cp & Hcp & -> & _).
    destruct (bad_methods cp (fun t => rp_ni (t_report t) <> 0) fails_none Hcp) as (bad & H1 & H2 & H3).
    { intros mi mr m gs t HT. apply (table_fails cp mi mr m gs t Hcp HT). }
    exists bad. split; [exact H1|]. split; [exact H2|]. rewrite <- H3.
    destruct HP as [HE Hac Har Hids Hn HA].
    rewrite (tables_report cp Hcp). rewrite accumulate_ni. reflexivity.
  Qed.

  Theorem report_ambiguous :
    (forall m, m ∈ reg_methods R -> transitive_method m) ->
    exists bad, NoDup bad /\ (forall m, m ∈ bad <-> m ∈ reg_methods R /\ fails_ambiguous m) /\
      rp_amb rep = length bad.
  Proof.
    intros Htr. destruct compiled_report as (cp & Hcp & -> & _).
    destruct (bad_methods cp (fun t => rp_amb (t_report t) <> 0) fails_ambiguous Hcp) as (bad & H1 & H2 & H3).
    { intros mi mr m gs t HT. apply (table_fails cp mi mr m gs t Hcp HT), Htr.
      eapply elem_of_list_lookup_2, (ht_reg _ _ _ _ _ _ _ _ _ HT). }
    exists bad. split; [exact H1|]. split; [exact H2|]. rewrite <- H3.
    destruct HP as [HE Hac Har Hids Hn HA].
    rewrite (tables_report cp Hcp). rewrite accumulate_amb. reflexivity.
  Qed.

  (* A clean report: every call enters an applicable overrider. *)
  Theorem report_clean mid m all args :
    bases_first ti R -> rp_ni rep = 0 -> rp_amb rep = 0 ->
    call_ok cf ti R w m all args -> functions_ok m -> (length (mr_vp m) = 1 \/ together all) ->
    exists o, o ∈ mr_overriders m /\ applicable ti R args o /\ call cf w mid m all = Ok (Calls (or_pf o)).
  Proof.
    intros HB Hni Hamb [Hm Hvs Hva] Hf Htog. destruct compiled_report as (cp & Hcp & Hrep & _).
    destruct (dispatch_cell cf X R w0 w rep HP HB Hw0 false Hinit m all args Hm Hvs Hva)
      as (cp' & mi & m' & t & gs & cs & is & Hcp' & Hcm & Hmi & Hmok & Htok & Hcs & Htd & Hin & Hres).
    { intros; destruct Htog; [contradiction|assumption]. }
    replace cp' with cp in * by congruence. clear Hcp'.
    destruct HP as [HE Hac Har Hids Hn HA].
    pose proof (co_graph _ _ _ _ (compile_inv E R HE Hac false cp Hcp)) as HG.
    assert (Hao : forall o, o ∈ mr_overriders m -> length (or_vp o) = length (mr_vp m)) by (apply Har; exact Hm).
    destruct (cell_selects E R (cp_graph cp) HE HG m m' Hmok Hao gs t args cs is Htok Hcs Htd Hin)
      as (c & l & Hcell & Hnd & Hl & Hck).
    destruct (Hres c Hcell) as (f & Hpf & Hr).
    (* the table is one of those counted *)
    destruct (has_table_exists E R HE Hac Har false cp Hcp mi m Hmi) as (m2 & gs2 & t2 & HT).
    pose proof (ht_method _ _ _ _ _ _ _ _ _ HT) as Hm2. replace m2 with m' in * by congruence.
    pose proof (ht_tok _ _ _ _ _ _ _ _ _ HT) as Htok2.
    pose proof (to_groups _ _ _ _ _ _ Htok2) as Hg2. rewrite (to_groups _ _ _ _ _ _ Htok) in Hg2. injection Hg2 as <-.
    pose proof (to_cells _ _ _ _ _ _ Htok2) as Hc2. rewrite (to_cells _ _ _ _ _ _ Htok) in Hc2. injection Hc2 as Hc2.
    pose proof (elem_of_list_lookup_2 _ _ _ (ht_table _ _ _ _ _ _ _ _ _ HT)) as Ht2.
    rewrite Hrep, (tables_report cp Hcp), accumulate_ni in Hni. simpl in Hni.
    rewrite Hrep, (tables_report cp Hcp), accumulate_amb in Hamb. simpl in Hamb.
    assert (Z1 : count_cells is_not_implemented (t_cells t) = 0).
    { destruct (decide (count_cells is_not_implemented (t_cells t) = 0)) as [?|Hz]; [assumption|exfalso].
      apply length_zero_iff_nil in Hni.
      assert (Hx : t2 ∈ filter (fun t => rp_ni (t_report t) <> 0) (tb_tables (cp_tables cp))).
      { apply elem_of_list_filter. split; [|exact Ht2]. rewrite (to_report _ _ _ _ _ _ Htok2). simpl. rewrite <- Hc2. exact Hz. }
      rewrite Hni in Hx. inversion Hx. }
    assert (Z2 : count_cells cl_ambiguous (t_cells t) = 0).
    { destruct (decide (count_cells cl_ambiguous (t_cells t) = 0)) as [?|Hz]; [assumption|exfalso].
      apply length_zero_iff_nil in Hamb.
      assert (Hx : t2 ∈ filter (fun t => rp_amb (t_report t) <> 0) (tb_tables (cp_tables cp))).
      { apply elem_of_list_filter. split; [|exact Ht2]. rewrite (to_report _ _ _ _ _ _ Htok2). simpl. rewrite <- Hc2. exact Hz. }
      rewrite Hamb in Hx. inversion Hx. }
    pose proof (elem_of_list_lookup_2 _ _ _ Hcell) as Hin'.
    pose proof (ck_target _ _ _ _ Hck) as Hel. destruct (cl_target c) as [| |i] eqn:Ht.
    - exfalso. revert Z1. apply count_nonzero. exists c. split; [exact Hin'|]. unfold is_not_implemented. rewrite Ht. reflexivity.
    - exfalso. revert Z2. apply count_nonzero. exists c. split; [exact Hin'|]. apply (ck_ambiguous _ _ _ _ Hck). exact Ht.
    - apply elim_in, Hl in Hel. destruct Hel as (o & Ho & Happ). exists o.
      split; [eapply elem_of_list_lookup_2; eauto|]. split; [exact Happ|].
      destruct (target_fn E (cp_graph cp) m m' Hmok (TOverrider i)) as (f' & Hf' & Hs).
      { eapply lookup_lt_Some; eauto. }
      assert (f' = f) as -> by congruence.
      pose proof (call_behaves cf w mid m all _ f Hf Hr Hs) as Hb. simpl in Hs. rewrite Ho in Hs. injection Hs as Hs.
      inversion Hb as [| |i' o' Ho' Hi' Hcall]; subst. congruence.
  Qed.
End Report.
