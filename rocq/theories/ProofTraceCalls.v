(* The trace and the tables: what a reader finds in the trace is what calls do. *)
From stdpp Require Import base list numbers list_numbers strings relations.
From Verif Require Import Base Registry Spec ModelClasses ModelMethods ModelSlots ModelTables
  ModelHash ModelWorld ModelCall SpecCall ModelTrace SpecTrace
  ProofBase ProofClasses ProofGraph ProofMethods ProofBits ProofSlots ProofSelect ProofTables
  ProofCompile ProofErrors ProofEntries ProofWrite ProofCall ProofCells ProofDispatch ProofBehaviour
  ProofTrace ProofTraceRead.

Definition quiet_text (s : string) : Prop :=
  s <> "group "%string /\ s <> "Building dispatch table for "%string /\ s <> "select best of:"%string /\
  s <> "not implemented"%string /\ s <> "ambiguous"%string /\ s <> "-> #"%string /\
  s <> "no 'next'"%string /\ s <> "ambiguous 'next'"%string.

Lemma read_quiet r s l : quiet_text s -> read r (PText s :: l) = r.
Proof.
  intros (H1 & H2 & H3 & H4 & H5 & H6 & H7 & H8). unfold read.
  repeat (match goal with
    | |- context [match ?x with _ => _ end] => is_var x; destruct x
    | |- context [match rd_expects r with _ => _ end] => destruct (rd_expects r)
    | |- context [decide (?a = ?b)] => destruct (decide (a = b)) as [->|]
    | _ => first [reflexivity | contradiction]
    end).
Qed.

Lemma read_rank r gs : read r (rank_line gs) = r.
Proof. apply read_quiet. repeat split; discriminate. Qed.

Lemma read_report r rep : read r (report_line rep) = r.
Proof. unfold report_line. case_decide; reflexivity. Qed.

Lemma lines_of {A} P (x : traced A) ls v : lines P x -> x = (ls, v) -> Forall P ls.
Proof. intros H ->. exact H. Qed.

(* ---- indices of paths ---- *)

Section Paths.
  Context (g : graph).
  Definition names_at (gm : group_map) (i : nat) : list N :=
    match gm !! i with Some kg => map (nm g) (gp_classes (snd kg)) | None => [] end.

  Lemma flat_map_lookup {A B} (f : A -> list B) l n :
    (forall x, x ∈ l -> length (f x) = n) ->
    forall i j x, l !! i = Some x -> j < n -> flat_map f l !! (i * n + j) = f x !! j.
  Proof.
    intros H. induction l as [|y l IH]; intros i j x Hi Hj; [discriminate|]. cbn [flat_map].
    pose proof (H y (elem_of_list_here _ _)) as Hy. destruct i as [|i].
    - injection Hi as ->. rewrite lookup_app_l by (cbn; lia). reflexivity.
    - rewrite lookup_app_r by (cbn; lia). rewrite Hy.
      replace (S i * n + j - n) with (i * n + j) by (cbn; lia).
      apply IH; [intros z Hz; apply H; right; exact Hz|exact Hi|exact Hj].
  Qed.

  Lemma flat_map_len {A B} (f : A -> list B) l n :
    (forall x, length (f x) = n) -> length (flat_map f l) = length l * n.
  Proof.
    intros H. induction l as [|y l IH]; [reflexivity|]. cbn [flat_map length].
    rewrite app_length, H, IH. reflexivity.
  Qed.

  Lemma paths_length gs : length (paths (map (group_names g) gs)) = tbl_size gs.
  Proof.
    induction gs as [|gm gs IH]; [reflexivity|]. cbn [map paths tbl_size].
    rewrite (flat_map_len _ _ (tbl_size gs)) by (intros; rewrite map_length; exact IH).
    unfold group_names. rewrite map_length. reflexivity.
  Qed.

  Lemma paths_lookup gs is ks : tuple gs is ks ->
    paths (map (group_names g) gs) !! tbl_index gs is = Some (rev (zip_with names_at gs is)).
  Proof.
    revert is ks. induction gs as [|gm gs IH]; intros is ks H.
    { apply tuple_nil in H as [-> ->]. reflexivity. }
    apply tuple_cons_inv in H as (i & is' & k & ks' & -> & -> & (gp & Hg) & H).
    cbn [map paths tbl_index zip_with rev].
    rewrite (flat_map_lookup _ _ (tbl_size gs) ltac:(intros; rewrite map_length; apply paths_length) i _
      (names_at gm i)).
    - change (list_lookup (tbl_index gs is')) with (lookup (M := list (list (list N))) (tbl_index gs is')).
      rewrite list_lookup_fmap, (IH _ _ H). reflexivity.
    - unfold group_names, names_at. rewrite Hg. rewrite list_lookup_fmap, Hg. reflexivity.
    - eapply tbl_index_lt; eauto.
  Qed.

  Lemma zip_with_rev {A B C} (f : A -> B -> C) l k : length l = length k ->
    zip_with f (rev l) (rev k) = rev (zip_with f l k).
  Proof.
    revert k. induction l as [|x l IH]; intros [|y k] H; try discriminate; [reflexivity|].
    cbn [rev zip_with]. injection H as H. rewrite zip_with_app by (rewrite !rev_length; exact H).
    rewrite IH by exact H. reflexivity.
  Qed.
End Paths.

Lemma verdict_says E g mr m tg f : method_ok E g mr m -> target_pf m tg = Ok f ->
  says mr (verdict_to m tg) (sel_of tg) /\ selected_fn mr (sel_of tg) = Some f.
Proof.
  intros Hm Hf. unfold verdict_to. destruct tg as [| |i]; cbn in *.
  - injection Hf as <-. rewrite (mo_ni _ _ _ _ Hm). auto.
  - injection Hf as <-. rewrite (mo_amb _ _ _ _ Hm). auto.
  - apply obind_ok in Hf as (o & Ho & [= <-]). apply at_ok in Ho. rewrite Ho.
    destruct (Forall2_lookup_r _ _ _ _ _ (mo_ovs _ _ _ _ Hm) Ho) as (o' & Ho' & Hok).
    rewrite Ho', (oo_pf _ _ _ _ Hok). eauto 6.
Qed.

Section Calls.
  Context (E : env) (R : registrations) (HE : env_ok E) (Hac : acyclic (e_ti E) R).
  Notation ti := (e_ti E).

  Definition chunk (g : graph) (n2216 : bool) (im : nat * cmethod) : list reading :=
    match mapM (fun dv => dim_groups E g (snd im) (fst dv) (snd dv)) (imap pair (m_vp (snd im))) with
    | Ok gs =>
        match build_dispatch_table g n2216 (snd im) (rev gs) (repeat true (length (m_ovs (snd im)))) with
        | Ok cells => entries (fst im) (snd im) [] (paths (map (group_names g) (rev gs))) cells
        | _ => []
        end
    | _ => []
    end.

  Section Graph.
  Context (g : graph) (HG : graph_ok E R g).

  Lemma read_build n2216 s mi m acc ls acc' r : (forall vp, vp ∈ m_vp m -> vp < g_n g) ->
    trace_build E g n2216 s (mi, m) acc = (ls, Ok acc') ->
    rd_found (foldl read r ls) = rd_found r ++ chunk g n2216 (mi, m).
  Proof.
    intros Hv H. destruct acc as [ts vt]. unfold trace_build in H.
    apply tbind_ok in H as (l1 & [] & ls1 & [= <-] & H & ->). cbn [app foldl].
    change (read r [PText "Building dispatch table for "; PMethod mi])
      with (Reader mi [] Nothing (rd_found r)). set (r0 := Reader mi [] Nothing (rd_found r)).
    apply tbind_ok in H as (l2 & gs & ls2 & H2 & H & ->). rewrite foldl_app.
    pose proof (groups_of E R HE g HG mi m Hv) as Hgs. rewrite H2 in Hgs. cbn [snd] in Hgs.
    rewrite (read_plains r0 l2 (lines_of _ _ _ _ (lines_mapT _ _ _ (groups_plain E g mi m)) H2) eq_refl).
    apply tbind_ok in H as (l3 & [] & ls3 & H3 & H & ->). rewrite foldl_app.
    rewrite (read_plains r0 l3);
      [|eapply lines_of; [|exact H3]; apply lines_foldT; intros x y; apply lines_say; plain_tac|reflexivity].
    apply tbind_ok in H as (l4 & vt' & ls4 & H4 & H & ->). rewrite foldl_app.
    rewrite (read_plains r0 l4);
      [|eapply lines_of; [|exact H4]; apply lines_foldT; intros x y; apply entries_plain|reflexivity].
    apply tbind_ok in H as (l5 & [] & ls5 & [= <-] & H & ->). cbn [app foldl].
    change (read r0 [PText "building dispatch table"]) with r0.
    apply tbind_ok in H as (l6 & cells & ls6 & H6 & H & ->). rewrite foldl_app.
    pose proof (groups_all_named E R HE g HG m gs Hv (eq_sym Hgs)) as Hn.
    assert (Hn' : forall gm, gm ∈ rev gs -> groups_named g gm).
    { intros gm Hgm. apply Hn. apply elem_of_list_In, in_rev, elem_of_list_In. exact Hgm. }
    pose proof (snd_table g n2216 mi m (rev gs) (repeat true (length (m_ovs m))) Hn') as Hcells.
    rewrite H6 in Hcells. cbn [snd] in Hcells.
    destruct (read_table g n2216 mi m (rev gs) Hn' _ l6 cells r0 [] H6 eq_refl) as (_ & _ & _ & Hr).
    set (r1 := foldl read r0 l6) in *.
    assert (foldl read r1 ls6 = r1) as ->.
    { apply tbind_ok in H as (l7 & [] & ls7 & H7 & H & ->).
      apply tbind_ok in H as (l8 & [] & ls8 & [= <-] & [= <- _] & ->).
      rewrite foldl_app.
      assert (foldl read r1 l7 = r1) as ->.
      { destruct (decide (1 < length (m_vp m))); injection H7 as <-; [apply read_rank|reflexivity]. }
      cbn [app foldl]. apply read_report. }
    rewrite Hr. unfold chunk. cbn [fst snd]. rewrite <- Hgs, <- Hcells. reflexivity.
  Qed.

  Lemma read_builds n2216 s l acc ls acc' r :
    (forall im vp, im ∈ l -> vp ∈ m_vp (snd im) -> vp < g_n g) ->
    foldT (trace_build E g n2216 s) l acc = (ls, Ok acc') ->
    rd_found (foldl read r ls) = rd_found r ++ flat_map (chunk g n2216) l.
  Proof.
    revert acc ls r. induction l as [|[mi m] l IH]; intros acc ls r Hv H.
    { injection H as <- <-. cbn. rewrite app_nil_r. reflexivity. }
    cbn [foldT] in H. apply tbind_ok in H as (l1 & a & l2 & H1 & H2 & ->).
    rewrite foldl_app, (IH _ _ _ (fun im vp H0 => Hv im vp (elem_of_list_further _ _ _ H0)) H2).
    rewrite (read_build _ _ _ _ _ _ _ r (fun vp => Hv (mi, m) vp (elem_of_list_here _ _)) H1).
    cbn [flat_map]. rewrite app_assoc. reflexivity.
  Qed.
  End Graph.

  Lemma trace_readings n2216 cp : compile E n2216 R = Ok cp ->
    readings (fst (trace_compile E n2216 R)) =
    flat_map (chunk (cp_graph cp) n2216) (imap pair (cp_methods cp)).
  Proof.
    intros Hcp. rewrite <- (trace_harmless E R HE Hac n2216) in Hcp.
    destruct (trace_compile E n2216 R) as [ls v] eqn:H. cbn [fst snd] in *. subst v.
    unfold trace_compile in H.
    apply tbind_ok in H as (l1 & g & ls1 & H1 & H & ->).
    pose proof (snd_classes E R HE Hac) as Hg. rewrite H1 in Hg. cbn [snd] in Hg. symmetry in Hg.
    destruct (augment_classes_inv E R HE Hac g Hg) as [_ HG].
    apply tbind_ok in H as (l2 & [ms u] & ls2 & H2 & H & ->).
    pose proof (snd_methods E g (reg_methods R)) as Hms. rewrite H2 in Hms. cbn [snd] in Hms. symmetry in Hms.
    apply tbind_ok in H as (l3 & s & ls3 & H3 & H & ->).
    unfold quietly in H3. injection H3 as <- Hs. cbn [app].
    apply tbind_ok in H as (l4 & t & ls4 & H4 & [= <- <-] & ->). cbn [cp_graph cp_methods].
    unfold trace_tables in H4. apply tbind_ok in H4 as (l5 & [ts vt] & ls5 & H5 & [= <- <-] & ->).
    rewrite !app_nil_r. unfold readings. rewrite !foldl_app.
    rewrite (read_plains (Reader 0 [] Nothing []) l1 (lines_of _ _ _ _ (classes_plain _ _) H1) eq_refl).
    rewrite (read_plains (Reader 0 [] Nothing []) l2 (lines_of _ _ _ _ (methods_plain _ _ _) H2) eq_refl).
    rewrite (read_builds g HG n2216 s (imap pair ms) _ l5 _ (Reader 0 [] Nothing []) ltac:(
      intros [i m] vp Him Hvp; apply (methods_vp_lt E R g ms u HG Hms m vp); [|exact Hvp];
      apply elem_of_list_lookup in Him as [j Hj]; rewrite list_lookup_imap in Hj;
      destruct (ms !! j) as [x|] eqn:Hx; [|discriminate]; injection Hj as <- <-;
      eapply elem_of_list_lookup_2; eauto) H5).
    reflexivity.
  Qed.

  Section Compiled.
  Context (Har : arity_ok R).
  Context (n2216 : bool) (cp : compiled) (Hcp : compile E n2216 R = Ok cp).
  Notation g := (cp_graph cp).
  Notation rds := (readings (fst (trace_compile E n2216 R))).
  Notation has_table := (has_table E R n2216 cp).

  Lemma readings_in r : r ∈ rds <->
    exists mi mr m gs t, has_table mi mr m gs t /\
      r ∈ entries mi m [] (paths (map (group_names g) (rev gs))) (t_cells t).
  Proof.
    rewrite (trace_readings n2216 cp Hcp), elem_of_list_In, in_flat_map. split.
    - intros ([mi m] & Him & Hr). apply elem_of_list_In in Him, Hr.
      apply elem_of_list_lookup in Him as [j Hj]. rewrite list_lookup_imap in Hj.
      destruct (cp_methods cp !! j) as [x|] eqn:Hx; [|discriminate]. injection Hj as <- <-.
      pose proof (compile_inv E R HE Hac n2216 cp Hcp) as HCI.
      destruct (Forall2_lookup_r _ _ _ _ _ (co_methods _ _ _ _ HCI) Hx) as (mr & Hmr & _).
      destruct (has_table_exists E R HE Hac Har n2216 cp Hcp j mr Hmr) as (m' & gs & t & HT).
      assert (m' = x) as -> by (pose proof (ht_method _ _ _ _ _ _ _ _ _ HT); congruence).
      exists j, mr, x, gs, t. split; [exact HT|]. unfold chunk in Hr. cbn [fst snd] in Hr.
      pose proof (ht_tok _ _ _ _ _ _ _ _ _ HT) as Htok.
      rewrite (to_groups _ _ _ _ _ _ Htok), (to_cells _ _ _ _ _ _ Htok) in Hr. exact Hr.
    - intros (mi & mr & m & gs & t & HT & Hr). exists (mi, m).
      pose proof (ht_tok _ _ _ _ _ _ _ _ _ HT) as Htok. split.
      + apply elem_of_list_In, elem_of_list_lookup. exists mi.
        rewrite list_lookup_imap, (ht_method _ _ _ _ _ _ _ _ _ HT). reflexivity.
      + apply elem_of_list_In. unfold chunk. cbn [fst snd].
        rewrite (to_groups _ _ _ _ _ _ Htok), (to_cells _ _ _ _ _ _ Htok). exact Hr.
  Qed.

  Section Method.
  Context (mi : nat) (mr : method_record) (m : cmethod) (gs : list group_map) (t : table).
  Context (HT : has_table mi mr m gs t).

  (* The entry of a cell. *)
  Lemma entry_lookup is ks c : tuple (rev gs) (rev is) ks -> length is = length gs ->
    t_cells t !! flat_index (map length gs) is = Some c ->
    entries mi m [] (paths (map (group_names g) (rev gs))) (t_cells t) !! flat_index (map length gs) is =
    Some (Reading mi (zip_with (names_at g) gs is) (verdict_of m c) (next_of m c)).
  Proof.
    intros Htup Hl Hc. unfold entries. rewrite lookup_zip_with, Hc.
    rewrite <- (tbl_index_rev gs is (eq_sym Hl)), (paths_lookup g _ _ _ Htup). cbn.
    rewrite zip_with_rev, rev_involutive, app_nil_r by lia. reflexivity.
  Qed.

  (* Every entry is one. *)
  Lemma entry_inv r : r ∈ entries mi m [] (paths (map (group_names g) (rev gs))) (t_cells t) ->
    exists is ks c, tuple (rev gs) (rev is) ks /\ length is = length gs /\
      t_cells t !! flat_index (map length gs) is = Some c /\
      r = Reading mi (zip_with (names_at g) gs is) (verdict_of m c) (next_of m c).
  Proof.
    intros Hr. apply elem_of_list_lookup in Hr as [j Hj].
    pose proof (ht_tok _ _ _ _ _ _ _ _ _ HT) as Htok.
    destruct (build_table_ok _ _ _ _ _ _ (to_cells _ _ _ _ _ _ Htok)) as [Hlen Hcell].
    pose proof (lookup_lt_Some _ _ _ Hj) as Hlt. unfold entries in Hlt.
    rewrite zip_with_length, paths_length, Hlen, Nat.min_id in Hlt.
    destruct (tbl_index_surj _ _ Hlt) as (ris & ks & Htup & Hidx).
    destruct (Hcell ris ks Htup) as (c & Hc & _). destruct Htup as (L1 & L2 & L3).
    rewrite rev_length in L1. pose proof (rev_involutive ris) as Hinv. rewrite <- Hinv in Hidx, Hc.
    rewrite tbl_index_rev in Hidx, Hc by (rewrite rev_length; lia).
    exists (rev ris), ks, c. assert (Htup : tuple (rev gs) (rev (rev ris)) ks).
    { rewrite Hinv. split; [rewrite rev_length; exact L1|]. auto. }
    assert (Hlr : length (rev ris) = length gs) by (rewrite rev_length; exact L1).
    split; [exact Htup|]. split; [exact Hlr|]. split; [exact Hc|].
    rewrite <- Hidx in Hj. rewrite (entry_lookup _ _ _ Htup Hlr Hc) in Hj. congruence.
  Qed.

  Lemma classes_exist args : Forall (fun a => is_Some (g_map g a)) args -> exists cs, arg_classes g args cs.
  Proof.
    induction 1 as [|a l [c Hc] _ [cs IH]]; [exists []; constructor|].
    exists (c :: cs). constructor; assumption.
  Qed.

  Lemma names_in gm i k gp x : gm !! i = Some (k, gp) -> x ∈ names_at g gm i ->
    exists c, c ∈ gp_classes gp /\ x = nm g c.
  Proof.
    intros Hg Ht. unfold names_at in Ht. rewrite Hg in Ht. apply elem_of_list_fmap in Ht as (c & -> & Hc).
    exists c. split; [exact Hc|reflexivity].
  Qed.

  (* The arguments that a combination of groups is about. *)
  Lemma about_at is ks v nx args : tuple (rev gs) (rev is) ks -> length is = length gs ->
    is_about ti mi args (Reading mi (zip_with (names_at g) gs is) v nx) ->
    valid_args ti R mr args /\ exists cs, args_at cp m gs args cs is.
  Proof.
    intros (_ & _ & Htup) Hl [_ Hab]. cbn [rg_types] in Hab.
    pose proof (compile_inv E R HE Hac n2216 cp Hcp) as HCI.
    pose proof (co_graph _ _ _ _ HCI) as HG. pose proof (go_classes _ _ _ HG) as HC.
    destruct HT as [_ _ _ Hmok Htok Hgl Hgr Hao].
    pose proof (Forall2_length _ _ _ (mo_vp _ _ _ _ Hmok)) as L3.
    pose proof (Forall2_length _ _ _ Hab) as L4. rewrite zip_with_length, Hl, Nat.min_id in L4.
    assert (K : forall d a, args !! d = Some a -> exists c i gm k gp vt vp,
      g_map g a = Some c /\ is !! d = Some i /\ gs !! d = Some gm /\ gm !! i = Some (k, gp) /\
      c ∈ gp_classes gp /\ mr_vp mr !! d = Some vt /\ m_vp m !! d = Some vp /\
      g_map g (ti vt) = Some vp /\ c ∈ g_td g vp).
    { intros d a Ha. pose proof (lookup_lt_Some _ _ _ Ha) as Hd.
      destruct (lookup_lt_is_Some_2 gs d) as [gm Hgm]; [lia|].
      destruct (lookup_lt_is_Some_2 (m_vp m) d) as [vp Hvp]; [lia|].
      destruct (Forall2_lookup_r _ _ _ _ _ (mo_vp _ _ _ _ Hmok) Hvp) as (vt & Hv & Hvmap).
      destruct (Htup (length gs - S d) gm) as (i & k & gp & Hi & _ & Hg).
      { apply rev_lookup'; [lia|]. replace (length gs - S (length gs - S d)) with d by lia. exact Hgm. }
      apply rev_lookup in Hi as [_ Hi]. replace (length is - S (length gs - S d)) with d in Hi by lia.
      destruct (Forall2_lookup_l _ _ _ _ _ Hab Ha) as (ts & Hts & t0 & Ht0 & Hta).
      rewrite lookup_zip_with, Hgm, Hi in Hts. injection Hts as <-.
      destruct (names_in _ _ _ _ _ Hg Ht0) as (c & Hc & ->).
      destruct (gr_classes _ _ _ _ _ (Hgr d vp gm Hvp Hgm) k gp) as [_ Hcl];
        [eapply elem_of_list_lookup_2; eauto|].
      assert (Hctd : c ∈ g_td g vp) by (apply Hcl; exact Hc).
      assert (Hcn : c < g_n g).
      { eapply (td_lt E R g HG); [exact Hctd|]. eapply (co_lt _ _ _ _ HC); exact Hvmap. }
      destruct (lookup_lt_is_Some_2 (g_classes g) c) as [e He]; [exact Hcn|].
      destruct (co_entry _ _ _ _ HC _ _ He) as (a' & cr & Ha' & _).
      pose proof (nm_class E R g HG _ _ Ha') as Hnm.
      assert (a' = a) as -> by congruence.
      exists c, i, gm, k, gp, vt, vp. repeat (split; [assumption|]). assumption. }
    destruct (classes_exist args) as [cs Hcs].
    { apply Forall_lookup. intros d a Ha. destruct (K d a Ha) as (c & _ & _ & _ & _ & _ & _ & Hc & _). eauto. }
    pose proof (Forall2_length _ _ _ Hcs) as L5.
    split.
    - apply Forall2_same_length_lookup_2; [lia|]. intros d a v' Ha Hv.
      destruct (K d a Ha) as (c & i & gm & k & gp & vt & vp & K1 & K2 & K3 & K4 & K5 & K6 & K7 & K8 & K9).
      replace v' with vt in * by congruence. split.
      + apply (co_dom _ _ _ _ HC). eauto.
      + apply (map_td E R g HG _ _ _ _ K1 K8). exact K9.
    - exists cs. split; [exact Hcs| |].
      + apply Forall2_same_length_lookup_2; [lia|]. intros d c' vp' Hc Hvp.
        destruct (Forall2_lookup_r _ _ _ _ _ Hcs Hc) as (a & Ha & Hac').
        destruct (K d a Ha) as (c & i & gm & k & gp & vt & vp & K1 & K2 & K3 & K4 & K5 & K6 & K7 & K8 & K9).
        congruence.
      + split; [lia|]. intros d c' Hc.
        destruct (Forall2_lookup_r _ _ _ _ _ Hcs Hc) as (a & Ha & Hac').
        destruct (K d a Ha) as (c & i & gm & k & gp & vt & vp & K1 & K2 & K3 & K4 & K5 & K6 & K7 & K8 & K9).
        replace c' with c in * by congruence. exists i, gm, k, gp. auto.
  Qed.

  Lemma at_tuple args cs is : args_at cp m gs args cs is ->
    exists ks, tuple (rev gs) (rev is) ks /\ length is = length gs.
  Proof.
    intros [Hcs Htd [Hl Hin]]. destruct HT as [_ _ _ Hmok Htok Hgl Hgr Hao].
    pose proof (Forall2_length _ _ _ Htd) as L1.
    assert (L : length is = length gs) by lia.
    exists (rev (imap (mask_at g m) cs)). split; [|exact L].
    unfold tuple. rewrite !rev_length, imap_length. split; [lia|]. split; [lia|].
    intros d gm Hd. apply rev_lookup in Hd as [Hlt Hgm].
    set (e := length gs - S d) in *.
    assert (exists c, cs !! e = Some c) as [c Hc] by (apply lookup_lt_is_Some; lia).
    assert (exists vp, m_vp m !! e = Some vp) as [vp Hvp] by (apply lookup_lt_is_Some; lia).
    destruct (Hin e c Hc) as (i & gm' & k & gp & H1 & H2 & H3 & H4).
    replace gm' with gm in * by congruence.
    destruct (gr_classes _ _ _ _ _ (Hgr e vp gm Hvp Hgm) k gp) as [_ Hgc];
      [eapply elem_of_list_lookup_2; eauto|].
    apply Hgc in H4 as [_ Hk].
    exists i, k, gp. split; [|split; [|exact H3]].
    - apply rev_lookup'; [lia|]. replace (length is - S d) with e by lia. exact H1.
    - apply rev_lookup'; [rewrite imap_length; lia|]. rewrite imap_length.
      replace (length cs - S d) with e by lia. rewrite list_lookup_imap, Hc. simpl. rewrite Hk. reflexivity.
  Qed.

  Lemma at_about args cs is v nx : args_at cp m gs args cs is ->
    is_about ti mi args (Reading mi (zip_with (names_at g) gs is) v nx).
  Proof.
    intros HA. destruct (at_tuple _ _ _ HA) as (_ & _ & L). destruct HA as [Hcs Htd [Hl Hin]].
    pose proof (compile_inv E R HE Hac n2216 cp Hcp) as HCI.
    pose proof (co_graph _ _ _ _ HCI) as HG.
    pose proof (Forall2_length _ _ _ Hcs) as L5.
    split; [reflexivity|]. cbn [rg_types].
    apply Forall2_same_length_lookup_2; [rewrite zip_with_length; lia|]. intros d a ts Ha Hts.
    destruct (Forall2_lookup_l _ _ _ _ _ Hcs Ha) as (c & Hc & Hac').
    destruct (Hin d c Hc) as (i & gm & k & gp & H1 & H2 & H3 & H4).
    rewrite lookup_zip_with, H2, H1 in Hts. injection Hts as <-.
    exists (nm g c). split; [|apply (nm_class E R g HG); exact Hac'].
    unfold names_at. rewrite H3. apply elem_of_list_fmap. exists c. auto.
  Qed.

  Lemma at_unique args cs is cs' is' : args_at cp m gs args cs is ->
    args_at cp m gs args cs' is' -> is' = is.
  Proof.
    intros [Hcs Htd [Hl Hin]] [Hcs' Htd' [Hl' Hin']].
    destruct HT as [_ _ _ Hmok Htok Hgl Hgr Hao].
    pose proof (Forall2_length _ _ _ Hcs) as L1. pose proof (Forall2_length _ _ _ Hcs') as L2.
    pose proof (Forall2_length _ _ _ Htd) as L3.
    apply list_eq. intros d. destruct (decide (d < length is)) as [Hd|Hd].
    - destruct (lookup_lt_is_Some_2 args d) as [a Ha]; [lia|].
      destruct (Forall2_lookup_l _ _ _ _ _ Hcs Ha) as (c & Hc & Hm1).
      destruct (Forall2_lookup_l _ _ _ _ _ Hcs' Ha) as (c' & Hc' & Hm2).
      assert (c' = c) as -> by congruence.
      destruct (Hin d c Hc) as (i & gm & k & gp & H1 & H2 & H3 & H4).
      destruct (Hin' d c Hc') as (i' & gm' & k' & gp' & H1' & H2' & H3' & H4').
      replace gm' with gm in * by congruence.
      destruct (lookup_lt_is_Some_2 (m_vp m) d) as [vp Hvp]; [lia|].
      assert (i = i') as <- by (eapply groups_unique; eauto). congruence.
    - rewrite !lookup_ge_None_2 by lia. reflexivity.
  Qed.

  (* The reading about these arguments, the only one. *)
  Lemma reading_of args : valid_args ti R mr args ->
    exists cs is c r, args_at cp m gs args cs is /\
      t_cells t !! flat_index (map length gs) is = Some c /\
      r ∈ rds /\ is_about ti mi args r /\ rg_says r = verdict_of m c /\
      forall r', r' ∈ rds -> is_about ti mi args r' -> r' = r.
  Proof.
    intros Hva.
    destruct (args_at_exists E R HE Hac n2216 cp Hcp mi mr m gs t HT args Hva) as (cs & is & HA).
    destruct (args_at_cell E R HE n2216 cp mi mr m gs t HT args cs is HA) as (c & Hc & _).
    destruct (at_tuple _ _ _ HA) as (ks & Htup & L).
    pose proof (entry_lookup is ks c Htup L Hc) as He.
    exists cs, is, c, (Reading mi (zip_with (names_at g) gs is) (verdict_of m c) (next_of m c)).
    split; [exact HA|]. split; [exact Hc|]. split.
    { apply readings_in. exists mi, mr, m, gs, t. split; [exact HT|]. eapply elem_of_list_lookup_2; eauto. }
    split; [eapply at_about; eauto|]. split; [reflexivity|].
    intros r' Hr' Hab. apply readings_in in Hr' as (mi' & mr' & m' & gs' & t' & HT' & Hr').
    assert (mi' = mi) as ->.
    { destruct Hab as [Hmi _]. apply elem_of_list_lookup in Hr' as [j Hj]. unfold entries in Hj.
      rewrite lookup_zip_with in Hj. destruct (paths _ !! j); [|discriminate].
      destruct (t_cells t' !! j); [|discriminate]. injection Hj as <-. exact Hmi. }
    assert (m' = m /\ t' = t) as [-> ->].
    { destruct HT as [A1 A2 A3 _ _ _ _ _], HT' as [B1 B2 B3 _ _ _ _ _]. split; congruence. }
    assert (gs' = gs) as ->.
    { pose proof (to_groups _ _ _ _ _ _ (ht_tok _ _ _ _ _ _ _ _ _ HT)) as G1.
      pose proof (to_groups _ _ _ _ _ _ (ht_tok _ _ _ _ _ _ _ _ _ HT')) as G2. congruence. }
    destruct (entry_inv r' Hr') as (is' & ks' & c' & Htup' & L' & Hc' & ->).
    destruct (about_at is' ks' _ _ args Htup' L' Hab) as (_ & cs' & HA').
    assert (is' = is) as -> by (eapply at_unique; eauto).
    congruence.
  Qed.
  End Method.

  Theorem trace_sound r : r ∈ rds -> exists mr, reg_methods R !! rg_method r = Some mr /\
    (exists args, is_about ti (rg_method r) args r) /\
    forall args, is_about ti (rg_method r) args r -> valid_args ti R mr args.
  Proof.
    intros Hr. apply readings_in in Hr as (mi & mr & m & gs & t & HT & Hr).
    pose proof (entry_inv _ _ _ _ _ HT r Hr) as (is & ks & c & Htup & L & Hc & ->). cbn [rg_method].
    exists mr. split; [apply (ht_reg _ _ _ _ _ _ _ _ _ HT)|]. split.
    - destruct (cell_args E R HE Hac n2216 cp Hcp mi mr m gs t HT _ _ Hc) as (args & cs & is' & _ & HA & Hidx).
      exists args. enough (is' = is) as -> by (eapply at_about; eauto).
      destruct (at_tuple _ _ _ _ _ HT _ _ _ HA) as (ks' & Htup' & L').
      rewrite <- !tbl_index_rev in Hidx by lia.
      pose proof (paths_lookup g _ _ _ Htup) as P1.
      enough (rev is' = rev is) as Hrev by (rewrite <- (rev_involutive is'), Hrev; apply rev_involutive).
      clear -Htup Htup' Hidx. revert Htup Htup' Hidx. generalize (rev gs), (rev is), (rev is').
      intros l. revert ks ks'. induction l as [|gm l IH]; intros ks ks' i1 i2 H1 H2 Hidx.
      + apply tuple_nil in H1 as [-> _], H2 as [-> _]. reflexivity.
      + apply tuple_cons_inv in H1 as (a & is1 & k & ks1 & -> & -> & _ & H1).
        apply tuple_cons_inv in H2 as (b & is2 & k2 & ks2 & -> & -> & _ & H2).
        cbn [tbl_index] in Hidx. pose proof (tbl_index_lt _ _ _ H1) as B1. pose proof (tbl_index_lt _ _ _ H2) as B2.
        assert (a = b) as -> by nia. f_equal. eapply IH; eauto. nia.
    - intros args Hab. eapply about_at; eauto.
  Qed.
  End Compiled.

  (* What is said, without n2216. *)
  Theorem trace_selects cp mi mr args : arity_ok R -> compile E false R = Ok cp ->
    reg_methods R !! mi = Some mr -> valid_args ti R mr args ->
    let rds := readings (fst (trace_compile E false R)) in
    let cand := candidate ti R (mr_overriders mr) args in
    exists r sel, r ∈ rds /\ is_about ti mi args r /\
      (forall r', r' ∈ rds -> is_about ti mi args r' -> r' = r) /\
      says mr (rg_says r) sel /\
      (sel = SNone <-> forall i, ~ cand i) /\
      (forall i, sel = SOverrider i -> cand i) /\
      (settled ti R (mr_overriders mr) cand -> selects ti R (mr_overriders mr) args sel).
  Proof.
    intros Har Hcp Hmi Hva rds cand.
    destruct (has_table_exists E R HE Hac Har false cp Hcp mi mr Hmi) as (m & gs & t & HT).
    destruct (reading_of Har false cp Hcp mi mr m gs t HT args Hva)
      as (cs & is & c & r & [Hcs Htd Hin] & Hc & Hr & Hab & Hsay & Huniq).
    pose proof (co_graph _ _ _ _ (compile_inv E R HE Hac false cp Hcp)) as HG.
    pose proof (ht_ok _ _ _ _ _ _ _ _ _ HT) as Hmok. pose proof (ht_tok _ _ _ _ _ _ _ _ _ HT) as Htok.
    pose proof (ht_arity _ _ _ _ _ _ _ _ _ HT) as Hao.
    destruct (cell_selects E R (cp_graph cp) HE HG mr m Hmok Hao gs t args cs is Htok Hcs Htd Hin)
      as (c' & l & Hcell & Hnd & Hl & Hck).
    assert (c' = c) as -> by congruence.
    pose proof (ck_target _ _ _ _ Hck) as Helim.
    assert (Hlt : forall i, cand i -> i < length (mr_overriders mr)).
    { intros i (o & Ho & _). eapply lookup_lt_Some; eauto. }
    assert (Htin : match cl_target c with TOverrider i => i < length (mr_overriders mr) | _ => True end).
    { destruct (cl_target c) as [| |i] eqn:Ht; auto. apply Hlt, Hl. eapply elim_in; eauto. }
    destruct (target_fn E (cp_graph cp) mr m Hmok (cl_target c) Htin) as (f & Hf & Hs).
    exists r, (sel_of (cl_target c)). split; [exact Hr|]. split; [exact Hab|]. split; [exact Huniq|].
    split; [rewrite Hsay; eapply verdict_says; eauto|].
    split; [|split].
    - assert (Hn0 := elim_none _ _ _ Helim). split.
      + intros H0 i Hi. apply Hl in Hi. assert (l = []) as ->.
        { apply Hn0. destruct (cl_target c); [reflexivity|discriminate|discriminate]. }
        inversion Hi.
      + intros H0. assert (l = []) as Hnil.
        { destruct l as [|x l']; [reflexivity|]. destruct (H0 x). apply Hl. left. }
        apply Hn0 in Hnil. rewrite Hnil. reflexivity.
    - intros i Hi. apply Hl. destruct (cl_target c) as [| |i'] eqn:Ht; try discriminate.
      injection Hi as <-. eapply elim_in; eauto.
    - intros Htr. eapply elim_selects; eauto.
  Qed.
End Calls.

(* Calls do what the trace says. *)
Theorem trace_calls cf X n2216 R w mid m all args :
  program_ok cf (r_env X) R -> bases_first (e_ti (r_env X)) R ->
  initialized_by cf X n2216 R w -> call_ok cf (e_ti (r_env X)) R w m all args -> functions_ok m ->
  (length (mr_vp m) = 1 \/ together all) ->
  let rds := readings (fst (trace_compile (r_env X) n2216 R)) in
  exists mi r sel, reg_methods R !! mi = Some m /\ r ∈ rds /\ is_about (e_ti (r_env X)) mi args r /\
    (forall r', r' ∈ rds -> is_about (e_ti (r_env X)) mi args r' -> r' = r) /\
    says m (rg_says r) sel /\ behaves m sel (call cf w mid m all).
Proof.
  intros HP HB (w0 & rep & Hw & Hinit) [Hm Hvs Hva] Hf Htog rds.
  destruct (dispatch_cell cf X R w0 w rep HP HB Hw n2216 Hinit m all args Hm Hvs Hva)
    as (cp & mi & cm & t & gs & cs & is & Hcp & Hcm & Hmi & Hmok & Htok & Hcs & Htd & Hin & Hres);
    [intros; destruct Htog; [contradiction|assumption]|].
  destruct HP as [HE Hac Har Hids Hn HA].
  destruct (has_table_exists (r_env X) R HE Hac Har n2216 cp Hcp mi m Hmi) as (cm' & gs' & t' & HT).
  assert (cm' = cm) as -> by (pose proof (ht_method _ _ _ _ _ _ _ _ _ HT); congruence).
  assert (gs' = gs) as ->.
  { pose proof (to_groups _ _ _ _ _ _ (ht_tok _ _ _ _ _ _ _ _ _ HT)) as G1.
    pose proof (to_groups _ _ _ _ _ _ Htok) as G2. congruence. }
  assert (Hcells : t_cells t' = t_cells t).
  { pose proof (to_cells _ _ _ _ _ _ (ht_tok _ _ _ _ _ _ _ _ _ HT)) as G1.
    pose proof (to_cells _ _ _ _ _ _ Htok) as G2. congruence. }
  destruct (reading_of (r_env X) R HE Hac Har n2216 cp Hcp mi m cm gs t' HT args Hva)
    as (cs' & is' & c & r & HA' & Hc & Hr & Hab & Hsay & Huniq).
  assert (is' = is) as ->.
  { eapply (at_unique (r_env X) R n2216 cp mi m cm gs t' HT); [|exact HA']. split; eassumption. }
  rewrite Hcells in Hc. destruct (Hres c Hc) as (f & Hf' & Hrs).
  destruct (verdict_says (r_env X) (cp_graph cp) m cm (cl_target c) f Hmok Hf') as [Hv Hsel].
  exists mi, r, (sel_of (cl_target c)). split; [exact Hmi|]. split; [exact Hr|]. split; [exact Hab|].
  split; [exact Huniq|]. rewrite Hsay. split; [exact Hv|].
  eapply call_behaves; eauto.
Qed.
