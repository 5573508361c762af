(* write_global_data: the words of the dispatch data and the variables it sets. *)
From stdpp Require Import base list numbers list_numbers relations.
From Verif Require Import Base Registry Spec ModelClasses ModelMethods ModelSlots ModelTables
  ModelHash ModelWorld
  ProofBase ProofClasses ProofGraph ProofMethods ProofBits ProofSlots ProofSelect ProofTables
  ProofCompile ProofErrors ProofEntries.

(* ---- sequences of writes ---- *)

Lemma put_list {A} (h : A -> outcome word) (l : list A) ws it :
  (forall x, x ∈ l -> exists y, h x = Ok y) -> it + length l <= length ws ->
  exists ws', foldM (fun x a => let* y := h x in put y a) l (ws, it) = Ok (ws', it + length l) /\
    length ws' = length ws /\
    (forall j, j < it \/ it + length l <= j -> ws' !! j = ws !! j) /\
    (forall j x, l !! j = Some x -> exists y, h x = Ok y /\ ws' !! (it + j) = Some y).
Proof.
  revert ws it. induction l as [|x l IH]; intros ws it Hh Hlen.
  - exists ws. simpl. rewrite Nat.add_0_r. split; [reflexivity|]. split; [reflexivity|].
    split; [auto|]. intros j x Hj. discriminate.
  - destruct (Hh x ltac:(left)) as (y & Hy). cbn [foldM]. rewrite Hy. cbn [obind].
    simpl in Hlen. unfold put at 1. rewrite decide_True by lia. cbn [obind].
    destruct (IH (<[it := y]> ws) (S it)) as (ws' & Hok & Hl & Hout & Hin).
    { intros z Hz. apply Hh. right. exact Hz. }
    { rewrite insert_length. lia. }
    exists ws'. rewrite insert_length in Hl. split; [rewrite Hok; simpl; do 2 f_equal; lia|].
    split; [exact Hl|]. simpl. split.
    + intros j Hj. rewrite Hout by lia. apply list_lookup_insert_ne. lia.
    + intros [|j] z Hz; simpl in Hz.
      * injection Hz as <-. exists y. split; [exact Hy|]. rewrite Nat.add_0_r, Hout by lia.
        apply list_lookup_insert. lia.
      * destruct (Hin j z Hz) as (y' & Hy' & Hj). exists y'. split; [exact Hy'|].
        replace (it + S j) with (S it + j) by lia. exact Hj.
Qed.

Lemma upd_list {A V} (loc : A -> nat) (h : A -> option (outcome V)) (l : list A) (f : nat -> V) :
  (forall x o, x ∈ l -> h x = Some o -> exists v, o = Ok v) ->
  exists f', foldM (fun x f => match h x with
                               | None => Ok f
                               | Some o => let* v := o in Ok (upd f (loc x) v)
                               end) l f = Ok f' /\
    (forall k, k ∉ map loc l -> f' k = f k) /\
    (NoDup (map loc l) -> forall x, x ∈ l ->
       match h x with Some (Ok v) => f' (loc x) = v | _ => f' (loc x) = f (loc x) end).
Proof.
  revert f. induction l as [|x l IH]; intros f Hh.
  - exists f. split; [reflexivity|]. split; [auto|]. intros _ x Hx. inversion Hx.
  - cbn [foldM].
    assert (Hstep : exists f1, (match h x with
                               | None => Ok f
                               | Some o => let* v := o in Ok (upd f (loc x) v)
                               end) = Ok f1 /\ (forall k, k <> loc x -> f1 k = f k) /\
                    match h x with Some (Ok v) => f1 (loc x) = v | _ => f1 (loc x) = f (loc x) end).
    { destruct (h x) as [o|] eqn:Hx.
      - destruct (Hh x o ltac:(left) Hx) as (v & ->). simpl. eexists. split; [reflexivity|].
        split; [intros k Hk; apply upd_ne; exact Hk|apply upd_eq].
      - exists f. auto. }
    destruct Hstep as (f1 & Hs & Hne & Hval). rewrite Hs. cbn [obind].
    destruct (IH f1) as (f' & Hok & Hout & Hin).
    { intros y o Hy. apply Hh. right. exact Hy. }
    exists f'. split; [exact Hok|]. simpl. split.
    + intros k Hk. rewrite not_elem_of_cons in Hk. destruct Hk as [Hk1 Hk2].
      rewrite Hout by exact Hk2. apply Hne. exact Hk1.
    + intros [Hn Hnd]%NoDup_cons y [->|Hy]%elem_of_cons.
      * rewrite (Hout (loc x) Hn). exact Hval.
      * specialize (Hin Hnd y Hy).
        assert (Hk : loc y <> loc x).
        { intros Heq. apply Hn. rewrite <- Heq. apply elem_of_list_fmap. eauto. }
        rewrite (Hne _ Hk) in Hin. exact Hin.
Qed.

Lemma sum_foldl l a : foldl Nat.add a l = a + sum l.
Proof.
  unfold sum. revert a. induction l as [|x l IH]; intros a; simpl; [lia|].
  rewrite IH, (IH x). lia.
Qed.

Lemma sum_cons x l : sum (x :: l) = x + sum l.
Proof. unfold sum. simpl. apply sum_foldl. Qed.

Lemma sum_app l1 l2 : sum (l1 ++ l2) = sum l1 + sum l2.
Proof. induction l1 as [|x l IH]; [reflexivity|]. simpl. rewrite !sum_cons, IH. lia. Qed.

(* ---- targets ---- *)

(* The overriders designated by a cell are overriders of the method. *)
Definition sub_set (cs' cs : candidates) : Prop := forall a, Some a ∈ cs' -> Some a ∈ cs.

Lemma inner_sub ms a js : sub_set (snd (dominate_inner ms a js)) js.
Proof.
  induction js as [|[b|] js IH]; simpl.
  - intros x Hx. exact Hx.
  - destruct (ms a b); [|destruct (ms b a)].
    + destruct (dominate_inner ms a js) as [al js']. simpl in *.
      intros x [Hx|Hx]%elem_of_cons; [discriminate|]. right. auto.
    + simpl. intros x Hx. exact Hx.
    + destruct (dominate_inner ms a js) as [al js']. simpl in *.
      intros x [Hx|Hx]%elem_of_cons; [rewrite Hx; left|]. right. auto.
  - destruct (dominate_inner ms a js) as [al js']. simpl in *.
    intros x [Hx|Hx]%elem_of_cons; [discriminate|]. right. auto.
Qed.

Lemma outer_sub ms k cs : sub_set (dominate_outer ms k cs) cs.
Proof.
  revert cs. induction k as [|k IH]; intros cs; [destruct cs; intros x Hx; exact Hx|].
  destruct cs as [|[a|] js]; simpl; [intros x Hx; exact Hx| |].
  - pose proof (inner_sub ms a js) as Hi. destruct (dominate_inner ms a js) as [al js'].
    simpl in Hi. intros x [Hx|Hx]%elem_of_cons.
    + destruct al; [rewrite Hx; left|discriminate].
    + right. apply Hi. apply (IH js'). exact Hx.
  - intros x [Hx|Hx]%elem_of_cons; [discriminate|]. right. apply (IH js). exact Hx.
Qed.

Lemma covariant_inner_sub rb ci js ci' js' :
  covariant_inner rb ci js = Ok (ci', js') ->
  (ci' = ci \/ ci' = None) /\ sub_set js' js.
Proof.
  revert ci ci' js'. induction js as [|[b|] js IH]; intros ci ci' js' H; simpl in H.
  - injection H as <- <-. split; [auto|]. intros x Hx. exact Hx.
  - apply obind_ok in H as (a & _ & H). apply obind_ok in H as (ab & _ & H).
    destruct ab; [|apply obind_ok in H as (ba & _ & H); destruct ba];
      apply obind_ok in H as ([c2 j2] & H & Heq); injection Heq as <- <-;
      destruct (IH _ _ _ H) as [I1 I2].
    + split; [destruct I1 as [->| ->]; auto|].
      intros x [Hx|Hx]%elem_of_cons; [rewrite Hx; left|]. right. auto.
    + split; [exact I1|]. intros x [Hx|Hx]%elem_of_cons; [discriminate|]. right. auto.
    + split; [exact I1|]. intros x [Hx|Hx]%elem_of_cons; [rewrite Hx; left|]. right. auto.
  - apply obind_ok in H as ([c2 j2] & H & Heq). injection Heq as <- <-.
    destruct (IH _ _ _ H) as [I1 I2]. split; [exact I1|].
    intros x [Hx|Hx]%elem_of_cons; [discriminate|]. right. auto.
Qed.

Lemma covariant_outer_sub rb k cs cs' : covariant_outer rb k cs = Ok cs' -> sub_set cs' cs.
Proof.
  revert cs cs'. induction k as [|k IH]; intros cs cs' H.
  - assert (cs' = cs) as -> by (destruct cs; simpl in H; congruence). intros x Hx. exact Hx.
  - destruct cs as [|[a|] js]; simpl in H.
    + injection H as <-. intros x Hx. exact Hx.
    + apply obind_ok in H as ([ci js'] & Hi & H). apply obind_ok in H as (rest & Hr & [= <-]).
      apply covariant_inner_sub in Hi as [I1 I2]. apply IH in Hr.
      intros x [Hx|Hx]%elem_of_cons.
      * destruct I1 as [->| ->]; [rewrite Hx; left|discriminate].
      * right. apply I2, Hr. exact Hx.
    + apply obind_ok in H as (rest & Hr & [= <-]). apply IH in Hr.
      intros x [Hx|Hx]%elem_of_cons; [discriminate|]. right. apply Hr. exact Hx.
Qed.

Lemma select_sub g n2216 m cs cs' p r :
  select_dominant_overriders g n2216 m cs = Ok (cs', p, r) -> sub_set cs' cs.
Proof.
  unfold select_dominant_overriders. intros H.
  pose proof (outer_sub (ms_at g m) (length cs) cs) as Hs.
  destruct (survey 0 _ 0 0) as [pick rem]. case_decide.
  { injection H as <- <- <-. exact Hs. }
  destruct n2216; [|injection H as <- <- <-; exact Hs].
  apply obind_ok in H as (x & _ & H). apply obind_ok in H as (y & _ & H).
  apply obind_ok in H as (o & _ & H). destruct (ov_cov o).
  - apply obind_ok in H as (cs2 & Hc & H). destruct (survey 0 cs2 pick 0).
    injection H as <- <- <-. intros a Ha. apply Hs. eapply covariant_outer_sub; eauto.
  - injection H as <- <- <-. exact Hs.
Qed.

Lemma remove_sub ovs doms : sub_set (fst (remove_dominants ovs doms)) ovs.
Proof.
  revert doms. induction ovs as [|o ovs IH]; intros doms; [intros x Hx; exact Hx|].
  destruct doms as [|d doms]; [intros x Hx; exact Hx|]. simpl.
  specialize (IH doms). destruct (remove_dominants ovs doms) as [ovs' r]. simpl in IH.
  case_decide; simpl; intros x [Hx|Hx]%elem_of_cons; try discriminate.
  - right. auto.
  - rewrite Hx. left.
  - right. auto.
Qed.

Definition target_in (l : list nat) (t : target) : Prop :=
  match t with TOverrider i => i ∈ l | _ => True end.

Lemma build_cell_in g n2216 m mask c :
  build_cell g n2216 m mask = Ok c ->
  target_in (mask_set m mask) (cl_target c) /\
  forall o t, cl_next c = Some (o, t) ->
    cl_target c = TOverrider o /\ target_in (mask_set m mask) t.
Proof.
  unfold build_cell. fold (mask_set m mask). intros H.
  assert (Hmem : forall a, Some a ∈ map Some (mask_set m mask) -> a ∈ mask_set m mask).
  { intros a Ha. apply elem_of_list_fmap in Ha as (y & [= ->] & Hy). exact Hy. }
  apply obind_ok in H as ([[ds p] r] & Hsel & H). apply select_sub in Hsel.
  case_decide; [injection H as <-; simpl; split; [exact I|discriminate]|].
  case_decide; [injection H as <-; simpl; split; [exact I|discriminate]|].
  apply obind_ok in H as (o & Ho & H). apply obind_ok in H as (o' & Ho' & H).
  apply at_ok in Ho. apply deref_ok in Ho'. subst o.
  assert (Hin : o' ∈ mask_set m mask).
  { apply Hmem, Hsel. eapply elem_of_list_lookup_2; eauto. }
  pose proof (remove_sub (map Some (mask_set m mask)) ds) as Hrem.
  destruct (remove_dominants _ ds) as [ovs rem]. simpl in Hrem.
  case_decide.
  { injection H as <-. simpl. split; [exact Hin|]. intros o t [= <- <-]. split; [reflexivity|exact I]. }
  apply obind_ok in H as ([[ns p2] r2] & Hsel2 & H). apply select_sub in Hsel2.
  case_decide.
  { injection H as <-. simpl. split; [exact Hin|]. intros o t [= <- <-]. split; [reflexivity|exact I]. }
  apply obind_ok in H as (nx & Hnx & H). apply obind_ok in H as (nx' & Hnx' & H).
  apply at_ok in Hnx. apply deref_ok in Hnx'. subst nx. injection H as <-. simpl.
  split; [exact Hin|]. intros o t [= <- <-]. split; [reflexivity|]. simpl.
  apply Hmem, Hrem, Hsel2. eapply elem_of_list_lookup_2; eauto.
Qed.

Lemma target_pf_total m mask t : target_in (mask_set m mask) t -> exists f, target_pf m t = Ok f.
Proof.
  destruct t as [| |i]; simpl; eauto. intros H.
  unfold mask_set in H. apply elem_of_list_filter in H as [_ H]. apply elem_of_seq in H.
  assert (exists o, m_ovs m !! i = Some o) as [o Ho] by (apply lookup_lt_is_Some; lia).
  exists (ov_pf o). apply obind_ok. exists o. split; [apply at_ok; exact Ho|reflexivity].
Qed.

(* Every cell comes from build_cell. *)
Lemma table_cell E g n2216 m gs t k c :
  table_ok E g n2216 m gs t -> t_cells t !! k = Some c ->
  exists mask, build_cell g n2216 m mask = Ok c.
Proof.
  intros HT Hk. destruct (build_table_ok _ _ _ _ _ _ (to_cells _ _ _ _ _ _ HT)) as [Hl Hc].
  destruct (tbl_index_surj (rev gs) k) as (is & ks & Ht & Hi).
  { rewrite <- Hl. eapply lookup_lt_Some; eauto. }
  destruct (Hc is ks Ht) as (c' & Hc' & Hb). rewrite Hi in Hc'.
  replace c' with c in * by congruence. eauto.
Qed.

Lemma final_next_in cells i t :
  final_next cells i = Some t -> exists c, c ∈ cells /\ cl_next c = Some (i, t).
Proof.
  unfold final_next.
  assert (G : forall cells acc, foldl (fun acc c =>
      match cl_next c with
      | Some (j, t) => if decide (j = i) then Some t else acc
      | None => acc
      end) acc cells = Some t -> acc = Some t \/ exists c, c ∈ cells /\ cl_next c = Some (i, t)).
  { induction cells0 as [|c cells0 IH]; intros acc H; [auto|]. simpl in H.
    apply IH in H as [H|(c' & Hc' & H)].
    - destruct (cl_next c) as [[j t']|] eqn:Hc; [|auto]. case_decide; [|auto].
      subst j. injection H as ->. right. exists c. split; [left|exact Hc].
    - right. exists c'. split; [right; exact Hc'|exact H]. }
  intros H. apply G in H as [H|H]; [discriminate|exact H].
Qed.

(* ---- write_tables ---- *)

Section Write.
  Context (E : env) (R : registrations).
  Context (HE : env_ok E) (Hac : acyclic (e_ti E) R) (Har : arity_ok R).
  Context (n2216 : bool) (cp : compiled) (Hcp : compile E n2216 R = Ok cp).
  Context (buf : nat) (w : world).
  Notation g := (cp_graph cp).
  Notation s := (cp_slots cp).
  Notation T := (cp_tables cp).
  Notation mts := (zip (cp_methods cp) (tb_tables (cp_tables cp))).

  Lemma mts_lookup mi m t :
    mts !! mi = Some (m, t) <-> cp_methods cp !! mi = Some m /\ tb_tables T !! mi = Some t.
  Proof.
    rewrite lookup_zip_with_Some. split.
    - intros (x & y & [= -> ->] & H1 & H2). auto.
    - intros [H1 H2]. eauto.
  Qed.

  Lemma mts_table mi m t :
    mts !! mi = Some (m, t) -> exists gs, table_ok E g n2216 m gs t /\
      length gs = length (m_vp m) /\ m_vp m <> [].
  Proof.
    intros H. apply mts_lookup in H as [Hm Ht].
    destruct (cp_tables_ok E R HE Hac n2216 cp Hcp) as (gss & _ & _ & G3 & _).
    destruct (G3 mi m Hm) as (gs & t' & _ & Ht' & Htok). replace t' with t in * by congruence.
    destruct (method_record_of E R HE Hac n2216 cp Hcp mi m Hm) as (mr & Hmr).
    destruct (method_arity E R HE Hac Har n2216 cp Hcp _ _ _ Hm Hmr) as (_ & _ & Ho & Hne).
    destruct (table_groups E g HE _ _ _ _ Htok Ho) as [Hl _]. eauto.
  Qed.

  Lemma cell_pf mi m t k c :
    mts !! mi = Some (m, t) -> t_cells t !! k = Some c ->
    exists f, target_pf m (cl_target c) = Ok f.
  Proof.
    intros Hm Hk. destruct (mts_table _ _ _ Hm) as (gs & HT & _).
    destruct (table_cell _ _ _ _ _ _ _ _ HT Hk) as (mask & Hb).
    apply build_cell_in in Hb as [Hb _]. eapply target_pf_total; eauto.
  Qed.

  Definition method_ss (mi : nat) (mt : cmethod * table) : list nat :=
    method_slots s mi (fst mt) ++ t_strides (snd mt).

  Definition gv_cells (mt : cmethod * table) : nat :=
    if decide (length (m_vp (fst mt)) = 1) then 0 else length (t_cells (snd mt)).

  Definition size_cells (l : list (cmethod * table)) : nat :=
    sum (map (fun mt => length (t_cells (snd mt))) l).

  Record methods_written (size : nat) (pre : list (nat * (cmethod * table))) (st : gv_state) :
      Prop := {
    mw_len : length (gv_words st) = size;
    mw_iter : gv_iter st <= size_cells (map snd pre);
    mw_tables : length (gv_tables st) = length pre;
    mw_cells : forall mi m t, (mi, (m, t)) ∈ pre -> length (m_vp m) <> 1 ->
      exists gv, gv_tables st !! mi = Some gv /\ gv + length (t_cells t) <= gv_iter st /\
        forall k c, t_cells t !! k = Some c -> exists f, target_pf m (cl_target c) = Ok f /\
          gv_words st !! (gv + k) = Some (WPf f);
    mw_ss_other : forall a, a ∉ map (fun im => m_ss (fst (snd im))) pre -> gv_ss st a = w_ss w a;
    mw_ss : NoDup (map (fun im => m_ss (fst (snd im))) pre) ->
      forall mi mt, (mi, mt) ∈ pre -> gv_ss st (m_ss (fst mt)) = method_ss mi mt
  }.

  Lemma size_cells_app l1 l2 : size_cells (l1 ++ l2) = size_cells l1 + size_cells l2.
  Proof. unfold size_cells. rewrite map_app. apply sum_app. Qed.

  Lemma write_methods_ok size :
    size_cells mts <= size ->
    exists st, foldM (write_method s) (imap pair mts)
      (GvState (repeat WZero size) 0 (w_ss w) []) = Ok st /\
      methods_written size (imap pair mts) st.
  Proof.
    intros Hsize.
    apply (foldM_inv_prefix (methods_written size)).
    - split; simpl.
      + apply repeat_length.
      + lia.
      + reflexivity.
      + intros mi m t H. inversion H.
      + reflexivity.
      + intros _ mi mt H. inversion H.
    - intros l1 [mi [m t]] l2 st Hl [M1 M2 M3 M4 M5 M6].
      pose proof (imap_pair_prefix _ _ _ _ _ Hl) as (Hl1 & Hmi & Hm).
      destruct (mts_table _ _ _ Hm) as (gs & HT & Hgl & Hne).
      assert (Hpre : forall mi' mt', (mi', mt') ∈ l1 -> mi' < mi).
      { intros mi' mt' Hin. rewrite Hl1 in Hin. apply elem_of_imap_pair in Hin.
        apply lookup_lt_Some in Hin. rewrite take_length in Hin. lia. }
      assert (Hsz : size_cells (map snd l1) + length (t_cells t) <= size).
      { assert (H : map snd (imap pair mts) = mts).
        { apply list_eq. intros i. change (map snd ?l) with (snd <$> l).
          rewrite list_lookup_fmap, list_lookup_imap. destruct (mts !! i); reflexivity. }
        rewrite Hl, map_app in H. rewrite <- H in Hsize. rewrite size_cells_app in Hsize.
        cbn [map] in Hsize. unfold size_cells in Hsize at 2. cbn [map] in Hsize.
        rewrite sum_cons in Hsize. simpl in Hsize. lia. }
      assert (Hssz : length (method_ss mi (m, t)) = 2 * length (m_vp m) - 1).
      { unfold method_ss, method_slots. simpl fst. simpl snd.
        rewrite app_length, map_length, seq_length, (to_strides _ _ _ _ _ _ HT), strides_length,
          map_length, Hgl. destruct (m_vp m); [contradiction|]. simpl. lia. }
      assert (Hmap : forall f : nat * (cmethod * table) -> nat,
                map f (l1 ++ [(mi, (m, t))]) = map f l1 ++ [f (mi, (m, t))]).
      { intros f. apply map_app. }
      assert (Hss_other : forall a ss,
        a ∉ map (fun im => m_ss (fst (snd im))) (l1 ++ [(mi, (m, t))]) ->
        upd (gv_ss st) (m_ss m) ss a = w_ss w a).
      { intros a ss Ha. rewrite Hmap in Ha. simpl in Ha. rewrite not_elem_of_app in Ha.
        destruct Ha as [Ha1 Ha2]. rewrite upd_ne; [auto|].
        intros ->. apply Ha2. left. }
      assert (Hss : forall ss, ss = method_ss mi (m, t) ->
        NoDup (map (fun im => m_ss (fst (snd im))) (l1 ++ [(mi, (m, t))])) ->
        forall mi' mt', (mi', mt') ∈ l1 ++ [(mi, (m, t))] ->
          upd (gv_ss st) (m_ss m) ss (m_ss (fst mt')) = method_ss mi' mt').
      { intros ss -> Hnd mi' mt' Hin. rewrite Hmap in Hnd. simpl in Hnd.
        apply NoDup_app in Hnd as (Hnd & Hdis & _).
        apply elem_of_app in Hin as [Hin|Hin].
        - rewrite upd_ne; [auto|]. intros Heq.
          apply (Hdis (m_ss (fst mt'))).
          + apply elem_of_list_fmap. exists (mi', mt'). auto.
          + rewrite Heq. left.
        - apply elem_of_list_singleton in Hin. injection Hin as -> ->. apply upd_eq. }
      unfold write_method. case_decide as Har1.
      + assert (Hslot : at_ (method_slots s mi m) 0 = Ok (s_slots s mi 0)).
        { unfold method_slots. rewrite Har1. reflexivity. }
        rewrite Hslot. cbn [obind]. eexists. split; [reflexivity|].
        assert (Hss1 : [s_slots s mi 0] = method_ss mi (m, t)).
        { unfold method_ss, method_slots. simpl fst. simpl snd.
          assert (Hst : t_strides t = []).
          { apply nil_length_inv. rewrite (to_strides _ _ _ _ _ _ HT), strides_length, map_length. lia. }
          rewrite Hst, Har1. reflexivity. }
        split; simpl.
        * exact M1.
        * rewrite map_app, size_cells_app. lia.
        * rewrite !app_length. simpl. lia.
        * intros mi' m' t' [Hin|Hin]%elem_of_app Hn.
          -- destruct (M4 mi' m' t' Hin Hn) as (gv & Hgv & H). exists gv. split; [|exact H].
             rewrite lookup_app_l; [exact Hgv|]. eapply lookup_lt_Some; eauto.
          -- apply elem_of_list_singleton in Hin. injection Hin as -> -> ->. contradiction.
        * intros a. apply Hss_other.
        * apply Hss. exact Hss1.
      + change (method_slots s mi m ++ t_strides t) with (method_ss mi (m, t)).
        rewrite decide_True by lia.
        assert (Hfold : forall a, foldM (fun c a => let* pf := target_pf m (cl_target c) in put (WPf pf) a)
          (t_cells t) a = foldM (fun c a => let* y := (let* pf := target_pf m (cl_target c) in Ok (WPf pf))
                                             in put y a) (t_cells t) a).
        { intros a. apply foldM_ext. intros c a' _. rewrite obind_assoc. reflexivity. }
        rewrite Hfold.
        destruct (put_list (fun c => let* pf := target_pf m (cl_target c) in Ok (WPf pf))
                    (t_cells t) (gv_words st) (gv_iter st)) as (ws & Hok & P1 & P2 & P3).
        { intros c Hc. apply elem_of_list_lookup in Hc as [k Hk].
          destruct (cell_pf _ _ _ _ _ Hm Hk) as (f & Hf). exists (WPf f). rewrite Hf. reflexivity. }
        { rewrite M1. lia. }
        rewrite Hok. cbn [obind]. eexists. split; [reflexivity|]. split; simpl.
        * rewrite P1. exact M1.
        * rewrite map_app, size_cells_app. unfold size_cells at 2. cbn [map]. rewrite sum_cons.
          simpl. lia.
        * rewrite !app_length. simpl. lia.
        * intros mi' m' t' [Hin|Hin]%elem_of_app Hn.
          -- destruct (M4 mi' m' t' Hin Hn) as (gv & Hgv & Hle & H). exists gv.
             split; [rewrite lookup_app_l; [exact Hgv|]; eapply lookup_lt_Some; eauto|].
             split; [lia|]. intros k c Hk. destruct (H k c Hk) as (f & Hf & Hw). exists f.
             split; [exact Hf|]. rewrite P2; [exact Hw|]. apply lookup_lt_Some in Hk. lia.
          -- apply elem_of_list_singleton in Hin. injection Hin as -> -> ->.
             exists (gv_iter st). split; [rewrite lookup_app_r by lia; rewrite M3, <- Hmi, Nat.sub_diag; reflexivity|].
             split; [lia|]. intros k c Hk. destruct (P3 k c Hk) as (y & Hy & Hw).
             apply obind_ok in Hy as (f & Hf & [= <-]). exists f. auto.
        * intros a. apply Hss_other.
        * apply Hss. reflexivity.
  Qed.

  (* The word of a v-table entry. *)
  Definition entry_word (gvt : list nat) (e : vtbl_entry) : outcome word :=
    let* '(m, t) := at_ mts (ve_method e) in
    if decide (length (m_vp m) = 1) then
      let* c := at_ (t_cells t) (ve_group e) in
      let* pf := target_pf m (cl_target c) in Ok (WPf pf)
    else if decide (ve_vp e = 0) then
      let* gv := at_ gvt (ve_method e) in
      Ok (WPw (VPtr buf (Z.of_nat (gv + ve_group e))))
    else Ok (WIdx (ve_group e)).

  Lemma write_entry_word gvt e a :
    write_entry buf mts gvt e a = let* y := entry_word gvt e in put y a.
  Proof.
    unfold write_entry, entry_word. rewrite obind_assoc. apply obind_ext. intros [m t].
    case_decide; [rewrite obind_assoc; apply obind_ext; intros c;
                  rewrite obind_assoc; apply obind_ext; reflexivity|].
    case_decide; [rewrite obind_assoc; apply obind_ext; reflexivity|]. reflexivity.
  Qed.

  Lemma uni_cells mi m t gs gm :
    mts !! mi = Some (m, t) -> table_ok E g n2216 m gs t -> length gs = length (m_vp m) ->
    length (m_vp m) = 1 -> gs !! 0 = Some gm -> length (t_cells t) = length gm.
  Proof.
    intros Hm HT Hgl H1 Hgm.
    destruct (build_table_ok _ _ _ _ _ _ (to_cells _ _ _ _ _ _ HT)) as [Hl _]. rewrite Hl.
    destruct gs as [|gm' [|? ?]]; simpl in *; try lia. injection Hgm as ->. lia.
  Qed.

  Lemma entry_word_total gvt c e :
    length gvt = length mts -> e ∈ tb_vtbl T c -> exists x, entry_word gvt e = Ok x.
  Proof.
    intros Hgvt He.
    destruct (all_entries_valid E R HE Hac Har n2216 cp Hcp c e He)
      as (m & t & gs & gm & Hm & Ht & HT & Hgm & Hlt).
    assert (Hmt : mts !! ve_method e = Some (m, t)) by (apply mts_lookup; auto).
    unfold entry_word.
    assert (Hat : at_ mts (ve_method e) = Ok (m, t)) by (apply at_ok; exact Hmt).
    rewrite Hat. cbn [obind]. case_decide as H1.
    - destruct (mts_table _ _ _ Hmt) as (gs' & HT' & Hgl & _).
      assert (gs' = gs) as ->.
      { pose proof (to_groups _ _ _ _ _ _ HT) as K1. pose proof (to_groups _ _ _ _ _ _ HT') as K2.
        congruence. }
      assert (Hz : ve_vp e = 0) by (apply lookup_lt_Some in Hgm; lia). rewrite Hz in Hgm.
      assert (exists c0, t_cells t !! ve_group e = Some c0) as [c0 Hc0].
      { apply lookup_lt_is_Some. rewrite (uni_cells _ _ _ _ _ Hmt HT Hgl H1 Hgm). exact Hlt. }
      assert (Hat2 : at_ (t_cells t) (ve_group e) = Ok c0) by (apply at_ok; exact Hc0).
      rewrite Hat2. cbn [obind]. destruct (cell_pf _ _ _ _ _ Hmt Hc0) as (f & Hf). rewrite Hf.
      simpl. eauto.
    - case_decide; [|eauto].
      assert (exists gv, gvt !! ve_method e = Some gv) as [gv Hgv].
      { apply lookup_lt_is_Some. rewrite Hgvt. eapply lookup_lt_Some; eauto. }
      assert (Hat2 : at_ gvt (ve_method e) = Ok gv) by (apply at_ok; exact Hgv).
      rewrite Hat2. simpl. eauto.
  Qed.

  Definition vtbl_size (cs : list nat) : nat := sum (map (fun c => length (tb_vtbl T c)) cs).

  Record classes_written (size it0 : nat) (ws0 : list word) (gvt : list nat)
      (pre : list (nat * class_entry)) (st : list word * nat * (nat -> vptr)) : Prop := {
    cw_len : length (fst (fst st)) = size;
    cw_iter : snd (fst st) = it0 + vtbl_size (map fst pre);
    cw_before : forall j, j < it0 -> fst (fst st) !! j = ws0 !! j;
    cw_class : forall c e, (c, e) ∈ pre -> exists it,
      it + length (tb_vtbl T c) <= snd (fst st) /\
      (NoDup (map (fun ce => ce_static_vptr (snd ce)) pre) ->
         snd st (ce_static_vptr e) = VPtr buf (Z.of_nat it - Z.of_nat (s_first s c))) /\
      forall j x, tb_vtbl T c !! j = Some x -> exists y, entry_word gvt x = Ok y /\
        fst (fst st) !! (it + j) = Some y;
    cw_other : forall a, a ∉ map (fun ce => ce_static_vptr (snd ce)) pre -> snd st a = w_static w a
  }.

  Lemma vtbl_size_app l1 l2 : vtbl_size (l1 ++ l2) = vtbl_size l1 + vtbl_size l2.
  Proof. unfold vtbl_size. rewrite map_app. apply sum_app. Qed.

  Lemma write_classes_ok size it0 ws0 gvt :
    length ws0 = size -> length gvt = length mts ->
    it0 + vtbl_size (seq 0 (g_n g)) <= size ->
    exists st, foldM (write_class buf cp mts gvt) (imap pair (g_classes g))
      (ws0, it0, w_static w) = Ok st /\
      classes_written size it0 ws0 gvt (imap pair (g_classes g)) st.
  Proof.
    intros Hlen Hgvt Hsize.
    apply (foldM_inv_prefix (classes_written size it0 ws0 gvt)).
    - split; simpl; auto.
      intros c e H. inversion H.
    - intros l1 [c e] l2 [[ws it] stat] Hl [C1 C2 C3 C4 C5]. simpl in C1, C2, C3, C4, C5.
      assert (Hsz : it + length (tb_vtbl T c) <= size).
      { assert (H : map fst (imap pair (g_classes g)) = seq 0 (g_n g)).
        { apply list_eq. intros i. change (map fst ?l) with (fst <$> l).
          rewrite list_lookup_fmap, list_lookup_imap.
          destruct (g_classes g !! i) as [x|] eqn:Hi; simpl.
          - rewrite lookup_seq_lt; [reflexivity|]. eapply lookup_lt_Some; eauto.
          - apply lookup_ge_None in Hi. rewrite lookup_seq_ge; [reflexivity|exact Hi]. }
        rewrite <- H, Hl, map_app, vtbl_size_app in Hsize. cbn [map] in Hsize.
        unfold vtbl_size in Hsize at 2. cbn [map] in Hsize. rewrite sum_cons in Hsize.
        simpl in Hsize. lia. }
      unfold write_class.
      assert (Hf : forall a, foldM (write_entry buf mts gvt) (tb_vtbl T c) a =
                foldM (fun e a => let* y := entry_word gvt e in put y a) (tb_vtbl T c) a).
      { intros a. apply foldM_ext. intros x a' _. apply write_entry_word. }
      rewrite Hf.
      destruct (put_list (entry_word gvt) (tb_vtbl T c) ws it) as (ws' & Hok & P1 & P2 & P3).
      { intros x Hx. eapply entry_word_total; eauto. }
      { lia. }
      rewrite Hok. cbn [obind]. eexists. split; [reflexivity|]. split; simpl.
      + lia.
      + rewrite map_app, vtbl_size_app. unfold vtbl_size at 2. cbn [map]. rewrite sum_cons.
        unfold sum at 1. simpl. lia.
      + intros j Hj. rewrite P2 by lia. auto.
      + intros c' e' [Hin|Hin]%elem_of_app.
        * destruct (C4 c' e' Hin) as (it' & I1 & I2 & I3). exists it'. split; [lia|]. split.
          -- intros Hnd. rewrite map_app in Hnd. apply NoDup_app in Hnd as (Hnd & Hdis & _).
             rewrite upd_ne; [auto|]. intros Heq.
             apply (Hdis (ce_static_vptr e')); [apply elem_of_list_fmap; exists (c', e'); auto|].
             rewrite Heq. simpl. left.
          -- intros j x Hx. destruct (I3 j x Hx) as (y & Hy & Hw). exists y. split; [exact Hy|].
             rewrite P2; [exact Hw|]. apply lookup_lt_Some in Hx. lia.
        * apply elem_of_list_singleton in Hin. injection Hin as -> ->. exists it.
          split; [lia|]. split; [intros _; apply upd_eq|exact P3].
      + intros a Ha. rewrite map_app, not_elem_of_app in Ha. destruct Ha as [Ha1 Ha2].
        rewrite upd_ne; [auto|]. intros ->. apply Ha2. simpl. left.
  Qed.

  (* next *)
  Definition next_targets (mt : cmethod * table) : list (cmethod * option target * nat) :=
    map (fun io : nat * overrider => (fst mt, final_next (t_cells (snd mt)) (fst io), ov_next (snd io)))
      (imap pair (m_ovs (fst mt))).

  Definition next_locs : list nat := flat_map (fun m => map ov_next (m_ovs m)) (cp_methods cp).

  Lemma mts_length : length (cp_methods cp) = length (tb_tables T).
  Proof.
    destruct (cp_tables_ok E R HE Hac n2216 cp Hcp) as (gss & _ & H & _). lia.
  Qed.

  Lemma next_locs_targets : map snd (flat_map next_targets mts) = next_locs.
  Proof.
    unfold next_locs. pose proof mts_length as Hlen. revert Hlen.
    generalize (cp_methods cp) as ms, (tb_tables T) as ts. induction ms as [|m ms IH];
      intros [|t ts] Hlen; try discriminate; [reflexivity|]. simpl.
    rewrite map_app. f_equal; [|apply IH; simpl in Hlen; lia].
    unfold next_targets. simpl. rewrite map_map. simpl.
    apply list_eq. intros i. change (map ?f ?l) with (f <$> l).
    rewrite !list_lookup_fmap, list_lookup_imap. destruct (m_ovs m !! i); reflexivity.
  Qed.

  Lemma write_nexts_ok :
    exists next, foldM write_next mts (w_next w) = Ok next /\
      (forall a, a ∉ next_locs -> next a = w_next w a) /\
      (NoDup next_locs -> forall mi m t i o, mts !! mi = Some (m, t) -> m_ovs m !! i = Some o ->
         match final_next (t_cells t) i with
         | Some tg => exists f, target_pf m tg = Ok f /\ next (ov_next o) = Some f
         | None => next (ov_next o) = w_next w (ov_next o)
         end).
  Proof.
    set (h := fun x : cmethod * option target * nat =>
      match snd (fst x) with
      | None => None
      | Some tg => Some (let* f := target_pf (fst (fst x)) tg in Ok (Some f))
      end).
    assert (Heq : foldM write_next mts (w_next w) =
      foldM (fun x f => match h x with
                        | None => Ok f
                        | Some o => let* v := o in Ok (upd f (snd x) v)
                        end) (flat_map next_targets mts) (w_next w)).
    { rewrite foldM_flat_map. apply foldM_ext. intros [m t] f _. unfold write_next, next_targets.
      rewrite foldM_map. apply foldM_ext. intros [i o] f' _. unfold h. simpl.
      destruct (final_next (t_cells t) i); [|reflexivity]. rewrite obind_assoc. reflexivity. }
    assert (Htot : forall mi m t i tg, mts !! mi = Some (m, t) ->
      final_next (t_cells t) i = Some tg -> exists f, target_pf m tg = Ok f).
    { intros mi m t i tg Hm Hf. apply final_next_in in Hf as (c & Hc & Hn).
      apply elem_of_list_lookup in Hc as [k Hk].
      destruct (mts_table _ _ _ Hm) as (gs & HT & _).
      destruct (table_cell _ _ _ _ _ _ _ _ HT Hk) as (mask & Hb).
      apply build_cell_in in Hb as [_ Hb]. destruct (Hb _ _ Hn) as [_ Ht].
      eapply target_pf_total; eauto. }
    assert (Hel : forall x, x ∈ flat_map next_targets mts <->
      exists mi m t i o, mts !! mi = Some (m, t) /\ m_ovs m !! i = Some o /\
        x = (m, final_next (t_cells t) i, ov_next o)).
    { intros x. rewrite elem_of_list_In, in_flat_map. split.
      - intros ([m t] & H1 & H2). apply elem_of_list_In, elem_of_list_lookup in H1 as [mi Hmi].
        unfold next_targets in H2. apply in_map_iff in H2 as ([i o] & <- & H2).
        apply elem_of_list_In, elem_of_imap_pair in H2. exists mi, m, t, i, o. auto.
      - intros (mi & m & t & i & o & H1 & H2 & ->). exists (m, t). split.
        + apply elem_of_list_In. eapply elem_of_list_lookup_2; eauto.
        + unfold next_targets. apply in_map_iff. exists (i, o). split; [reflexivity|].
          apply elem_of_list_In, elem_of_imap_pair. exact H2. }
    destruct (upd_list snd h (flat_map next_targets mts) (w_next w)) as (next & Hok & Hout & Hin).
    { intros x o Hx Ho. apply Hel in Hx as (mi & m & t & i & ov & H1 & H2 & ->).
      unfold h in Ho. simpl in Ho. destruct (final_next (t_cells t) i) as [tg|] eqn:Hf; [|discriminate].
      injection Ho as <-. destruct (Htot _ _ _ _ _ H1 Hf) as (f & Hpf). rewrite Hpf. simpl. eauto. }
    exists next. rewrite Heq. split; [exact Hok|]. rewrite next_locs_targets in *.
    split; [exact Hout|]. intros Hnd mi m t i o Hm Ho.
    assert (Hx : (m, final_next (t_cells t) i, ov_next o) ∈ flat_map next_targets mts).
    { apply Hel. exists mi, m, t, i, o. auto. }
    specialize (Hin Hnd _ Hx). unfold h in Hin. simpl in Hin.
    destruct (final_next (t_cells t) i) as [tg|] eqn:Hf; [|exact Hin].
    destruct (Htot _ _ _ _ _ Hm Hf) as (f & Hpf). rewrite Hpf in Hin. simpl in Hin. eauto.
  Qed.

  Record written_ok (wr : written) (gvt : list nat) : Prop := {
    wr_len : length (wr_words wr) = data_size cp;
    wr_gvt : length gvt = length mts;
    wr_table : forall mi m t, mts !! mi = Some (m, t) -> length (m_vp m) <> 1 ->
      exists gv, gvt !! mi = Some gv /\ forall k c, t_cells t !! k = Some c ->
        exists f, target_pf m (cl_target c) = Ok f /\ wr_words wr !! (gv + k) = Some (WPf f);
    wr_class : forall c e, g_classes g !! c = Some e -> exists it,
      it + length (tb_vtbl T c) <= length (wr_words wr) /\
      (NoDup (map ce_static_vptr (g_classes g)) ->
         wr_static wr (ce_static_vptr e) = VPtr buf (Z.of_nat it - Z.of_nat (s_first s c))) /\
      forall j x, tb_vtbl T c !! j = Some x -> exists y, entry_word gvt x = Ok y /\
        wr_words wr !! (it + j) = Some y;
    wr_static_other : forall a, a ∉ map ce_static_vptr (g_classes g) -> wr_static wr a = w_static w a;
    wr_ss_ok : NoDup (map m_ss (cp_methods cp)) ->
      forall mi m t, mts !! mi = Some (m, t) -> wr_ss wr (m_ss m) = method_slots s mi m ++ t_strides t;
    wr_ss_other : forall a, a ∉ map m_ss (cp_methods cp) -> wr_ss wr a = w_ss w a;
    wr_next_ok : NoDup next_locs -> forall mi m t i o,
      mts !! mi = Some (m, t) -> m_ovs m !! i = Some o ->
      match final_next (t_cells t) i with
      | Some tg => exists f, target_pf m tg = Ok f /\ wr_next wr (ov_next o) = Some f
      | None => wr_next wr (ov_next o) = w_next w (ov_next o)
      end;
    wr_next_other : forall a, a ∉ next_locs -> wr_next wr a = w_next w a
  }.

  Lemma map_imap_pair {A B} (f : A -> B) (l : list A) : map (fun ix => f (snd ix)) (imap pair l) = map f l.
  Proof.
    apply list_eq. intros i. change (map ?f ?l) with (f <$> l).
    rewrite !list_lookup_fmap, list_lookup_imap. destruct (l !! i); reflexivity.
  Qed.

  Lemma map_fst_zip {A B} (l : list A) (k : list B) : length l = length k -> map fst (zip l k) = l.
  Proof.
    revert k. induction l as [|x l IH]; intros [|y k] H; try discriminate; [reflexivity|].
    simpl. f_equal. apply IH. simpl in H. lia.
  Qed.

  Theorem write_tables_ok : exists wr gvt, write_tables buf cp w = Ok wr /\ written_ok wr gvt.
  Proof.
    unfold write_tables.
    assert (Hcells : size_cells mts = sum (map (fun t => length (t_cells t)) (tb_tables T))).
    { unfold size_cells. f_equal. pose proof mts_length as Hl. revert Hl.
      generalize (cp_methods cp) as ms, (tb_tables T) as ts.
      induction ms as [|m ms IH]; intros [|t ts] Hl; try discriminate; [reflexivity|].
      simpl. f_equal. apply IH. simpl in Hl. lia. }
    assert (Hds : data_size cp = size_cells mts + vtbl_size (seq 0 (g_n g))).
    { unfold data_size. rewrite Hcells. reflexivity. }
    destruct (write_methods_ok (data_size cp)) as (st & Hst & [M1 M2 M3 M4 M5 M6]); [lia|].
    rewrite Hst. cbn [obind].
    destruct write_nexts_ok as (next & Hn & N1 & N2). rewrite Hn. cbn [obind].
    assert (Hmapsnd : map snd (imap pair mts) = mts).
    { rewrite (map_imap_pair (fun x => x)). apply map_id. }
    rewrite Hmapsnd in M2. rewrite imap_length in M3.
    destruct (write_classes_ok (data_size cp) (gv_iter st) (gv_words st) (gv_tables st))
      as ([[ws it] stat] & Hc & [C1 C2 C3 C4 C5]); [exact M1|exact M3|lia|].
    rewrite Hc. cbn [obind]. simpl in C1, C2, C3, C4, C5.
    eexists _, (gv_tables st). split; [reflexivity|].
    rewrite (map_imap_pair ce_static_vptr) in C5.
    assert (Hssmap : map (fun im : nat * (cmethod * table) => m_ss (fst (snd im))) (imap pair mts) =
              map m_ss (cp_methods cp)).
    { rewrite (map_imap_pair (fun mt : cmethod * table => m_ss (fst mt))).
      rewrite <- (map_map fst m_ss), map_fst_zip by apply mts_length. reflexivity. }
    rewrite Hssmap in M5, M6.
    split; simpl.
    - exact C1.
    - exact M3.
    - intros mi m t Hm Hne. destruct (M4 mi m t) as (gv & Hgv & Hle & H);
        [apply elem_of_imap_pair; exact Hm|exact Hne|].
      exists gv. split; [exact Hgv|]. intros k c Hk. destruct (H k c Hk) as (f & Hf & Hw).
      exists f. split; [exact Hf|]. rewrite C3; [exact Hw|]. apply lookup_lt_Some in Hk. lia.
    - intros c e Hce. destruct (C4 c e) as (it' & I1 & I2 & I3); [apply elem_of_imap_pair; exact Hce|].
      exists it'. rewrite (map_imap_pair ce_static_vptr) in I2.
      split; [|auto]. rewrite C1.
      assert (Hv : vtbl_size (map fst (imap pair (g_classes g))) = vtbl_size (seq 0 (g_n g))).
      { f_equal. apply list_eq. intros i. change (map fst ?l) with (fst <$> l).
        rewrite list_lookup_fmap, list_lookup_imap.
        destruct (g_classes g !! i) as [x|] eqn:Hi; simpl.
        - rewrite lookup_seq_lt; [reflexivity|]. eapply lookup_lt_Some; eauto.
        - apply lookup_ge_None in Hi. rewrite lookup_seq_ge; [reflexivity|exact Hi]. }
      lia.
    - exact C5.
    - intros Hnd mi m t Hm. apply (M6 Hnd mi (m, t)). apply elem_of_imap_pair. exact Hm.
    - exact M5.
    - exact N2.
    - exact N1.
  Qed.
End Write.
