(* Cells of the dispatch table of a method and tuples of argument classes. *)
From stdpp Require Import base list numbers list_numbers relations.
From Verif Require Import Base Registry Spec ModelClasses ModelMethods ModelSlots ModelTables
  ModelHash ModelWorld ModelCall SpecCall
  ProofBase ProofClasses ProofGraph ProofMethods ProofBits ProofSlots ProofSelect ProofTables
  ProofCompile ProofErrors ProofEntries ProofWrite ProofCall.

Section Cells.
  Context (E : env) (R : registrations).
  Context (HE : env_ok E) (Hac : acyclic (e_ti E) R) (Har : arity_ok R).
  Context (n2216 : bool) (cp : compiled) (Hcp : compile E n2216 R = Ok cp).
  Notation g := (cp_graph cp).
  Notation ti := (e_ti E).

  (* Compiled method [m], groups [gs] and table [t] of method [mr]. *)
  Record has_table (mi : nat) (mr : method_record) (m : cmethod) (gs : list group_map) (t : table) : Prop := {
    ht_reg : reg_methods R !! mi = Some mr;
    ht_method : cp_methods cp !! mi = Some m;
    ht_table : tb_tables (cp_tables cp) !! mi = Some t;
    ht_ok : method_ok E g mr m;
    ht_tok : table_ok E g n2216 m gs t;
    ht_length : length gs = length (m_vp m);
    ht_groups : forall dim vp gm, m_vp m !! dim = Some vp -> gs !! dim = Some gm -> groups_ok g m dim vp gm;
    ht_arity : forall o, o ∈ mr_overriders mr -> length (or_vp o) = length (mr_vp mr)
  }.

  Lemma has_table_exists mi mr : reg_methods R !! mi = Some mr ->
    exists m gs t, has_table mi mr m gs t.
  Proof.
    intros Hmi. pose proof (compile_inv E R HE Hac n2216 cp Hcp) as HCI.
    destruct (Forall2_lookup_l _ _ _ _ _ (co_methods _ _ _ _ HCI) Hmi) as (m & Hm & Hmok).
    destruct (cp_tables_ok E R HE Hac n2216 cp Hcp) as (gss & _ & _ & Htabs & _).
    destruct (Htabs mi m Hm) as (gs & t & _ & Ht & Htok).
    destruct (method_arity E R HE Hac Har n2216 cp Hcp _ _ _ Hm Hmi) as (_ & Hao & Hao' & Hne).
    destruct (table_groups E g HE _ _ _ _ Htok Hao') as [Hgl Hgr].
    exists m, gs, t. split; assumption.
  Qed.

  Section Table.
  Context (mi : nat) (mr : method_record) (m : cmethod) (gs : list group_map) (t : table).
  Context (HT : has_table mi mr m gs t).

  (* [args] have classes [cs], in the groups [is]. *)
  Record args_at (args : list N) (cs is : list nat) : Prop := {
    aa_classes : arg_classes g args cs;
    aa_td : Forall2 (fun c vp => c ∈ g_td g vp) cs (m_vp m);
    aa_groups : in_groups gs cs is
  }.

  Lemma args_at_exists args : valid_args ti R mr args -> exists cs is, args_at args cs is.
  Proof.
    intros Hva. pose proof (compile_inv E R HE Hac n2216 cp Hcp) as HCI.
    pose proof (co_graph _ _ _ _ HCI) as HG. pose proof (go_classes _ _ _ HG) as HC.
    destruct HT as [_ _ _ Hmok Htok _ _ Hao].
    assert (Hcs : exists cs, arg_classes g args cs).
    { unfold valid_args in Hva. clear -Hva HC. induction Hva as [|a v l l' [Hr _] _ IH].
      - exists []. constructor.
      - destruct IH as [cs Hcs]. assert (is_Some (g_map g a)) as [c Hc] by (apply (co_dom _ _ _ _ HC); exact Hr).
        exists (c :: cs). constructor; assumption. }
    destruct Hcs as [cs Hcs].
    pose proof (Forall2_length _ _ _ Hcs) as L1. pose proof (Forall2_length _ _ _ Hva) as L2.
    pose proof (Forall2_length _ _ _ (mo_vp _ _ _ _ Hmok)) as L3.
    assert (Htd : Forall2 (fun c vp => c ∈ g_td g vp) cs (m_vp m)).
    { apply Forall2_same_length_lookup_2; [lia|]. intros d c vp Hc Hvp.
      destruct (Forall2_lookup_r _ _ _ _ _ Hcs Hc) as (a & Ha & Hmap).
      destruct (Forall2_lookup_l _ _ _ _ _ Hva Ha) as (v & Hv & _ & Hd).
      destruct (Forall2_lookup_r _ _ _ _ _ (mo_vp _ _ _ _ Hmok) Hvp) as (v' & Hv' & Hvmap).
      replace v' with v in * by congruence.
      apply (map_td E R g HG _ _ _ _ Hmap Hvmap). exact Hd. }
    destruct (in_groups_exist E g HE mr m Hmok Hao n2216 gs t cs Htok Htd) as [is Hin].
    exists cs, is. split; assumption.
  Qed.

  Lemma args_at_cell args cs is : args_at args cs is ->
    exists c, t_cells t !! flat_index (map length gs) is = Some c /\
      build_cell g n2216 m (and_masks (full_mask m) (rev (arg_masks g m cs))) = Ok c.
  Proof.
    intros [_ Htd Hin]. destruct HT as [_ _ _ Hmok Htok _ _ Hao].
    eapply cell_at; eauto.
  Qed.

  (* Every cell is that of some arguments. *)
  Lemma cell_args j c : t_cells t !! j = Some c ->
    exists args cs is, valid_args ti R mr args /\ args_at args cs is /\
      j = flat_index (map length gs) is.
  Proof.
    intros Hj. pose proof (compile_inv E R HE Hac n2216 cp Hcp) as HCI.
    pose proof (co_graph _ _ _ _ HCI) as HG. pose proof (go_classes _ _ _ HG) as HC.
    destruct HT as [_ _ _ Hmok Htok Hgl Hgr Hao].
    destruct (build_table_ok _ _ _ _ _ _ (to_cells _ _ _ _ _ _ Htok)) as [Hlen _].
    pose proof (lookup_lt_Some _ _ _ Hj) as Hlt. rewrite Hlen in Hlt.
    destruct (tbl_index_surj _ _ Hlt) as (ris & ks & (Hl1 & Hl2 & Htup) & Hidx).
    rewrite rev_length in Hl1, Hl2.
    pose proof (Forall2_length _ _ _ (mo_vp _ _ _ _ Hmok)) as L3.
    (* a class in each group *)
    assert (G : forall d, d <= length gs -> exists args cs, length args = d /\ length cs = d /\
      forall e, e < d -> exists a c i gm k gp v vp, args !! e = Some a /\ cs !! e = Some c /\
        rev ris !! e = Some i /\ gs !! e = Some gm /\ gm !! i = Some (k, gp) /\ c ∈ gp_classes gp /\
        m_vp m !! e = Some vp /\ mr_vp mr !! e = Some v /\ g_map g (ti v) = Some vp /\
        c ∈ g_td g vp /\ g_map g a = Some c).
    { induction d as [|d IH]; intros Hd.
      - exists [], []. split; [reflexivity|]. split; [reflexivity|]. intros e He. lia.
      - destruct IH as (args & cs & La & Lc & IH); [lia|].
        destruct (lookup_lt_is_Some_2 gs d) as [gm Hgm]; [lia|].
        destruct (lookup_lt_is_Some_2 (m_vp m) d) as [vp Hvp]; [lia|].
        destruct (Forall2_lookup_r _ _ _ _ _ (mo_vp _ _ _ _ Hmok) Hvp) as (v & Hv & Hvmap).
        destruct (Htup (length gs - S d) gm) as (i & k & gp & Hi & _ & Hg).
        { apply rev_lookup'; [lia|]. replace (length gs - S (length gs - S d)) with d by lia. exact Hgm. }
        destruct (gr_classes _ _ _ _ _ (Hgr d vp gm Hvp Hgm) k gp) as [Hne Hcl];
          [eapply elem_of_list_lookup_2; eauto|].
        destruct (gp_classes gp) as [|cc cl] eqn:Hgp; [contradiction|].
        assert (Hc : cc ∈ g_td g vp) by (apply Hcl; left).
        assert (Hcn : cc < g_n g).
        { eapply (td_lt E R g HG); [exact Hc|]. eapply (co_lt _ _ _ _ HC); exact Hvmap. }
        destruct (lookup_lt_is_Some_2 (g_classes g) cc) as [e He]; [exact Hcn|].
        destruct (co_entry _ _ _ _ HC _ _ He) as (a & cr & Ha & _).
        exists (args ++ [a]), (cs ++ [cc]). rewrite !app_length. simpl.
        split; [lia|]. split; [lia|]. intros x Hx. destruct (decide (x = d)) as [->|Hne'].
        + exists a, cc, i, gm, k, gp, v, vp.
          rewrite !lookup_app_r by lia. rewrite La, Lc, Nat.sub_diag.
          split; [reflexivity|]. split; [reflexivity|].
          split; [apply rev_lookup'; [lia|]; rewrite Hl1; exact Hi|].
          split; [exact Hgm|]. split; [exact Hg|]. split; [rewrite Hgp; left|]. auto.
        + destruct (IH x ltac:(lia)) as (a' & c' & i' & gm' & k' & gp' & v' & vp' & K1 & K2 & K3).
          exists a', c', i', gm', k', gp', v', vp'. rewrite !lookup_app_l by lia. auto. }
    destruct (G (length gs) ltac:(lia)) as (args & cs & La & Lc & H).
    exists args, cs, (rev ris). split; [|split].
    - apply Forall2_same_length_lookup_2; [lia|]. intros d a v Ha Hv.
      destruct (H d) as (a' & c' & i & gm & k & gp & v' & vp & K1 & K2 & K3 & K4 & K5 & K6 & K7 & K8 & K9 & K10 & K11).
      { apply lookup_lt_Some in Ha. lia. }
      replace a' with a in * by congruence. replace v' with v in * by congruence. split.
      + apply (co_dom _ _ _ _ HC). eauto.
      + apply (map_td E R g HG _ _ _ _ K11 K9). exact K10.
    - split.
      + apply Forall2_same_length_lookup_2; [lia|]. intros d a c' Ha Hc.
        destruct (H d) as (a' & c2 & i & gm & k & gp & v' & vp & K1 & K2 & K3 & K4 & K5 & K6 & K7 & K8 & K9 & K10 & K11).
        { apply lookup_lt_Some in Ha. lia. }
        congruence.
      + apply Forall2_same_length_lookup_2; [lia|]. intros d c' vp' Hc Hvp.
        destruct (H d) as (a' & c2 & i & gm & k & gp & v' & vp & K1 & K2 & K3 & K4 & K5 & K6 & K7 & K8 & K9 & K10 & K11).
        { apply lookup_lt_Some in Hc. lia. }
        congruence.
      + split; [rewrite rev_length; lia|]. intros d c' Hc.
        destruct (H d) as (a' & c2 & i & gm & k & gp & v' & vp & K1 & K2 & K3 & K4 & K5 & K6 & K7 & K8 & K9 & K10 & K11).
        { apply lookup_lt_Some in Hc. lia. }
        replace c2 with c' in * by congruence. exists i, gm, k, gp. auto.
    - rewrite <- Hidx. rewrite <- tbl_index_rev by (rewrite rev_length; lia).
      rewrite rev_involutive. reflexivity.
  Qed.
  End Table.
End Cells.

Lemma final_next_some cells i c t :
  c ∈ cells -> cl_next c = Some (i, t) -> exists t', final_next cells i = Some t'.
Proof.
  intros Hc Hn. unfold final_next.
  assert (G : forall cells acc, (is_Some acc \/ c ∈ cells) -> is_Some (foldl (fun acc c =>
      match cl_next c with
      | Some (j, t) => if decide (j = i) then Some t else acc
      | None => acc
      end) acc cells)).
  { clear Hc. induction cells0 as [|c0 cells0 IH]; intros acc H; simpl.
    - destruct H as [H|H]; [exact H|inversion H].
    - apply IH. destruct H as [H|[->|H]%elem_of_cons]; [|left|right; exact H].
      + left. destruct (cl_next c0) as [[j t']|]; [|exact H]. destruct (decide (j = i)); [eauto|exact H].
      + rewrite Hn, decide_True by reflexivity. eauto. }
  destruct (G cells None) as [t' Ht']; [right; exact Hc|]. eauto.
Qed.
