(* From the compiled tables to the specification: which overrider each cell of
   the dispatch table of a method designates. *)
From stdpp Require Import base list numbers list_numbers relations.
From Verif Require Import Base Registry Spec ModelClasses ModelMethods ModelSlots ModelTables
  ModelHash ModelWorld
  ProofBase ProofClasses ProofGraph ProofMethods ProofBits ProofSlots ProofSelect ProofTables.

(* ---- indices ---- *)

Definition prod (l : list nat) : nat := foldr Nat.mul 1 l.

Lemma prod_app l1 l2 : prod (l1 ++ l2) = prod l1 * prod l2.
Proof.
  induction l1 as [|x l1 IH]; [simpl; unfold prod; lia|].
  change (x * prod (l1 ++ l2) = x * prod l1 * prod l2). rewrite IH. lia.
Qed.

Lemma prod_foldl l : foldl Nat.mul 1 l = prod l.
Proof.
  assert (G : forall l a, foldl Nat.mul a l = a * prod l).
  { induction l0 as [|x l0 IH]; intros a; [simpl; unfold prod; lia|].
    cbn [foldl]. rewrite IH. change (prod (x :: l0)) with (x * prod l0). lia. }
  rewrite G. lia.
Qed.

(* Index of a cell from the indices of the groups in dimensions 0, 1, ... *)
Fixpoint flat_index (sizes is : list nat) : nat :=
  match sizes, is with
  | s :: sizes, i :: is => i + s * flat_index sizes is
  | _, _ => 0
  end.

Lemma flat_index_snoc sizes s is i :
  length sizes = length is ->
  flat_index (sizes ++ [s]) (is ++ [i]) = flat_index sizes is + prod sizes * i.
Proof.
  revert is. induction sizes as [|t sizes IH]; intros [|j is] Hl; try discriminate.
  - simpl. unfold prod. simpl. lia.
  - simpl in *. rewrite IH by lia. change (prod (t :: sizes)) with (t * prod sizes). lia.
Qed.

Lemma tbl_size_rev gs : tbl_size (rev gs) = prod (map length gs).
Proof.
  induction gs as [|gm gs IH] using rev_ind; [reflexivity|].
  rewrite rev_app_distr, map_app, prod_app, <- IH. simpl. unfold prod. simpl. lia.
Qed.

Lemma tbl_index_rev gs is :
  length gs = length is -> tbl_index (rev gs) (rev is) = flat_index (map length gs) is.
Proof.
  revert is. induction gs as [|gm gs IH] using rev_ind; intros is Hl.
  - destruct is; [reflexivity|discriminate].
  - destruct is as [|i is _] using rev_ind; [rewrite app_length in Hl; simpl in Hl; lia|].
    rewrite !app_length in Hl. simpl in Hl.
    rewrite !rev_app_distr, map_app. simpl.
    rewrite IH, flat_index_snoc, tbl_size_rev by (rewrite ?map_length; lia). lia.
Qed.

Lemma strides_loop_lookup st sizes j :
  j < length sizes -> strides_loop st sizes !! j = Some (st * prod (take (S j) sizes)).
Proof.
  revert st j. induction sizes as [|s sizes IH]; intros st j Hj; simpl in Hj; [lia|].
  destruct j as [|j]; simpl.
  - f_equal. unfold prod. simpl. lia.
  - rewrite IH by lia. f_equal. simpl.
    change (prod (s :: (match sizes with [] => [] | y :: t => y :: take j t end)))
      with (s * prod (match sizes with [] => [] | y :: t => y :: take j t end)). lia.
Qed.

Lemma strides_lookup sizes j :
  S j < length sizes -> strides sizes !! j = Some (prod (take (S j) sizes)).
Proof.
  intros Hj. unfold strides. rewrite strides_loop_lookup by (rewrite take_length; lia).
  rewrite take_take. f_equal. rewrite Nat.min_l by lia. lia.
Qed.

Lemma strides_loop_length st sizes : length (strides_loop st sizes) = length sizes.
Proof. revert st. induction sizes as [|s sizes IH]; intros st; simpl; [|rewrite IH]; reflexivity. Qed.

Lemma strides_length sizes : length (strides sizes) = length sizes - 1.
Proof. unfold strides. rewrite strides_loop_length, take_length. lia. Qed.

(* The running sum of a call (resolve_multi_next). *)
Lemma flat_index_take sizes is k i :
  length sizes = length is -> is !! k = Some i ->
  flat_index (take (S k) sizes) (take (S k) is) =
  flat_index (take k sizes) (take k is) + i * prod (take k sizes).
Proof.
  intros Hl Hi. pose proof (lookup_lt_Some _ _ _ Hi) as Hk.
  assert (exists s, sizes !! k = Some s) as [s Hs] by (apply lookup_lt_is_Some; lia).
  rewrite (take_S_r _ _ _ Hi), (take_S_r _ _ _ Hs).
  rewrite flat_index_snoc by (rewrite !take_length; lia). lia.
Qed.

(* ---- masks ---- *)

Lemma bit_zip_and a b i : bit (zip_with andb a b) i = bit a i && bit b i.
Proof.
  unfold bit. rewrite lookup_zip_with.
  destruct (a !! i) as [x|], (b !! i) as [y|]; simpl; try reflexivity.
  symmetry. apply andb_false_r.
Qed.

Lemma bit_and_masks mask ks i :
  bit (and_masks mask ks) i = true <-> bit mask i = true /\ forall k, k ∈ ks -> bit k i = true.
Proof.
  unfold and_masks. revert mask. induction ks as [|k ks IH]; intros mask; simpl.
  - split; [|tauto]. intros H. split; [exact H|]. intros k Hk. inversion Hk.
  - rewrite IH, bit_zip_and, andb_true_iff. split.
    + intros [[H1 H2] H3]. split; [exact H1|].
      intros k' [->|Hk']%elem_of_cons; auto.
    + intros [H1 H2]. split; [split; [exact H1|]|].
      * apply H2. left.
      * intros k' Hk'. apply H2. right. exact Hk'.
Qed.

Lemma bit_repeat n i : bit (repeat true n) i = true <-> i < n.
Proof.
  unfold bit. split.
  - intros H. destruct (repeat true n !! i) as [b|] eqn:Hb; [|discriminate].
    apply lookup_lt_Some in Hb. rewrite repeat_length in Hb. exact Hb.
  - intros H. assert (exists b, repeat true n !! i = Some b) as [b Hb].
    { apply lookup_lt_is_Some. rewrite repeat_length. exact H. }
    rewrite Hb. simpl. apply elem_of_list_lookup_2 in Hb.
    apply elem_of_list_In, repeat_spec in Hb. exact Hb.
Qed.

Lemma bit_mask_at g m d c i :
  bit (mask_at g m d c) i = true <->
  exists o v, m_ovs m !! i = Some o /\ ov_vp o !! d = Some v /\ c ∈ g_td g v.
Proof.
  unfold bit, mask_at. change (map ?f ?l) with (f <$> l). rewrite list_lookup_fmap.
  destruct (m_ovs m !! i) as [o|]; simpl.
  - destruct (ov_vp o !! d) as [v|] eqn:Hv.
    + unfold is_base_of. rewrite bool_decide_eq_true. split; [eauto|].
      intros (o' & v' & [= <-] & Hv' & H). congruence.
    + split; [discriminate|]. intros (o' & v' & [= <-] & Hv' & H). congruence.
  - split; [discriminate|]. intros (o' & v' & Ho & _). discriminate.
Qed.

(* ---- selection ---- *)

Definition sel_of (t : target) : selection :=
  match t with
  | TNotImplemented => SNone
  | TAmbiguous => SAmbiguous
  | TOverrider i => SOverrider i
  end.

Section Method.
  Context (E : env) (R : registrations) (g : graph).
  Context (HE : env_ok E) (HG : graph_ok E R g).
  Context (mr : method_record) (m : cmethod).
  Context (HM : method_ok E g mr m) (HP : params_ok g m).
  Context (Har : forall o, o ∈ mr_overriders mr -> length (or_vp o) = length (mr_vp mr)).
  Notation ti := (e_ti E).
  Notation rel := (irel E (g_map g) (reg_classes R)).

  Lemma map_td a b c d :
    g_map g a = Some c -> g_map g b = Some d -> c ∈ g_td g d <-> derives ti R a b.
  Proof.
    intros Ha Hb.
    assert (Hd : d < g_n g) by (eapply (co_lt _ _ _ _ (go_classes _ _ _ HG)); eauto).
    rewrite (proj2 (go_td _ _ _ HG d Hd)).
    symmetry. eapply derives_irel; eauto; apply HG.
  Qed.

  Lemma base_anti x y :
    is_base_of g x y = true -> is_base_of g y x = true -> x = y.
  Proof.
    unfold is_base_of. rewrite !bool_decide_eq_true. intros H1 H2.
    apply (go_td_sound _ _ _ HG) in H1, H2. eapply (le_antisym E R g HG); eauto.
  Qed.

  Lemma ovs_lookup i o' :
    m_ovs m !! i = Some o' -> exists o, mr_overriders mr !! i = Some o /\ overrider_ok E g o o'.
  Proof.
    intros H. destruct (Forall2_lookup_r _ _ _ _ _ (mo_ovs _ _ _ _ HM) H) as (o & Ho & Hok). eauto.
  Qed.

  Lemma ovs_lookup' i o :
    mr_overriders mr !! i = Some o -> exists o', m_ovs m !! i = Some o' /\ overrider_ok E g o o'.
  Proof.
    intros H. destruct (Forall2_lookup_l _ _ _ _ _ (mo_ovs _ _ _ _ HM) H) as (o' & Ho & Hok). eauto.
  Qed.

  Lemma ovs_length : length (m_ovs m) = length (mr_overriders mr).
  Proof. symmetry. eapply Forall2_length. apply HM. Qed.

  Lemma ovs_arity o' : o' ∈ m_ovs m -> length (ov_vp o') = length (m_vp m).
  Proof.
    intros H. apply elem_of_list_lookup in H as [i Hi].
    destruct (ovs_lookup i o' Hi) as (o & Ho & Hok).
    rewrite (overrider_ok_arity _ _ _ _ Hok), (method_ok_arity _ _ _ _ HM).
    apply Har. eapply elem_of_list_lookup_2; eauto.
  Qed.

  Lemma vp_lookup ts cs p c :
    vp_ok E g ts cs -> cs !! p = Some c -> exists t, ts !! p = Some t /\ g_map g (ti t) = Some c.
  Proof.
    intros H Hc. destruct (Forall2_lookup_r _ _ _ _ _ H Hc) as (t & Ht & Hok). eauto.
  Qed.

  Lemma vp_lookup' ts cs p t :
    vp_ok E g ts cs -> ts !! p = Some t -> exists c, cs !! p = Some c /\ g_map g (ti t) = Some c.
  Proof.
    intros H Ht. destruct (Forall2_lookup_l _ _ _ _ _ H Ht) as (c & Hc & Hok). eauto.
  Qed.

  Lemma map_lt a c : g_map g a = Some c -> c < g_n g.
  Proof. apply (co_lt _ _ _ _ (go_classes _ _ _ HG)). Qed.

  Lemma strict_iff a b xs ys :
    vp_ok E g a xs -> vp_ok E g b ys ->
    strict_at g xs ys <-> some_more_specialized ti R a b.
  Proof.
    intros Ha Hb. split.
    - intros (i & x & y & Hx & Hy & Hne & Hbase).
      destruct (vp_lookup _ _ _ _ Ha Hx) as (t & Ht & Htx).
      destruct (vp_lookup _ _ _ _ Hb Hy) as (v & Hv & Hvy).
      exists i, t, v. split; [exact Ht|]. split; [exact Hv|]. split.
      + unfold is_base_of in Hbase. apply bool_decide_eq_true in Hbase.
        apply (map_td _ _ _ _ Htx Hvy). exact Hbase.
      + intros Heq. rewrite Heq in Htx. congruence.
    - intros (i & t & v & Ht & Hv & Hder & Hne).
      destruct (vp_lookup' _ _ _ _ Ha Ht) as (x & Hx & Htx).
      destruct (vp_lookup' _ _ _ _ Hb Hv) as (y & Hy & Hvy).
      exists i, x, y. split; [exact Hx|]. split; [exact Hy|]. split.
      + intros ->. apply Hne. eapply (co_inj _ _ _ _ (go_classes _ _ _ HG)); eauto.
      + unfold is_base_of. apply bool_decide_eq_true. apply (map_td _ _ _ _ Htx Hvy). exact Hder.
  Qed.

  Lemma td_lt c x : x ∈ g_td g c -> c < g_n g -> x < g_n g.
  Proof.
    intros H Hc. apply (proj2 (go_td _ _ _ HG c Hc)) in H.
    eapply rtc_irel_lt; eauto. apply HG.
  Qed.

  Lemma vp_classes_lt ts cs p c : vp_ok E g ts cs -> cs !! p = Some c -> c < g_n g.
  Proof.
    intros H Hc. destruct (vp_lookup _ _ _ _ H Hc) as (t & _ & Ht). eapply map_lt; eauto.
  Qed.

  Lemma ms_iff i j oi oj :
    mr_overriders mr !! i = Some oi -> mr_overriders mr !! j = Some oj ->
    ms_at g m i j = true <-> dominates ti R oi oj.
  Proof.
    intros Hi Hj.
    destruct (ovs_lookup' _ _ Hi) as (oi' & Hi' & Koi).
    destruct (ovs_lookup' _ _ Hj) as (oj' & Hj' & Koj).
    unfold ms_at, is_more_specific. rewrite Hi', Hj'.
    rewrite (more_specific_loop_spec g base_anti). unfold dominates.
    rewrite <- (strict_iff _ _ _ _ (oo_vp _ _ _ _ Koi) (oo_vp _ _ _ _ Koj)).
    rewrite <- (strict_iff _ _ _ _ (oo_vp _ _ _ _ Koj) (oo_vp _ _ _ _ Koi)).
    intuition discriminate.
  Qed.

  (* The keys of the groups of a tuple of classes. *)
  Definition arg_masks (cs : list nat) : list bitset := imap (mask_at g m) cs.

  Definition full_mask : bitset := repeat true (length (m_ovs m)).

  (* Classes of the arguments. *)
  Definition arg_classes (args : list N) (cs : list nat) : Prop :=
    Forall2 (fun a c => g_map g a = Some c) args cs.

  Lemma mask_set_iff args cs i :
    arg_classes args cs -> length args = length (mr_vp mr) ->
    i ∈ mask_set m (and_masks full_mask (rev (arg_masks cs))) <->
    candidate ti R (mr_overriders mr) args i.
  Proof.
    intros Hcs Hlen. unfold mask_set. rewrite elem_of_list_filter, bit_and_masks, elem_of_seq.
    unfold full_mask. rewrite bit_repeat. split.
    - intros [[_ Hb] Hi]. assert (exists o', m_ovs m !! i = Some o') as [o' Ho']
        by (apply lookup_lt_is_Some; lia).
      destruct (ovs_lookup _ _ Ho') as (o & Ho & Hok). exists o. split; [exact Ho|].
      apply Forall2_same_length_lookup_2.
      { rewrite Hlen. symmetry. apply Har. eapply elem_of_list_lookup_2; eauto. }
      intros d a v Ha Hv.
      destruct (Forall2_lookup_l _ _ _ _ _ Hcs Ha) as (c & Hc & Hac).
      destruct (vp_lookup' _ _ _ _ (oo_vp _ _ _ _ Hok) Hv) as (x & Hx & Hvx).
      apply (map_td a (ti v) c x Hac Hvx).
      assert (Hk : bit (mask_at g m d c) i = true).
      { apply Hb. rewrite elem_of_list_In, <- in_rev, <- elem_of_list_In.
        apply elem_of_list_lookup. exists d. unfold arg_masks.
        rewrite list_lookup_imap, Hc. reflexivity. }
      apply bit_mask_at in Hk as (o2 & x2 & H1 & H2 & H3). congruence.
    - intros (o & Ho & Happ). destruct (ovs_lookup' _ _ Ho) as (o' & Ho' & Hok).
      pose proof (lookup_lt_Some _ _ _ Ho') as Hlt. split; [|lia]. split; [exact Hlt|].
      intros k Hk. rewrite elem_of_list_In, <- in_rev, <- elem_of_list_In in Hk.
      apply elem_of_list_lookup in Hk as [d Hd]. unfold arg_masks in Hd.
      rewrite list_lookup_imap in Hd. destruct (cs !! d) as [c|] eqn:Hc; [|discriminate].
      injection Hd as <-.
      destruct (Forall2_lookup_r _ _ _ _ _ Hcs Hc) as (a & Ha & Hac).
      destruct (Forall2_lookup_l _ _ _ _ _ Happ Ha) as (v & Hv & Hder).
      destruct (vp_lookup' _ _ _ _ (oo_vp _ _ _ _ Hok) Hv) as (x & Hx & Hvx).
      apply bit_mask_at. exists o', x. split; [exact Ho'|]. split; [exact Hx|].
      apply (map_td a (ti v) c x Hac Hvx). exact Hder.
  Qed.

  (* The elimination computes the documented selection. *)
  Lemma elim_selects l (cand : nat -> Prop) t :
    (forall i, i ∈ l <-> cand i) ->
    (forall i, cand i -> i < length (mr_overriders mr)) ->
    settled ti R (mr_overriders mr) cand ->
    elim (ms_at g m) l t ->
    selects_from ti R (mr_overriders mr) cand (sel_of t).
  Proof.
    intros Hl Hlt Htr Hel.
    assert (Hov : forall i, i ∈ l -> exists o, mr_overriders mr !! i = Some o).
    { intros i Hi. apply lookup_lt_is_Some, Hlt, Hl. exact Hi. }
    assert (Htop : forall i, top (ms_at g m) l i <->
                     undominated ti R (mr_overriders mr) cand i).
    { intros i. unfold top, undominated, dominated. rewrite Hl. split.
      - intros [Hi Hn]. split; [exact Hi|]. intros (j & oi & oj & Hoi & Hoj & Hj & Hd).
        apply (ms_iff j i oj oi Hoj Hoi) in Hd. rewrite Hn in Hd; [discriminate|].
        apply Hl. exact Hj.
      - intros [Hi Hn]. split; [exact Hi|]. intros j Hj.
        destruct (ms_at g m j i) eqn:Hms; [|reflexivity]. exfalso. apply Hn.
        destruct (Hov i) as [oi Hoi]; [apply Hl; exact Hi|].
        destruct (Hov j Hj) as [oj Hoj]. exists j, oi, oj.
        split; [exact Hoi|]. split; [exact Hoj|]. split; [apply Hl; exact Hj|].
        apply (ms_iff j i oj oi Hoj Hoi). exact Hms. }
    assert (Htr' : settled_at (ms_at g m) l).
    { intros x y Hx Hy Hyx.
      destruct (Hov x Hx) as [ox Hox], (Hov y Hy) as [oy Hoy].
      destruct (Htr x ox Hox) as (t' & ot & Hot & Ht' & Hd); [apply Hl; exact Hx| |].
      { exists y, ox, oy. split; [exact Hox|]. split; [exact Hoy|]. split; [apply Hl; exact Hy|].
        apply (ms_iff y x oy ox Hoy Hox). exact Hyx. }
      exists t'. split; [apply Htop; exact Ht'|]. apply (ms_iff t' x ot ox Hot Hox). exact Hd. }
    pose proof (elim_top (ms_at g m) l t Htr' Hel) as Ht.
    destruct t as [| |i]; simpl.
    - intros i Hi. apply Hl in Hi. rewrite Ht in Hi. inversion Hi.
    - destruct Ht as [Hne Hno]. split.
      + destruct l as [|a l']; [contradiction|]. exists a. apply Hl. left.
      + intros (i & Hi & Hu). apply Hno. exists i. split; [apply Htop; exact Hi|].
        intros j Hj. apply Hu, Htop. exact Hj.
    - destruct Ht as [Hi Hu]. split; [apply Htop; exact Hi|].
      intros j Hj. apply Hu, Htop. exact Hj.
  Qed.

  Lemma candidate_lt args i :
    candidate ti R (mr_overriders mr) args i -> i < length (mr_overriders mr).
  Proof. intros (o & Ho & _). eapply lookup_lt_Some; eauto. Qed.

  Lemma target_fn t :
    match t with TOverrider i => i < length (mr_overriders mr) | _ => True end ->
    exists f, target_pf m t = Ok f /\ selected_fn mr (sel_of t) = Some f.
  Proof.
    destruct t as [| |i]; simpl; intros H.
    - exists (mr_not_implemented mr). rewrite (mo_ni _ _ _ _ HM). auto.
    - exists (mr_ambiguous mr). rewrite (mo_amb _ _ _ _ HM). auto.
    - apply lookup_lt_is_Some in H as [o Ho]. destruct (ovs_lookup' _ _ Ho) as (o' & Ho' & Hok).
      exists (or_pf o). rewrite Ho. split; [|reflexivity].
      apply obind_ok. exists o'. split; [apply at_ok; exact Ho'|].
      rewrite (oo_pf _ _ _ _ Hok). reflexivity.
  Qed.

  (* The groups of a tuple of argument classes, and its cell. *)
  Definition in_groups (gs : list group_map) (cs is : list nat) : Prop :=
    length is = length cs /\
    forall d c, cs !! d = Some c -> exists i gm k gp,
      is !! d = Some i /\ gs !! d = Some gm /\ gm !! i = Some (k, gp) /\ c ∈ gp_classes gp.

  Lemma in_groups_exist n2216 gs t cs :
    table_ok E g n2216 m gs t -> Forall2 (fun c vp => c ∈ g_td g vp) cs (m_vp m) ->
    exists is, in_groups gs cs is.
  Proof.
    intros HT Hcs. destruct (table_groups E g HE _ _ _ _ HT ovs_arity) as [Hgl Hgr].
    pose proof (Forall2_length _ _ _ Hcs) as Hl.
    assert (G : forall d, d <= length cs -> exists is, length is = d /\
      forall e c, e < d -> cs !! e = Some c -> exists i gm k gp,
        is !! e = Some i /\ gs !! e = Some gm /\ gm !! i = Some (k, gp) /\ c ∈ gp_classes gp).
    { induction d as [|d IH]; intros Hd.
      - exists []. split; [reflexivity|]. intros e c He. lia.
      - destruct IH as (is & Hil & His); [lia|].
        assert (exists c, cs !! d = Some c) as [c Hc] by (apply lookup_lt_is_Some; lia).
        destruct (Forall2_lookup_l _ _ _ _ _ Hcs Hc) as (vp & Hvp & Hin).
        assert (exists gm, gs !! d = Some gm) as [gm Hgm] by (apply lookup_lt_is_Some; lia).
        destruct (groups_of g _ _ _ _ _ (Hgr d vp gm Hvp Hgm) Hin) as (gi & gp & Hgi & Hgc).
        exists (is ++ [gi]). split; [rewrite app_length; simpl; lia|].
        intros e c' He Hc'. destruct (decide (e = d)) as [->|Hne].
        + replace c' with c in * by congruence.
          eexists gi, gm, _, gp. rewrite lookup_app_r by lia.
          rewrite Hil, Nat.sub_diag. eauto.
        + destruct (His e c' ltac:(lia) Hc') as (i & gm' & k & gp' & K1 & K2).
          exists i, gm', k, gp'. rewrite lookup_app_l by lia. auto. }
    destruct (G (length cs) ltac:(lia)) as (is & Hil & His). exists is. split; [exact Hil|].
    intros d c Hc. apply His; [eapply lookup_lt_Some; eauto|exact Hc].
  Qed.

  Lemma rev_lookup {A} (l : list A) d x :
    rev l !! d = Some x -> d < length l /\ l !! (length l - S d) = Some x.
  Proof.
    rewrite rev_alt. change (rev_append l []) with (reverse l).
    intros H. pose proof (lookup_lt_Some _ _ _ H) as Hd. rewrite reverse_length in Hd.
    split; [exact Hd|]. rewrite reverse_lookup in H by exact Hd. exact H.
  Qed.

  Lemma rev_lookup' {A} (l : list A) d x :
    d < length l -> l !! (length l - S d) = Some x -> rev l !! d = Some x.
  Proof.
    intros Hd H. rewrite rev_alt. change (rev_append l []) with (reverse l).
    rewrite reverse_lookup by exact Hd. exact H.
  Qed.

  Lemma cell_at n2216 gs t cs is :
    table_ok E g n2216 m gs t -> Forall2 (fun c vp => c ∈ g_td g vp) cs (m_vp m) ->
    in_groups gs cs is ->
    exists c, t_cells t !! flat_index (map length gs) is = Some c /\
      build_cell g n2216 m (and_masks full_mask (rev (arg_masks cs))) = Ok c.
  Proof.
    intros HT Hcs [Hil His]. destruct (table_groups E g HE _ _ _ _ HT ovs_arity) as [Hgl Hgr].
    pose proof (Forall2_length _ _ _ Hcs) as Hl.
    destruct (build_table_ok _ _ _ _ _ _ (to_cells _ _ _ _ _ _ HT)) as [_ Hcell].
    rewrite <- tbl_index_rev by lia.
    apply Hcell. unfold tuple. rewrite !rev_length. unfold arg_masks. rewrite imap_length.
    split; [lia|]. split; [lia|].
    intros d gm Hd. apply rev_lookup in Hd as [Hlt Hgm].
    set (e := length gs - S d) in *.
    assert (exists c, cs !! e = Some c) as [c Hc] by (apply lookup_lt_is_Some; lia).
    assert (exists vp, m_vp m !! e = Some vp) as [vp Hvp] by (apply lookup_lt_is_Some; lia).
    destruct (His e c Hc) as (i & gm' & k & gp & H1 & H2 & H3 & H4).
    replace gm' with gm in * by congruence.
    destruct (gr_classes _ _ _ _ _ (Hgr e vp gm Hvp Hgm) k gp) as [_ Hgc];
      [eapply elem_of_list_lookup_2; eauto|].
    apply Hgc in H4 as [_ Hk].
    exists i, k, gp. split; [|split; [|exact H3]].
    - apply rev_lookup'; [lia|]. replace (length is - S d) with e by lia. exact H1.
    - apply rev_lookup'; [rewrite imap_length; lia|]. rewrite imap_length.
      replace (length cs - S d) with e by lia. rewrite list_lookup_imap, Hc.
      simpl. rewrite Hk. reflexivity.
  Qed.

  (* The cell of a call, without n2216. *)
  Lemma cell_selects gs t args cs is :
    table_ok E g false m gs t -> arg_classes args cs ->
    Forall2 (fun c vp => c ∈ g_td g vp) cs (m_vp m) -> in_groups gs cs is ->
    exists c l, t_cells t !! flat_index (map length gs) is = Some c /\ NoDup l /\
      (forall i, i ∈ l <-> candidate ti R (mr_overriders mr) args i) /\
      cell_ok g m l c.
  Proof.
    intros HT Hargs Hcs His.
    destruct (cell_at _ _ _ _ _ HT Hcs His) as (c & Hc & Hb).
    destruct (build_cell_ok g base_anti m (and_masks full_mask (rev (arg_masks cs))))
      as (c' & Hb' & Hok).
    replace c' with c in * by congruence.
    eexists c, _. split; [exact Hc|]. split; [apply mask_set_nodup|]. split; [|exact Hok].
    intros i. apply mask_set_iff; [exact Hargs|].
    rewrite (Forall2_length _ _ _ Hargs), (Forall2_length _ _ _ Hcs).
    apply (method_ok_arity _ _ _ _ HM).
  Qed.
End Method.
