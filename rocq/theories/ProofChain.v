(* Chains of calls through next. *)
From stdpp Require Import base list numbers list_numbers relations sorting.
From Verif Require Import Base Registry Spec ModelClasses ModelMethods ModelSlots ModelTables
  ModelHash ModelWorld ModelCall SpecCall SpecChain
  ProofBase ProofClasses ProofGraph ProofMethods ProofBits ProofSlots ProofSelect ProofTables
  ProofCompile ProofErrors ProofEntries ProofWrite ProofHash ProofWorld ProofCall ProofCells
  ProofDispatch ProofBehaviour ProofNext.

(* ---- elimination with a comparison that has no circle ---- *)
Section Elim.
  Context (ms : nat -> nat -> bool) (Q : nat -> nat -> Prop).
  Context (Hno : forall x, ~ tc Q x x).

  (* Above each candidate there is one that nothing beats. *)
  Lemma above_top (l : list nat) :
    (forall x y, x ∈ l -> y ∈ l -> ms x y = true -> Q x y) ->
    forall x, x ∈ l -> exists t, top ms l t /\ rtc Q t x.
  Proof.
    assert (Hirr : forall x y, rtc Q x y -> ~ Q y x).
    { intros x y Hr HQ. apply (Hno y). eapply tc_rtc_r; [apply tc_once; exact HQ|exact Hr]. }
    induction l as [|a l IH]; intros HQ; [intros x Hx; inversion Hx|].
    assert (IH' : forall x, x ∈ l -> exists t, top ms l t /\ rtc Q t x).
    { apply IH. intros x y Hx Hy. apply HQ; right; assumption. }
    clear IH.
    assert (Ha : exists t, top ms (a :: l) t /\ rtc Q t a).
    { destruct (decide (Exists (fun y => ms y a = true) l)) as [Hex|Hex].
      - apply Exists_exists in Hex as (y & Hy & Hya). destruct (IH' y Hy) as (t & [Ht Htop] & Hty).
        assert (Hta : rtc Q t a).
        { eapply rtc_r; [exact Hty|]. apply HQ; [right; exact Hy|left|exact Hya]. }
        exists t. split; [|exact Hta]. split; [right; exact Ht|].
        intros z [->|Hz]%elem_of_cons; [|exact (Htop z Hz)].
        destruct (ms a t) eqn:Hat; [|reflexivity]. exfalso. apply (Hirr t a Hta).
        apply HQ; [left|right; exact Ht|exact Hat].
      - exists a. split; [|apply rtc_refl]. split; [left|].
        intros z [->|Hz]%elem_of_cons.
        + destruct (ms a a) eqn:Haa; [|reflexivity]. exfalso. apply (Hirr a a (rtc_refl Q a)).
          apply HQ; [left|left|exact Haa].
        + destruct (ms z a) eqn:Hza; [|reflexivity]. exfalso. apply Hex. apply Exists_exists. eauto. }
    intros x [->|Hx]%elem_of_cons; [exact Ha|].
    destruct (IH' x Hx) as (t & [Ht Htop] & Htx). destruct (ms a t) eqn:Hat.
    - destruct Ha as (t' & Ht' & Hr). exists t'. split; [exact Ht'|].
      etransitivity; [exact Hr|]. eapply rtc_l; [|exact Htx]. apply HQ; [left|right; exact Ht|exact Hat].
    - exists t. split; [|exact Htx]. split; [right; exact Ht|].
      intros z [->|Hz]%elem_of_cons; auto.
  Qed.

  Lemma top_survives l surv x : survivors ms l surv -> top ms l x -> x ∈ surv.
  Proof.
    intros [S1 S2 S3 S4] [Hx Htop]. destruct (S2 x Hx) as [?|(y & Hy & Hyx)]; [assumption|].
    rewrite (Htop y Hy) in Hyx. discriminate.
  Qed.

  (* The candidate selected when [i] is out was beaten by [i]. *)
  Lemma elim_next (l l' : list nat) (i j : nat) :
    (forall x y, x ∈ l -> y ∈ l -> ms x y = true -> Q x y) ->
    elim ms l (TOverrider i) -> (forall x, x ∈ l' <-> x ∈ l /\ x <> i) ->
    elim ms l' (TOverrider j) -> ms i j = true.
  Proof.
    intros HQ (s & HS & _ & ->) Hl' (s' & HS' & _ & ->).
    assert (Hj : j ∈ l') by (apply (sv_sub _ _ _ HS'); left).
    assert (HQ' : forall x y, x ∈ l' -> y ∈ l' -> ms x y = true -> Q x y).
    { intros x y Hx%Hl' Hy%Hl'. apply HQ; tauto. }
    destruct (above_top l' HQ' j Hj) as (t & Ht & _).
    pose proof (top_survives l' [j] t HS' Ht) as Htj. apply elem_of_list_singleton in Htj as ->.
    apply Hl' in Hj as [Hj Hne].
    destruct (sv_out _ _ _ HS j Hj) as [Hji|(y & Hy & Hyj)].
    { apply elem_of_list_singleton in Hji. contradiction. }
    destruct (decide (y = i)) as [->|Hyi]; [exact Hyj|].
    rewrite (proj2 Ht y) in Hyj; [discriminate|]. apply Hl'. auto.
  Qed.
End Elim.

(* ---- next goes from an overrider to one that it beats ---- *)
Section Next.
  Context (cf : config) (X : run) (R : registrations) (w : world).
  Notation E := (r_env X).
  Notation ti := (e_ti (r_env X)).
  Context (HP : program_ok cf (r_env X) R) (HW : initialized_by cf X false R w).
  Context (mr : method_record) (Hmr : mr ∈ reg_methods R).
  Context (Hf : functions_ok mr) (Hnd : NoDup (map or_pf (mr_overriders mr))).
  Notation ovs := (mr_overriders mr).

  Context (Hu : forall i, unique_signature ti ovs i).

  Lemma beats_lt i j : beats ti R mr i j -> i < length ovs /\ j < length ovs.
  Proof.
    intros (oi & oj & args & Hoi & Hoj & _). split; eapply lookup_lt_Some; eauto.
  Qed.

  Lemma next_beats i j : no_circle ti R mr -> next_is w mr i j -> beats ti R mr i j.
  Proof.
    intros Hno (o & oj & Hoi & Hoj & Hn). pose proof HP as HP'.
    destruct HP' as [HE Hac Har Hids Hsz HA]. pose proof HW as HW'. destruct HW' as (w0 & rep & Hw0 & Hi).
    destruct (initialize_ok_inv cf X false R w0 HE Hac Har w rep Hids Hsz Hw0 Hi) as (cp & Hcp & _ & HI & _).
    pose proof (compile_inv E R HE Hac false cp Hcp) as HCI. pose proof (co_graph _ _ _ _ HCI) as HG.
    pose proof Hmr as Hmr'. apply elem_of_list_lookup in Hmr' as [mi Hmi].
    destruct (has_table_exists E R HE Hac Har false cp Hcp mi mr Hmi) as (m & gs & t & HT).
    pose proof (ht_ok _ _ _ _ _ _ _ _ _ HT) as Hmok. pose proof (ht_arity _ _ _ _ _ _ _ _ _ HT) as Hao.
    pose proof (ht_tok _ _ _ _ _ _ _ _ _ HT) as Htok.
    assert (Hanti := base_anti E R (cp_graph cp) HG).
    (* its own cell *)
    set (own := map ti (or_vp o)).
    assert (Hown : valid_args ti R mr own) by (eapply own_valid; eauto).
    assert (Hself : candidate ti R ovs own i).
    { exists o. split; [exact Hoi|]. unfold applicable, own. rewrite Forall2_fmap_l.
      apply Forall2_same_length_lookup_2; [reflexivity|]. intros p x y Hx Hy.
      replace y with x by congruence. constructor. }
    assert (Hfin : exists tg, final_next (t_cells t) i = Some tg).
    { destruct (args_at_exists E R HE Hac false cp Hcp _ _ _ _ _ HT own Hown) as (cs & is & [A1 A2 A3]).
      destruct (cell_selects E R (cp_graph cp) HE HG mr m Hmok Hao gs t own cs is Htok A1 A2 A3)
        as (c & l & Hcell & Hndl & Hl & Hck).
      assert (Ht : cl_target c = TOverrider i).
      { eapply (elim_best (ms_at (cp_graph cp) m)); [|apply (ck_target _ _ _ _ Hck)|exact Hndl|apply Hl; exact Hself|].
        { apply ms_at_asym. exact Hanti. }
        intros x Hx Hne. apply Hl in Hx. destruct Hx as (ox & Hox & Happ).
        eapply (ms_iff E R (cp_graph cp) HG mr m Hmok); eauto. eapply own_dominates; eauto. }
      pose proof (ck_next _ _ _ _ Hck) as Hnx. rewrite Ht in Hnx.
      destruct Hnx as (tg & l' & Hnx & _).
      eapply final_next_some; [|exact Hnx]. eapply elem_of_list_lookup_2; exact Hcell. }
    destruct Hfin as [tg Htg].
    (* the cell that set next *)
    destruct (final_next_in _ _ _ Htg) as (c & Hc & Hnx).
    apply elem_of_list_lookup in Hc as [k Hk].
    destruct (cell_args E R HE Hac false cp Hcp _ _ _ _ _ HT k c Hk) as (args & cs & is & Hva & [A1 A2 A3] & Hidx).
    destruct (cell_selects E R (cp_graph cp) HE HG mr m Hmok Hao gs t args cs is Htok A1 A2 A3)
      as (c' & l & Hcell & Hndl & Hl & Hck).
    rewrite <- Hidx, Hk in Hcell. injection Hcell as <-.
    pose proof (ck_target _ _ _ _ Hck) as Hel. pose proof (ck_next _ _ _ _ Hck) as Hck'.
    destruct (cl_target c) as [| |i'] eqn:Ht; try congruence.
    destruct Hck' as (tg' & l' & Hnx' & Hnd' & Hl' & Hel'). rewrite Hnx in Hnx'. injection Hnx' as <- <-.
    (* its target is overrider j *)
    destruct (in_written _ _ _ _ HI) as (buf & wr & gvt & Hok & _ & _ & _ & _ & Hwn). rewrite Hwn in Hn.
    destruct (Forall2_lookup_l _ _ _ _ _ (mo_ovs _ _ _ _ Hmok) Hoi) as (o' & Ho' & Hook).
    pose proof (wr_next_ok _ _ _ _ _ Hok) as Hw.
    assert (Hmt : zip (cp_methods cp) (tb_tables (cp_tables cp)) !! mi = Some (m, t)).
    { apply mts_lookup. split; [apply (ht_method _ _ _ _ _ _ _ _ _ HT)|apply (ht_table _ _ _ _ _ _ _ _ _ HT)]. }
    specialize (Hw (next_nodup E R HE Hac false cp Hcp HA) mi m t i o' Hmt Ho').
    rewrite Htg, (oo_next _ _ _ _ Hook), Hn in Hw. destruct Hw as (f & Hf' & [= <-]).
    destruct (Hf) as [_ Hf2]. destruct (Hf2 oj (elem_of_list_lookup_2 _ _ _ Hoj)) as [N1 N2].
    destruct (target_fn E (cp_graph cp) mr m Hmok tg) as (f & Hf1 & Hsf).
    { destruct tg as [| |x]; auto. apply elim_in, Hl' in Hel' as [Hel' _]. apply Hl in Hel' as (ok & Hok' & _).
      eapply lookup_lt_Some; eauto. }
    rewrite Hf' in Hf1. injection Hf1 as <-.
    destruct tg as [| |j']; simpl in Hsf; [congruence|congruence|].
    destruct (ovs !! j') as [oj'|] eqn:Hj'; [|discriminate]. injection Hsf as Hsf.
    assert (j' = j) as ->.
    { eapply NoDup_lookup; [exact Hnd| |]; rewrite list_lookup_fmap.
      - rewrite Hj'. reflexivity.
      - rewrite Hoj. simpl. rewrite Hsf. reflexivity. }
    assert (HQ : forall x y, x ∈ l -> y ∈ l -> ms_at (cp_graph cp) m x y = true -> beats ti R mr x y).
    { intros x y Hx%Hl Hy%Hl Hms. destruct Hx as (ox & Hox & Ax), Hy as (oy & Hoy & Ay).
      exists ox, oy, args. repeat (split; [assumption|]).
      apply (ms_iff E R (cp_graph cp) HG mr m Hmok x y ox oy Hox Hoy). exact Hms. }
    pose proof (elim_in _ _ _ Hel) as Hil. pose proof (elim_in _ _ _ Hel') as Hjl.
    apply Hl' in Hjl as [Hjl _].
    apply (HQ i j Hil Hjl). eapply (elim_next (ms_at (cp_graph cp) m) (beats ti R mr) Hno l l'); eauto.
  Qed.

  (* ---- chains ---- *)
  Lemma chain_lt l i : chain w mr l -> i ∈ l -> i < length ovs.
  Proof.
    intros H. induction H as [k Hk|k j l (ok & oj & Hok & _) _ IH]; intros Hi.
    - apply elem_of_list_singleton in Hi as ->. exact Hk.
    - apply elem_of_cons in Hi as [->|Hi]; [eapply lookup_lt_Some; eauto|auto].
  Qed.

  Lemma chain_below i l j : no_circle ti R mr -> chain w mr (i :: l) -> j ∈ l -> tc (beats ti R mr) i j.
  Proof.
    intros Hno. revert i. induction l as [|k l IH]; intros i Hc Hj; [inversion Hj|].
    inversion Hc as [|? ? ? Hn Hc']; subst.
    pose proof (next_beats _ _ Hno Hn) as Hb.
    apply elem_of_cons in Hj as [->|Hj]; [apply tc_once; exact Hb|].
    eapply tc_l; [exact Hb|]. apply IH; assumption.
  Qed.

  Theorem chain_finite l : no_circle ti R mr -> chain w mr l -> NoDup l /\ length l <= length ovs.
  Proof.
    intros Hno Hc.
    assert (Hndl : NoDup l).
    { induction l as [|i l IH]; [constructor|]. constructor.
      - intros Hi. apply (Hno i). eapply chain_below; eauto.
      - destruct l as [|j l]; [constructor|]. apply IH. inversion Hc; assumption. }
    split; [exact Hndl|].
    rewrite <- (seq_length (length ovs) 0). apply submseteq_length. apply NoDup_submseteq; [exact Hndl|].
    intros i Hi. apply elem_of_seq. pose proof (chain_lt _ _ Hc Hi). lia.
  Qed.
End Next.

(* ---- programs without circles ---- *)
Section NoCircle.
  Context (ti : N -> N) (R : registrations) (Hac : acyclic ti R) (m : method_record).
  Notation ovs := (mr_overriders m).

  Lemma pointwise_no_circle :
    (forall args, valid_args ti R m args -> pointwise ti R ovs (candidate ti R ovs args)) ->
    no_circle ti R m.
  Proof.
    intros Hpw.
    assert (G : forall i j, tc (beats ti R m) i j -> exists oi oj, ovs !! i = Some oi /\ ovs !! j = Some oj /\
      Forall2 (fun x y => derives ti R (ti x) (ti y)) (or_vp oi) (or_vp oj) /\
      some_more_specialized ti R (or_vp oi) (or_vp oj)).
    { assert (B : forall i j, beats ti R m i j -> exists oi oj, ovs !! i = Some oi /\ ovs !! j = Some oj /\
        Forall2 (fun x y => derives ti R (ti x) (ti y)) (or_vp oi) (or_vp oj) /\
        some_more_specialized ti R (or_vp oi) (or_vp oj)).
      { intros i j (oi & oj & args & Hi & Hj & Hva & Ai & Aj & D). exists oi, oj.
        split; [exact Hi|]. split; [exact Hj|]. split; [|apply D].
        apply (Hpw args Hva i j oi oj Hi Hj); [exists oi; auto|exists oj; auto|exact D]. }
      intros i j H. induction H as [i j Hb|i k j Hb _ IH]; [auto|].
      destruct (B i k Hb) as (oi & ok & Hi & Hk & F1 & (p & x & y & Hx & Hy & D & N)).
      destruct IH as (ok' & oj & Hk' & Hj & F2 & _). replace ok' with ok in * by congruence.
      exists oi, oj. split; [exact Hi|]. split; [exact Hj|]. split.
      - clear -F1 F2. revert F2. generalize (or_vp oj).
        induction F1 as [|a b l l' D _ IH]; intros l2 F2; inversion F2; subst; constructor.
        + etransitivity; eauto.
        + auto.
      - destruct (Forall2_lookup_l _ _ _ _ _ F2 Hy) as (z & Hz & Dyz).
        exists p, x, z. split; [exact Hx|]. split; [exact Hz|]. split; [etransitivity; eauto|].
        intros He. apply N. apply (derives_antisym ti R _ _ Hac D). rewrite He. exact Dyz. }
    intros i Hi. destruct (G i i Hi) as (oi & oj & H1 & H2 & _ & (p & x & y & Hx & Hy & _ & N)).
    replace oj with oi in * by congruence. congruence.
  Qed.
End NoCircle.

Theorem chain_finite_uni cf X R w :
  program_ok cf (r_env X) R -> initialized_by cf X false R w ->
  forall m, m ∈ reg_methods R -> functions_ok m -> NoDup (map or_pf (mr_overriders m)) ->
  (forall i, unique_signature (e_ti (r_env X)) (mr_overriders m) i) ->
  length (mr_vp m) = 1 ->
  forall l, chain w m l -> NoDup l /\ length l <= length (mr_overriders m).
Proof.
  intros HP HW m Hm Hf Hnd Hu H1 l. eapply chain_finite; eauto.
  apply pointwise_no_circle; [apply HP|]. intros args _. apply uni_pointwise; [apply HP|exact Hm|exact H1].
Qed.

Theorem chain_finite_comparable cf X R w :
  program_ok cf (r_env X) R -> initialized_by cf X false R w ->
  forall m, m ∈ reg_methods R -> functions_ok m -> NoDup (map or_pf (mr_overriders m)) ->
  (forall i, unique_signature (e_ti (r_env X)) (mr_overriders m) i) ->
  (forall args, valid_args (e_ti (r_env X)) R m args ->
     comparable (e_ti (r_env X)) R (mr_overriders m)
       (candidate (e_ti (r_env X)) R (mr_overriders m) args)) ->
  forall l, chain w m l -> NoDup l /\ length l <= length (mr_overriders m).
Proof.
  intros HP HW m Hm Hf Hnd Hu Hc l. eapply chain_finite; eauto.
  apply pointwise_no_circle; [apply HP|]. intros args Hva.
  apply comparable_pointwise; [apply HP|exact Hm|auto].
Qed.

(* ---- each applicable overrider runs once ---- *)
Section All.
  Context (cf : config) (X : run) (R : registrations) (w : world).
  Notation E := (r_env X).
  Notation ti := (e_ti (r_env X)).
  Context (HP : program_ok cf (r_env X) R) (HW : initialized_by cf X false R w).
  Context (m : method_record) (Hm : m ∈ reg_methods R).
  Context (Hpw : forall args, valid_args ti R m args ->
     pointwise ti R (mr_overriders m) (candidate ti R (mr_overriders m) args)).
  Notation ovs := (mr_overriders m).
  Context (args : list N) (Hva : valid_args ti R m args) (Htot : total_dominance ti R m args).

  Notation below := (outranks ti R m).

  Lemma same_signature a b : map ti (or_vp a) = map ti (or_vp b) -> ~ dominates ti R a b.
  Proof.
    intros He [(p & x & y & Hx & Hy & _ & N) _]. apply N.
    assert (H : map ti (or_vp a) !! p = map ti (or_vp b) !! p) by (rewrite He; reflexivity).
    rewrite !list_lookup_fmap, Hx, Hy in H. simpl in H. congruence.
  Qed.

  Lemma total_unique i : candidate ti R ovs args i -> unique_signature ti ovs i.
  Proof.
    intros (a' & Ha' & Happ) j a b Ha Hb He. replace a' with a in * by congruence.
    destruct (decide (j = i)) as [|Hne]; [assumption|]. exfalso.
    assert (Hab : applicable ti R args b).
    { unfold applicable in *. revert Happ He. generalize (or_vp a), (or_vp b), args. clear.
      induction l as [|x l IH]; intros [|y k] as0 H He; simpl in He; try discriminate; inversion H; subst; constructor.
      - congruence.
      - injection He as _ He. apply IH; assumption. }
    destruct (Htot j i b a Hb Ha Hab Happ Hne) as [D|D]; revert D; apply same_signature; auto.
  Qed.

  (* Among the candidates, [i] is more specialized than [j] exactly if [j] accepts
     what [i] names. *)
  Lemma next_candidate_iff i j : candidate ti R ovs args i ->
    next_candidate ti R ovs i j <-> candidate ti R ovs args j /\ below i j.
  Proof.
    intros Hi. pose proof Hi as (a & Ha & Happ). split.
    - intros [Hne (a' & Ha' & (b & Hb & Hab))]. replace a' with a in * by congruence. split.
      + exists b. split; [exact Hb|]. eapply applicable_trans; eauto.
      + exists a, b. split; [exact Ha|]. split; [exact Hb|].
        eapply own_dominates; eauto; [apply HP|apply total_unique; exact Hi].
    - intros [Hj (a' & b & Ha' & Hb & D)]. replace a' with a in * by congruence. split.
      + intros ->. replace b with a in * by congruence. revert D. apply same_signature. reflexivity.
      + exists a. split; [exact Ha|]. exists b. split; [exact Hb|].
        unfold applicable. rewrite Forall2_fmap_l. apply (Hpw args Hva i j a b Ha Hb Hi Hj D).
  Qed.

  Lemma Htrans : transitive_dominance ti R ovs (candidate ti R ovs args).
  Proof. apply pointwise_transitive; [apply HP|]. apply Hpw. exact Hva. Qed.

  Lemma below_trans i j k : candidate ti R ovs args i -> candidate ti R ovs args j ->
    candidate ti R ovs args k -> below i j -> below j k -> below i k.
  Proof.
    intros Ci Cj Ck (a & b & Ha & Hb & D1) (b' & c & Hb' & Hc & D2). replace b' with b in * by congruence.
    exists a, c. split; [exact Ha|]. split; [exact Hc|]. apply (Htrans i j k a b c); assumption.
  Qed.

  Lemma top_unique i x y : candidate ti R ovs args i ->
    undominated ti R ovs (next_candidate ti R ovs i) x -> undominated ti R ovs (next_candidate ti R ovs i) y -> y = x.
  Proof.
    intros Hi [Hx Nx] [Hy Ny]. destruct (decide (y = x)) as [|Hne]; [assumption|]. exfalso.
    destruct (proj1 (next_candidate_iff i x Hi) Hx) as [(a & Ha & Aa) _].
    destruct (proj1 (next_candidate_iff i y Hi) Hy) as [(b & Hb & Ab) _].
    destruct (Htot y x b a Hb Ha Ab Aa Hne) as [D|D].
    - apply Nx. exists y, a, b. auto.
    - apply Ny. exists x, b, a. auto.
  Qed.

  (* The chain from [i] runs through all the candidates below it. *)
  Lemma chain_from k i o :
    candidate ti R ovs args i -> ovs !! i = Some o ->
    (exists c, (forall j, j ∈ c <-> next_candidate ti R ovs i j) /\ length c < k) ->
    exists l z oz, chain w m (i :: l) /\ StronglySorted below (i :: l) /\
      (forall j, j ∈ l <-> candidate ti R ovs args j /\ below i j) /\
      last (i :: l) = Some z /\ ovs !! z = Some oz /\ w_next w (or_next oz) = Some (mr_not_implemented m).
  Proof.
    revert i o. induction k as [|k IH]; intros i o Hi Ho (c & Hc & Hk); [lia|].
    destruct (next_selects cf X R w HP HW m i o Hm Ho (total_unique i Hi) Hpw) as (sel & f & Hs & _ & Hsf & Hv).
    destruct sel as [| |j].
    - exists [], i, o. simpl in Hsf. injection Hsf as <-.
      split; [constructor; eapply lookup_lt_Some; exact Ho|]. split; [repeat constructor|].
      split; [|split; [reflexivity|split; [exact Ho|exact Hv]]].
      intros j. split; [intros H; inversion H|]. intros [H1 H2]. exfalso. apply (Hs j).
      apply next_candidate_iff; auto.
    - exfalso. destruct Hs as [(x & Hx) Hnone].
      assert (Htr : transitive_dominance ti R ovs (next_candidate ti R ovs i)).
      { intros x1 x2 x3 a b d H1 H2 H3 C1 C2 C3.
        apply (next_candidate_iff i) in C1; [|exact Hi]. apply (next_candidate_iff i) in C2; [|exact Hi].
        apply (next_candidate_iff i) in C3; [|exact Hi].
        apply (Htrans x1 x2 x3 a b d H1 H2 H3); tauto. }
      pose proof (transitive_settled ti R ovs _ (ex_intro _ c Hc) Htr) as Hset.
      assert (Huq : forall y, undominated ti R ovs (next_candidate ti R ovs i) y -> False).
      { intros y Hy. apply Hnone. exists y. split; [exact Hy|]. intros z Hz. apply (top_unique i); assumption. }
      assert (Hnd : ~ ~ dominated ti R ovs (next_candidate ti R ovs i) x).
      { intros N. apply (Huq x). split; assumption. }
      apply Hnd. intros Hd. pose proof Hx as [_ (a & _ & (b & Hb & _))].
      destruct (Hset x b Hb Hx Hd) as (y & oy & _ & Hy & _). exact (Huq y Hy).
    - simpl in Hsf. destruct (ovs !! j) as [oj|] eqn:Hj; [|discriminate]. injection Hsf as <-.
      destruct Hs as [Hund Huq]. pose proof Hund as [Hcj Hnd].
      destruct (proj1 (next_candidate_iff i j Hi) Hcj) as [Hj' Hij].
      assert (Hsplit : forall x, next_candidate ti R ovs i x <-> x = j \/ next_candidate ti R ovs j x).
      { intros x. rewrite !next_candidate_iff by assumption. split.
        - intros [Hx Hix]. destruct (decide (x = j)) as [|Hne]; [auto|]. right. split; [exact Hx|].
          destruct Hx as (ox & Hox & Ax), Hj' as (oj' & Hoj' & Aj).
          destruct (Htot j x oj' ox Hoj' Hox Aj Ax ltac:(congruence)) as [D|D]; [exists oj', ox; auto|].
          exfalso. apply Hnd. exists x, oj', ox. split; [exact Hoj'|]. split; [exact Hox|]. split; [|exact D].
          apply next_candidate_iff; [exact Hi|]. split; [exists ox; auto|exact Hix].
        - intros [->|[Hx Hjx]]; [auto|]. split; [exact Hx|]. apply (below_trans i j x); assumption. }
      destruct (IH j oj Hj' Hj) as (l & z & oz & L1 & L2 & L3 & L4 & L5 & L6).
      { exists (filter (fun x => x <> j) c). split.
        - intros x. rewrite elem_of_list_filter, Hc, Hsplit. split; [tauto|].
          intros Hx. split; [|auto]. intros ->. destruct Hx as [Hx _]. congruence.
        - assert (length (filter (fun x => x <> j) c) < length c); [|lia].
          apply (filter_length_lt _ c j); [apply Hc; exact Hcj|]. intros N. apply N. reflexivity. }
      exists (j :: l), z, oz. split.
      { constructor; [|exact L1]. exists o, oj. auto. }
      assert (Hall : forall x, x ∈ j :: l <-> candidate ti R ovs args x /\ below i x).
      { intros x. rewrite elem_of_cons, L3, <- next_candidate_iff by exact Hj'.
        rewrite <- next_candidate_iff by exact Hi. symmetry. apply Hsplit. }
      split; [constructor; [exact L2|]|]. { apply Forall_forall. intros x Hx. destruct (proj1 (Hall x) Hx); assumption. }
      split; [exact Hall|]. split; [exact L4|]. split; [exact L5|exact L6].
  Qed.

  (* The most specialized of the applicable overriders. *)
  Lemma candidates_top k (c : list nat) :
    (forall j, j ∈ c -> candidate ti R ovs args j) -> length c <= k -> c <> [] ->
    exists i, i ∈ c /\ forall j, j ∈ c -> j <> i -> below i j.
  Proof.
    revert k. induction c as [|a c IH]; intros k Hc Hk Hne; [contradiction|].
    destruct (decide (c = [])) as [->|Hc'].
    { exists a. split; [left|]. intros j Hj Hja. apply elem_of_list_singleton in Hj. contradiction. }
    destruct (IH k) as (i & Hi & Htop); [intros j Hj; apply Hc; right; exact Hj|simpl in Hk; lia|exact Hc'|].
    pose proof (Hc a ltac:(left)) as Ca. pose proof (Hc i ltac:(right; exact Hi)) as Ci.
    destruct (decide (a = i)) as [->|Hai].
    { exists i. split; [left|]. intros j [->|Hj]%elem_of_cons Hji; [contradiction|auto]. }
    pose proof Ca as (oa & Hoa & Aa). pose proof Ci as (oi & Hoi & Ai).
    destruct (Htot a i oa oi Hoa Hoi Aa Ai Hai) as [D|D].
    - assert (Dai : below a i) by (exists oa, oi; auto).
      exists a. split; [left|]. intros j [->|Hj]%elem_of_cons Hja; [contradiction|].
      destruct (decide (j = i)) as [->|Hji]; [exact Dai|].
      apply (below_trans a i j); auto. apply Hc. right. exact Hj.
    - exists i. split; [right; exact Hi|]. intros j [->|Hj]%elem_of_cons Hji; [|auto].
      exists oi, oa. auto.
  Qed.

  Lemma chain_links l z j : chain w m l -> last l = Some z -> j ∈ l -> j = z \/ exists k, next_is w m j k.
  Proof.
    intros H. induction H as [i _|i k l Hn _ IH]; intros Hz Hj.
    - apply elem_of_list_singleton in Hj as ->. simpl in Hz. left. congruence.
    - apply elem_of_cons in Hj as [->|Hj]; [eauto|]. apply IH; [exact Hz|exact Hj].
  Qed.

  Context (HB : bases_first ti R) (mid : N) (all : list arg).

  Theorem chain_all :
    call_ok cf ti R w m all args -> functions_ok m -> (length (mr_vp m) = 1 \/ together all) ->
    (exists i, candidate ti R ovs args i) ->
    exists i oi l z oz, ovs !! i = Some oi /\ call cf w mid m all = Ok (Calls (or_pf oi)) /\
      chain w m (i :: l) /\ StronglySorted below (i :: l) /\
      (forall j, j ∈ i :: l <-> candidate ti R ovs args j) /\
      last (i :: l) = Some z /\ ovs !! z = Some oz /\ w_next w (or_next oz) = Some (mr_not_implemented m) /\
      forall j oj, j ∈ i :: l -> ovs !! j = Some oj -> has_next w m (or_next oj) = true <-> j <> z.
  Proof.
    intros Hcall Hf Htog (i0 & Hi0).
    destruct (candidates_listed ti R ovs args) as (c & Hc).
    destruct (candidates_top (length c) c) as (i & Hi & Htop); [intros j; apply Hc|lia| |].
    { intros ->. apply Hc in Hi0. inversion Hi0. }
    apply Hc in Hi. pose proof Hi as (oi & Hoi & Ai).
    assert (Htop' : forall j, candidate ti R ovs args j -> j <> i -> below i j).
    { intros j Hj. apply Htop. apply Hc. exact Hj. }
    destruct (chain_from (S (length (filter (fun j => j <> i) c))) i oi Hi Hoi) as (l & z & oz & L1 & L2 & L3 & L4 & L5 & L6).
    { exists (filter (fun j => j <> i) c). split; [|lia]. intros j.
      rewrite elem_of_list_filter, Hc, next_candidate_iff by exact Hi. split.
      - intros [Hne Hj]. auto.
      - intros [Hj Hb]. split; [|exact Hj]. intros ->. destruct Hb as (a & b & Ha & Hb & D).
        replace b with a in * by congruence. revert D. apply same_signature. reflexivity. }
    exists i, oi, l, z, oz. split; [exact Hoi|]. split.
    { apply (call_best cf X R w HP HB mid m all args i oi); auto.
      intros j o' Ho' Hne Ha'. destruct (Htop' j) as (a & b & H1 & H2 & D); [exists o'; auto|exact Hne|].
      replace a with oi in * by congruence. replace b with o' in * by congruence. exact D. }
    split; [exact L1|]. split; [exact L2|]. split.
    { intros j. rewrite elem_of_cons, L3. split.
      - intros [->|[Hj _]]; assumption.
      - intros Hj. destruct (decide (j = i)) as [|Hne]; auto. }
    split; [exact L4|]. split; [exact L5|]. split; [exact L6|].
    intros j oj Hj Hoj. unfold has_next. split.
    - intros Ht ->. replace oj with oz in * by congruence. rewrite L6 in Ht.
      rewrite andb_true_iff, !negb_true_iff, !bool_decide_eq_false in Ht. destruct Ht as [H1 H2]. congruence.
    - intros Hne. destruct (chain_links _ _ _ L1 L4 Hj) as [|(k & oj' & ok & H1 & H2 & Hn)]; [contradiction|].
      replace oj' with oj in * by congruence. rewrite Hn.
      destruct Hf as [_ Hf2]. destruct (Hf2 ok (elem_of_list_lookup_2 _ _ _ H2)).
      rewrite andb_true_iff, !negb_true_iff, !bool_decide_eq_false. split; congruence.
  Qed.
End All.

Theorem chain_all_uni cf X R w :
  program_ok cf (r_env X) R -> initialized_by cf X false R w ->
  forall m args, bases_first (e_ti (r_env X)) R -> forall mid all,
  call_ok cf (e_ti (r_env X)) R w m all args -> functions_ok m -> length (mr_vp m) = 1 ->
  comparable (e_ti (r_env X)) R (mr_overriders m) (candidate (e_ti (r_env X)) R (mr_overriders m) args) ->
  (forall i, unique_signature (e_ti (r_env X)) (mr_overriders m) i) ->
  (exists i, candidate (e_ti (r_env X)) R (mr_overriders m) args i) ->
  exists i oi l z oz, mr_overriders m !! i = Some oi /\ call cf w mid m all = Ok (Calls (or_pf oi)) /\
    chain w m (i :: l) /\ StronglySorted (outranks (e_ti (r_env X)) R m) (i :: l) /\
    (forall j, j ∈ i :: l <-> candidate (e_ti (r_env X)) R (mr_overriders m) args j) /\
    last (i :: l) = Some z /\ mr_overriders m !! z = Some oz /\
    w_next w (or_next oz) = Some (mr_not_implemented m) /\
    forall j oj, j ∈ i :: l -> mr_overriders m !! j = Some oj ->
      has_next w m (or_next oj) = true <-> j <> z.
Proof.
  intros HP HW m args HB mid all Hcall Hf H1 Hcmp Hu Hex. pose proof (ca_method _ _ _ _ _ _ _ Hcall) as Hm.
  apply (chain_all cf X R w HP HW m Hm) with (args := args); auto.
  - intros as' _. apply uni_pointwise; [apply HP|exact Hm|exact H1].
  - apply Hcall.
  - intros i j a b Ha Hb Aa Ab Hne. destruct (po_arity _ _ _ HP m Hm) as [_ Hlen].
    pose proof (Hlen a (elem_of_list_lookup_2 _ _ _ Ha)) as La.
    pose proof (Hlen b (elem_of_list_lookup_2 _ _ _ Hb)) as Lb.
    assert (Hx : exists x, or_vp a = [x]) by (destruct (or_vp a) as [|x [|? ?]]; simpl in La; try lia; eauto).
    assert (Hy : exists y, or_vp b = [y]) by (destruct (or_vp b) as [|y [|? ?]]; simpl in Lb; try lia; eauto).
    destruct Hx as [x Hx], Hy as [y Hy].
    assert (Hxy : e_ti (r_env X) x <> e_ti (r_env X) y).
    { intros He. apply Hne. symmetry. apply (Hu i j a b Ha Hb). rewrite Hx, Hy. simpl. congruence. }
    assert (Hone : forall a b x y, or_vp a = [x] -> or_vp b = [y] -> e_ti (r_env X) x <> e_ti (r_env X) y ->
      derives (e_ti (r_env X)) R (e_ti (r_env X) x) (e_ti (r_env X) y) -> dominates (e_ti (r_env X)) R a b).
    { clear -HP. intros a b x y Hx Hy N D. split.
      - exists 0, x, y. rewrite Hx, Hy. split; [reflexivity|]. split; [reflexivity|]. split; assumption.
      - intros (p & u & v & Hu & Hv & D' & _). rewrite Hx in Hv. rewrite Hy in Hu.
        destruct p; simpl in Hu, Hv; [|discriminate]. injection Hu as ->. injection Hv as ->.
        apply N. apply (derives_antisym _ R _ _ (po_acyclic _ _ _ HP) D D'). }
    destruct (Hcmp i j a b Ha Hb (ex_intro _ a (conj Ha Aa)) (ex_intro _ b (conj Hb Ab)) 0 x y) as [D|D].
    + rewrite Hx. reflexivity.
    + rewrite Hy. reflexivity.
    + left. eapply Hone; eauto.
    + right. eapply Hone; eauto.
Qed.
