(* The n2216 option: proofs. *)
From stdpp Require Import base list numbers list_numbers relations sorting.
From Verif Require Import Base Registry Spec ModelClasses ModelMethods ModelSlots ModelTables
  ModelHash ModelWorld ModelCall SpecCall SpecN2216
  ProofBase ProofClasses ProofGraph ProofMethods ProofBits ProofSlots ProofSelect ProofTables
  ProofCompile ProofErrors ProofEntries ProofWrite ProofHash ProofWorld ProofCall ProofDispatch
  ProofInvariance ProofBehaviour ProofReinit.

Lemma alive_cons_none cs : alive (None :: cs) = alive cs.
Proof. reflexivity. Qed.
Lemma alive_cons_some a cs : alive (Some a :: cs) = a :: alive cs.
Proof. reflexivity. Qed.

(* ---- the second elimination, for an arbitrary comparison ---- *)
Section Covariant.
  (* [r a b]: the return type of [a] is a base of that of [b]. *)
  Context (rb : nat -> nat -> outcome bool) (r : nat -> nat -> bool) (P : nat -> Prop).
  Context (Hrb : forall a b, P a -> P b -> rb a b = Ok (r a b)).

  Definition tame (l : list nat) : Prop :=
    forall a b c, sublist [a; b; c] l -> r a b = false.

  Lemma tame_sublist l l' : sublist l' l -> tame l -> tame l'.
  Proof. intros Hs H a b c Hl. apply (H a b c). etransitivity; eauto. Qed.

  Lemma inner_null js ci js' :
    covariant_inner rb None js = Ok (ci, js') -> alive js = [] /\ ci = None /\ js' = js.
  Proof.
    revert js'. induction js as [|[b|] js IH]; intros js' H; simpl in H.
    - injection H as <- <-. auto.
    - discriminate.
    - apply obind_ok in H as ([c' j'] & H & [= <- <-]).
      destruct (IH _ H) as (H1 & -> & ->). auto.
  Qed.

  Lemma inner_null_total js : alive js = [] -> covariant_inner rb None js = Ok (None, js).
  Proof.
    induction js as [|[b|] js IH]; intros H; [reflexivity|discriminate|].
    simpl. rewrite IH by exact H. reflexivity.
  Qed.

  Lemma inner_ok a js ci js' :
    P a -> Forall P (alive js) -> covariant_inner rb (Some a) js = Ok (ci, js') ->
    sub js' js /\ (ci = Some a \/ (ci = None /\ exists b, b ∈ alive js')) /\
    (forall b, b ∈ alive js -> r a b = true -> ci = None) /\
    (forall b, b ∈ alive js -> r b a = false -> b ∈ alive js') /\
    (forall b, b ∈ alive js' -> r a b = false -> r b a = false).
  Proof.
    intros Pa. revert ci js'. induction js as [|[b|] js IH]; intros ci js' Pl H; simpl in H.
    - injection H as <- <-. split; [constructor|]. split; [auto|].
      split; [|split]; intros b Hb; inversion Hb.
    - rewrite alive_cons_some in Pl. apply Forall_cons in Pl as [Pb Pl].
      rewrite (Hrb a b Pa Pb) in H. cbn [obind] in H. destruct (r a b) eqn:Hab.
      + apply obind_ok in H as ([c' j'] & H & [= <- <-]).
        apply inner_null in H as (H1 & -> & ->). split; [apply sub_refl|].
        split; [right; split; [reflexivity|]; exists b; left|].
        split; [auto|]. split; [auto|]. rewrite alive_cons_some, H1.
        intros c Hc Hac. apply elem_of_list_singleton in Hc as ->. congruence.
      + rewrite (Hrb b a Pb Pa) in H. cbn [obind] in H. destruct (r b a) eqn:Hba.
        * apply obind_ok in H as ([c' j'] & H & [= <- <-]).
          destruct (IH _ _ Pl H) as (I1 & I2 & I3 & I4 & I5).
          rewrite alive_cons_none, alive_cons_some.
          split; [constructor; auto|]. split; [exact I2|]. split; [|split; [|exact I5]].
          -- intros c [->|Hc]%elem_of_cons; [congruence|eauto].
          -- intros c [->|Hc]%elem_of_cons; [congruence|eauto].
        * apply obind_ok in H as ([c' j'] & H & [= <- <-]).
          destruct (IH _ _ Pl H) as (I1 & I2 & I3 & I4 & I5). rewrite !alive_cons_some.
          split; [constructor; auto|]. split.
          { destruct I2 as [?|(? & x & Hx)]; [auto|]. right. split; [assumption|].
            exists x. right. exact Hx. }
          split; [|split].
          -- intros c [->|Hc]%elem_of_cons; [congruence|eauto].
          -- intros c [->|Hc]%elem_of_cons; [left|]. right. eauto.
          -- intros c [->|Hc]%elem_of_cons; [auto|eauto].
    - apply obind_ok in H as ([c' j'] & H & [= <- <-]).
      rewrite alive_cons_none in *. destruct (IH _ _ Pl H) as (I1 & I2 & I3 & I4 & I5).
      rewrite alive_cons_none. split; [constructor; auto|]. auto.
  Qed.

  Lemma inner_total a js :
    P a -> Forall P (alive js) -> tame (a :: alive js) ->
    exists ci js', covariant_inner rb (Some a) js = Ok (ci, js').
  Proof.
    intros Pa. induction js as [|[b|] js IH]; intros Pl HT; simpl.
    - eauto.
    - rewrite alive_cons_some in *. apply Forall_cons in Pl as [Pb Pl].
      assert (HT' : tame (a :: alive js)).
      { eapply tame_sublist; [|exact HT]. apply sublist_skip, sublist_cons. reflexivity. }
      rewrite (Hrb a b Pa Pb). cbn [obind]. destruct (r a b) eqn:Hab.
      + assert (Hn : alive js = []).
        { destruct (alive js) as [|c l]; [reflexivity|]. rewrite (HT a b c) in Hab; [discriminate|].
          apply sublist_skip, sublist_skip, sublist_skip, sublist_nil_l. }
        rewrite inner_null_total by exact Hn. cbn. eauto.
      + rewrite (Hrb b a Pb Pa). cbn [obind].
        destruct (IH Pl HT') as (ci & js' & ->). destruct (r b a); cbn; eauto.
    - rewrite alive_cons_none in *. destruct (IH Pl HT) as (ci & js' & ->). cbn. eauto.
  Qed.

  Lemma sub_forall cs' cs : sub cs' cs -> Forall P (alive cs) -> Forall P (alive cs').
  Proof.
    intros Hs. rewrite !list.Forall_forall. intros H x Hx. apply H.
    apply alive_elem. apply alive_elem in Hx. eapply sub_elem; eauto.
  Qed.

  Lemma sub_nil cs' cs : sub cs' cs -> alive cs = [] -> alive cs' = [].
  Proof.
    intros Hs Hn. destruct (alive cs') as [|a l] eqn:Ha; [reflexivity|].
    assert (Hin : a ∈ alive cs).
    { apply alive_elem. eapply sub_elem; [exact Hs|]. apply alive_elem. rewrite Ha. left. }
    rewrite Hn in Hin. inversion Hin.
  Qed.

  Lemma cov_outer_ok k cs cs' :
    length cs <= k -> Forall P (alive cs) -> covariant_outer rb k cs = Ok cs' ->
    sub cs' cs /\ (alive cs <> [] -> alive cs' <> []) /\
    (forall i, i ∈ alive cs ->
       (forall j, j ∈ alive cs -> j <> i -> r j i = true /\ r i j = false) ->
       NoDup (alive cs) -> alive cs' = [i]).
  Proof.
    revert cs cs'. induction k as [|k IH]; intros cs cs' Hlen Pl H.
    - destruct cs; [|simpl in Hlen; lia]. injection H as <-. split; [constructor|].
      split; [auto|]. intros i Hi. inversion Hi.
    - destruct cs as [|[a|] js]; simpl in Hlen, H.
      + injection H as <-. split; [constructor|]. split; [auto|]. intros i Hi. inversion Hi.
      + rewrite alive_cons_some in *. apply Forall_cons in Pl as [Pa Pl].
        apply obind_ok in H as ([ci js'] & Hi & H). apply obind_ok in H as (rest & Ho & [= <-]).
        destruct (inner_ok _ _ _ _ Pa Pl Hi) as (I1 & I2 & I3 & I4 & I5).
        destruct (IH js' rest) as (O1 & O2 & O3); [|eapply sub_forall; eauto|exact Ho|].
        { rewrite (Forall2_length _ _ _ I1). lia. }
        split; [constructor; [destruct I2 as [->|[-> _]]; auto|eapply sub_trans; eauto]|].
        split.
        { intros _. destruct I2 as [->|(-> & b & Hb)]; [discriminate|]. rewrite alive_cons_none.
          apply O2. intros Hn. rewrite Hn in Hb. inversion Hb. }
        intros i Hii Hbest Hnd. apply NoDup_cons in Hnd as [Hna Hnd].
        assert (Hsub : forall b, b ∈ alive js' -> b ∈ alive js).
        { intros b. rewrite !alive_elem. apply sub_elem. exact I1. }
        apply elem_of_cons in Hii as [->|Hii].
        * assert (Hn : alive js' = []).
          { destruct (alive js') as [|b l] eqn:Hb; [reflexivity|]. exfalso.
            assert (Hbj : b ∈ alive js) by (apply Hsub; left).
            destruct (Hbest b) as [B1 B2]; [right; exact Hbj|congruence|].
            rewrite (I5 b ltac:(left) B2) in B1. discriminate. }
          assert (Hr : alive rest = []) by (eapply sub_nil; eauto).
          destruct I2 as [->|(-> & b & Hb)].
          -- rewrite alive_cons_some, Hr. reflexivity.
          -- rewrite Hn in Hb. inversion Hb.
        * assert (Hne : a <> i) by congruence.
          destruct (Hbest a) as [B1 B2]; [left|exact Hne|].
          rewrite (I3 i Hii B1), alive_cons_none.
          apply O3.
          -- apply I4; assumption.
          -- intros j Hj Hji. apply Hbest; [right; auto|exact Hji].
          -- eapply sublist_NoDup; [apply alive_sub; exact I1|exact Hnd].
      + rewrite alive_cons_none in *. apply obind_ok in H as (rest & Ho & [= <-]).
        destruct (IH js rest) as (O1 & O2 & O3); [lia|assumption|exact Ho|].
        split; [constructor; auto|]. rewrite alive_cons_none. auto.
  Qed.

  Lemma cov_outer_total k cs :
    length cs <= k -> Forall P (alive cs) -> tame (alive cs) ->
    exists cs', covariant_outer rb k cs = Ok cs'.
  Proof.
    revert cs. induction k as [|k IH]; intros cs Hlen Pl HT.
    - simpl. eauto.
    - destruct cs as [|[a|] js]; simpl in Hlen; simpl; [eauto| |].
      + rewrite alive_cons_some in *. apply Forall_cons in Pl as [Pa Pl].
        destruct (inner_total _ _ Pa Pl HT) as (ci & js' & Hi). rewrite Hi. cbn [obind].
        destruct (inner_ok _ _ _ _ Pa Pl Hi) as (I1 & _).
        destruct (IH js') as (cs' & ->).
        * rewrite (Forall2_length _ _ _ I1). lia.
        * eapply sub_forall; eauto.
        * eapply tame_sublist; [|exact HT]. apply sublist_cons, alive_sub. exact I1.
        * cbn. eauto.
      + rewrite alive_cons_none in *. destruct (IH js) as (cs' & ->); [lia|assumption..|].
        cbn. eauto.
  Qed.
End Covariant.

(* ---- select_dominant_overriders and one cell, with n2216 ---- *)
Section Select.
  Context (g : graph) (m : cmethod).
  Context (Hanti : forall a b, is_base_of g a b = true -> is_base_of g b a = true -> a = b).

  (* All the overriders have a covariant return type, or none of them. *)
  Definition uniform (cov : bool) : Prop :=
    forall o, o ∈ m_ovs m -> if cov then is_Some (ov_cov o) else ov_cov o = None.
  Context (cov : bool) (Huni : uniform cov).

  Definition ret_base (a b : nat) : bool :=
    match covariant_base g m a b with Ok r => r | _ => false end.

  Definition in_range (i : nat) : Prop := i < length (m_ovs m).

  Lemma range_cov i : cov = true -> in_range i ->
    exists o c, m_ovs m !! i = Some o /\ ov_cov o = Some c.
  Proof.
    intros Hc Hi. apply lookup_lt_is_Some in Hi as [o Ho].
    pose proof (Huni o (elem_of_list_lookup_2 _ _ _ Ho)) as H. rewrite Hc in H.
    destruct H as [c H]. eauto.
  Qed.

  Lemma covariant_base_ok a b : cov = true -> in_range a -> in_range b ->
    covariant_base g m a b = Ok (ret_base a b).
  Proof.
    intros Hc Ha Hb. unfold ret_base.
    destruct (range_cov a Hc Ha) as (oa & ca & Hoa & Hca).
    destruct (range_cov b Hc Hb) as (ob & cb & Hob & Hcb).
    unfold covariant_base. rewrite (proj2 (at_ok _ _ _) Hoa), (proj2 (at_ok _ _ _) Hob).
    cbn [obind]. rewrite Hca, Hcb. reflexivity.
  Qed.

  Lemma select_n2216 cs cs' p r :
    Forall in_range (alive cs) -> NoDup (alive cs) ->
    select_dominant_overriders g true m cs = Ok (cs', p, r) ->
    exists surv, survivors (ms_at g m) (alive cs) surv /\ NoDup surv /\
      surv = alive (dominate_outer (ms_at g m) (length cs) cs) /\
      sub cs' cs /\ (forall x, x ∈ alive cs' -> x ∈ surv) /\ r = length (alive cs') /\
      (alive cs <> [] -> exists a, a ∈ alive cs' /\ cs' !! p = Some (Some a)) /\
      (length surv <= 1 -> alive cs' = surv) /\
      (cov = true -> forall i, i ∈ surv ->
         (forall j, j ∈ surv -> j <> i -> ret_base j i = true /\ ret_base i j = false) ->
         alive cs' = [i]).
  Proof.
    intros Hrange Hnd. unfold select_dominant_overriders.
    set (ds := dominate_outer (ms_at g m) (length cs) cs).
    pose proof (outer_survivors (ms_at g m) (ms_at_asym g Hanti m) cs) as Hsurv. fold ds in Hsurv.
    assert (Hsub : sub ds cs) by (apply outer_spec; [apply ms_at_asym; exact Hanti|lia]).
    assert (Hnds : NoDup (alive ds)).
    { eapply sublist_NoDup; [apply alive_sub; exact Hsub|exact Hnd]. }
    pose proof (survey_spec 0 ds 0 0) as (S1 & _ & S3).
    destruct (survey 0 ds 0 0) as [p1 r1]. simpl in S1, S3.
    assert (Hp1 : alive cs <> [] -> exists a, a ∈ alive ds /\ ds !! p1 = Some (Some a)).
    { intros Hne. destruct S3 as (a & _ & Ha); [apply (sv_some _ _ _ Hsurv); exact Hne|].
      rewrite Nat.sub_0_r in Ha. exists a. split; [|exact Ha].
      apply alive_elem. eapply elem_of_list_lookup_2; eauto. }
    assert (Hdone : Ok (ds, p1, r1) = Ok (cs', p, r) ->
      (length (alive ds) <= 1 \/ cov = false) ->
      sub cs' cs /\ (forall x, x ∈ alive cs' -> x ∈ alive ds) /\ r = length (alive cs') /\
      (alive cs <> [] -> exists a, a ∈ alive cs' /\ cs' !! p = Some (Some a)) /\
      (length (alive ds) <= 1 -> alive cs' = alive ds) /\
      (cov = true -> forall i, i ∈ alive ds ->
         (forall j, j ∈ alive ds -> j <> i -> ret_base j i = true /\ ret_base i j = false) ->
         alive cs' = [i])).
    { intros [= <- <- <-] Hor. split; [exact Hsub|]. split; [auto|]. split; [exact S1|].
      split; [exact Hp1|]. split; [auto|]. intros Hc i Hi _.
      destruct Hor as [Hle|]; [|congruence].
      destruct (alive ds) as [|a [|b l]]; simpl in Hle; [inversion Hi| |lia].
      apply elem_of_list_singleton in Hi as ->. reflexivity. }
    intros H. exists (alive ds). split; [exact Hsurv|]. split; [exact Hnds|]. split; [reflexivity|].
    destruct (decide (r1 <= 1)) as [Hle|Hgt].
    { apply (Hdone H). left. lia. }
    apply obind_ok in H as (q & Hq & H). apply obind_ok in H as (q' & Hq' & H).
    apply obind_ok in H as (o & Ho & H). apply at_ok in Ho.
    pose proof (Huni o (elem_of_list_lookup_2 _ _ _ Ho)) as Hc.
    assert (Hcov : cov = true \/ cov = false) by (destruct cov; auto).
    destruct Hcov as [Hcov|Hcov]; rewrite Hcov in Hc.
    2:{ rewrite Hc in H. apply (Hdone H). auto. }
    destruct Hc as [c Hc]. rewrite Hc in H.
    assert (Hr : Forall in_range (alive ds)) by (eapply sub_forall; eauto).
    apply obind_ok in H as (es & Hes & H).
    destruct (cov_outer_ok (covariant_base g m) ret_base in_range) with (k := length ds) (cs := ds) (cs' := es)
      as (C1 & C2 & C3); [intros; apply covariant_base_ok; auto|lia|exact Hr|exact Hes|].
    pose proof (survey_spec 0 es p1 0) as (T1 & _ & T3).
    destruct (survey 0 es p1 0) as [p2 r2]. injection H as <- <- <-. simpl in T1, T3.
    split; [eapply sub_trans; eauto|].
    split; [intros x; rewrite !alive_elem; apply sub_elem; exact C1|].
    split; [exact T1|]. split.
    { intros Hne. destruct T3 as (a & _ & Ha).
      - apply C2. apply (sv_some _ _ _ Hsurv). exact Hne.
      - rewrite Nat.sub_0_r in Ha. exists a. split; [|exact Ha].
        apply alive_elem. eapply elem_of_list_lookup_2; eauto. }
    split; [lia|]. intros _ i Hi Hbest. apply C3; assumption.
  Qed.

  (* Sets of candidates for which the second elimination is harmless. *)
  Definition tame_set (l : list nat) : Prop :=
    cov = true -> forall a b c, sublist [a; b; c] l ->
      (forall x y, x ∈ [a; b; c] -> y ∈ [a; b; c] -> ms_at g m x y = false) -> ret_base a b = false.

  Lemma tame_set_sublist l l' : sublist l' l -> tame_set l -> tame_set l'.
  Proof. intros Hs H Hc a b c Hl. apply (H Hc a b c). etransitivity; eauto. Qed.

  Lemma select_n2216_total cs :
    Forall in_range (alive cs) -> tame_set (alive cs) ->
    exists cs' p r, select_dominant_overriders g true m cs = Ok (cs', p, r).
  Proof.
    intros Hrange HT. unfold select_dominant_overriders.
    set (ds := dominate_outer (ms_at g m) (length cs) cs).
    pose proof (outer_survivors (ms_at g m) (ms_at_asym g Hanti m) cs) as Hsurv. fold ds in Hsurv.
    assert (Hsub : sub ds cs) by (apply outer_spec; [apply ms_at_asym; exact Hanti|lia]).
    pose proof (survey_spec 0 ds 0 0) as (S1 & _ & S3).
    destruct (survey 0 ds 0 0) as [p1 r1]. simpl in S1, S3.
    destruct (decide (r1 <= 1)) as [Hle|Hgt]; [eauto|].
    destruct S3 as (a & _ & Ha).
    { intros Hn. rewrite Hn in S1. simpl in S1. lia. }
    rewrite Nat.sub_0_r in Ha. rewrite (proj2 (at_ok _ _ _) Ha). cbn [obind deref].
    assert (Hr : Forall in_range (alive ds)) by (eapply sub_forall; eauto).
    assert (Har : in_range a).
    { rewrite list.Forall_forall in Hr. apply Hr, alive_elem. eapply elem_of_list_lookup_2; eauto. }
    pose proof Har as Har'. apply lookup_lt_is_Some in Har' as [o Ho].
    rewrite (proj2 (at_ok _ _ _) Ho). cbn [obind].
    destruct (ov_cov o) as [c|] eqn:Hc; [|eauto].
    assert (Hcov : cov = true).
    { pose proof (Huni o (elem_of_list_lookup_2 _ _ _ Ho)) as H. destruct cov; [reflexivity|congruence]. }
    destruct (cov_outer_total (covariant_base g m) ret_base in_range) with (k := length ds) (cs := ds)
      as (es & Hes); [intros; apply covariant_base_ok; auto|lia|exact Hr| |].
    { intros x y z Hs. apply (HT Hcov x y z).
      - etransitivity; [exact Hs|apply alive_sub; exact Hsub].
      - assert (Hin : forall u, u ∈ [x; y; z] -> u ∈ alive ds).
        { intros u Hu. eapply elem_of_submseteq; [exact Hu|]. apply sublist_submseteq. exact Hs. }
        intros u v Hu Hv. apply (sv_free _ _ _ Hsurv); auto. }
    rewrite Hes. cbn [obind]. destruct (survey 0 es p1 0). eauto.
  Qed.

  (* What a cell contains, given the applicable overriders. *)
  Lemma build_cell_n2216 mask c :
    build_cell g true m mask = Ok c ->
    let l := mask_set m mask in
    exists surv, survivors (ms_at g m) l surv /\ NoDup surv /\
      surv = alive (dominate_outer (ms_at g m) (length l) (map Some l)) /\
      match cl_target c with
      | TNotImplemented => l = []
      | TAmbiguous => False
      | TOverrider i => i ∈ surv /\
          (cov = true -> forall b, b ∈ surv ->
            (forall j, j ∈ surv -> j <> b -> ret_base j b = true /\ ret_base b j = false) -> i = b)
      end.
  Proof.
    intros H l. unfold build_cell in H. fold (mask_set m mask) in H. fold l in H.
    assert (Hl : NoDup l) by apply mask_set_nodup.
    assert (Hr : Forall in_range (alive (map Some l))).
    { rewrite alive_map_some. apply list.Forall_forall. intros x Hx.
      unfold l, mask_set in Hx. apply elem_of_list_filter in Hx as [_ Hx].
      apply elem_of_seq in Hx. unfold in_range. lia. }
    apply obind_ok in H as ([[ds p] r] & Hsel & H).
    destruct (select_n2216 _ _ _ _ Hr ltac:(rewrite alive_map_some; exact Hl) Hsel)
      as (surv & Hs & Hnd & Heq & Hsub & Hin & Hlen & Hp & Hone & Hbest).
    rewrite alive_map_some in *. rewrite map_length in Heq. exists surv.
    split; [exact Hs|]. split; [exact Hnd|]. split; [exact Heq|].
    destruct (decide (r = 0)) as [Hr0|Hr0].
    { injection H as <-. simpl. destruct l as [|x l']; [reflexivity|]. exfalso.
      destruct Hp as (a & Ha & _); [discriminate|]. destruct (alive ds); [inversion Ha|simpl in Hlen; lia]. }
    rewrite decide_False in H by (intros [? _]; discriminate).
    assert (Hne : l <> []).
    { intros Hn. destruct (alive ds) as [|x s] eqn:Hd; [simpl in Hlen; lia|].
      pose proof (sv_sub _ _ _ Hs x (Hin x ltac:(left))) as Hx. rewrite Hn in Hx. inversion Hx. }
    destruct (Hp Hne) as (a & Ha & Hpa).
    rewrite (proj2 (at_ok _ _ _) Hpa) in H. cbn [obind deref] in H.
    assert (Hgoal : a ∈ surv /\
          (cov = true -> forall b, b ∈ surv ->
            (forall j, j ∈ surv -> j <> b -> ret_base j b = true /\ ret_base b j = false) -> a = b)).
    { split; [auto|]. intros Hc b Hb Hbb. rewrite (Hbest Hc b Hb Hbb) in Ha.
      apply elem_of_list_singleton in Ha. exact Ha. }
    destruct (remove_dominants (map Some l) ds) as [ovs rem].
    destruct (decide (rem = 0)); [injection H as <-; exact Hgoal|].
    apply obind_ok in H as ([[ns p2] r2] & _ & H).
    rewrite decide_False in H by (intros [? _]; discriminate).
    apply obind_ok in H as (x & _ & H). apply obind_ok in H as (y & _ & H).
    injection H as <-. exact Hgoal.
  Qed.

  Lemma build_cell_n2216_total mask :
    tame_set (mask_set m mask) -> exists c, build_cell g true m mask = Ok c.
  Proof.
    intros HT. unfold build_cell. fold (mask_set m mask). set (l := mask_set m mask) in *.
    assert (Hl : NoDup l) by apply mask_set_nodup.
    assert (Hr : Forall in_range (alive (map Some l))).
    { rewrite alive_map_some. apply list.Forall_forall. intros x Hx.
      unfold l, mask_set in Hx. apply elem_of_list_filter in Hx as [_ Hx].
      apply elem_of_seq in Hx. unfold in_range. lia. }
    destruct (select_n2216_total (map Some l)) as (ds & p & r & Hsel);
      [exact Hr|rewrite alive_map_some; exact HT|].
    rewrite Hsel. cbn [obind].
    destruct (select_n2216 _ _ _ _ Hr ltac:(rewrite alive_map_some; exact Hl) Hsel)
      as (surv & Hs & Hnd & Heq & Hsub & Hin & Hlen & Hp & Hone & Hbest).
    rewrite alive_map_some in *.
    destruct (decide (r = 0)) as [Hr0|Hr0]; [eauto|].
    rewrite decide_False by (intros [? _]; discriminate).
    assert (Hne : l <> []).
    { intros Hn. destruct (alive ds) as [|x s] eqn:Hd; [simpl in Hlen; lia|].
      pose proof (sv_sub _ _ _ Hs x (Hin x ltac:(left))) as Hx. rewrite Hn in Hx. inversion Hx. }
    destruct (Hp Hne) as (a & Ha & Hpa).
    rewrite (proj2 (at_ok _ _ _) Hpa). cbn [obind deref].
    pose proof (remove_dominants_spec l ds Hsub) as Hrem.
    destruct (remove_dominants (map Some l) ds) as [ovs rem].
    destruct Hrem as (Hrem & Hsl & _).
    destruct (decide (rem = 0)) as [Hz|Hz]; [eauto|].
    assert (Hr2 : Forall in_range (alive ovs)).
    { rewrite list.Forall_forall in Hr |- *. intros x Hx. apply Hr.
      eapply elem_of_submseteq; [exact Hx|]. apply sublist_submseteq. exact Hsl. }
    destruct (select_n2216_total ovs Hr2) as (ns & p2 & r2 & Hsel2).
    { eapply tame_set_sublist; [exact Hsl|exact HT]. }
    rewrite Hsel2. cbn [obind]. rewrite decide_False by (intros [? _]; discriminate).
    destruct (select_n2216 _ _ _ _ Hr2 ltac:(eapply sublist_NoDup; eauto) Hsel2)
      as (surv2 & _ & _ & _ & _ & _ & _ & Hp2 & _).
    destruct Hp2 as (b & _ & Hb).
    { intros Hn. rewrite Hn in Hrem. simpl in Hrem. lia. }
    rewrite (proj2 (at_ok _ _ _) Hb). cbn. eauto.
  Qed.
End Select.

(* ---- in terms of the registrations ---- *)
Section Program.
  Context (E : env) (R : registrations) (HE : env_ok E) (Hac : acyclic (e_ti E) R).
  Notation ti := (e_ti E).

  (* The covariant return types. *)
  Record cov_ok (g : graph) (mr : method_record) (m : cmethod) (cov : bool) : Prop := {
    cv_uniform : uniform m cov;
    cv_iff : cov = true <-> covariant ti (e_void E) R mr;
    cv_class : cov = true -> forall i o o', mr_overriders mr !! i = Some o -> m_ovs m !! i = Some o' ->
      ov_cov o' = g_map g (ti (or_return o))
  }.

  Lemma augment_cov g mr m :
    graph_ok E R g -> augment_method E (g_map g) mr = Ok m -> exists cov, cov_ok g mr m cov.
  Proof.
    intros HG H. unfold augment_method in H. fold (cov_of E g mr) in H.
    apply obind_ok in H as (vp & _ & H). apply obind_ok in H as (ovs & Hovs & [= <-]).
    apply mapM_ok in Hovs. exists (bool_decide (is_Some (cov_of E g mr))). split; simpl.
    - intros o' Ho'. simpl in Ho'. apply elem_of_list_lookup in Ho' as [i Hi].
      destruct (Forall2_lookup_r _ _ _ _ _ Hovs Hi) as (o & _ & Ho).
      unfold augment_overrider in Ho. apply obind_ok in Ho as (ovp & _ & Ho).
      apply obind_ok in Ho as (oc & Hoc & [= <-]). simpl.
      destruct (cov_of E g mr) as [c|]; simpl.
      + apply obind_ok in Hoc as (x & _ & [= <-]). eauto.
      + injection Hoc as <-. reflexivity.
    - rewrite bool_decide_eq_true. apply (cov_covariant E R g HG).
    - intros Hcov i o o' Ho Ho'. apply bool_decide_eq_true in Hcov as [c Hc].
      pose proof (Forall2_lookup_lr _ _ _ _ _ _ Hovs Ho Ho') as H.
      unfold augment_overrider in H. apply obind_ok in H as (ovp & _ & H).
      apply obind_ok in H as (oc & Hoc & [= <-]). simpl. rewrite Hc in Hoc.
      apply obind_ok in Hoc as (x & Hx & [= <-]). apply find_class_ok in Hx. congruence.
  Qed.

  Lemma augment_methods_cov g ms u mi mr m :
    graph_ok E R g -> augment_methods E g (reg_methods R) = Ok (ms, u) ->
    reg_methods R !! mi = Some mr -> ms !! mi = Some m -> exists cov, cov_ok g mr m cov.
  Proof.
    intros HG H Hmr Hm. unfold augment_methods in H. apply obind_ok in H as (cms & Hcms & H).
    apply obind_ok in H as (u' & _ & [= <- <-]). apply mapM_ok in Hcms.
    apply augment_cov; [exact HG|]. eapply (Forall2_lookup_lr _ _ _ _ _ _ Hcms); eauto.
  Qed.

  Lemma compile_cov n2216 cp mi mr m :
    compile E n2216 R = Ok cp -> reg_methods R !! mi = Some mr -> cp_methods cp !! mi = Some m ->
    exists cov, cov_ok (cp_graph cp) mr m cov.
  Proof.
    intros H Hmr Hm. pose proof (co_graph _ _ _ _ (compile_inv E R HE Hac n2216 cp H)) as HG.
    unfold compile in H. apply obind_ok in H as (g & Hg & H).
    apply obind_ok in H as ([ms u] & Hms & H). apply obind_ok in H as (s & Hs & H).
    apply obind_ok in H as (t & Ht & [= <-]). simpl in *. eapply augment_methods_cov; eauto.
  Qed.

  Lemma ret_base_iff g mr m cov i j oi oj :
    graph_ok E R g -> method_ok E g mr m -> cov_ok g mr m cov -> cov = true ->
    mr_overriders mr !! i = Some oi -> mr_overriders mr !! j = Some oj ->
    ret_base g m i j = true <-> return_derives ti R oj oi.
  Proof.
    intros HG HM HC Hcov Hi Hj.
    destruct (Forall2_lookup_l _ _ _ _ _ (mo_ovs _ _ _ _ HM) Hi) as (oi' & Hi' & _).
    destruct (Forall2_lookup_l _ _ _ _ _ (mo_ovs _ _ _ _ HM) Hj) as (oj' & Hj' & _).
    destruct (range_cov m cov (cv_uniform _ _ _ _ HC) i Hcov) as (o1 & ci & H1 & Hci).
    { eapply lookup_lt_Some; eauto. }
    destruct (range_cov m cov (cv_uniform _ _ _ _ HC) j Hcov) as (o2 & cj & H2 & Hcj).
    { eapply lookup_lt_Some; eauto. }
    assert (o1 = oi') as -> by congruence. assert (o2 = oj') as -> by congruence.
    unfold ret_base, covariant_base.
    rewrite (proj2 (at_ok _ _ _) Hi'), (proj2 (at_ok _ _ _) Hj'). cbn [obind].
    rewrite Hci, Hcj. cbn [obind deref].
    unfold is_base_of. rewrite bool_decide_eq_true. unfold return_derives.
    apply (map_td E R g HG).
    - rewrite <- (cv_class _ _ _ _ HC Hcov _ _ _ Hj Hj'). exact Hcj.
    - rewrite <- (cv_class _ _ _ _ HC Hcov _ _ _ Hi Hi'). exact Hci.
  Qed.
End Program.

Section Behaviour.
  Context (cf : config) (X : run) (R : registrations) (w : world).
  Notation E := (r_env X).
  Notation ti := (e_ti (r_env X)).
  Context (HP : program_ok cf E R) (HB : bases_first ti R).

  Lemma call_chooses mid m all args :
    initialized_by cf X true R w -> call_ok cf ti R w m all args -> functions_ok m ->
    (length (mr_vp m) = 1 \/ together all) ->
    let cand := candidate ti R (mr_overriders m) args in
    (exists id n ts, call cf w mid m all = Err (ENoOverrider id n ts) /\ forall i, ~ cand i) \/
    exists i o, mr_overriders m !! i = Some o /\ cand i /\
      call cf w mid m all = Ok (Calls (or_pf o)) /\
      (settled ti R (mr_overriders m) cand ->
         undominated ti R (mr_overriders m) cand i /\
         (covariant ti (e_void E) R m ->
          forall b, most_specialized ti R (mr_overriders m)
            (undominated ti R (mr_overriders m) cand) b -> i = b)) /\
      ((exists b ob, mr_overriders m !! b = Some ob /\ cand b /\
         forall j oj, mr_overriders m !! j = Some oj -> cand j -> j <> b -> dominates ti R ob oj) ->
       forall j oj, mr_overriders m !! j = Some oj -> cand j -> j <> i -> dominates ti R o oj).
  Proof.
    intros (w0 & rep & Hw & Hinit) [Hm Hvs Hva] Hf Htog cand.
    destruct (dispatch_cell cf X R w0 w rep HP HB Hw true Hinit m all args Hm Hvs Hva)
      as (cp & mi & m' & t & gs & cs & is & Hcp & Hm' & Hmi & Hmok & Htok & Hcs & Htd & Hin & Hres);
      [intros; destruct Htog; [contradiction|assumption]|].
    pose proof HP as [HE Hac Har Hids Hn HA].
    pose proof (co_graph _ _ _ _ (compile_inv _ R HE Hac true cp Hcp)) as HG.
    assert (Hao : forall o, o ∈ mr_overriders m -> length (or_vp o) = length (mr_vp m))
      by (apply Har; exact Hm).
    destruct (cell_at _ _ HE m m' Hmok Hao true gs t cs is Htok Htd Hin) as (c & Hcell & Hb).
    destruct (Hres c Hcell) as (f & Hf' & Hr).
    destruct (compile_cov E R HE Hac true cp mi m m' Hcp Hmi Hm') as (cov & HC).
    pose proof (base_anti E R (cp_graph cp) HG) as Hanti.
    destruct (build_cell_n2216 _ _ Hanti cov (cv_uniform _ _ _ _ _ _ HC) _ _ Hb)
      as (surv & Hsurv & Hnd & _ & Htgt).
    set (l := mask_set m' (and_masks (full_mask m') (rev (arg_masks (cp_graph cp) m' cs)))) in *.
    assert (Hl : forall i, i ∈ l <-> cand i).
    { intros i. unfold l, cand. eapply mask_set_iff; eauto. apply (Forall2_length _ _ _ Hva). }
    assert (Hov : forall i, i ∈ l -> exists o, mr_overriders m !! i = Some o).
    { intros i Hi. apply Hl in Hi as (o & Ho & _). eauto. }
    destruct (target_fn _ _ m m' Hmok (cl_target c)) as (f' & Hf'' & Hs).
    { destruct (cl_target c) as [| |i]; auto. destruct Htgt as [Hi _].
      apply (sv_sub _ _ _ Hsurv) in Hi. destruct (Hov i Hi) as [o Ho]. eapply lookup_lt_Some; eauto. }
    assert (f' = f) as -> by congruence.
    pose proof (call_behaves cf w mid m all _ f Hf Hr Hs) as Hbe.
    destruct (cl_target c) as [| |i] eqn:Hc; simpl in Hbe.
    - left. inversion Hbe as [id n ts| |]. exists id, n, ts. split; [reflexivity|].
      intros i Hi. apply Hl in Hi. rewrite Htgt in Hi. inversion Hi.
    - contradiction.
    - right. inversion Hbe as [| |i' o Ho Hi' Hcall]. subst i'. exists i, o.
      destruct Htgt as [His Hbest].
      split; [exact Ho|]. split; [apply Hl; apply (sv_sub _ _ _ Hsurv); exact His|].
      split; [reflexivity|].
      assert (Hms : forall a b oa ob, mr_overriders m !! a = Some oa -> mr_overriders m !! b = Some ob ->
        ms_at (cp_graph cp) m' a b = true <-> dominates ti R oa ob).
      { intros a b oa ob Ha' Hb'. eapply ms_iff; eauto. }
      split.
      + intros Htr.
        assert (Htop : forall a, top (ms_at (cp_graph cp) m') l a <->
                         undominated ti R (mr_overriders m) cand a).
        { intros a. unfold top, undominated, dominated. rewrite Hl. split.
          - intros [Ha Hno]. split; [exact Ha|]. intros (j & oi & oj & Hoi & Hoj & Hj & Hd).
            apply (Hms j a oj oi Hoj Hoi) in Hd. rewrite Hno in Hd; [discriminate|].
            apply Hl. exact Hj.
          - intros [Ha Hno]. split; [exact Ha|]. intros j Hj.
            destruct (ms_at (cp_graph cp) m' j a) eqn:Hja; [|reflexivity]. exfalso. apply Hno.
            destruct (Hov a) as [oa Hoa]; [apply Hl; exact Ha|]. destruct (Hov j Hj) as [oj Hoj].
            exists j, oa, oj. split; [exact Hoa|]. split; [exact Hoj|].
            split; [apply Hl; exact Hj|]. apply (Hms j a oj oa Hoj Hoa). exact Hja. }
        assert (Htr' : settled_at (ms_at (cp_graph cp) m') l).
        { intros x y Hx Hy Hyx.
          destruct (Hov x Hx) as [ox Hox], (Hov y Hy) as [oy Hoy].
          destruct (Htr x ox Hox) as (t' & ot & Hot & Ht' & Hd); [apply Hl; exact Hx| |].
          { exists y, ox, oy. split; [exact Hox|]. split; [exact Hoy|]. split; [apply Hl; exact Hy|].
            apply (Hms y x oy ox Hoy Hox). exact Hyx. }
          exists t'. split; [apply Htop; exact Ht'|]. apply (Hms t' x ot ox Hot Hox). exact Hd. }
        assert (Hund : forall a, a ∈ surv <-> undominated ti R (mr_overriders m) cand a).
        { intros a. rewrite (survivors_top (ms_at (cp_graph cp) m') l Htr' surv a Hsurv). apply Htop. }
        split; [apply Hund; exact His|]. intros Hcov b (Hub & ob & Hob & Hbb).
        pose proof (proj2 (cv_iff _ _ _ _ _ _ HC) Hcov) as Hct.
        apply (Hbest Hct b); [apply Hund; exact Hub|]. intros j Hj Hne.
        destruct (Hov j) as [oj Hoj]; [apply (sv_sub _ _ _ Hsurv); exact Hj|].
        destruct (Hbb j oj Hoj) as [D1 D2]; [apply Hund; exact Hj|exact Hne|].
        split.
        * apply (ret_base_iff E R _ m m' cov j b oj ob HG Hmok HC Hct Hoj Hob). exact D1.
        * destruct (ret_base (cp_graph cp) m' b j) eqn:Hrb; [|reflexivity]. exfalso. apply D2.
          apply (ret_base_iff E R _ m m' cov b j ob oj HG Hmok HC Hct Hob Hoj). exact Hrb.
      + intros (b & ob & Hob & Hcb & Hbb).
        assert (Hbs : b ∈ surv).
        { apply Hl in Hcb. destruct (sv_out _ _ _ Hsurv b Hcb) as [?|(y & Hy & Hyb)]; [assumption|].
          exfalso. destruct (Hov y Hy) as [oy Hoy].
          destruct (decide (y = b)) as [->|Hne].
          - rewrite (ms_irrefl _ (ms_at_asym _ Hanti m')) in Hyb. discriminate.
          - assert (Hd : ms_at (cp_graph cp) m' b y = true).
            { apply (Hms b y ob oy Hob Hoy). eapply Hbb; eauto. apply Hl. exact Hy. }
            rewrite (ms_at_asym _ Hanti m' _ _ Hd) in Hyb. discriminate. }
        assert (i = b) as ->.
        { destruct (decide (i = b)) as [|Hne]; [assumption|]. exfalso.
          assert (Hd : ms_at (cp_graph cp) m' b i = true).
          { apply (Hms b i ob o Hob Ho). eapply Hbb; eauto. apply Hl. apply (sv_sub _ _ _ Hsurv). exact His. }
          rewrite (sv_free _ _ _ Hsurv b i Hbs His) in Hd. discriminate. }
        replace o with ob in * by congruence. exact Hbb.
  Qed.
End Behaviour.

(* ---- the result depends on the comparisons only ---- *)
Lemma dominate_inner_ext ms ms' a js :
  (forall x y, ms x y = ms' x y) -> dominate_inner ms a js = dominate_inner ms' a js.
Proof.
  intros H. induction js as [|[b|] js IH]; simpl; [reflexivity| |]; rewrite ?H, IH; reflexivity.
Qed.

Lemma dominate_outer_ext ms ms' k cs :
  (forall x y, ms x y = ms' x y) -> dominate_outer ms k cs = dominate_outer ms' k cs.
Proof.
  intros H. revert cs. induction k as [|k IH]; intros [|[a|] js]; simpl; try reflexivity.
  - rewrite (dominate_inner_ext ms ms' a js H). destruct (dominate_inner ms' a js). rewrite IH. reflexivity.
  - rewrite IH. reflexivity.
Qed.

Lemma covariant_inner_ext rb rb' ci js :
  (forall x y, rb x y = rb' x y) -> covariant_inner rb ci js = covariant_inner rb' ci js.
Proof.
  intros H. revert ci. induction js as [|[b|] js IH]; intros ci; simpl; [reflexivity| |].
  - apply obind_ext. intros a. rewrite H. apply obind_ext. intros ab. rewrite H, !IH. reflexivity.
  - rewrite IH. reflexivity.
Qed.

Lemma covariant_outer_ext rb rb' k cs :
  (forall x y, rb x y = rb' x y) -> covariant_outer rb k cs = covariant_outer rb' k cs.
Proof.
  intros H. revert cs. induction k as [|k IH]; intros [|[a|] js]; simpl; try reflexivity.
  - rewrite (covariant_inner_ext rb rb' _ _ H). apply obind_ext. intros [ci js']. rewrite IH. reflexivity.
  - rewrite IH. reflexivity.
Qed.

Section Same.
  Context (g g' : graph) (m m' : cmethod).
  Context (Hms : forall a b, ms_at g m a b = ms_at g' m' a b).
  Context (Hcb : forall a b, covariant_base g m a b = covariant_base g' m' a b).
  Context (Hlen : length (m_ovs m) = length (m_ovs m')).
  Context (Hcov : forall i o o', m_ovs m !! i = Some o -> m_ovs m' !! i = Some o' ->
    (ov_cov o = None <-> ov_cov o' = None)).

  Lemma select_ext n2216 cs :
    select_dominant_overriders g n2216 m cs = select_dominant_overriders g' n2216 m' cs.
  Proof.
    unfold select_dominant_overriders. rewrite (dominate_outer_ext _ _ _ cs Hms).
    destruct (survey 0 _ 0 0) as [p r]. case_decide; [reflexivity|]. destruct n2216; [|reflexivity].
    apply obind_ext. intros q. apply obind_ext. intros i.
    unfold at_. destruct (m_ovs m !! i) as [o|] eqn:Ho.
    - assert (Hi : i < length (m_ovs m')) by (rewrite <- Hlen; eapply lookup_lt_Some; eauto).
      apply lookup_lt_is_Some in Hi as [o' Ho']. rewrite Ho'. cbn [obind].
      pose proof (Hcov i o o' Ho Ho') as Hc.
      rewrite (covariant_outer_ext _ _ _ _ Hcb).
      destruct (ov_cov o), (ov_cov o'); try reflexivity; exfalso.
      + assert (Some n = None) by (apply Hc; reflexivity). discriminate.
      + assert (Some n = None) by (apply Hc; reflexivity). discriminate.
    - rewrite lookup_ge_None in Ho. rewrite lookup_ge_None_2 by lia. reflexivity.
  Qed.

  Lemma build_cell_ext n2216 mask mask' :
    mask_set m mask = mask_set m' mask' ->
    build_cell g n2216 m mask = build_cell g' n2216 m' mask'.
  Proof.
    intros Hmask. unfold build_cell. fold (mask_set m mask). fold (mask_set m' mask').
    rewrite Hmask, select_ext. apply obind_ext. intros [[ds p] r].
    case_decide; [reflexivity|]. case_decide; [reflexivity|].
    apply obind_ext. intros q. apply obind_ext. intros i.
    destruct (remove_dominants _ ds). case_decide; [reflexivity|]. rewrite select_ext. reflexivity.
  Qed.
End Same.

Lemma filter_ext_in {A} (P Q : A -> Prop) `{!forall x, Decision (P x)} `{!forall x, Decision (Q x)}
    (l : list A) :
  (forall x, x ∈ l -> P x <-> Q x) -> filter P l = filter Q l.
Proof.
  induction l as [|a l IH]; intros HPQ; [reflexivity|]. rewrite !filter_cons.
  rewrite IH by (intros x Hx; apply HPQ; right; exact Hx).
  pose proof (HPQ a ltac:(left)) as Ha. repeat case_decide; try reflexivity; exfalso; tauto.
Qed.

Lemma mask_set_ext m m' mask mask' :
  length (m_ovs m) = length (m_ovs m') ->
  (forall i, i ∈ mask_set m mask <-> i ∈ mask_set m' mask') ->
  mask_set m mask = mask_set m' mask'.
Proof.
  unfold mask_set. intros Hlen H. rewrite <- Hlen in *. apply filter_ext_in.
  intros i Hi. specialize (H i). rewrite !elem_of_list_filter in H. tauto.
Qed.

(* The target of a call, with what determines it. *)
Lemma call_target cf X R w n2216 mid m all args :
  program_ok cf (r_env X) R -> bases_first (e_ti (r_env X)) R -> initialized_by cf X n2216 R w ->
  call_ok cf (e_ti (r_env X)) R w m all args -> functions_ok m ->
  (length (mr_vp m) = 1 \/ together all) ->
  exists cp m' mask c cov, compile (r_env X) n2216 R = Ok cp /\ graph_ok (r_env X) R (cp_graph cp) /\
    method_ok (r_env X) (cp_graph cp) m m' /\ cov_ok (r_env X) R (cp_graph cp) m m' cov /\
    build_cell (cp_graph cp) n2216 m' mask = Ok c /\
    (forall i, i ∈ mask_set m' mask <-> candidate (e_ti (r_env X)) R (mr_overriders m) args i) /\
    behaves m (sel_of (cl_target c)) (call cf w mid m all).
Proof.
  intros HP HB (w0 & rep & Hw & Hinit) [Hm Hvs Hva] Hf Htog.
  destruct (dispatch_cell cf X R w0 w rep HP HB Hw n2216 Hinit m all args Hm Hvs Hva)
    as (cp & mi & m' & t & gs & cs & is & Hcp & Hm' & Hmi & Hmok & Htok & Hcs & Htd & Hin & Hres);
    [intros; destruct Htog; [contradiction|assumption]|].
  pose proof HP as [HE Hac Har Hids Hn HA].
  pose proof (co_graph _ _ _ _ (compile_inv _ R HE Hac n2216 cp Hcp)) as HG.
  assert (Hao : forall o, o ∈ mr_overriders m -> length (or_vp o) = length (mr_vp m))
    by (apply Har; exact Hm).
  destruct (cell_at _ _ HE m m' Hmok Hao n2216 gs t cs is Htok Htd Hin) as (c & Hcell & Hb).
  destruct (Hres c Hcell) as (f & Hf' & Hr).
  destruct (compile_cov _ R HE Hac n2216 cp mi m m' Hcp Hmi Hm') as (cov & HC).
  assert (Hl : forall i, i ∈ mask_set m' (and_masks (full_mask m') (rev (arg_masks (cp_graph cp) m' cs)))
    <-> candidate (e_ti (r_env X)) R (mr_overriders m) args i).
  { intros i. eapply mask_set_iff; eauto. apply (Forall2_length _ _ _ Hva). }
  eexists cp, m', _, c, cov. split; [exact Hcp|]. split; [exact HG|]. split; [exact Hmok|]. split; [exact HC|].
  split; [exact Hb|]. split; [exact Hl|].
  destruct (target_fn _ _ m m' Hmok (cl_target c)) as (f' & Hf'' & Hs).
  { apply build_cell_in in Hb as [Hb _]. destruct (cl_target c) as [| |i]; auto.
    simpl in Hb. apply Hl in Hb as (o & Ho & _). eapply lookup_lt_Some; eauto. }
  assert (f' = f) as -> by congruence. eapply call_behaves; eauto.
Qed.

(* ---- two runs of the same program ---- *)
Section Runs.
  Context (ti ti' : N -> N) (void void' : N) (rho : N -> N) (R R' : registrations).
  Context (HS : same_program ti ti' void void' rho R R').

  Lemma run_derives_1 a b : derives ti R a b -> forall x, ti x = a ->
    exists y, ti y = b /\ derives ti' R' (ti' (rho x)) (ti' (rho y)).
  Proof.
    induction 1 as [a|a b c (cr & t & Hcr & Ht & H1 & H2) _ IH]; intros x Hx.
    - exists x. split; [exact Hx|]. constructor.
    - destruct (IH t H2) as (y & Hy & Hd). exists y. split; [exact Hy|].
      apply elem_of_list_lookup in Hcr as [i Hi].
      destruct (Forall2_lookup_l _ _ _ _ _ (sp_classes _ _ _ _ _ _ _ HS) Hi) as (cr' & Hi' & E1 & E2).
      econstructor; [|exact Hd]. exists cr', (rho t).
      split; [eapply elem_of_list_lookup_2; eauto|].
      split; [rewrite E2; apply elem_of_list_fmap; eauto|]. split; [|reflexivity].
      rewrite E1. apply (sp_types _ _ _ _ _ _ _ HS). congruence.
  Qed.

  Lemma run_derives_2 a b : derives ti' R' a b -> forall x, ti' (rho x) = a ->
    exists y, ti' (rho y) = b /\ derives ti R (ti x) (ti y).
  Proof.
    induction 1 as [a|a b c (cr' & t' & Hcr & Ht & H1 & H2) _ IH]; intros x Hx.
    - exists x. split; [exact Hx|]. constructor.
    - apply elem_of_list_lookup in Hcr as [i Hi].
      destruct (Forall2_lookup_r _ _ _ _ _ (sp_classes _ _ _ _ _ _ _ HS) Hi) as (cr & Hi' & E1 & E2).
      rewrite E2 in Ht. apply elem_of_list_fmap in Ht as (t & -> & Ht).
      destruct (IH t H2) as (y & Hy & Hd). exists y. split; [exact Hy|].
      econstructor; [|exact Hd]. exists cr, t.
      split; [eapply elem_of_list_lookup_2; eauto|]. split; [exact Ht|]. split; [|reflexivity].
      apply (sp_types _ _ _ _ _ _ _ HS). congruence.
  Qed.

  Lemma run_derives x y :
    derives ti R (ti x) (ti y) <-> derives ti' R' (ti' (rho x)) (ti' (rho y)).
  Proof.
    split; intros H.
    - destruct (run_derives_1 _ _ H x eq_refl) as (z & Hz & Hd).
      apply (sp_types _ _ _ _ _ _ _ HS) in Hz. rewrite <- Hz. exact Hd.
    - destruct (run_derives_2 _ _ H x eq_refl) as (z & Hz & Hd).
      apply (sp_types _ _ _ _ _ _ _ HS) in Hz. rewrite <- Hz. exact Hd.
  Qed.

  Lemma run_some a b :
    some_more_specialized ti R a b <-> some_more_specialized ti' R' (map rho a) (map rho b).
  Proof.
    unfold some_more_specialized, strictly. split.
    - intros (i & x & y & Hx & Hy & D & Ne). exists i, (rho x), (rho y).
      rewrite !list_lookup_fmap, Hx, Hy. split; [reflexivity|]. split; [reflexivity|].
      split; [apply run_derives; exact D|]. rewrite (sp_types _ _ _ _ _ _ _ HS). exact Ne.
    - intros (i & x & y & Hx & Hy & D & Ne). rewrite !list_lookup_fmap in Hx, Hy.
      destruct (a !! i) as [x0|] eqn:Ha; [|discriminate]. destruct (b !! i) as [y0|] eqn:Hb; [|discriminate].
      injection Hx as <-. injection Hy as <-. exists i, x0, y0. split; [exact Ha|]. split; [exact Hb|].
      split; [apply run_derives; exact D|]. rewrite <- (sp_types _ _ _ _ _ _ _ HS). exact Ne.
  Qed.

  Lemma run_dominates a b a' b' : same_overrider rho a a' -> same_overrider rho b b' ->
    dominates ti R a b <-> dominates ti' R' a' b'.
  Proof.
    intros [Ha _] [Hb _]. unfold dominates. rewrite Ha, Hb, <- !run_some. reflexivity.
  Qed.

  Lemma run_returns a b a' b' : same_overrider rho a a' -> same_overrider rho b b' ->
    return_derives ti R a b <-> return_derives ti' R' a' b'.
  Proof. intros [_ Ha] [_ Hb]. unfold return_derives. rewrite Ha, Hb. apply run_derives. Qed.

  Lemma run_applicable xs o o' : same_overrider rho o o' ->
    applicable ti R (map ti xs) o <-> applicable ti' R' (map (fun x => ti' (rho x)) xs) o'.
  Proof.
    intros [Ho _]. unfold applicable. rewrite Ho. clear Ho. generalize (or_vp o) as vs.
    induction xs as [|x xs IH]; intros [|v vs]; simpl.
    - split; constructor.
    - split; intros Hf; inversion Hf.
    - split; intros Hf; inversion Hf.
    - rewrite !Forall2_cons, IH, run_derives. reflexivity.
  Qed.

  Lemma run_candidate xs ovs ovs' i : Forall2 (same_overrider rho) ovs ovs' ->
    candidate ti R ovs (map ti xs) i <-> candidate ti' R' ovs' (map (fun x => ti' (rho x)) xs) i.
  Proof.
    intros HF. unfold candidate. split.
    - intros (o & Ho & Ha). destruct (Forall2_lookup_l _ _ _ _ _ HF Ho) as (o' & Ho' & Hs).
      exists o'. split; [exact Ho'|]. apply (run_applicable xs o o' Hs). exact Ha.
    - intros (o' & Ho' & Ha). destruct (Forall2_lookup_r _ _ _ _ _ HF Ho') as (o & Ho & Hs).
      exists o. split; [exact Ho|]. apply (run_applicable xs o o' Hs). exact Ha.
  Qed.

  Lemma run_covariant m m' : same_method_record rho m m' ->
    covariant ti void R m <-> covariant ti' void' R' m'.
  Proof.
    intros (_ & Hr & _). unfold covariant. rewrite Hr, <- (sp_void _ _ _ _ _ _ _ HS).
    rewrite (sp_types _ _ _ _ _ _ _ HS). apply and_iff_compat_l. unfold registered. split.
    - intros (cr & Hcr & Heq). apply elem_of_list_lookup in Hcr as [i Hi].
      destruct (Forall2_lookup_l _ _ _ _ _ (sp_classes _ _ _ _ _ _ _ HS) Hi) as (cr' & Hi' & E1 & _).
      exists cr'. split; [eapply elem_of_list_lookup_2; eauto|]. rewrite E1.
      apply (sp_types _ _ _ _ _ _ _ HS). exact Heq.
    - intros (cr' & Hcr & Heq). apply elem_of_list_lookup in Hcr as [i Hi].
      destruct (Forall2_lookup_r _ _ _ _ _ (sp_classes _ _ _ _ _ _ _ HS) Hi) as (cr & Hi' & E1 & _).
      exists cr. split; [eapply elem_of_list_lookup_2; eauto|]. rewrite E1 in Heq.
      apply (sp_types _ _ _ _ _ _ _ HS). exact Heq.
  Qed.
End Runs.

Lemma ms_range g m a b : ms_at g m a b = true -> a < length (m_ovs m) /\ b < length (m_ovs m).
Proof.
  unfold ms_at. destruct (m_ovs m !! a) as [oa|] eqn:Ha; [|discriminate].
  destruct (m_ovs m !! b) as [ob|] eqn:Hb; [|discriminate]. intros _.
  split; eapply lookup_lt_Some; eauto.
Qed.

Lemma cells_agree E E' rho R R' g g' m m' cm cm' cov cov' mask mask' xs n2216 :
  same_program (e_ti E) (e_ti E') (e_void E) (e_void E') rho R R' -> same_method_record rho m m' ->
  graph_ok E R g -> method_ok E g m cm -> cov_ok E R g m cm cov ->
  graph_ok E' R' g' -> method_ok E' g' m' cm' -> cov_ok E' R' g' m' cm' cov' ->
  (forall i, i ∈ mask_set cm mask <-> candidate (e_ti E) R (mr_overriders m) (map (e_ti E) xs) i) ->
  (forall i, i ∈ mask_set cm' mask' <->
     candidate (e_ti E') R' (mr_overriders m') (map (fun x => e_ti E' (rho x)) xs) i) ->
  build_cell g n2216 cm mask = build_cell g' n2216 cm' mask'.
Proof.
  intros HS Hsame HG HM HC HG' HM' HC' Hl Hl'. pose proof Hsame as (Hvp & _ & Hovs).
  assert (Lo : length (m_ovs cm) = length (mr_overriders m))
    by (symmetry; apply (Forall2_length _ _ _ (mo_ovs _ _ _ _ HM))).
  assert (Lo' : length (m_ovs cm') = length (mr_overriders m'))
    by (symmetry; apply (Forall2_length _ _ _ (mo_ovs _ _ _ _ HM'))).
  pose proof (Forall2_length _ _ _ Hovs) as Loo.
  assert (Hcov : cov = cov').
  { apply Bool.eq_iff_eq_true. rewrite (cv_iff _ _ _ _ _ _ HC), (cv_iff _ _ _ _ _ _ HC').
    apply (run_covariant _ _ _ _ _ _ _ HS). exact Hsame. }
  assert (Hpair : forall a, a < length (m_ovs cm) -> exists o o',
    mr_overriders m !! a = Some o /\ mr_overriders m' !! a = Some o' /\ same_overrider rho o o').
  { intros a Ha. rewrite Lo in Ha. apply lookup_lt_is_Some in Ha as [o Ho].
    destruct (Forall2_lookup_l _ _ _ _ _ Hovs Ho) as (o' & Ho' & Hs). eauto. }
  apply build_cell_ext.
  - intros a b. apply Bool.eq_iff_eq_true. split; intros H; pose proof (ms_range _ _ _ _ H) as [Ra Rb].
    + destruct (Hpair a Ra) as (oa & oa' & Ha & Ha' & Sa), (Hpair b Rb) as (ob & ob' & Hob & Hob' & Sb).
      apply (ms_iff _ R' _ HG' m' cm' HM' a b oa' ob' Ha' Hob').
      apply (run_dominates _ _ _ _ _ _ _ HS oa ob oa' ob' Sa Sb).
      apply (ms_iff _ R _ HG m cm HM a b oa ob Ha Hob). exact H.
    + destruct (Hpair a ltac:(lia)) as (oa & oa' & Ha & Ha' & Sa), (Hpair b ltac:(lia)) as (ob & ob' & Hob & Hob' & Sb).
      apply (ms_iff _ R _ HG m cm HM a b oa ob Ha Hob).
      apply (run_dominates _ _ _ _ _ _ _ HS oa ob oa' ob' Sa Sb).
      apply (ms_iff _ R' _ HG' m' cm' HM' a b oa' ob' Ha' Hob'). exact H.
  - intros a b. destruct (decide (a < length (m_ovs cm) /\ b < length (m_ovs cm))) as [[Ra Rb]|Hn].
    + destruct (Hpair a Ra) as (oa & oa' & Ha & Ha' & Sa), (Hpair b Rb) as (ob & ob' & Hob & Hob' & Sb).
      assert (cov = true \/ cov = false) as [Ht|Hfl] by (destruct cov; auto).
      * rewrite (covariant_base_ok _ _ cov (cv_uniform _ _ _ _ _ _ HC) a b Ht Ra Rb).
        rewrite (covariant_base_ok _ _ cov' (cv_uniform _ _ _ _ _ _ HC') a b ltac:(congruence));
          [|unfold in_range; lia|unfold in_range; lia].
        f_equal. apply Bool.eq_iff_eq_true.
        rewrite (ret_base_iff _ R _ m cm cov a b oa ob HG HM HC Ht Ha Hob).
        rewrite (ret_base_iff _ R' _ m' cm' cov' a b oa' ob' HG' HM' HC' ltac:(congruence) Ha' Hob').
        apply (run_returns _ _ _ _ _ _ _ HS); assumption.
      * assert (Hnone : forall gg mm, uniform mm false -> a < length (m_ovs mm) -> b < length (m_ovs mm) ->
          covariant_base gg mm a b = Undef).
        { intros gg mm HU Ka Kb. unfold covariant_base.
          apply lookup_lt_is_Some in Ka as [xa Ka]. apply lookup_lt_is_Some in Kb as [xb Kb].
          rewrite (proj2 (at_ok _ _ _) Ka), (proj2 (at_ok _ _ _) Kb). cbn [obind].
          rewrite (HU xa (elem_of_list_lookup_2 _ _ _ Ka)). reflexivity. }
        rewrite !Hnone; try reflexivity; try lia.
        -- rewrite <- Hfl, Hcov. apply (cv_uniform _ _ _ _ _ _ HC').
        -- rewrite <- Hfl. apply (cv_uniform _ _ _ _ _ _ HC).
    + unfold covariant_base, at_.
      destruct (decide (a < length (m_ovs cm))) as [Ha|Ha].
      * assert (Hb1 : ~ b < length (m_ovs cm)) by tauto.
        pose proof Ha as Ha1. apply lookup_lt_is_Some in Ha as [xa Ha].
        destruct (lookup_lt_is_Some_2 (m_ovs cm') a ltac:(lia)) as [xa' Ha'].
        rewrite Ha, Ha'. cbn [obind].
        rewrite (lookup_ge_None_2 (m_ovs cm) b), (lookup_ge_None_2 (m_ovs cm') b) by lia. reflexivity.
      * rewrite (lookup_ge_None_2 (m_ovs cm) a), (lookup_ge_None_2 (m_ovs cm') a) by lia. reflexivity.
  - lia.
  - intros i o o' Ho Ho'.
    pose proof (cv_uniform _ _ _ _ _ _ HC o (elem_of_list_lookup_2 _ _ _ Ho)) as U.
    pose proof (cv_uniform _ _ _ _ _ _ HC' o' (elem_of_list_lookup_2 _ _ _ Ho')) as U'.
    rewrite <- Hcov in U'. destruct cov.
    + destruct U as [? U], U' as [? U']. rewrite U, U'. split; discriminate.
    + tauto.
  - apply mask_set_ext; [lia|]. intros i. rewrite Hl, Hl'.
    apply (run_candidate _ _ _ _ _ _ _ HS). exact Hovs.
Qed.

(* A call selects the same overrider in two runs, with or without n2216. *)
Theorem runs_agree cf cf' X X' rho R R' w w' n2216 k m m' mid mid' all all' xs :
  same_program (e_ti (r_env X)) (e_ti (r_env X')) (e_void (r_env X)) (e_void (r_env X')) rho R R' ->
  program_ok cf (r_env X) R -> program_ok cf' (r_env X') R' ->
  bases_first (e_ti (r_env X)) R -> bases_first (e_ti (r_env X')) R' ->
  initialized_by cf X n2216 R w -> initialized_by cf' X' n2216 R' w' ->
  reg_methods R !! k = Some m -> reg_methods R' !! k = Some m' ->
  call_ok cf (e_ti (r_env X)) R w m all (map (e_ti (r_env X)) xs) ->
  call_ok cf' (e_ti (r_env X')) R' w' m' all' (map (fun x => e_ti (r_env X') (rho x)) xs) ->
  functions_ok m -> functions_ok m' ->
  (length (mr_vp m) = 1 \/ (together all /\ together all')) ->
  exists sel, behaves m sel (call cf w mid m all) /\ behaves m' sel (call cf' w' mid' m' all').
Proof.
  intros HS HP HP' HB HB' Hi Hi' Hk Hk' Hc Hc' Hf Hf' Htog.
  pose proof (Forall2_lookup_lr _ _ _ _ _ _ (sp_methods _ _ _ _ _ _ _ HS) Hk Hk') as Hsame.
  pose proof Hsame as (Hvp & _ & Hovs).
  assert (Hlen : length (mr_vp m') = length (mr_vp m)) by (rewrite Hvp, map_length; reflexivity).
  destruct (call_target cf X R w n2216 mid m all _ HP HB Hi Hc Hf ltac:(tauto))
    as (cp & cm & mask & c & cov & Hcp & HG & HM & HC & Hb & Hl & Hbe).
  destruct (call_target cf' X' R' w' n2216 mid' m' all' _ HP' HB' Hi' Hc' Hf' ltac:(rewrite Hlen; tauto))
    as (cp' & cm' & mask' & c' & cov' & Hcp' & HG' & HM' & HC' & Hb' & Hl' & Hbe').
  assert (Heq : build_cell (cp_graph cp) n2216 cm mask = build_cell (cp_graph cp') n2216 cm' mask').
  { eapply cells_agree; eauto. }
  assert (c' = c) as -> by congruence.
  exists (sel_of (cl_target c)). auto.
Qed.

(* ---- the option changes ambiguous calls only ---- *)
Lemma build_cell_plain g m mask c :
  (forall a b, is_base_of g a b = true -> is_base_of g b a = true -> a = b) ->
  build_cell g false m mask = Ok c ->
  match cl_target c with
  | TOverrider i => alive (dominate_outer (ms_at g m) (length (mask_set m mask))
      (map Some (mask_set m mask))) = [i]
  | TNotImplemented => mask_set m mask = []
  | TAmbiguous => True
  end.
Proof.
  intros Hanti. unfold build_cell. fold (mask_set m mask). set (l := mask_set m mask).
  unfold select_dominant_overriders at 1. rewrite map_length.
  pose proof (outer_survivors (ms_at g m) (ms_at_asym g Hanti m) (map Some l)) as Hs.
  rewrite map_length, alive_map_some in Hs.
  set (ds := dominate_outer (ms_at g m) (length l) (map Some l)) in *.
  pose proof (survey_spec 0 ds 0 0) as (S1 & _ & S3).
  destruct (survey 0 ds 0 0) as [p r]. simpl in S1, S3. intros H.
  assert (H' : obind (Ok (ds, p, r)) (fun '(dominants, pick, remaining) =>
    if decide (remaining = 0) then Ok (Cell TNotImplemented None false)
    else if decide (false = false /\ 1 < remaining) then Ok (Cell TAmbiguous None true)
    else
      let* o := at_ dominants pick in
      let* o := deref o in
      let ambiguous := bool_decide (1 < remaining) in
      let '(overriders, remaining) := remove_dominants (map Some l) dominants in
      if decide (remaining = 0) then
        Ok (Cell (TOverrider o) (Some (o, TNotImplemented)) ambiguous)
      else
        let* '(nexts, pick, remaining) :=
          select_dominant_overriders g false m overriders in
        if decide (false = false /\ 1 < remaining) then
          Ok (Cell (TOverrider o) (Some (o, TAmbiguous)) ambiguous)
        else
          let* nx := at_ nexts pick in
          let* nx := deref nx in
          Ok (Cell (TOverrider o) (Some (o, TOverrider nx)) ambiguous)) = Ok c).
  { case_decide; exact H. }
  clear H. cbn [obind] in H'.
  destruct (decide (r = 0)) as [Hr0|Hr0].
  { injection H' as <-. simpl. destruct l as [|a l'] eqn:Hl; [reflexivity|]. exfalso.
    apply (sv_some _ _ _ Hs); [discriminate|]. apply nil_length_inv. lia. }
  destruct (decide (false = false /\ 1 < r)) as [Hr1|Hr1]; [injection H' as <-; exact I|].
  assert (r = 1) by (destruct (decide (1 < r)); [tauto|lia]).
  apply obind_ok in H' as (q & Hq & H'). apply obind_ok in H' as (o & Ho & H').
  apply at_ok in Hq. destruct q as [o'|]; [|discriminate]. injection Ho as ->.
  assert (Hds : alive ds = [o]).
  { assert (Hin : o ∈ alive ds) by (apply alive_elem; eapply elem_of_list_lookup_2; eauto).
    destruct (alive ds) as [|a [|b s]]; simpl in S1; try lia.
    apply elem_of_list_singleton in Hin as ->. reflexivity. }
  assert (Ht : cl_target c = TOverrider o).
  { cbv zeta in H'. destruct (remove_dominants (map Some l) ds) as [ovs rem].
    destruct (decide (rem = 0)); [injection H' as <-; reflexivity|].
    apply obind_ok in H' as ([[ns p2] r2] & _ & H').
    destruct (decide (false = false /\ 1 < r2)); [injection H' as <-; reflexivity|].
    apply obind_ok in H' as (x & _ & H'). apply obind_ok in H' as (y & _ & H').
    injection H' as <-. reflexivity. }
  rewrite Ht. exact Hds.
Qed.

Lemma same_program_refl ti void R : same_program ti ti void void id R R.
Proof.
  split.
  - reflexivity.
  - reflexivity.
  - apply Forall2_same_length_lookup_2; [reflexivity|]. intros i c c' Hc Hc'.
    replace c' with c by congruence. rewrite list_fmap_id. auto.
  - apply Forall2_same_length_lookup_2; [reflexivity|]. intros i c c' Hc Hc'.
    replace c' with c by congruence. unfold same_method_record. rewrite list_fmap_id.
    split; [reflexivity|]. split; [reflexivity|].
    apply Forall2_same_length_lookup_2; [reflexivity|]. intros j o o' Ho Ho'.
    replace o' with o by congruence. unfold same_overrider. rewrite list_fmap_id. auto.
Qed.

Lemma args_types cf ti R w vs args : Forall2 (passes cf ti R w) vs args -> exists xs, args = map ti xs.
Proof.
  induction 1 as [|v a vs args Hp _ IH]; [exists []; reflexivity|].
  destruct IH as [xs ->]. inversion Hp as [t|v' t cr]; subst; exists (t :: xs); reflexivity.
Qed.

Theorem unambiguous_same cf X R w w' mid m all all' args :
  program_ok cf (r_env X) R -> bases_first (e_ti (r_env X)) R ->
  initialized_by cf X false R w -> initialized_by cf X true R w' ->
  call_ok cf (e_ti (r_env X)) R w m all args -> call_ok cf (e_ti (r_env X)) R w' m all' args ->
  functions_ok m -> (length (mr_vp m) = 1 \/ (together all /\ together all')) ->
  (forall f, call cf w mid m all = Ok (Calls f) -> call cf w' mid m all' = Ok (Calls f)) /\
  ((exists id n ts, call cf w mid m all = Err (ENoOverrider id n ts)) ->
   exists id n ts, call cf w' mid m all' = Err (ENoOverrider id n ts)).
Proof.
  intros HP HB Hi Hi' Hc Hc' Hf Htog.
  destruct (args_types _ _ _ _ _ _ (ca_passes _ _ _ _ _ _ _ Hc)) as [xs ->].
  destruct (call_target cf X R w false mid m all _ HP HB Hi Hc Hf ltac:(tauto))
    as (cp & cm & mask & c & cov & Hcp & HG & HM & HC & Hb & Hl & Hbe).
  destruct (call_target cf X R w' true mid m all' _ HP HB Hi' Hc' Hf ltac:(tauto))
    as (cp' & cm' & mask' & c' & cov' & Hcp' & HG' & HM' & HC' & Hb' & Hl' & Hbe').
  assert (Hs : same_method_record id m m).
  { destruct (elem_of_list_lookup_1 _ _ (ca_method _ _ _ _ _ _ _ Hc)) as [k Hk].
    apply (Forall2_lookup_lr _ _ _ _ _ _ (sp_methods _ _ _ _ _ _ _ (same_program_refl (e_ti (r_env X)) (e_void (r_env X)) R)) Hk Hk). }
  rewrite (cells_agree _ _ id R R _ _ m m cm cm' cov cov' mask mask' xs false
    (same_program_refl _ _ R) Hs HG HM HC HG' HM' HC' Hl Hl') in Hb.
  pose proof (base_anti _ R (cp_graph cp') HG') as Hanti.
  pose proof (build_cell_plain _ _ _ _ Hanti Hb) as Hp.
  destruct (build_cell_n2216 _ _ Hanti cov' (cv_uniform _ _ _ _ _ _ HC') _ _ Hb')
    as (surv & Hsurv & _ & Heq & Ht).
  assert (Hcc : cl_target c <> TAmbiguous -> cl_target c' = cl_target c).
  { intros Hna. destruct (cl_target c) as [| |i]; [|contradiction|].
    - destruct (cl_target c') as [| |j]; [reflexivity|contradiction|]. destruct Ht as [Hj _].
      apply (sv_sub _ _ _ Hsurv) in Hj. rewrite Hp in Hj. inversion Hj.
    - rewrite Hp in Heq. subst surv. destruct (cl_target c') as [| |j]; [|contradiction|].
      + pose proof (sv_sub _ _ _ Hsurv i ltac:(left)) as Hin. rewrite Ht in Hin. inversion Hin.
      + destruct Ht as [Hj _]. apply elem_of_list_singleton in Hj as ->. reflexivity. }
  destruct (cl_target c) as [| |i]; simpl in Hbe.
  - rewrite Hcc in Hbe' by discriminate. simpl in Hbe'. inversion Hbe as [? ? ? Hr| |].
    split; [discriminate|]. intros _. inversion Hbe'. eauto.
  - inversion Hbe. split; [discriminate|]. intros (? & ? & ? & ?). discriminate.
  - rewrite Hcc in Hbe' by discriminate. simpl in Hbe'. inversion Hbe as [| |i0 o Ho].
    split; [|intros (? & ? & ? & ?); discriminate]. intros f [= <-].
    inversion Hbe' as [| |i1 o1 Ho1]. congruence.
Qed.

(* ---- initialize() succeeds ---- *)
Lemma finite_choice {A} (P : nat -> A -> Prop) n :
  (forall e, e < n -> exists x, P e x) ->
  exists l, length l = n /\ forall e x, l !! e = Some x -> P e x.
Proof.
  induction n as [|n IH]; intros H.
  - exists []. split; [reflexivity|]. intros e x Hx. rewrite lookup_nil in Hx. discriminate.
  - destruct IH as (l & Hl & HP); [intros e He; apply H; lia|].
    destruct (H n ltac:(lia)) as [y Hy]. exists (l ++ [y]). rewrite app_length. simpl.
    split; [lia|]. intros e x Hx. apply lookup_app_Some in Hx as [Hx|[Hge Hx]]; [eauto|].
    apply list_lookup_singleton_Some in Hx as [He <-]. replace e with n by lia. exact Hy.
Qed.

Lemma sublist_filter {A} (P : A -> Prop) `{!forall x, Decision (P x)} (l : list A) :
  sublist (filter P l) l.
Proof.
  induction l as [|a l IH]; [constructor|]. rewrite filter_cons.
  case_decide; [apply sublist_skip|apply sublist_cons]; exact IH.
Qed.

Lemma sorted_sublist (l l' : list nat) : sublist l' l -> StronglySorted lt l -> StronglySorted lt l'.
Proof.
  induction 1 as [|x l1 l2 Hs IH|x l1 l2 Hs IH]; intros HS; [constructor| |];
    apply StronglySorted_inv in HS as [HS F]; [|auto].
  constructor; [auto|]. rewrite list.Forall_forall in *. intros y Hy. apply F.
  eapply elem_of_submseteq; [exact Hy|]. apply sublist_submseteq. exact Hs.
Qed.

Lemma sorted_seq i n : StronglySorted lt (seq i n).
Proof.
  revert i. induction n as [|n IH]; intros i; simpl; constructor; [apply IH|].
  apply list.Forall_forall. intros x Hx. apply elem_of_seq in Hx. lia.
Qed.

Section Total.
  Context (E : env) (R : registrations) (HE : env_ok E) (Hac : acyclic (e_ti E) R) (Har : arity_ok R).
  Notation ti := (e_ti E).
  Context (g : graph) (HG : graph_ok E R g).

  (* The masks of a tuple of groups are those of some arguments. *)
  Lemma tuple_args mr m gs is ks :
    mr ∈ reg_methods R -> method_ok E g mr m -> length gs = length (m_vp m) ->
    (forall dim vp gm, m_vp m !! dim = Some vp -> gs !! dim = Some gm -> groups_ok g m dim vp gm) ->
    tuple (rev gs) is ks ->
    exists args cs, valid_args ti R mr args /\ arg_classes g args cs /\ ks = rev (arg_masks g m cs).
  Proof.
    intros Hmr HM Hgl Hgr (L1 & L2 & Htup). rewrite rev_length in L1, L2.
    pose proof (go_classes _ _ _ HG) as HC.
    pose proof (Forall2_length _ _ _ (mo_vp _ _ _ _ HM)) as L3.
    destruct (finite_choice (fun d (ac : N * nat) => exists v,
      mr_vp mr !! d = Some v /\ g_map g (fst ac) = Some (snd ac) /\ derives ti R (fst ac) (ti v) /\
      ks !! (length gs - S d) = Some (mask_at g m d (snd ac))) (length gs)) as (acs & La & Hacs).
    { intros d Hd.
      destruct (lookup_lt_is_Some_2 gs d) as [gm Hgm]; [lia|].
      destruct (lookup_lt_is_Some_2 (m_vp m) d) as [vp Hvp]; [lia|].
      destruct (Forall2_lookup_r _ _ _ _ _ (mo_vp _ _ _ _ HM) Hvp) as (v & Hv & Hvmap).
      destruct (Htup (length gs - S d) gm) as (i & k & gp & Hi & Hk & Hg).
      { apply rev_lookup'; [lia|]. replace (length gs - S (length gs - S d)) with d by lia. exact Hgm. }
      destruct (gr_classes _ _ _ _ _ (Hgr d vp gm Hvp Hgm) k gp) as [Hne Hcl];
        [eapply elem_of_list_lookup_2; eauto|].
      destruct (gp_classes gp) as [|cc cl] eqn:Hgp; [contradiction|].
      destruct (proj1 (Hcl cc) ltac:(left)) as [Hc Hmask].
      assert (Hcn : cc < g_n g).
      { eapply (td_lt E R g HG); [exact Hc|]. eapply (co_lt _ _ _ _ HC); exact Hvmap. }
      destruct (lookup_lt_is_Some_2 (g_classes g) cc) as [e He]; [exact Hcn|].
      destruct (co_entry _ _ _ _ HC _ _ He) as (a & cr & Ha & _).
      exists (a, cc), v. simpl. split; [exact Hv|]. split; [exact Ha|].
      split; [apply (map_td E R g HG _ _ _ _ Ha Hvmap); exact Hc|]. rewrite Hmask. exact Hk. }
    exists (map fst acs), (map snd acs). split; [|split].
    - apply Forall2_same_length_lookup_2; [rewrite map_length; lia|]. intros d a v Ha Hv.
      rewrite list_lookup_fmap in Ha. destruct (acs !! d) as [ac|] eqn:Hd; [|discriminate].
      injection Ha as <-. destruct (Hacs d ac Hd) as (v' & Hv' & Hm & Hder & _).
      replace v' with v in * by congruence. split; [|exact Hder]. apply (co_dom _ _ _ _ HC). eauto.
    - apply Forall2_same_length_lookup_2; [rewrite !map_length; reflexivity|]. intros d a c Ha Hc.
      rewrite list_lookup_fmap in Ha. rewrite list_lookup_fmap in Hc. destruct (acs !! d) as [ac|] eqn:Hd; [|discriminate].
      injection Ha as <-. injection Hc as <-. destruct (Hacs d ac Hd) as (v' & _ & Hm & _). exact Hm.
    - apply list_eq_same_length with (n := length gs).
      + rewrite rev_length. unfold arg_masks. rewrite imap_length, map_length. lia.
      + lia.
      + intros j x y Hj Hx Hy. apply rev_lookup in Hy as [Hlt Hy]. unfold arg_masks in Hlt, Hy.
        rewrite imap_length, map_length in *.
        rewrite list_lookup_imap, list_lookup_fmap in Hy.
        destruct (acs !! (length acs - S j)) as [ac|] eqn:Hd; [|discriminate].
        injection Hy as <-. destruct (Hacs _ ac Hd) as (_ & _ & _ & _ & Hk).
        replace (length gs - S (length acs - S j)) with j in Hk by lia. congruence.
  Qed.

  Lemma build_rest_total_n n2216 m gs mask :
    (forall is ks, tuple gs is ks -> exists c, build_cell g n2216 m (and_masks mask ks) = Ok c) ->
    exists cells, build_rest g n2216 m gs mask = Ok cells.
  Proof.
    revert mask. induction gs as [|gm gs IH]; intros mask Hc.
    - cbn [build_rest]. destruct (Hc [] []) as [c H].
      { split; [reflexivity|]. split; [reflexivity|]. intros d gm Hd. rewrite lookup_nil in Hd. discriminate. }
      simpl in H. rewrite H. cbn. eauto.
    - cbn [build_rest]. rewrite build_cons.
      destruct (foldM_inv (fun _ : list cell => True)
        (fun (kg : bitset * group) cells =>
          let* cs := build_rest g n2216 m gs (zip_with andb mask (fst kg)) in Ok (cells ++ cs))
        gm []) as (cells & Hok & _); [exact I| |eauto].
      intros [k gp] cells Hin _. simpl.
      destruct (IH (zip_with andb mask k)) as [r ->]; [|cbn; eauto].
      intros is ks Ht. apply elem_of_list_lookup in Hin as [i Hi].
      destruct (Hc (i :: is) (k :: ks)) as [c H]; [apply tuple_cons; eauto|]. exists c. exact H.
  Qed.

  Lemma build_table_total_n n2216 m gs mask :
    gs <> [] ->
    (forall is ks, tuple gs is ks -> exists c, build_cell g n2216 m (and_masks mask ks) = Ok c) ->
    exists cells, build_dispatch_table g n2216 m gs mask = Ok cells.
  Proof.
    intros Hne Hc. destruct gs as [|gm gs]; [contradiction|].
    apply (build_rest_total_n n2216 m (gm :: gs) mask Hc).
  Qed.

  Context (HU : untangled ti (e_void E) R).

  Lemma method_cells mi mr m cov gs is ks :
    reg_methods R !! mi = Some mr -> method_ok E g mr m -> cov_ok E R g mr m cov ->
    length gs = length (m_vp m) ->
    (forall dim vp gm, m_vp m !! dim = Some vp -> gs !! dim = Some gm -> groups_ok g m dim vp gm) ->
    tuple (rev gs) is ks ->
    exists c, build_cell g true m (and_masks (repeat true (length (m_ovs m))) ks) = Ok c.
  Proof.
    intros Hmi HM HC Hgl Hgr Ht. pose proof (elem_of_list_lookup_2 _ _ _ Hmi) as Hmr.
    destruct (tuple_args mr m gs is ks Hmr HM Hgl Hgr Ht) as (args & cs & Hva & Hcs & ->).
    apply (build_cell_n2216_total g m (base_anti E R g HG) cov (cv_uniform _ _ _ _ _ _ HC)).
    intros Hcov i j k Hs Hms.
    fold (full_mask m) in Hs.
    set (l := mask_set m (and_masks (full_mask m) (rev (arg_masks g m cs)))) in *.
    assert (Hl : forall x, x ∈ l <-> candidate ti R (mr_overriders mr) args x).
    { intros x. unfold l. apply (mask_set_iff E R g HG mr m HM); [apply Har; exact Hmr|exact Hcs|].
      apply (Forall2_length _ _ _ Hva). }
    assert (Hin : forall x, x ∈ [i; j; k] -> candidate ti R (mr_overriders mr) args x).
    { intros x Hx. apply Hl. eapply elem_of_submseteq; [exact Hx|]. apply sublist_submseteq. exact Hs. }
    destruct (Hin i) as (a & Ha & Aa); [set_solver|].
    destruct (Hin j) as (b & Hb & Ab); [set_solver|].
    destruct (Hin k) as (c & Hc & Ac); [set_solver|].
    assert (Hlt : i < j /\ j < k).
    { assert (Hs' : sublist [i; j; k] (seq 0 (length (m_ovs m)))).
      { etransitivity; [exact Hs|]. unfold l, mask_set. apply sublist_filter. }
      assert (HSS : StronglySorted lt [i; j; k]).
      { eapply sorted_sublist; [exact Hs'|]. apply sorted_seq. }
      apply StronglySorted_inv in HSS as [HSS F1]. apply StronglySorted_inv in HSS as [_ F2].
      rewrite list.Forall_forall in F1, F2. split; [apply F1; set_solver|apply F2; set_solver]. }
    assert (Hno : forall x y ox oy, x ∈ [i; j; k] -> y ∈ [i; j; k] ->
      mr_overriders mr !! x = Some ox -> mr_overriders mr !! y = Some oy -> ~ dominates ti R ox oy).
    { intros x y ox oy Hx Hy Hox Hoy Hd. apply (ms_iff E R g HG mr m HM x y ox oy Hox Hoy) in Hd.
      rewrite Hms in Hd by assumption. discriminate. }
    destruct (ret_base g m i j) eqn:Hr; [|reflexivity]. exfalso.
    apply (ret_base_iff E R g mr m cov i j a b HG HM HC Hcov Ha Hb) in Hr. revert Hr.
    apply (HU mr args i j k a b c Hmr); try assumption; try tauto.
    - apply (cv_iff _ _ _ _ _ _ HC). exact Hcov.
    - split; eapply Hno; eauto; set_solver.
    - split; eapply Hno; eauto; set_solver.
    - split; eapply Hno; eauto; set_solver.
  Qed.

  Lemma build_method_n2216 mi mr m cov s acc acc' r :
    reg_methods R !! mi = Some mr -> method_ok E g mr m -> cov_ok E R g mr m cov ->
    build_method E g false s (mi, m) acc = Ok r -> snd acc' = snd acc ->
    exists r', build_method E g true s (mi, m) acc' = Ok r' /\ snd r' = snd r.
  Proof.
    intros Hmi HM HC H Hsnd. destruct acc as [ts vt], acc' as [ts' vt']. simpl in Hsnd. subst vt'.
    unfold build_method in *. apply obind_ok in H as (gs & Hgs & H). rewrite Hgs. cbn [obind].
    apply obind_ok in H as (vt1 & Hvt & H). rewrite Hvt. cbn [obind].
    apply obind_ok in H as (cells & Hcells & [= <-]).
    pose proof (elem_of_list_lookup_2 _ _ _ Hmi) as Hmr. destruct (Har mr Hmr) as [Hne Hl].
    assert (Hgl : length gs = length (m_vp m)).
    { apply mapM_ok in Hgs. rewrite <- (Forall2_length _ _ _ Hgs), imap_length. reflexivity. }
    assert (Hgr : forall dim vp gm, m_vp m !! dim = Some vp -> gs !! dim = Some gm -> groups_ok g m dim vp gm).
    { intros dim vp gm Hvp Hgm. apply mapM_ok in Hgs.
      assert (Hi : imap pair (m_vp m) !! dim = Some (dim, vp)) by (rewrite list_lookup_imap, Hvp; reflexivity).
      pose proof (Forall2_lookup_lr _ _ _ _ _ _ Hgs Hi Hgm) as Hd. simpl in Hd.
      destruct (dim_groups_ok E g HE m dim vp) as (gm' & Hgm' & Hok); [|congruence].
      intros o Ho. rewrite (ovs_arity E g mr m HM Hl o Ho). eapply lookup_lt_Some; eauto. }
    destruct (build_table_total_n true m (rev gs) (repeat true (length (m_ovs m)))) as (cells' & Hc').
    - intros Hnil. apply (f_equal length) in Hnil. rewrite rev_length, Hgl in Hnil. simpl in Hnil.
      pose proof (method_ok_arity _ _ _ _ HM). destruct (mr_vp mr); [contradiction|]. simpl in *. lia.
    - intros is ks Ht. eapply method_cells; eauto.
    - rewrite Hc'. cbn [obind]. eauto.
  Qed.

  Lemma build_tables_n2216 ms s T :
    Forall2 (method_ok E g) (reg_methods R) ms ->
    (forall mi mr m, reg_methods R !! mi = Some mr -> ms !! mi = Some m -> exists cov, cov_ok E R g mr m cov) ->
    build_dispatch_tables E g false ms s = Ok T ->
    exists T', build_dispatch_tables E g true ms s = Ok T'.
  Proof.
    intros HM HC H. unfold build_dispatch_tables in *. apply obind_ok in H as (acc & H & _).
    enough (G : forall l a a' r, (forall x, x ∈ l -> x ∈ imap pair ms) -> snd a' = snd a ->
      foldM (build_method E g false s) l a = Ok r ->
      exists r', foldM (build_method E g true s) l a' = Ok r').
    { destruct (G _ _ ([], s_vtbl s) _ (fun x Hx => Hx) eq_refl H) as ([ts vt] & ->). cbn. eauto. }
    clear H acc. induction l as [|[mi m] l IH]; intros a a' r Hl Hs H; cbn [foldM] in *; [eauto|].
    apply obind_ok in H as (b & Hb & H).
    assert (Hmi : ms !! mi = Some m).
    { assert (Hin : (mi, m) ∈ imap pair ms) by (apply Hl; left).
      apply elem_of_list_lookup in Hin as [k Hk]. rewrite list_lookup_imap in Hk.
      destruct (ms !! k) as [m0|] eqn:Hm0; [|discriminate]. injection Hk as -> ->. exact Hm0. }
    destruct (Forall2_lookup_r _ _ _ _ _ HM Hmi) as (mr & Hmr & Hok).
    destruct (HC mi mr m Hmr Hmi) as [cov HCm].
    destruct (build_method_n2216 mi mr m cov s a a' b Hmr Hok HCm Hb Hs) as (b' & Hb' & Hs').
    rewrite Hb'. cbn [obind]. eapply IH; eauto. intros x Hx. apply Hl. right. exact Hx.
  Qed.
End Total.

Lemma compile_n2216 E R :
  env_ok E -> acyclic (e_ti E) R -> arity_ok R -> untangled (e_ti E) (e_void E) R ->
  orel (fun cp cp' => cp_graph cp' = cp_graph cp) (compile E false R) (compile E true R).
Proof.
  intros HE Hac Har HU. unfold compile.
  destruct (augment_classes E (reg_classes R)) as [g|e| |] eqn:Hg; try reflexivity; try exact I.
  cbn [obind]. destruct (augment_classes_inv E R HE Hac g Hg) as [_ HG].
  destruct (augment_methods E g (reg_methods R)) as [[ms u]|e| |] eqn:Hms; try reflexivity; try exact I.
  cbn [obind]. destruct (augment_methods_ok _ _ _ _ _ Hms) as (H1 & H2 & H3).
  destruct (assign_slots_ok E R g ms u HE HG H3) as (s & Hs & Hsok).
  rewrite Hs. cbn [obind].
  destruct (build_tables_total E g HE false ms s) as (T & HT).
  - intros m Hm. apply elem_of_list_lookup in Hm as [i Hi].
    destruct (Forall2_lookup_r _ _ _ _ _ H1 Hi) as (mr & Hmr & Hok).
    apply elem_of_list_lookup_2 in Hmr. destruct (Har mr Hmr) as [Hne Hl]. split; [|split].
    + intros Hnil. pose proof (method_ok_arity _ _ _ _ Hok) as Hlen. rewrite Hnil in Hlen.
      destruct (mr_vp mr); [contradiction|discriminate].
    + apply (ovs_arity E g mr m Hok Hl).
    + intros mask. destruct (build_cell_ok g (base_anti E R g HG) m mask) as (c & Hc & _). eauto.
  - intros mi m d vp c Hm Hd Hc. eapply slot_range; eauto.
  - destruct (build_tables_n2216 E R HE Hac Har g HG HU ms s T H1) as (T' & HT').
    + intros mi mr m Hmr Hm. eapply augment_methods_cov; eauto.
    + exact HT.
    + rewrite HT, HT'. reflexivity.
Qed.

(* initialize() ends in the same way with the option as without. *)
Theorem initialize_n2216 cf X R w :
  program_ok cf (r_env X) R -> world_ok w -> untangled (e_ti (r_env X)) (e_void (r_env X)) R ->
  (exists w' rep, initialize cf X true R w = (w', Ok rep)) <->
  (exists w' rep, initialize cf X false R w = (w', Ok rep)).
Proof.
  intros HP Hw HU. pose proof HP as [HE Hac Har Hids Hn HA].
  pose proof (compile_n2216 (r_env X) R HE Hac Har HU) as Hcomp.
  pose proof (compile_good (r_env X) R HE Hac Har) as Hgood.
  destruct (compile (r_env X) false R) as [cp|e| |] eqn:Hcp; try contradiction.
  - destruct (compile (r_env X) true R) as [cp'|e'| |] eqn:Hcp'; try contradiction. simpl in Hcomp.
    unfold initialize, install. rewrite Hcp, Hcp'.
    destruct (write_tables_ok _ R HE Hac Har false cp Hcp (w_fresh w) w) as (wr & gvt & Hwr & _).
    destruct (write_tables_ok _ R HE Hac Har true cp' Hcp' (w_fresh w) w) as (wr' & gvt' & Hwr' & _).
    rewrite Hwr, Hwr', Hcomp. cbv zeta. destruct (cf_vptr cf).
    + match goal with |- (exists _ _, match vector_initialize ?a ?b ?c ?d ?w with _ => _ end = _) <->
         (exists _ _, match vector_initialize _ _ _ ?d' ?w' with _ => _ end = _) =>
        pose proof (vector_initialize_any a b c d d' w w') as Hv end.
      destruct (vector_initialize _ _ _ (wr_static wr) _) as [[h1 [[v1 i1]|e1]]|e1| |],
        (vector_initialize _ _ _ (wr_static wr') _) as [[h2 [[v2 i2]|e2]]|e2| |];
        simpl in Hv; try contradiction; split; intros (? & ? & H); try discriminate H; eauto.
    + split; eauto.
    + split; eauto.
  - destruct (compile (r_env X) true R) as [cp'|e'| |] eqn:Hcp'; try contradiction.
    unfold initialize, install. rewrite Hcp, Hcp'. split; intros (? & ? & H); discriminate H.
Qed.

Theorem initialize_n2216_errors cf X R w e :
  program_ok cf (r_env X) R -> world_ok w -> untangled (e_ti (r_env X)) (e_void (r_env X)) R ->
  (exists w', initialize cf X true R w = (w', Err e)) <->
  (exists w', initialize cf X false R w = (w', Err e)).
Proof.
  intros HP Hw HU. pose proof HP as [HE Hac Har Hids Hn HA].
  pose proof (compile_n2216 (r_env X) R HE Hac Har HU) as Hcomp.
  pose proof (compile_good (r_env X) R HE Hac Har) as Hgood.
  destruct (compile (r_env X) false R) as [cp|e0| |] eqn:Hcp; try contradiction.
  - destruct (compile (r_env X) true R) as [cp'|e'| |] eqn:Hcp'; try contradiction. simpl in Hcomp.
    unfold initialize, install. rewrite Hcp, Hcp'.
    destruct (write_tables_ok _ R HE Hac Har false cp Hcp (w_fresh w) w) as (wr & gvt & Hwr & _).
    destruct (write_tables_ok _ R HE Hac Har true cp' Hcp' (w_fresh w) w) as (wr' & gvt' & Hwr' & _).
    rewrite Hwr, Hwr', Hcomp. cbv zeta. destruct (cf_vptr cf).
    + match goal with |- (exists _, match vector_initialize ?a ?b ?c ?d ?w with _ => _ end = _) <->
         (exists _, match vector_initialize _ _ _ ?d' ?w' with _ => _ end = _) =>
        pose proof (vector_initialize_any a b c d d' w w') as Hv end.
      destruct (vector_initialize _ _ _ (wr_static wr) _) as [[h1 [[v1 i1]|e1]]|e1| |],
        (vector_initialize _ _ _ (wr_static wr') _) as [[h2 [[v2 i2]|e2]]|e2| |];
        simpl in Hv; try contradiction; subst; split; intros (? & H); try discriminate H; 
        injection H as <- <-; eauto.
    + split; intros (? & H); discriminate H.
    + split; intros (? & H); discriminate H.
  - destruct (compile (r_env X) true R) as [cp'|e'| |] eqn:Hcp'; try contradiction. simpl in Hcomp. subst e'.
    unfold initialize, install. rewrite Hcp, Hcp'. reflexivity.
Qed.
