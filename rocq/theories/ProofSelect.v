(* select_dominant_overriders and build_cell: proofs about ModelTables.v. *)
From stdpp Require Import base list numbers list_numbers relations.
From Verif Require Import Base Registry Spec ModelClasses ModelMethods ModelSlots ModelTables
  ProofBase.

Lemma sublist_NoDup {A} (l1 l2 : list A) : sublist l1 l2 -> NoDup l2 -> NoDup l1.
Proof.
  induction 1 as [|x l1 l2 Hs IH|x l1 l2 Hs IH]; intros Hnd; [constructor| |].
  - apply NoDup_cons in Hnd as [Hx Hnd]. constructor; [|auto].
    intros Hin. apply Hx. eapply elem_of_submseteq; [exact Hin|]. apply sublist_submseteq. exact Hs.
  - apply NoDup_cons in Hnd as [_ Hnd]. auto.
Qed.

(* ---- elimination, for an arbitrary comparison ---- *)
Section Elim.
  Context (ms : nat -> nat -> bool).
  Context (Hasym : forall a b, ms a b = true -> ms b a = false).

  Lemma ms_irrefl a : ms a a = false.
  Proof. destruct (ms a a) eqn:H; [|reflexivity]. rewrite <- H. apply Hasym. exact H. Qed.

  Definition sub (cs' cs : candidates) : Prop :=
    Forall2 (fun o' o => o' = o \/ o' = None) cs' cs.

  Lemma sub_refl cs : sub cs cs.
  Proof. induction cs; constructor; auto. Qed.

  Lemma sub_trans a b c : sub a b -> sub b c -> sub a c.
  Proof.
    intros H. revert c. induction H as [|x y a b Hxy _ IH]; intros c Hc.
    - inversion Hc. constructor.
    - inversion Hc as [|? z ? c' Hyz Hbc]; subst. constructor; [|apply IH; exact Hbc].
      destruct Hxy as [->|]; auto.
  Qed.

  Lemma sub_elem cs' cs a : sub cs' cs -> Some a ∈ cs' -> Some a ∈ cs.
  Proof.
    induction 1 as [|x y cs' cs Hxy _ IH]; intros Ha; [inversion Ha|].
    apply elem_of_cons in Ha as [<-|Ha]; [|right; auto].
    destruct Hxy as [<-|]; [left|discriminate].
  Qed.

  Lemma inner_spec a js alive js' :
    dominate_inner ms a js = (alive, js') ->
    sub js' js /\
    (forall b, Some b ∈ js -> Some b ∈ js' \/ ms a b = true) /\
    (alive = false -> exists b, Some b ∈ js' /\ ms b a = true) /\
    (alive = true -> forall b, Some b ∈ js' -> ms a b = false /\ ms b a = false).
  Proof.
    revert alive js'. induction js as [|[b|] js IH]; intros alive js' H; simpl in H.
    - injection H as <- <-. split; [constructor|]. split; [intros b Hb; inversion Hb|].
      split; [discriminate|]. intros _ b Hb. inversion Hb.
    - destruct (ms a b) eqn:Hab; [|destruct (ms b a) eqn:Hba].
      + destruct (dominate_inner ms a js) as [al js1]. injection H as <- <-.
        destruct (IH al js1 eq_refl) as (I1 & I2 & I3 & I4).
        split; [constructor; auto|]. split.
        { intros c [[= ->]|Hc]%elem_of_cons; [auto|].
          destruct (I2 c Hc); [left; right|]; auto. }
        split.
        { intros Hal. destruct (I3 Hal) as (c & Hc & Hca). exists c. split; [right|]; auto. }
        intros Hal c [Hc|Hc]%elem_of_cons; [discriminate|]. auto.
      + injection H as <- <-. split; [apply sub_refl|]. split; [auto|].
        split; [|discriminate]. intros _. exists b. split; [left|exact Hba].
      + destruct (dominate_inner ms a js) as [al js1]. injection H as <- <-.
        destruct (IH al js1 eq_refl) as (I1 & I2 & I3 & I4).
        split; [constructor; auto|]. split.
        { intros c [[= ->]|Hc]%elem_of_cons; [left; left|].
          destruct (I2 c Hc); [left; right|]; auto. }
        split.
        { intros Hal. destruct (I3 Hal) as (c & Hc & Hca). exists c. split; [right|]; auto. }
        intros Hal c [[= ->]|Hc]%elem_of_cons; auto.
    - destruct (dominate_inner ms a js) as [al js1]. injection H as <- <-.
      destruct (IH al js1 eq_refl) as (I1 & I2 & I3 & I4).
      split; [constructor; auto|]. split.
      { intros c [Hc|Hc]%elem_of_cons; [discriminate|].
        destruct (I2 c Hc); [left; right|]; auto. }
      split.
      { intros Hal. destruct (I3 Hal) as (c & Hc & Hca). exists c. split; [right|]; auto. }
      intros Hal c [Hc|Hc]%elem_of_cons; [discriminate|]. auto.
  Qed.

  Lemma outer_spec k cs :
    length cs <= k ->
    let cs' := dominate_outer ms k cs in
    sub cs' cs /\
    (forall b, Some b ∈ cs -> Some b ∈ cs' \/ exists y, Some y ∈ cs /\ ms y b = true) /\
    (forall a b, Some a ∈ cs' -> Some b ∈ cs' -> ms a b = false) /\
    ((exists a, Some a ∈ cs) -> exists a, Some a ∈ cs').
  Proof.
    simpl. revert cs. induction k as [|k IH]; intros cs Hlen.
    - destruct cs; [|simpl in Hlen; lia]. simpl. split; [constructor|].
      split; [auto|]. split; [intros a b Ha; inversion Ha|auto].
    - destruct cs as [|[a|] js]; simpl in Hlen.
      + simpl. split; [constructor|]. split; [auto|].
        split; [intros a b Ha; inversion Ha|auto].
      + simpl. destruct (dominate_inner ms a js) as [alive js'] eqn:Hin.
        destruct (inner_spec _ _ _ _ Hin) as (I1 & I2 & I3 & I4).
        assert (Hl' : length js' = length js) by (eapply Forall2_length; exact I1).
        destruct (IH js') as (O1 & O2 & O3 & O4); [lia|].
        set (r := dominate_outer ms k js') in *.
        split; [constructor; [destruct alive; auto|eapply sub_trans; eauto]|].
        split.
        { intros b [[= ->]|Hb]%elem_of_cons.
          - destruct alive; [left; left|]. destruct (I3 eq_refl) as (y & Hy & Hya).
            right. exists y. split; [right; eapply sub_elem; eauto|exact Hya].
          - destruct (I2 b Hb) as [Hb'|Hab].
            + destruct (O2 b Hb') as [?|(y & Hy & Hyb)]; [left; right; assumption|].
              right. exists y. split; [right; eapply sub_elem; eauto|exact Hyb].
            + right. exists a. split; [left|exact Hab]. }
        split.
        { assert (Hr : forall b, Some b ∈ r -> Some b ∈ js').
          { intros b. apply sub_elem. exact O1. }
          intros x y [Hx|Hx]%elem_of_cons [Hy|Hy]%elem_of_cons; destruct alive; try discriminate;
            try (injection Hx as ->); try (injection Hy as ->).
          - apply ms_irrefl.
          - apply (I4 eq_refl). auto.
          - apply (I4 eq_refl). auto.
          - apply O3; assumption.
          - apply O3; assumption. }
        intros _. destruct alive; [exists a; left|].
        destruct (I3 eq_refl) as (y & Hy & _). destruct O4 as (z & Hz); [eauto|].
        exists z. right. exact Hz.
      + simpl. destruct (IH js) as (O1 & O2 & O3 & O4); [lia|].
        set (r := dominate_outer ms k js) in *.
        split; [constructor; auto|]. split.
        { intros b [Hb|Hb]%elem_of_cons; [discriminate|].
          destruct (O2 b Hb) as [?|(y & Hy & Hyb)]; [left; right; assumption|].
          right. exists y. split; [right|]; assumption. }
        split.
        { intros x y [Hx|Hx]%elem_of_cons [Hy|Hy]%elem_of_cons; try discriminate. auto. }
        intros (x & [Hx|Hx]%elem_of_cons); [discriminate|].
        destruct O4 as (z & Hz); [eauto|]. exists z. right. exact Hz.
  Qed.

  (* Number of candidates left. *)
  Definition alive (cs : candidates) : list nat := omap id cs.

  Lemma alive_elem cs a : a ∈ alive cs <-> Some a ∈ cs.
  Proof.
    unfold alive. rewrite elem_of_list_omap. split.
    - intros (x & Hx & Hid). unfold id in Hid. subst x. exact Hx.
    - intros Hx. exists (Some a). auto.
  Qed.

  Lemma survey_spec i cs pick rem :
    let r := survey i cs pick rem in
    snd r = rem + length (alive cs) /\
    (alive cs = [] -> fst r = pick) /\
    (alive cs <> [] -> exists a, i <= fst r /\ cs !! (fst r - i) = Some (Some a)).
  Proof.
    simpl. revert i pick rem. induction cs as [|[a|] cs IH]; intros i pick rem.
    - simpl. split; [lia|]. split; [auto|]. intros H. contradiction.
    - change (survey i (Some a :: cs) pick rem) with (survey (S i) cs i (S rem)).
      change (alive (Some a :: cs)) with (a :: alive cs).
      destruct (IH (S i) i (S rem)) as (I1 & I2 & I3).
      split; [simpl; lia|]. split; [discriminate|]. intros _.
      destruct (decide (alive cs = [])) as [Hn|Hn].
      + exists a. rewrite (I2 Hn), Nat.sub_diag. split; [lia|reflexivity].
      + destruct (I3 Hn) as (b & Hle & Hb). exists b. split; [lia|].
        destruct (fst _ - i) as [|j] eqn:Hj; [lia|]. simpl.
        replace j with (fst (survey (S i) cs i (S rem)) - S i) by lia. exact Hb.
    - change (survey i (None :: cs) pick rem) with (survey (S i) cs pick rem).
      change (alive (None :: cs)) with (alive cs).
      destruct (IH (S i) pick rem) as (I1 & I2 & I3).
      split; [exact I1|]. split; [exact I2|]. intros Hn.
      destruct (I3 Hn) as (b & Hle & Hb). exists b. split; [lia|].
      destruct (fst _ - i) as [|j] eqn:Hj; [lia|]. simpl.
      replace j with (fst (survey (S i) cs pick rem) - S i) by lia. exact Hb.
  Qed.

  (* [surv] is what is left of [l] by the elimination. *)
  Record survivors (l surv : list nat) : Prop := {
    sv_sub : forall x, x ∈ surv -> x ∈ l;
    sv_out : forall x, x ∈ l -> x ∈ surv \/ exists y, y ∈ l /\ ms y x = true;
    sv_free : forall x y, x ∈ surv -> y ∈ surv -> ms x y = false;
    sv_some : l <> [] -> surv <> []
  }.

  (* A target that agrees with the elimination. *)
  Definition elim (l : list nat) (t : target) : Prop :=
    exists surv, survivors l surv /\ NoDup surv /\
      match t with
      | TNotImplemented => l = []
      | TOverrider i => surv = [i]
      | TAmbiguous => 1 < length surv
      end.

  Lemma alive_sub cs' cs : sub cs' cs -> sublist (alive cs') (alive cs).
  Proof.
    induction 1 as [|x y cs' cs Hxy _ IH]; [constructor|].
    destruct Hxy as [->| ->]; destruct y as [a|]; cbn; try exact IH; constructor; exact IH.
  Qed.

  Lemma outer_survivors cs :
    survivors (alive cs) (alive (dominate_outer ms (length cs) cs)).
  Proof.
    destruct (outer_spec (length cs) cs ltac:(lia)) as (O1 & O2 & O3 & O4). split.
    - intros x. rewrite !alive_elem. apply sub_elem. exact O1.
    - intros x. rewrite !alive_elem. intros Hx. destruct (O2 x Hx) as [?|(y & Hy & Hyx)]; [auto|].
      right. exists y. rewrite alive_elem. auto.
    - intros x y. rewrite !alive_elem. apply O3.
    - intros Hne. destruct (alive cs) as [|a l] eqn:Ha; [contradiction|].
      destruct O4 as (b & Hb).
      + exists a. apply alive_elem. rewrite Ha. left.
      + apply alive_elem in Hb. intros Hnil. rewrite Hnil in Hb. inversion Hb.
  Qed.

  Definition top (l : list nat) (x : nat) : Prop := x ∈ l /\ forall y, y ∈ l -> ms y x = false.

  Section Transitive.
    Context (l : list nat).
    Context (Htrans : forall x y z, x ∈ l -> y ∈ l -> z ∈ l ->
      ms x y = true -> ms y z = true -> ms x z = true).

    Lemma top_exists x : x ∈ l -> exists y, top l y /\ (y = x \/ ms y x = true).
    Proof.
      set (up := fun x => filter (fun y => ms y x = true) l).
      assert (G : forall k x, length (up x) < k -> x ∈ l ->
                    exists y, top l y /\ (y = x \/ ms y x = true)).
      { induction k as [|k IH]; intros z Hk Hz; [lia|].
        destruct (up z) as [|y r] eqn:Hup.
        - exists z. split; [|auto]. split; [exact Hz|]. intros y Hy.
          destruct (ms y z) eqn:Hyz; [|reflexivity]. exfalso.
          assert (H : y ∈ up z) by (apply elem_of_list_filter; auto).
          rewrite Hup in H. inversion H.
        - assert (Hy : y ∈ up z) by (rewrite Hup; left).
          apply elem_of_list_filter in Hy as [Hyz Hyl].
          destruct (IH y) as (t & Ht & Hty); [|exact Hyl|].
          + assert (length (up y) < length (up z)); [|rewrite Hup in *; simpl in *; lia].
            unfold up. clear Hup IH Hk. 
            assert (Hle : forall l', (forall w, w ∈ l' -> w ∈ l) ->
              length (filter (fun w => ms w y = true) l') <=
              length (filter (fun w => ms w z = true) l') /\
              (y ∈ l' -> length (filter (fun w => ms w y = true) l') <
              length (filter (fun w => ms w z = true) l'))).
            { induction l' as [|w l' IH]; intros Hl'; [split; [auto|intros H; inversion H]|].
              destruct IH as [IH1 IH2]; [intros v Hv; apply Hl'; right; exact Hv|].
              rewrite !filter_cons.
              destruct (decide (ms w y = true)) as [Hwy|Hwy];
                destruct (decide (ms w z = true)) as [Hwz|Hwz]; simpl.
              - split; [lia|]. intros [->|Hin]%elem_of_cons; [|specialize (IH2 Hin); lia].
                rewrite ms_irrefl in Hwy. discriminate.
              - exfalso. apply Hwz. apply (Htrans w y z); auto. apply Hl'. left.
              - split; [lia|]. lia.
              - split; [lia|]. intros [->|Hin]%elem_of_cons; [congruence|auto]. }
            apply (proj2 (Hle l ltac:(auto))). exact Hyl.
          + exists t. split; [exact Ht|]. right.
            destruct Hty as [->|Hty]; [exact Hyz|].
            apply (Htrans t y z); auto. apply Ht. }
      intros Hx. apply (G (S (length (up x))) x); [lia|exact Hx].
    Qed.

  End Transitive.

  (* Each candidate that has a dominator has one that has none. *)
  Definition settled_at (l : list nat) : Prop :=
    forall x y, x ∈ l -> y ∈ l -> ms y x = true -> exists t, top l t /\ ms t x = true.

  Lemma transitive_settled_at l :
    (forall x y z, x ∈ l -> y ∈ l -> z ∈ l -> ms x y = true -> ms y z = true -> ms x z = true) ->
    settled_at l.
  Proof.
    intros Htr x y Hx Hy Hyx. destruct (top_exists l Htr x Hx) as (t & Ht & [->|Htx]); [|eauto].
    rewrite (proj2 Ht y Hy) in Hyx. discriminate.
  Qed.

  (* The survivors are then the candidates that no other candidate dominates. *)
  Section Settled.
    Context (l : list nat) (Hset : settled_at l).

    Lemma survivors_top surv x : survivors l surv -> x ∈ surv <-> top l x.
    Proof.
      intros [S1 S2 S3 S4]. split.
      - intros Hx. split; [exact (S1 x Hx)|]. intros y0 Hy0.
        destruct (ms y0 x) eqn:Hy0x; [|reflexivity].
        destruct (Hset x y0 (S1 x Hx) Hy0 Hy0x) as (y & Hy & Hyx).
        exfalso. destruct (S2 y (proj1 Hy)) as [Hys|(z & Hz & Hzy)].
        + rewrite (S3 y x Hys Hx) in Hyx. discriminate.
        + rewrite (proj2 Hy z Hz) in Hzy. discriminate.
      - intros [Hx Htop]. destruct (S2 x Hx) as [?|(y & Hy & Hyx)]; [assumption|].
        rewrite (Htop y Hy) in Hyx. discriminate.
    Qed.
  End Settled.

  (* With no assumption on the comparison: a candidate that dominates all the
     others is selected. *)
  Lemma elim_best l t i :
    elim l t -> NoDup l -> i ∈ l -> (forall j, j ∈ l -> j <> i -> ms i j = true) ->
    t = TOverrider i.
  Proof.
    intros (surv & [S1 S2 S3 S4] & Hnd & Ht) Hl Hi Hbest.
    assert (His : i ∈ surv).
    { destruct (S2 i Hi) as [?|(y & Hy & Hyi)]; [assumption|].
      destruct (decide (y = i)) as [->|Hne]; [rewrite ms_irrefl in Hyi; discriminate|].
      rewrite (Hasym _ _ (Hbest y Hy Hne)) in Hyi. discriminate. }
    assert (Hall : forall j, j ∈ surv -> j = i).
    { intros j Hj. destruct (decide (j = i)) as [|Hne]; [assumption|].
      pose proof (S3 i j His Hj) as H. rewrite (Hbest j (S1 j Hj) Hne) in H. discriminate. }
    destruct t as [| |k].
    - subst l. inversion Hi.
    - exfalso. destruct surv as [|a [|b r]]; simpl in Ht; try lia.
      assert (a = i) as -> by (apply Hall; left).
      assert (b = i) as -> by (apply Hall; right; left).
      apply NoDup_cons in Hnd as [Hn _]. apply Hn. left.
    - subst surv. apply elem_of_list_singleton in His. congruence.
  Qed.

  Lemma elim_in l i : elim l (TOverrider i) -> i ∈ l.
  Proof. intros (surv & [S1 _ _ _] & _ & ->). apply S1. left. Qed.

  Lemma elim_none l t : elim l t -> t = TNotImplemented <-> l = [].
  Proof.
    intros (surv & [S1 S2 S3 S4] & _ & Ht). split; [intros ->; exact Ht|].
    intros ->. assert (surv = []) as ->.
    { destruct surv as [|a s]; [reflexivity|]. specialize (S1 a ltac:(left)). inversion S1. }
    destruct t; [reflexivity|simpl in Ht; lia|discriminate].
  Qed.

  (* The result of the elimination does not depend on the order of the
     candidates. *)
  Lemma elim_top l t :
    settled_at l -> elim l t ->
    match t with
    | TNotImplemented => l = []
    | TOverrider i => top l i /\ forall j, top l j -> j = i
    | TAmbiguous => l <> [] /\ ~ exists i, top l i /\ forall j, top l j -> j = i
    end.
  Proof.
    intros Htr (surv & HS & Hnd & Ht).
    pose proof (fun x => survivors_top l Htr surv x HS) as Htop.
    destruct t as [| |i]; [exact Ht| |].
    - destruct surv as [|a [|b r]]; simpl in Ht; try lia. split.
      + intros ->. pose proof (sv_sub _ _ HS a ltac:(left)) as H. inversion H.
      + intros (i & _ & Hi).
        assert (a = i) as -> by (apply Hi, Htop; left).
        assert (b = i) as -> by (apply Hi, Htop; right; left).
        apply NoDup_cons in Hnd as [Hn _]. apply Hn. left.
    - subst surv. split; [apply Htop; left|].
      intros j Hj. apply Htop in Hj. apply elem_of_list_singleton in Hj. exact Hj.
  Qed.
End Elim.

(* ---- is_more_specific ---- *)

Section Specific.
  Context (g : graph).

  Definition strict_at (a b : list nat) : Prop :=
    exists i x y, a !! i = Some x /\ b !! i = Some y /\ x <> y /\ is_base_of g y x = true.

  Lemma strict_at_cons x a y b :
    strict_at (x :: a) (y :: b) <-> (x <> y /\ is_base_of g y x = true) \/ strict_at a b.
  Proof.
    split.
    - intros ([|i] & u & v & Hu & Hv & H); simpl in Hu, Hv.
      + left. injection Hu as ->. injection Hv as ->. exact H.
      + right. exists i, u, v. auto.
    - intros [H|(i & u & v & Hu & Hv & H)].
      + exists 0, x, y. auto.
      + exists (S i), u, v. auto.
  Qed.

  Lemma strict_at_nil_l b : ~ strict_at [] b.
  Proof. intros (i & x & y & H & _). rewrite lookup_nil in H. discriminate. Qed.
  Lemma strict_at_nil_r a : ~ strict_at a [].
  Proof. intros (i & x & y & _ & H & _). rewrite lookup_nil in H. discriminate. Qed.

  (* Two different classes do not derive from each other. *)
  Context (Hanti : forall x y, is_base_of g x y = true -> is_base_of g y x = true -> x = y).

  Lemma more_specific_loop_spec a b r :
    more_specific_loop g a b r = true <->
    (r = true \/ strict_at a b) /\ ~ strict_at b a.
  Proof.
    revert b r. induction a as [|x a IH]; intros b r.
    { simpl. pose proof (strict_at_nil_l b). pose proof (strict_at_nil_r b). tauto. }
    destruct b as [|y b].
    { simpl. pose proof (strict_at_nil_l (x :: a)). pose proof (strict_at_nil_r (x :: a)).
      tauto. }
    cbn [more_specific_loop]. rewrite !strict_at_cons.
    destruct (decide (x = y)) as [->|Hne].
    - rewrite IH. split.
      + intros [H1 H2]. split; [tauto|]. intros [[H _]|H]; [congruence|tauto].
      + intros [H1 H2]. split; [|tauto]. destruct H1 as [?|[[H _]|?]]; [tauto|congruence|tauto].
    - destruct (is_base_of g y x) eqn:Hyx.
      + rewrite IH. split.
        * intros [H1 H2]. split; [auto|]. intros [[_ H]|H]; [|tauto].
          apply Hne. apply Hanti; assumption.
        * intros [H1 H2]. split; [auto|tauto].
      + destruct (is_base_of g x y) eqn:Hxy.
        * split; [discriminate|]. intros [_ H]. exfalso. apply H. left. auto.
        * rewrite IH. split.
          -- intros [H1 H2]. split; [tauto|]. intros [[_ H]|H]; [discriminate|tauto].
          -- intros [H1 H2]. split; [|tauto]. destruct H1 as [?|[[_ H]|?]]; [tauto|discriminate|tauto].
  Qed.

  Lemma ms_at_asym m a b : ms_at g m a b = true -> ms_at g m b a = false.
  Proof.
    unfold ms_at, is_more_specific.
    destruct (m_ovs m !! a) as [oa|], (m_ovs m !! b) as [ob|]; try discriminate.
    intros H. apply more_specific_loop_spec in H as [[H|H] Hn]; [discriminate|].
    destruct (more_specific_loop _ _ _ _) eqn:H'; [|reflexivity].
    apply more_specific_loop_spec in H' as [_ H']. tauto.
  Qed.

  (* ---- select_dominant_overriders without n2216, and one cell ---- *)

  Lemma select_plain m cs :
    exists cs' p r,
      select_dominant_overriders g false m cs = Ok (cs', p, r) /\
      sub cs' cs /\ survivors (ms_at g m) (alive cs) (alive cs') /\
      r = length (alive cs') /\
      (r <> 0 -> exists a, cs' !! p = Some (Some a)).
  Proof.
    unfold select_dominant_overriders.
    set (cs' := dominate_outer (ms_at g m) (length cs) cs).
    pose proof (survey_spec 0 cs' 0 0) as (S1 & S2 & S3).
    destruct (survey 0 cs' 0 0) as [p r]. simpl in S1, S2, S3.
    exists cs', p, r. split; [case_decide; reflexivity|].
    split; [apply outer_spec; [apply ms_at_asym|lia]|].
    split; [apply outer_survivors; apply ms_at_asym|]. split; [exact S1|].
    intros Hr. destruct S3 as (a & _ & Ha).
    - intros Hn. rewrite Hn in S1. simpl in S1. lia.
    - rewrite Nat.sub_0_r in Ha. eauto.
  Qed.

  (* The overriders whose bit is set. *)
  Definition mask_set (m : cmethod) (mask : bitset) : list nat :=
    filter (fun i => bit mask i = true) (seq 0 (length (m_ovs m))).

  Lemma mask_set_nodup m mask : NoDup (mask_set m mask).
  Proof. apply NoDup_filter, NoDup_seq. Qed.

  Lemma alive_map_some (l : list nat) : alive (map Some l) = l.
  Proof. induction l as [|a l IH]; [reflexivity|]. cbn. f_equal. exact IH. Qed.

  Lemma remove_dominants_spec (l : list nat) doms :
    sub doms (map Some l) ->
    let '(ovs, r) := remove_dominants (map Some l) doms in
    r = length (alive ovs) /\ sublist (alive ovs) l /\
    (NoDup l -> forall x, x ∈ alive ovs <-> x ∈ l /\ x ∉ alive doms).
  Proof.
    revert doms. induction l as [|a l IH]; intros doms Hs.
    - inversion Hs; subst. simpl. split; [reflexivity|]. split; [constructor|].
      intros _ x. split; [intros H; inversion H|tauto].
    - inversion Hs as [|d ? doms' ? Hd Hs']; subst. simpl.
      specialize (IH doms' Hs'). destruct (remove_dominants (map Some l) doms') as [ovs r].
      destruct IH as (-> & Hsl & Hiff).
      assert (Hd' : forall x, x ∈ alive doms' -> x ∈ l).
      { intros x Hx. apply alive_elem in Hx. apply (sub_elem _ _ x Hs') in Hx.
        apply elem_of_list_fmap in Hx as (y & [= ->] & Hy). exact Hy. }
      destruct (decide (Some a = d)) as [<-|Hne].
      + change (alive (None :: ovs)) with (alive ovs).
        split; [reflexivity|]. split; [apply sublist_cons; exact Hsl|].
        intros [Ha Hnd]%NoDup_cons x. rewrite (Hiff Hnd x).
        change (alive (Some a :: doms')) with (a :: alive doms').
        rewrite !elem_of_cons. split.
        * intros [Hx Hn]. split; [auto|]. intros [->|?]; auto.
        * intros [[->|Hx] Hn]; [exfalso; apply Hn; auto|]. split; [exact Hx|]. tauto.
      + destruct Hd as [->|Hd]; [contradiction|]. subst d.
        change (alive (Some a :: ovs)) with (a :: alive ovs).
        change (alive (None :: doms')) with (alive doms').
        split; [reflexivity|]. split; [apply sublist_skip; exact Hsl|].
        intros [Ha Hnd]%NoDup_cons x. rewrite !elem_of_cons, (Hiff Hnd x). split.
        * intros [->|[Hx Hn]]; [|auto]. split; [auto|]. intros Hx. auto.
        * intros [[->|Hx] Hn]; auto.
  Qed.

  (* What a cell must contain, given the applicable overriders. *)
  Record cell_ok (m : cmethod) (l : list nat) (c : cell) : Prop := {
    ck_target : elim (ms_at g m) l (cl_target c);
    ck_next : match cl_target c with
      | TOverrider o => exists t l', cl_next c = Some (o, t) /\ NoDup l' /\
          (forall x, x ∈ l' <-> x ∈ l /\ x <> o) /\ elim (ms_at g m) l' t
      | _ => cl_next c = None
      end;
    ck_ambiguous : cl_ambiguous c = true <-> cl_target c = TAmbiguous
  }.

  Lemma build_cell_ok m mask :
    exists c, build_cell g false m mask = Ok c /\ cell_ok m (mask_set m mask) c.
  Proof.
    unfold build_cell. fold (mask_set m mask). set (l := mask_set m mask).
    assert (Hl : NoDup l) by apply mask_set_nodup.
    destruct (select_plain m (map Some l)) as (ds & p & r & Hsel & Hsub & Hsurv & Hr & Hp).
    rewrite Hsel. cbn [obind]. rewrite alive_map_some in Hsurv.
    assert (Hnd : NoDup (alive ds)).
    { pose proof (alive_sub _ _ Hsub) as Hsl. rewrite alive_map_some in Hsl.
      eapply sublist_NoDup; eauto. }
    destruct (decide (r = 0)) as [Hr0|Hr0].
    { eexists. split; [reflexivity|]. split; simpl; [|reflexivity|split; discriminate].
      exists (alive ds). split; [exact Hsurv|]. split; [exact Hnd|].
      destruct l as [|a l'] eqn:Hll; [reflexivity|]. exfalso.
      apply (sv_some _ _ _ Hsurv); [discriminate|]. apply nil_length_inv. lia. }
    destruct (decide (false = false /\ 1 < r)) as [[_ Hr1]|Hr1].
    { eexists. split; [reflexivity|]. split; simpl; [|reflexivity|split; reflexivity].
      exists (alive ds). split; [exact Hsurv|]. split; [exact Hnd|]. lia. }
    assert (r = 1) as Hr1' by (destruct (decide (1 < r)); [exfalso; auto|lia]).
    destruct (Hp Hr0) as (o & Ho).
    assert (Hds : alive ds = [o]).
    { assert (Hin : o ∈ alive ds) by (apply alive_elem; eapply elem_of_list_lookup_2; eauto).
      destruct (alive ds) as [|a [|b s]]; simpl in Hr; try lia.
      apply elem_of_list_singleton in Hin as ->. reflexivity. }
    assert (Hdo : at_ ds p = Ok (Some o)) by (apply at_ok; exact Ho).
    rewrite Hdo. cbn [obind deref].
    assert (Hel : elim (ms_at g m) l (TOverrider o)).
    { exists (alive ds). split; [exact Hsurv|]. split; [exact Hnd|exact Hds]. }
    assert (Hamb : bool_decide (1 < r) = false) by (apply bool_decide_eq_false_2; lia).
    rewrite Hamb.
    pose proof (remove_dominants_spec l ds Hsub) as Hrem.
    destruct (remove_dominants (map Some l) ds) as [ovs rem].
    destruct Hrem as (Hrem & Hsl & Hiff).
    assert (Hiff' : forall x, x ∈ alive ovs <-> x ∈ l /\ x <> o).
    { intros x. rewrite (Hiff Hl x), Hds, elem_of_list_singleton. reflexivity. }
    assert (Hnd' : NoDup (alive ovs)) by (eapply sublist_NoDup; eauto).
    destruct (decide (rem = 0)) as [Hrem0|Hrem0].
    { eexists. split; [reflexivity|]. split; simpl; [exact Hel| |split; discriminate].
      exists TNotImplemented, (alive ovs). split; [reflexivity|]. split; [exact Hnd'|].
      split; [exact Hiff'|].
      assert (Hnil : alive ovs = []) by (apply nil_length_inv; lia).
      exists []. rewrite Hnil. split; [|split; [constructor|reflexivity]].
      split; auto; intros x y H; inversion H. }
    destruct (select_plain m ovs) as (ns & p2 & r2 & Hsel2 & Hsub2 & Hsurv2 & Hr2 & Hp2).
    rewrite Hsel2. cbn [obind].
    assert (Hnd2 : NoDup (alive ns)).
    { eapply sublist_NoDup; [|exact Hnd']. apply alive_sub. exact Hsub2. }
    destruct (decide (false = false /\ 1 < r2)) as [[_ H1]|H1].
    { eexists. split; [reflexivity|]. split; simpl; [exact Hel| |split; discriminate].
      exists TAmbiguous, (alive ovs). split; [reflexivity|]. split; [exact Hnd'|].
      split; [exact Hiff'|]. exists (alive ns). split; [exact Hsurv2|].
      split; [exact Hnd2|]. lia. }
    assert (Hr20 : r2 <> 0).
    { intros H0. apply (sv_some _ _ _ Hsurv2); [|apply nil_length_inv; lia].
      intros Hnil. rewrite Hnil in Hrem. simpl in Hrem. lia. }
    assert (Hr21 : r2 = 1) by (destruct (decide (1 < r2)); [exfalso; auto|lia]).
    destruct (Hp2 Hr20) as (x & Hx).
    assert (Hns : alive ns = [x]).
    { assert (Hin : x ∈ alive ns) by (apply alive_elem; eapply elem_of_list_lookup_2; eauto).
      destruct (alive ns) as [|a [|b s]]; simpl in Hr2; try lia.
      apply elem_of_list_singleton in Hin as ->. reflexivity. }
    assert (Hat : at_ ns p2 = Ok (Some x)) by (apply at_ok; exact Hx).
    rewrite Hat. cbn [obind deref].
    eexists. split; [reflexivity|]. split; simpl; [exact Hel| |split; discriminate].
    exists (TOverrider x), (alive ovs). split; [reflexivity|]. split; [exact Hnd'|].
    split; [exact Hiff'|]. exists (alive ns). split; [exact Hsurv2|]. split; [exact Hnd2|exact Hns].
  Qed.
End Specific.
