(* End to end: initialize, then call. *)
From stdpp Require Import base list numbers list_numbers relations.
From Verif Require Import Base Registry Spec ModelClasses ModelMethods ModelSlots ModelTables
  ModelHash ModelWorld ModelCall SpecCall
  ProofBase ProofClasses ProofGraph ProofMethods ProofBits ProofSlots ProofSelect ProofTables
  ProofCompile ProofErrors ProofEntries ProofWrite ProofHash ProofWorld ProofCall.

(* ---- the specification ---- *)
Section SpecFacts.
  Context (ti : N -> N) (R : registrations).
  Notation derives := (derives ti R).

  Lemma derives_antisym a b : acyclic ti R -> derives a b -> derives b a -> a = b.
  Proof.
    intros (rank & Hr) H1 H2.
    assert (G : forall a b, derives a b -> a = b \/ rank b < rank a).
    { intros x y H. induction H as [x|x y z Hxy _ IH]; [auto|].
      destruct (decide (x = y)) as [->|Hne]; [exact IH|]. specialize (Hr x y Hxy Hne).
      destruct IH as [->|]; [right; exact Hr|right; lia]. }
    destruct (G _ _ H1) as [|L1]; [assumption|]. destruct (G _ _ H2) as [|L2]; [auto|lia].
  Qed.

  Lemma selects_from_unique ovs cand s1 s2 :
    selects_from ti R ovs cand s1 -> selects_from ti R ovs cand s2 -> s1 = s2.
  Proof.
    destruct s1 as [| |i], s2 as [| |j]; simpl; intros H1 H2; try reflexivity.
    - destruct H2 as [[k Hk] _]. destruct (H1 k Hk).
    - destruct H2 as [[Hj _] _]. destruct (H1 j Hj).
    - destruct H1 as [[k Hk] _]. destruct (H2 k Hk).
    - destruct H1 as [_ H1]. destruct H1. exists j. exact H2.
    - destruct H1 as [[Hi _] _]. destruct (H2 i Hi).
    - destruct H2 as [_ H2]. destruct H2. exists i. exact H1.
    - destruct H1 as [Hi Hu]. destruct H2 as [Hj _]. f_equal. symmetry. apply Hu. exact Hj.
  Qed.

  (* Inheritance and dominance are decidable. *)
  Lemma rtc_list_dec (ps : list (N * N)) a b :
    rtc (fun x y => (x, y) ∈ ps) a b \/ ~ rtc (fun x y => (x, y) ∈ ps) a b.
  Proof.
    revert a b. induction ps as [|[u v] ps IH]; intros a b.
    - destruct (decide (a = b)) as [->|Hne]; [left; constructor|right].
      intros H. inversion H as [|? y ? Hy]; subst; [contradiction|inversion Hy].
    - assert (G : rtc (fun x y => (x, y) ∈ (u, v) :: ps) a b <->
        rtc (fun x y => (x, y) ∈ ps) a b \/
        (rtc (fun x y => (x, y) ∈ ps) a u /\ rtc (fun x y => (x, y) ∈ ps) v b)).
      { split.
        - induction 1 as [a|a y b Hay _ IHr]; [left; constructor|].
          apply elem_of_cons in Hay as [[= -> ->]|Hay].
          + right. split; [constructor|]. destruct IHr as [|[_ ?]]; assumption.
          + destruct IHr as [?|[? ?]]; [left|right; split; [|assumption]];
              (eapply rtc_l; [|eassumption]); exact Hay.
        - assert (M : forall x y, rtc (fun x y => (x, y) ∈ ps) x y -> rtc (fun x y => (x, y) ∈ (u, v) :: ps) x y).
          { intros x y H. induction H; [constructor|]. eapply rtc_l; [right; eassumption|assumption]. }
          intros [H|[H1 H2]]; [apply M; exact H|].
          etransitivity; [apply M; exact H1|]. eapply rtc_l; [left|apply M; exact H2]. }
      rewrite G. destruct (IH a b), (IH a u), (IH v b); tauto.
  Qed.

  Lemma pair_in c b : base_pair ti R c b <-> (c, b) ∈ pairs ti R.
  Proof.
    unfold pairs. rewrite elem_of_list_In, in_flat_map. split.
    - intros (cr & t & Hcr & Ht & <- & <-). exists cr. split; [apply elem_of_list_In; exact Hcr|].
      apply in_map_iff. exists t. split; [reflexivity|apply elem_of_list_In; exact Ht].
    - intros (cr & Hcr & Hin). apply in_map_iff in Hin as (t & [= <- <-] & Ht).
      exists cr, t. rewrite !elem_of_list_In. auto.
  Qed.

  Lemma derives_dec a b : derives a b \/ ~ derives a b.
  Proof.
    assert (G : forall a b, derives a b <-> rtc (fun x y => (x, y) ∈ pairs ti R) a b).
    { intros x y. split; induction 1; try constructor; (eapply rtc_l; [apply pair_in|]; eassumption). }
    rewrite G. apply rtc_list_dec.
  Qed.

  Lemma some_more_dec a b :
    some_more_specialized ti R a b \/ ~ some_more_specialized ti R a b.
  Proof.
    revert b. induction a as [|x a IH]; intros b.
    { right. intros (i & u & v & Hu & _). rewrite lookup_nil in Hu. discriminate. }
    destruct b as [|y b].
    { right. intros (i & u & v & _ & Hv & _). rewrite lookup_nil in Hv. discriminate. }
    destruct (IH b) as [(i & u & v & Hu & Hv & Hs)|Hn]; [left; exists (S i), u, v; auto|].
    destruct (derives_dec (ti x) (ti y)) as [Hd|Hd]; [destruct (decide (ti x = ti y)) as [He|He]|].
    - right. intros ([|i] & u & v & Hu & Hv & Hs); [|apply Hn; exists i, u, v; auto].
      injection Hu as <-. injection Hv as <-. destruct Hs. contradiction.
    - left. exists 0, x, y. split; [reflexivity|]. split; [reflexivity|]. split; assumption.
    - right. intros ([|i] & u & v & Hu & Hv & Hs); [|apply Hn; exists i, u, v; auto].
      injection Hu as <-. injection Hv as <-. destruct Hs. contradiction.
  Qed.

  Lemma dominates_dec a b : dominates ti R a b \/ ~ dominates ti R a b.
  Proof.
    unfold dominates. destruct (some_more_dec (or_vp a) (or_vp b)), (some_more_dec (or_vp b) (or_vp a)); tauto.
  Qed.

  (* Transitivity settles dominance, as there are finitely many candidates. *)
  Lemma dominators_dec (ovs : list overrider_record) (l : list nat) o :
    (exists j oj, j ∈ l /\ ovs !! j = Some oj /\ dominates ti R oj o) \/
    ~ (exists j oj, j ∈ l /\ ovs !! j = Some oj /\ dominates ti R oj o).
  Proof.
    induction l as [|k l IH]; [right; intros (j & oj & Hj & _); inversion Hj|].
    destruct IH as [(j & oj & Hj & H)|Hn]; [left; exists j, oj; split; [right; exact Hj|exact H]|].
    destruct (ovs !! k) as [ok|] eqn:Hk.
    - destruct (dominates_dec ok o) as [Hd|Hd]; [left; exists k, ok; split; [left|auto]|].
      right. intros (j & oj & Hj & Hoj & H). apply elem_of_cons in Hj as [->|Hj].
      + replace oj with ok in H by congruence. contradiction.
      + apply Hn. eauto.
    - right. intros (j & oj & Hj & Hoj & H). apply elem_of_cons in Hj as [->|Hj]; [congruence|].
      apply Hn. eauto.
  Qed.

  Lemma dominates_irrefl a : ~ dominates ti R a a.
  Proof. intros [H1 H2]. contradiction. Qed.

  Lemma list_settled (ovs : list overrider_record) (l : list nat) :
    (forall i j k a b c, ovs !! i = Some a -> ovs !! j = Some b -> ovs !! k = Some c ->
       i ∈ l -> j ∈ l -> k ∈ l -> dominates ti R a b -> dominates ti R b c -> dominates ti R a c) ->
    forall i oi j oj, ovs !! i = Some oi -> i ∈ l -> ovs !! j = Some oj -> j ∈ l -> dominates ti R oj oi ->
    exists t ot, ovs !! t = Some ot /\ t ∈ l /\ dominates ti R ot oi /\
      ~ exists k ok, k ∈ l /\ ovs !! k = Some ok /\ dominates ti R ok ot.
  Proof.
    intros Htr.
    assert (G : forall n (l' : list nat), length l' <= n -> (forall x, x ∈ l' -> x ∈ l) ->
      forall i oi j oj, ovs !! i = Some oi -> i ∈ l -> ovs !! j = Some oj -> j ∈ l -> dominates ti R oj oi ->
      (forall x ox, x ∈ l -> ovs !! x = Some ox -> dominates ti R ox oj -> x ∈ l') ->
      exists t ot, ovs !! t = Some ot /\ t ∈ l /\ dominates ti R ot oi /\
        ~ exists k ok, k ∈ l /\ ovs !! k = Some ok /\ dominates ti R ok ot).
    { induction n as [|n IH]; intros l' Hlen Hsub i oi j oj Hoi Hi Hoj Hj Hd Hin.
      - exists j, oj. split; [exact Hoj|]. split; [exact Hj|]. split; [exact Hd|].
        intros (k & ok & Hk & Hok & Hkd). specialize (Hin k ok Hk Hok Hkd).
        destruct l'; [inversion Hin|simpl in Hlen; lia].
      - destruct (dominators_dec ovs l oj) as [(k & ok & Hk & Hok & Hkd)|Hn].
        + apply (IH (filter (fun x => x <> k) l')) with (i := i) (j := k) (oj := ok); auto.
          * assert (Hkl : k ∈ l') by eauto.
            assert (length (filter (fun x => x <> k) l') < length l').
            { apply filter_length_lt with k; [exact Hkl|tauto]. }
            lia.
          * intros x Hx. apply elem_of_list_filter in Hx as [_ Hx]. auto.
          * eapply (Htr k j i); eauto.
          * intros x ox Hx Hox Hxk. apply elem_of_list_filter. split.
            -- intros ->. replace ox with ok in Hxk by congruence. destruct (dominates_irrefl _ Hxk).
            -- apply (Hin x ox Hx Hox). eapply (Htr x k j); eauto.
        + exists j, oj. auto. }
    intros i oi j oj Hoi Hi Hoj Hj Hd. apply (G (length l) l) with (i := i) (j := j) (oj := oj); auto.
  Qed.

  Lemma transitive_settled ovs cand :
    (exists l : list nat, forall i, i ∈ l <-> cand i) ->
    transitive_dominance ti R ovs cand -> settled ti R ovs cand.
  Proof.
    intros (l & Hl) Htr i oi Hoi Hi (j & oi' & oj & Hoi' & Hoj & Hj & Hd).
    replace oi' with oi in Hd by congruence.
    destruct (list_settled ovs l) with i oi j oj as (t & ot & Hot & Ht & Htd & Hn); try assumption.
    - intros x y z a b c Ha Hb Hc Hx Hy Hz. apply Hl in Hx, Hy, Hz. apply (Htr x y z); assumption.
    - apply Hl. exact Hi.
    - apply Hl. exact Hj.
    - exists t, ot. split; [exact Hot|]. split; [|exact Htd]. split; [apply Hl; exact Ht|].
      intros (k & ot' & ok & Hot' & Hok & Hk & Hkd). apply Hn. exists k, ok.
      split; [apply Hl; exact Hk|]. split; [exact Hok|congruence].
  Qed.

  Lemma best_settled (ovs : list overrider_record) (cand : nat -> Prop) i o :
    ovs !! i = Some o -> cand i ->
    (forall j oj, ovs !! j = Some oj -> cand j -> j <> i -> dominates ti R o oj) ->
    settled ti R ovs cand.
  Proof.
    intros Hoi Hi Hb k ok Hok Hk (j & ok' & oj & Hok' & Hoj & Hj & Hd).
    replace ok' with ok in Hd by congruence.
    assert (Hu : undominated ti R ovs cand i).
    { split; [exact Hi|]. intros (j' & oi' & oj' & Hoi' & Hoj' & Hj' & Hd').
      replace oi' with o in Hd' by congruence. destruct (decide (j' = i)) as [->|Hne].
      - replace oj' with o in Hd' by congruence. destruct (dominates_irrefl _ Hd').
      - destruct (Hb j' oj' Hoj' Hj' Hne) as [_ H]. apply H, Hd'. }
    exists i, o. split; [exact Hoi|]. split; [exact Hu|].
    destruct (decide (k = i)) as [->|Hne]; [|apply (Hb k ok Hok Hk Hne)].
    destruct (proj2 Hu). exists j, ok, oj. auto.
  Qed.

  Lemma applicable_dec args o : applicable ti R args o \/ ~ applicable ti R args o.
  Proof.
    unfold applicable. generalize (or_vp o). induction args as [|a args IH]; intros [|v vs].
    - left. constructor.
    - right. inversion 1.
    - right. inversion 1.
    - destruct (derives_dec a (ti v)) as [Hd|Hd]; [|right; inversion 1; contradiction].
      destruct (IH vs); [left; constructor; assumption|right; inversion 1; contradiction].
  Qed.

  Lemma candidates_listed ovs args : exists l : list nat, forall i, i ∈ l <-> candidate ti R ovs args i.
  Proof.
    assert (G : forall n, exists l : list nat, forall i, i ∈ l <-> i < n /\ candidate ti R ovs args i).
    { induction n as [|n (l & Hl)]; [exists []; intros i; split; [inversion 1|lia]|].
      assert (D : candidate ti R ovs args n \/ ~ candidate ti R ovs args n).
      { unfold candidate. destruct (ovs !! n) as [o|] eqn:Ho; [|right; intros (o & H & _); discriminate].
        destruct (applicable_dec args o); [left; eauto|right; intros (o' & [= <-] & H'); contradiction]. }
      destruct D as [D|D]; [exists (n :: l)|exists l]; intros i; rewrite ?elem_of_cons, Hl.
      - split; [intros [->|[? ?]]; split; auto; lia|]. intros [Hi Hc].
        destruct (decide (i = n)); [left; assumption|right; split; [lia|exact Hc]].
      - split; [intros [? ?]; split; [lia|assumption]|]. intros [Hi Hc]. split; [|exact Hc].
        destruct (decide (i = n)) as [->|]; [contradiction|lia]. }
    destruct (G (length ovs)) as (l & Hl). exists l. intros i. rewrite Hl. split; [tauto|].
    intros Hc. split; [|exact Hc]. destruct Hc as (o & Ho & _). eapply lookup_lt_Some; eauto.
  Qed.

  Lemma candidates_settled ovs args :
    transitive_dominance ti R ovs (candidate ti R ovs args) -> settled ti R ovs (candidate ti R ovs args).
  Proof. apply transitive_settled, candidates_listed. Qed.

  (* Dominance among the overriders of a method with one virtual parameter. *)
  Lemma uni_transitive m args :
    acyclic ti R -> arity_ok R -> m ∈ reg_methods R -> length (mr_vp m) = 1 ->
    transitive_dominance ti R (mr_overriders m) (candidate ti R (mr_overriders m) args).
  Proof.
    intros Hac Har Hm H1 i j k a b c Ha Hb Hc _ _ _ [(p1 & x & y & X1 & Y1 & S1) N1] [(p2 & y2 & z & Y2 & Z2 & S2) N2].
    destruct (Har m Hm) as [_ Ho].
    pose proof (Ho a (elem_of_list_lookup_2 _ _ _ Ha)) as La.
    pose proof (Ho b (elem_of_list_lookup_2 _ _ _ Hb)) as Lb.
    pose proof (Ho c (elem_of_list_lookup_2 _ _ _ Hc)) as Lc.
    assert (p1 = 0) as -> by (apply lookup_lt_Some in X1; lia).
    assert (p2 = 0) as -> by (apply lookup_lt_Some in Y2; lia).
    replace y2 with y in * by congruence. destruct S1 as [D1 E1]. destruct S2 as [D2 E2].
    split.
    - exists 0, x, z. split; [exact X1|]. split; [exact Z2|]. split.
      + etransitivity; eauto.
      + intros Heq. rewrite Heq in D1. apply E2. eapply derives_antisym; eauto.
    - intros (p & z' & x' & Z' & X' & D & Ne).
      assert (p = 0) as -> by (apply lookup_lt_Some in Z'; lia).
      replace z' with z in * by congruence. replace x' with x in * by congruence.
      apply Ne. eapply derives_antisym; eauto. etransitivity; eauto.
  Qed.
End SpecFacts.

Section Dispatch.
  Context (cf : config) (X : run) (R : registrations) (w w' : world) (rep : method_report).
  Notation E := (r_env X).
  Notation ti := (e_ti (r_env X)).
  Context (HP : program_ok cf E R) (HB : bases_first ti R) (Hw : world_ok w).

  Section Any.
  Context (n2216 : bool) (Hinit : initialize cf X n2216 R w = (w', Ok rep)).

  Lemma dispatch_cell mr all args :
    mr ∈ reg_methods R -> Forall2 (passes cf ti R w') (virtual_args all) args ->
    valid_args ti R mr args -> (length (mr_vp mr) <> 1 -> together all) ->
    exists cp mi m t gs cs is, compile E n2216 R = Ok cp /\
      cp_methods cp !! mi = Some m /\ reg_methods R !! mi = Some mr /\
      method_ok E (cp_graph cp) mr m /\ table_ok E (cp_graph cp) n2216 m gs t /\
      arg_classes (cp_graph cp) args cs /\
      Forall2 (fun c vp => c ∈ g_td (cp_graph cp) vp) cs (m_vp m) /\ in_groups gs cs is /\
      forall c, t_cells t !! flat_index (map length gs) is = Some c ->
        exists f, target_pf m (cl_target c) = Ok f /\ resolve cf w' mr all = Ok f.
  Proof.
    intros Hmr Hvs Hva Htog. destruct HP as [HE Hac Har Hids Hn HA].
    destruct (initialize_ok_inv cf X n2216 R w HE Hac Har w' rep Hids Hn Hw Hinit)
      as (cp & Hcp & _ & HI & _).
    pose proof (bases_first_complete E R HE Hac n2216 cp Hcp HB) as HT.
    destruct (call_cell E R HE Hac Har n2216 cp Hcp HA HT cf w w' HI mr all args Hmr Hvs Hva Htog)
      as (mi & m & t & gs & cs & is & H). exists cp, mi, m, t, gs, cs, is. split; [exact Hcp|exact H].
  Qed.
  End Any.

  Context (Hinit : initialize cf X false R w = (w', Ok rep)).

  (* Everything there is to know about the function entered by a call. *)
  Theorem dispatch mr all args :
    mr ∈ reg_methods R -> Forall2 (passes cf ti R w') (virtual_args all) args ->
    valid_args ti R mr args -> (length (mr_vp mr) <> 1 -> together all) ->
    let cand := candidate ti R (mr_overriders mr) args in
    exists sel f, resolve cf w' mr all = Ok f /\ selected_fn mr sel = Some f /\
      (sel = SNone <-> forall i, ~ cand i) /\
      (forall i, sel = SOverrider i -> cand i) /\
      (settled ti R (mr_overriders mr) cand -> selects ti R (mr_overriders mr) args sel) /\
      (forall i oi, mr_overriders mr !! i = Some oi -> cand i ->
         (forall j oj, mr_overriders mr !! j = Some oj -> cand j -> j <> i -> dominates ti R oi oj) ->
         sel = SOverrider i).
  Proof.
    intros Hmr Hvs Hva Htog cand.
    destruct (dispatch_cell false Hinit mr all args Hmr Hvs Hva Htog)
      as (cp & mi & m & t & gs & cs & is & Hcp & Hm & Hmi & Hmok & Htok & Hcs & Htd & Hin & Hres).
    destruct HP as [HE Hac Har Hids Hn HA].
    pose proof (co_graph _ _ _ _ (compile_inv E R HE Hac false cp Hcp)) as HG.
    assert (Hao : forall o, o ∈ mr_overriders mr -> length (or_vp o) = length (mr_vp mr))
      by (apply Har; exact Hmr).
    destruct (cell_selects E R (cp_graph cp) HE HG mr m Hmok Hao gs t args cs is Htok Hcs Htd Hin)
      as (c & l & Hcell & Hnd & Hl & Hck).
    destruct (Hres c Hcell) as (f & Hf & Hr).
    pose proof (ck_target _ _ _ _ Hck) as Helim.
    assert (Hlt : forall i, cand i -> i < length (mr_overriders mr)).
    { intros i (o & Ho & _). eapply lookup_lt_Some; eauto. }
    assert (Htin : match cl_target c with TOverrider i => i < length (mr_overriders mr) | _ => True end).
    { destruct (cl_target c) as [| |i] eqn:Ht; auto. apply Hlt, Hl. eapply elim_in; eauto. }
    destruct (target_fn E (cp_graph cp) mr m Hmok (cl_target c) Htin) as (f' & Hf' & Hs).
    assert (f' = f) as -> by congruence.
    exists (sel_of (cl_target c)), f. split; [exact Hr|]. split; [exact Hs|].
    assert (Hanti := base_anti E R (cp_graph cp) HG).
    split; [|split; [|split]].
    - assert (Hn0 := elim_none _ _ _ Helim). split.
      + intros H0 i Hi. apply Hl in Hi. assert (l = []) as ->.
        { apply Hn0. destruct (cl_target c); [reflexivity|discriminate|discriminate]. }
        inversion Hi.
      + intros H0. assert (l = []) as Hnil.
        { destruct l as [|x l']; [reflexivity|]. destruct (H0 x). apply Hl. left. }
        apply Hn0 in Hnil. rewrite Hnil. reflexivity.
    - intros i Hi. apply Hl. destruct (cl_target c) as [| |i'] eqn:Ht; try discriminate.
      injection Hi as <-. eapply elim_in; eauto.
    - intros Htr. eapply elim_selects; eauto.
    - intros i oi Hoi Hi Hbest.
      enough (cl_target c = TOverrider i) as -> by reflexivity.
      eapply (elim_best (ms_at (cp_graph cp) m)); [|exact Helim|exact Hnd|apply Hl; exact Hi|].
      { apply ms_at_asym. exact Hanti. }
      intros j Hj Hne. apply Hl in Hj. pose proof Hj as (oj & Hoj & _).
      eapply ms_iff; eauto.
  Qed.
End Dispatch.
