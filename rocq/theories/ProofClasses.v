(* augment_classes: proofs about ModelClasses.v. *)
From stdpp Require Import base list numbers relations.
From Verif Require Import Base Registry Spec ModelClasses ProofBase.

(* ------------------------------------------------------------------------- *)
(* First loop: one entry per class. *)

Section AddClasses.
  Context (ti : N -> N).

  Record classes_ok (l : list class_record) (cs : list class_entry) (cm : class_map) : Prop := {
    co_lt : forall a i, cm a = Some i -> i < length cs;
    co_inj : forall a b i, cm a = Some i -> cm b = Some i -> a = b;
    co_dom : forall a, is_Some (cm a) <-> exists cr, cr ∈ l /\ ti (cr_type cr) = a;
    co_entry : forall i e, cs !! i = Some e ->
      exists a cr, cm a = Some i /\
        head (filter (fun cr => ti (cr_type cr) = a) l) = Some cr /\
        ce_static_vptr e = cr_static_vptr cr /\
        ce_abstract e = cr_abstract cr /\
        head (ce_type_ids e) = Some (cr_type cr) /\
        NoDup (ce_type_ids e) /\
        (forall t, t ∈ ce_type_ids e <-> exists cr, cr ∈ l /\ cr_type cr = t /\ ti t = a)
  }.

  Lemma push_type_id_elem t e t' :
    t' ∈ ce_type_ids (push_type_id t e) <-> t' ∈ ce_type_ids e \/ t' = t.
  Proof.
    unfold push_type_id. case_decide as H; simpl.
    - split; [auto|]. intros [?| ->]; auto.
    - rewrite elem_of_app, elem_of_list_singleton. reflexivity.
  Qed.

  Lemma push_type_id_nodup t e :
    NoDup (ce_type_ids e) -> NoDup (ce_type_ids (push_type_id t e)).
  Proof.
    intros H. unfold push_type_id. case_decide as Ht; simpl; [exact H|].
    apply NoDup_app. split; [exact H|]. split.
    - intros x Hx. rewrite elem_of_list_singleton. intros ->. auto.
    - apply NoDup_singleton.
  Qed.

  Lemma add_class_ok l cs cm cr cs' cm' :
    classes_ok l cs cm -> add_class ti (cs, cm) cr = (cs', cm') ->
    classes_ok (l ++ [cr]) cs' cm'.
  Proof.
    intros [Hlt Hinj Hdom Hent] Hadd. unfold add_class in Hadd.
    destruct (cm (ti (cr_type cr))) as [id|] eqn:Hcm.
    - (* class already known *)
      injection Hadd as <- <-.
      split.
      + intros a i Ha. rewrite alter_length. eauto.
      + exact Hinj.
      + intros a. rewrite Hdom. split.
        * intros (cr' & Hin & <-). exists cr'. split; [|reflexivity].
          apply elem_of_app. auto.
        * intros (cr' & Hin & <-). apply elem_of_app in Hin as [Hin|Hin].
          { exists cr'. auto. }
          apply elem_of_list_singleton in Hin as ->. apply Hdom. eauto.
      + intros i e He. destruct (decide (i = id)) as [->|Hne].
        * rewrite list_lookup_alter in He. apply fmap_Some in He as (e0 & He0 & ->).
          destruct (Hent id e0 He0) as (a & cr0 & Ha & Hhd & Hs & Hab & Hty & Hnd & Hids).
          assert (a = ti (cr_type cr)) as -> by eauto.
          exists (ti (cr_type cr)), cr0. split; [exact Ha|]. split.
          { rewrite filter_app. destruct (filter _ l); [discriminate|exact Hhd]. }
          assert (ce_static_vptr (push_type_id (cr_type cr) e0) = ce_static_vptr e0) as ->
              by (unfold push_type_id; case_decide; reflexivity).
          assert (ce_abstract (push_type_id (cr_type cr) e0) = ce_abstract e0) as ->
              by (unfold push_type_id; case_decide; reflexivity).
          split; [exact Hs|]. split; [exact Hab|]. split.
          { unfold push_type_id. case_decide; simpl; [exact Hty|].
            destruct (ce_type_ids e0); [discriminate|exact Hty]. }
          split; [apply push_type_id_nodup; exact Hnd|].
          intros t. rewrite push_type_id_elem, Hids. split.
          -- intros [(cr' & Hin & <- & Ht)| ->].
             ++ exists cr'. rewrite elem_of_app. auto.
             ++ exists cr. rewrite elem_of_app, elem_of_list_singleton. auto.
          -- intros (cr' & Hin & <- & Ht). rewrite elem_of_app in Hin.
             destruct Hin as [Hin|Hin]; [left; eauto|].
             apply elem_of_list_singleton in Hin as ->. auto.
        * rewrite list_lookup_alter_ne in He by congruence.
          destruct (Hent i e He) as (a & cr0 & Ha & Hhd & Hs & Hab & Hty & Hnd & Hids).
          assert (Hane : ti (cr_type cr) <> a) by congruence.
          exists a, cr0. split; [exact Ha|]. split.
          { rewrite filter_app. destruct (filter _ l); [discriminate|exact Hhd]. }
          do 4 (split; [assumption|]).
          intros t. rewrite Hids. split.
          -- intros (cr' & Hin & <- & Ht). exists cr'. rewrite elem_of_app. auto.
          -- intros (cr' & Hin & <- & Ht). rewrite elem_of_app in Hin.
             destruct Hin as [Hin|Hin]; [eauto|].
             apply elem_of_list_singleton in Hin as ->. congruence.
    - (* new class *)
      injection Hadd as <- <-.
      assert (Hnot : forall cr', cr' ∈ l -> ti (cr_type cr') <> ti (cr_type cr)).
      { intros cr' Hin Heq. assert (is_Some (cm (ti (cr_type cr)))) as [? ?]; [|congruence].
        apply Hdom. eauto. }
      split.
      + intros a i Ha. rewrite alter_length, app_length. simpl.
        unfold upd in Ha. case_decide; [injection Ha as <-; lia|].
        apply Hlt in Ha. lia.
      + intros a b i. unfold upd. do 2 case_decide; subst; auto.
        * intros [= <-] Hb. apply Hlt in Hb. lia.
        * intros Hb [= <-]. apply Hlt in Hb. lia.
        * eauto.
      + intros a. unfold upd. case_decide; subst.
        * split; [|eauto]. intros _. exists cr.
          rewrite elem_of_app, elem_of_list_singleton. auto.
        * rewrite Hdom. split.
          -- intros (cr' & Hin & <-). exists cr'. rewrite elem_of_app. auto.
          -- intros (cr' & Hin & <-). apply elem_of_app in Hin as [Hin|Hin]; [eauto|].
             apply elem_of_list_singleton in Hin as ->. congruence.
      + intros i e He.
        destruct (decide (i = length cs)) as [->|Hne].
        * rewrite list_lookup_alter, lookup_app_r, Nat.sub_diag in He by lia.
          simpl in He. injection He as <-.
          exists (ti (cr_type cr)), cr. split; [apply upd_eq|]. split.
          { rewrite filter_app. rewrite filter_cons, decide_True by reflexivity.
            assert (filter (fun cr0 => ti (cr_type cr0) = ti (cr_type cr)) l = []) as ->;
              [|reflexivity].
            clear -Hnot. induction l as [|x l IH]; [reflexivity|].
            rewrite filter_cons, decide_False by (apply Hnot; left).
            apply IH. intros cr' Hin. apply Hnot. right. exact Hin. }
          change (push_type_id (cr_type cr) (ClassEntry (cr_abstract cr) [] (cr_static_vptr cr)))
            with (ClassEntry (cr_abstract cr) [cr_type cr] (cr_static_vptr cr)).
          simpl.
          do 3 (split; [reflexivity|]). split; [apply NoDup_singleton|].
          intros t. rewrite elem_of_list_singleton. split.
          -- intros ->. exists cr. rewrite elem_of_app, elem_of_list_singleton. auto.
          -- intros (cr' & Hin & <- & Ht). rewrite elem_of_app in Hin.
             destruct Hin as [Hin|Hin]; [exfalso; eapply Hnot; eauto|].
             apply elem_of_list_singleton in Hin as ->. reflexivity.
        * rewrite list_lookup_alter_ne in He by congruence.
          assert (Hi : cs !! i = Some e).
          { apply lookup_app_Some in He as [He|[Hge He]]; [exact He|].
            assert (i < length cs + 1); [|lia].
            apply lookup_lt_Some in He. simpl in He. lia. }
          destruct (Hent i e Hi) as (a & cr0 & Ha & Hhd & Hs & Hab & Hty & Hnd & Hids).
          assert (Hane : ti (cr_type cr) <> a) by congruence.
          exists a, cr0. split; [rewrite upd_ne; auto|]. split.
          { rewrite filter_app. destruct (filter _ l); [discriminate|exact Hhd]. }
          do 4 (split; [assumption|]).
          intros t. rewrite Hids. split.
          -- intros (cr' & Hin & <- & Ht). exists cr'. rewrite elem_of_app. auto.
          -- intros (cr' & Hin & <- & Ht). rewrite elem_of_app in Hin.
             destruct Hin as [Hin|Hin]; [eauto|].
             apply elem_of_list_singleton in Hin as ->. congruence.
  Qed.

  Lemma add_classes_ok l cs cm : add_classes ti l = (cs, cm) -> classes_ok l cs cm.
  Proof.
    unfold add_classes. intros H.
    assert (G : classes_ok l (fst (foldl (add_class ti) ([], fun _ => None) l))
                  (snd (foldl (add_class ti) ([], fun _ => None) l))).
    { apply (foldl_inv_prefix (fun l s => classes_ok l (fst s) (snd s))).
      - split; simpl.
        + discriminate.
        + discriminate.
        + intros a. split; [intros [? ?]; discriminate|].
          intros (cr & Hin & _). inversion Hin.
        + intros i e He. rewrite lookup_nil in He. discriminate.
      - intros l1 x l2 [cs1 cm1] _ H1. simpl in H1.
        destruct (add_class ti (cs1, cm1) x) as [cs2 cm2] eqn:Hx. simpl.
        eapply add_class_ok; eauto. }
    rewrite H in G. exact G.
  Qed.

  (* Every index below n is the index of exactly one class. *)
  Lemma classes_ok_index l cs cm i :
    classes_ok l cs cm -> i < length cs -> exists a, cm a = Some i.
  Proof.
    intros H Hi. apply lookup_lt_is_Some in Hi as [e He].
    destruct (co_entry _ _ _ H i e He) as (a & cr & Ha & _). eauto.
  Qed.
End AddClasses.

(* ------------------------------------------------------------------------- *)
(* Second loop: collect_transitive_bases. *)

Definition tb_rel (tb : tb_map) (x y : nat) : Prop := y ∈ tb x.

Record collected (k c : nat) (tb : tb_map) (mark : mark_map)
    (bases : list nat) (tb' : tb_map) (mark' : mark_map) (new : list nat) : Prop := {
  cl_other : forall x, x <> c -> tb' x = tb x;
  cl_new : tb' c = tb c ++ new;
  cl_marked : forall x, x ∈ new -> mark' x = k;
  cl_unmarked : forall x, x ∉ new -> mark' x = mark x;
  cl_bases : forall x, x ∈ bases -> mark' x = k;
  cl_closed : forall x y, x ∈ new -> y ∈ tb x -> mark' y = k;
  cl_sound : forall x, x ∈ new -> exists b, b ∈ bases /\ rtc (tb_rel tb) b x
}.

Lemma collected_nil k c tb mark : collected k c tb mark [] tb mark [].
Proof.
  split; intros *; try (intros H; now inversion H); auto.
  now rewrite app_nil_r.
Qed.

(* Two consecutive visits. *)
Lemma collected_app k c tb mark bs1 tb1 mark1 new1 bs2 tb2 mark2 new2 :
  (forall b, b ∈ bs2 -> ~ rtc (tb_rel tb) b c) ->
  (forall b, b ∈ bs1 -> ~ rtc (tb_rel tb) b c) ->
  collected k c tb mark bs1 tb1 mark1 new1 ->
  collected k c tb1 mark1 bs2 tb2 mark2 new2 ->
  collected k c tb mark (bs1 ++ bs2) tb2 mark2 (new1 ++ new2).
Proof.
  intros Hnc2 Hnc1 [O1 N1 M1 U1 B1 C1 S1] [O2 N2 M2 U2 B2 C2 S2].
  assert (Hkeep : forall x, mark1 x = k -> mark2 x = k).
  { intros x Hx. destruct (decide (x ∈ new2)); [auto|]. rewrite U2; auto. }
  assert (Hpath : forall b x, ~ rtc (tb_rel tb) b c -> rtc (tb_rel tb1) b x ->
                    rtc (tb_rel tb) b x).
  { intros b x Hb. revert x. apply rtc_ind_r; [constructor|].
    intros y z _ Hyz IH. eapply rtc_r; [exact IH|].
    unfold tb_rel in *. rewrite O1 in Hyz; [exact Hyz|].
    intros ->. auto. }
  split.
  - intros x Hx. rewrite O2, O1; auto.
  - rewrite N2, N1, app_assoc. reflexivity.
  - intros x. rewrite elem_of_app. intros [Hx|Hx]; auto.
  - intros x. rewrite elem_of_app. intros Hx. rewrite U2, U1; auto.
  - intros x. rewrite elem_of_app. intros [Hx|Hx]; auto.
  - intros x y. rewrite elem_of_app. intros [Hx|Hx] Hy.
    + apply Hkeep. eauto.
    + apply (C2 x y Hx). rewrite O1; [exact Hy|].
      intros ->. destruct (S2 c Hx) as (b & Hb & Hp). eapply Hnc2; eauto.
  - intros x. rewrite elem_of_app. intros [Hx|Hx].
    + destruct (S1 x Hx) as (b & Hb & Hp). exists b. rewrite elem_of_app. auto.
    + destruct (S2 x Hx) as (b & Hb & Hp). exists b. rewrite elem_of_app. auto.
Qed.

Section Collect.
  Context (rk : nat -> nat) (k c : nat).

  (* The state at the start of a visit. *)
  Definition tb_ranked (tb : tb_map) : Prop :=
    forall x y, x <> c -> y ∈ tb x -> rk y < rk x.

  Lemma tb_ranked_path tb b x :
    tb_ranked tb -> rk b < rk c -> rtc (tb_rel tb) b x -> rk x <= rk b.
  Proof.
    intros Hr Hb. revert x. apply rtc_ind_r; [lia|].
    intros y z Hy Hyz IH. unfold tb_rel in Hyz.
    apply (Hr y z) in Hyz; [lia|]. intros ->. lia.
  Qed.

  Lemma collect_visit fuel base (tb : tb_map) (mark : mark_map) :
    tb_ranked tb -> rk base < rk c -> rk base < fuel ->
    exists tb' mark' new,
      collect_transitive_bases fuel k c base (tb, mark) = Ok (tb', mark') /\
      collected k c tb mark [base] tb' mark' new.
  Proof.
    revert base tb mark. induction fuel as [|fuel IH]; intros base tb mark Hr Hb Hf; [lia|].
    simpl. case_decide as Hm.
    { exists tb, mark, []. split; [reflexivity|].
      split; intros *; try (intros H; now inversion H); auto.
      now rewrite app_nil_r. }
    case_decide as Hbc; [subst; lia|].
    assert (Hloop : forall l tb1 mark1,
      tb_ranked tb1 -> (forall x, x ∈ l -> rk x < rk base) ->
      exists tb2 mark2 new,
        foldM (fun base_base s => collect_transitive_bases fuel k c base_base s) l (tb1, mark1)
          = Ok (tb2, mark2) /\ collected k c tb1 mark1 l tb2 mark2 new).
    { induction l as [|x l IHl]; intros tb1 mark1 Hr1 Hl; simpl.
      { exists tb1, mark1, []. split; [reflexivity|apply collected_nil]. }
      assert (Hx : rk x < rk base) by (apply Hl; left).
      destruct (IH x tb1 mark1 Hr1 ltac:(lia) ltac:(lia)) as (tb2 & mark2 & new1 & H1 & C1).
      rewrite H1. simpl.
      assert (Hr2 : tb_ranked tb2).
      { intros y z Hy Hz. rewrite (cl_other _ _ _ _ _ _ _ _ C1 y Hy) in Hz. eauto. }
      destruct (IHl tb2 mark2 Hr2) as (tb3 & mark3 & new2 & H2 & C2).
      { intros y Hy. apply Hl. right. exact Hy. }
      exists tb3, mark3, (new1 ++ new2). split; [exact H2|].
      change (x :: l) with ([x] ++ l).
      eapply collected_app; [| |exact C1|exact C2].
      - intros b Hbin Hp. assert (rk b < rk base) by (apply Hl; right; exact Hbin).
        apply tb_ranked_path in Hp; [lia|exact Hr1|lia].
      - intros b Hbin Hp. apply elem_of_list_singleton in Hbin as ->.
        apply tb_ranked_path in Hp; [lia|exact Hr1|lia]. }
    set (tb1 := upd tb c (tb c ++ [base])). set (mark1 := upd mark base k).
    assert (Htb1 : forall x, x <> c -> tb1 x = tb x).
    { intros x Hx. unfold tb1. apply upd_ne. exact Hx. }
    assert (Hr1 : tb_ranked tb1).
    { intros y z Hy Hz. rewrite Htb1 in Hz by exact Hy. eauto. }
    rewrite (Htb1 base Hbc).
    destruct (Hloop (tb base) tb1 mark1 Hr1) as (tb2 & mark2 & new & H2 & C2).
    { intros x Hx. eauto. }
    exists tb2, mark2, (base :: new). split; [exact H2|].
    destruct C2 as [O2 N2 M2 U2 B2 C2 S2].
    assert (Hbase : mark2 base = k).
    { destruct (decide (base ∈ new)); [auto|]. rewrite U2 by assumption. apply upd_eq. }
    split.
    - intros x Hx. rewrite O2, Htb1; auto.
    - rewrite N2. unfold tb1. rewrite upd_eq, <- app_assoc. reflexivity.
    - intros x [-> |Hx]%elem_of_cons; auto.
    - intros x Hx. apply not_elem_of_cons in Hx as [Hxb Hx].
      rewrite U2 by exact Hx. apply upd_ne. exact Hxb.
    - intros x ->%elem_of_list_singleton. exact Hbase.
    - intros x y [-> |Hx]%elem_of_cons Hy; [apply B2; exact Hy|].
      apply (C2 x y Hx). destruct (decide (x = c)) as [->|Hxc].
      + exfalso. destruct (S2 c Hx) as (b & Hbin & Hp).
        assert (rk b < rk base) by eauto.
        apply tb_ranked_path in Hp; [lia|exact Hr1|lia].
      + rewrite Htb1 by exact Hxc. exact Hy.
    - intros x [-> |Hx]%elem_of_cons.
      { exists base. rewrite elem_of_list_singleton. split; [reflexivity|constructor]. }
      destruct (S2 x Hx) as (b & Hbin & Hp). exists base.
      rewrite elem_of_list_singleton. split; [reflexivity|].
      apply rtc_l with b; [exact Hbin|].
      assert (rk b < rk base) by eauto.
      clear -Hp Htb1 Hr1 Hb H. revert x Hp. apply rtc_ind_r; [constructor|].
      intros y z Hy Hyz IH. eapply rtc_r; [exact IH|].
      unfold tb_rel in *. rewrite Htb1 in Hyz; [exact Hyz|].
      intros ->. apply tb_ranked_path in Hy; [lia|exact Hr1|lia].
  Qed.

  (* A visit with a fresh mark adds exactly what is reachable from the base. *)
  Lemma collect_fresh fuel base (tb : tb_map) (mark : mark_map) :
    tb_ranked tb -> rk base < rk c -> rk base < fuel ->
    (forall x, mark x < k) ->
    exists tb' mark' new,
      collect_transitive_bases fuel k c base (tb, mark) = Ok (tb', mark') /\
      (forall x, x <> c -> tb' x = tb x) /\ tb' c = tb c ++ new /\
      (forall x, mark' x <= k) /\
      (forall x, x ∈ new <-> rtc (tb_rel tb) base x).
  Proof.
    intros Hr Hb Hf Hfresh.
    destruct (collect_visit fuel base tb mark Hr Hb Hf) as (tb' & mark' & new & Hok & C).
    exists tb', mark', new. destruct C as [O N M U B C S].
    assert (Hk : forall x, mark' x = k -> x ∈ new).
    { intros x Hx. destruct (decide (x ∈ new)) as [|Hn]; [assumption|].
      rewrite U in Hx by exact Hn. specialize (Hfresh x). lia. }
    split; [exact Hok|]. split; [exact O|]. split; [exact N|]. split.
    - intros x. destruct (decide (x ∈ new)) as [Hin|Hn]; [rewrite M; auto|].
      rewrite U by exact Hn. specialize (Hfresh x). lia.
    - intros x. split.
      + intros Hx. destruct (S x Hx) as (b & ->%elem_of_list_singleton & Hp). exact Hp.
      + revert x. apply rtc_ind_r.
        * apply Hk, B. now apply elem_of_list_singleton.
        * intros y z _ Hyz IH. apply Hk. eauto.
  Qed.
End Collect.

Arguments collect_transitive_bases : simpl never.

Section Walk.
  Context (E : env) (n : nat) (cm : class_map) (crs : list class_record).
  Context (rk : nat -> nat).

  (* (type id of class, type id of base), in registration order. *)
  Definition raw_pairs : list (N * N) :=
    flat_map (fun cr => map (pair (cr_type cr)) (cr_bases cr)) crs.

  Definition walk0 := Walk (fun _ => []) (fun _ => 0) 0.

  Definition raw_step (p : N * N) (w : walk) : outcome walk :=
    let* rtc := deref (cm (e_ti E (fst p))) in collect_base E n cm rtc (snd p) w.

  Lemma collect_all_raw :
    (forall cr, cr ∈ crs -> is_Some (cm (e_ti E (cr_type cr)))) ->
    collect_all E n cm crs = foldM raw_step raw_pairs walk0.
  Proof.
    intros Hcm. unfold collect_all, raw_pairs.
    rewrite foldM_flat_map. apply foldM_ext. intros cr w Hin.
    unfold collect_record. destruct (Hcm cr Hin) as [c Hc].
    rewrite foldM_map, Hc. simpl. apply foldM_ext. intros b w' _.
    unfold raw_step. simpl. rewrite Hc. reflexivity.
  Qed.

  (* Base relation between class indices. *)
  Definition irel (c d : nat) : Prop :=
    exists t b, (t, b) ∈ raw_pairs /\ cm (e_ti E t) = Some c /\ cm (e_ti E b) = Some d /\ c <> d.

  Context (Hreg : forall t b, (t, b) ∈ raw_pairs ->
             is_Some (cm (e_ti E t)) /\ is_Some (cm (e_ti E b))).
  Context (Hrk : forall c d, irel c d -> rk d < rk c).
  Context (Hrkn : forall c, rk c <= n).

  Lemma tc_irel_rank c d : tc irel c d -> rk d < rk c.
  Proof. induction 1 as [c d H|c d e H _ IH]; [auto|]. apply Hrk in H. lia. Qed.

  Record walk_ok (pre : list (N * N)) (w : walk) : Prop := {
    wo_marks : forall x, wk_mark w x <= wk_class_mark w;
    wo_sound : forall c x, x ∈ wk_tb w c -> tc irel c x;
    wo_direct : forall t b c d, (t, b) ∈ pre -> cm (e_ti E t) = Some c ->
      cm (e_ti E b) = Some d -> c <> d -> d ∈ wk_tb w c
  }.

  Lemma raw_step_ok pre w t b c d :
    walk_ok pre w -> (t, b) ∈ raw_pairs -> cm (e_ti E t) = Some c -> cm (e_ti E b) = Some d ->
    exists w', raw_step (t, b) w = Ok w' /\ walk_ok (pre ++ [(t, b)]) w' /\
      (forall x y, y ∈ wk_tb w x -> y ∈ wk_tb w' x) /\
      (c <> d -> forall x, rtc (tb_rel (wk_tb w)) d x -> x ∈ wk_tb w' c).
  Proof.
    intros [Hmk Hsd Hdir] Hin Hc Hd. unfold raw_step, collect_base. cbn [fst snd].
    rewrite Hc. cbn [deref obind]. rewrite Hd. case_decide as Hcd.
    - exists w. split; [reflexivity|]. split; [|split; [auto|congruence]].
      split; [exact Hmk|exact Hsd|].
      intros t' b' c' d' [Hp|Hp]%elem_of_app Hc' Hd' Hne; [eauto|].
      apply elem_of_list_singleton in Hp. injection Hp as -> ->. congruence.
    - assert (Hrel : irel c d) by (exists t, b; auto).
      destruct (collect_fresh rk (S (wk_class_mark w)) c (S n) d (wk_tb w) (wk_mark w))
        as (tb' & mark' & new & Hok & Ho & Hnew & Hmk' & Hiff).
      + intros x y _ Hy. apply tc_irel_rank. auto.
      + auto.
      + specialize (Hrkn d). lia.
      + intros x. specialize (Hmk x). lia.
      + rewrite Hok. simpl. eexists. split; [reflexivity|].
        assert (Hmono : forall x y, y ∈ wk_tb w x -> y ∈ tb' x).
        { intros x y Hy. destruct (decide (x = c)) as [->|Hx].
          - rewrite Hnew. apply elem_of_app. auto.
          - rewrite Ho by exact Hx. exact Hy. }
        split; [split|split]; simpl.
        * exact Hmk'.
        * intros x y Hy. destruct (decide (x = c)) as [->|Hx].
          -- rewrite Hnew in Hy. apply elem_of_app in Hy as [Hy|Hy]; [auto|].
             apply Hiff in Hy.
             assert (Hp : rtc irel d y \/ tc irel d y).
             { clear -Hy Hsd. revert y Hy. apply rtc_ind_r.
               - left. constructor.
               - intros y z _ Hyz IH. right. apply Hsd in Hyz.
                 destruct IH as [IH|IH]; [|apply tc_rtc in IH]; eapply tc_rtc_l; eauto. }
             apply tc_rtc_r with d; [constructor; exact Hrel|].
             destruct Hp as [Hp|Hp]; [exact Hp|apply tc_rtc; exact Hp].
          -- rewrite Ho in Hy by exact Hx. auto.
        * intros t' b' c' d' [Hp|Hp]%elem_of_app Hc' Hd' Hne; [eauto|].
          apply elem_of_list_singleton in Hp. injection Hp as -> ->.
          assert (c' = c) as -> by congruence. assert (d' = d) as -> by congruence.
          rewrite Hnew. apply elem_of_app. right. apply Hiff. constructor.
        * exact Hmono.
        * intros _ x Hx. rewrite Hnew. apply elem_of_app. right. apply Hiff. exact Hx.
  Qed.

  (* The walk up to a prefix of the pairs, and its continuation. *)
  Lemma walk_prefix l1 l2 :
    raw_pairs = l1 ++ l2 ->
    exists w, foldM raw_step l1 walk0 = Ok w /\ walk_ok l1 w.
  Proof.
    intros Hl.
    destruct (foldM_inv_prefix (fun pre w => walk_ok pre w) raw_step l1 walk0)
      as (w & Hok & Hw).
    - split; simpl; [lia| |].
      + intros c x Hx. inversion Hx.
      + intros t b c d Hx. inversion Hx.
    - intros l3 [t b] l4 s -> Hs.
      assert (Hin : (t, b) ∈ raw_pairs).
      { rewrite Hl, !elem_of_app. left. right. left. }
      destruct (Hreg t b Hin) as [[c Hc] [d Hd]].
      destruct (raw_step_ok l3 s t b c d Hs Hin Hc Hd) as (w' & H1 & H2 & _). eauto.
    - eauto.
  Qed.

  Lemma walk_mono l1 l2 w1 w2 :
    raw_pairs = l1 ++ l2 -> walk_ok l1 w1 -> foldM raw_step l2 w1 = Ok w2 ->
    walk_ok raw_pairs w2 /\ forall x y, y ∈ wk_tb w1 x -> y ∈ wk_tb w2 x.
  Proof.
    intros Hl Hw1 Hok.
    destruct (foldM_inv_prefix
      (fun pre w => walk_ok (l1 ++ pre) w /\ forall x y, y ∈ wk_tb w1 x -> y ∈ wk_tb w x)
      raw_step l2 w1) as (w & Hok' & Hw & Hm).
    - rewrite app_nil_r. auto.
    - intros l3 [t b] l4 s -> [Hs Hm].
      assert (Hin : (t, b) ∈ raw_pairs).
      { rewrite Hl, !elem_of_app. right. right. left. }
      destruct (Hreg t b Hin) as [[c Hc] [d Hd]].
      destruct (raw_step_ok _ s t b c d Hs Hin Hc Hd) as (w' & H1 & H2 & H3 & _).
      exists w'. rewrite app_assoc. auto.
    - rewrite Hok in Hok'. injection Hok' as ->. rewrite Hl. auto.
  Qed.

  Lemma walk_total : exists w, foldM raw_step raw_pairs walk0 = Ok w /\ walk_ok raw_pairs w.
  Proof. apply (walk_prefix raw_pairs []). now rewrite app_nil_r. Qed.

  (* [x] enters the list of [c] when some pair of [c] is processed. *)
  Definition enters (c x : nat) : Prop :=
    exists t b l1 l2 w d,
      raw_pairs = l1 ++ (t, b) :: l2 /\ foldM raw_step l1 walk0 = Ok w /\
      cm (e_ti E t) = Some c /\ cm (e_ti E b) = Some d /\ c <> d /\
      rtc (tb_rel (wk_tb w)) d x.

  (* If the pairs of [l1] include the one by which [x] enters, [x] is there. *)
  Lemma enters_prefix c x t b d l1 l2 l3 l4 w0 w :
    raw_pairs = l1 ++ (t, b) :: l2 -> foldM raw_step l1 walk0 = Ok w0 ->
    cm (e_ti E t) = Some c -> cm (e_ti E b) = Some d -> c <> d ->
    rtc (tb_rel (wk_tb w0)) d x ->
    raw_pairs = l3 ++ l4 -> length l1 < length l3 ->
    foldM raw_step l3 walk0 = Ok w -> x ∈ wk_tb w c.
  Proof.
    intros Hl Hw0 Hc Hd Hcd Hx Hl' Hlen Hw.
    assert (exists l5, l3 = l1 ++ (t, b) :: l5 /\ l2 = l5 ++ l4) as (l5 & -> & ->).
    { rewrite Hl in Hl'. clear -Hl' Hlen. revert l3 Hl' Hlen.
      induction l1 as [|y l1 IH]; intros [|z l3] Hl' Hlen; simpl in *; try lia.
      - injection Hl' as <- ->. eauto.
      - injection Hl' as <- Hl'. destruct (IH l3 Hl' ltac:(lia)) as (l5 & -> & ->). eauto. }
    destruct (walk_prefix l1 _ Hl) as (w0' & Hw0' & Hok0).
    rewrite Hw0 in Hw0'. injection Hw0' as <-.
    rewrite foldM_app, Hw0 in Hw. simpl in Hw.
    assert (Hin : (t, b) ∈ raw_pairs) by (rewrite Hl, elem_of_app; right; left).
    destruct (raw_step_ok l1 w0 t b c d Hok0 Hin Hc Hd) as (w1 & H1 & H2 & H3 & H4).
    rewrite H1 in Hw. simpl in Hw.
    specialize (H4 Hcd x Hx).
    destruct (foldM_inv_prefix
      (fun pre w => walk_ok (l1 ++ (t, b) :: pre) w /\ x ∈ wk_tb w c) raw_step l5 w1)
      as (w2 & Hok2 & _ & Hin2).
    - auto.
    - intros l6 [t' b'] l7 s -> [Hs Hxs].
      assert (Hin' : (t', b') ∈ raw_pairs).
      { rewrite Hl, elem_of_app. right. right.
        rewrite <- app_assoc, elem_of_app. right. left. }
      destruct (Hreg t' b' Hin') as [[c' Hc'] [d' Hd']].
      destruct (raw_step_ok _ s t' b' c' d' Hs Hin' Hc' Hd') as (w' & G1 & G2 & G3 & _).
      exists w'. split; [exact G1|]. split; [|auto].
      rewrite app_comm_cons, app_assoc. exact G2.
    - rewrite Hw in Hok2. injection Hok2 as ->. exact Hin2.
  Qed.

  Lemma enters_final c x w :
    foldM raw_step raw_pairs walk0 = Ok w -> enters c x -> x ∈ wk_tb w c.
  Proof.
    intros Hw (t & b & l1 & l2 & w0 & d & Hl & Hw0 & Hc & Hd & Hcd & Hx).
    eapply (enters_prefix c x t b d l1 l2 raw_pairs []); eauto.
    - now rewrite app_nil_r.
    - rewrite Hl, app_length. simpl. lia.
  Qed.

  (* The guard on registration order, at the level of class indices. *)
  Definition ibases_first : Prop :=
    forall t a u b c d e,
      (t, a) ∈ raw_pairs -> (u, b) ∈ raw_pairs ->
      cm (e_ti E t) = Some c -> cm (e_ti E a) = Some d -> c <> d ->
      cm (e_ti E u) = Some d -> cm (e_ti E b) = Some e -> d <> e ->
      irel c e \/
      exists l1 t' a' l2, raw_pairs = l1 ++ (t', a') :: l2 /\
        cm (e_ti E t') = Some c /\ cm (e_ti E a') = Some d /\
        forall u' b', (u', b') ∈ l2 ->
          ~ (cm (e_ti E u') = Some d /\ cm (e_ti E b') = Some e).

  Lemma irel_enters c d : irel c d -> enters c d.
  Proof.
    intros (t & b & Hin & Hc & Hd & Hne).
    apply elem_of_list_split in Hin as (l1 & l2 & Hl).
    destruct (walk_prefix l1 _ Hl) as (w & Hw & _).
    exists t, b, l1, l2, w, d. do 5 (split; [assumption|]). constructor.
  Qed.

  Lemma enters_complete_aux m :
    ibases_first -> forall c a x, rk a < m -> irel c a -> rtc irel a x -> enters c x.
  Proof.
    intros Hbf. induction m as [|m IH]; intros c a x Hm Hca Hax; [lia|].
    apply rtc_inv in Hax as [->|(a1 & Ha1 & Hx)]; [apply irel_enters; exact Hca|].
    assert (Hrk1 := Hrk _ _ Ha1).
    assert (Henter : enters a x) by (apply (IH a a1 x); [lia|assumption..]).
    destruct Henter as (u & b & l1 & l2 & w & e & Hl & Hw & Hu & Hb & Hne & Hex).
    destruct Hca as (t & ta & Hin & Ht & Hta & Hca).
    assert (Hub : (u, b) ∈ raw_pairs) by (rewrite Hl, elem_of_app; right; left).
    destruct (walk_prefix l1 _ Hl) as (w' & Hw' & Hwok).
    rewrite Hw in Hw'. injection Hw' as <-.
    assert (Hrex : rtc irel e x).
    { clear -Hex Hwok. revert x Hex. apply rtc_ind_r; [constructor|].
      intros y z _ Hyz IH. apply (wo_sound _ _ Hwok) in Hyz.
      apply tc_rtc in Hyz. etransitivity; eauto. }
    assert (Hirel : irel a e) by (exists u, b; auto).
    assert (Hrke := Hrk _ _ Hirel).
    destruct (Hbf t ta u b c a e Hin Hub Ht Hta Hca Hu Hb Hne)
      as [Hce|(l3 & t' & a' & l4 & Hl3 & Ht' & Ha' & Hnot)].
    - apply (IH c e x); [lia|assumption..].
    - destruct (walk_prefix l3 _ Hl3) as (w3 & Hw3 & _).
      exists t', a', l3, l4, w3, a. do 5 (split; [assumption|]).
      apply rtc_once. unfold tb_rel.
      eapply (enters_prefix a x u b e l1 l2 l3 ((t', a') :: l4)); eauto.
      (* (u, b) is before (t', a') *)
      destruct (decide (length l1 < length l3)) as [|Hge]; [assumption|exfalso].
      rewrite Hl in Hl3.
      assert (Hmem : (u, b) = (t', a') \/ (u, b) ∈ l4).
      { clear -Hl3 Hge. revert l3 Hl3 Hge. induction l1 as [|y l1 IH1]; intros [|z l3] Hl3 Hge;
          simpl in *; try lia.
        - left. congruence.
        - injection Hl3 as -> Hl3. right. rewrite <- Hl3. rewrite elem_of_app. right. left.
        - injection Hl3 as -> Hl3. apply (IH1 l3); [exact Hl3|lia]. }
      destruct Hmem as [Heq|Hmem].
      + injection Heq as -> ->. congruence.
      + eapply Hnot; eauto.
  Qed.

  Lemma walk_complete w c x :
    ibases_first -> foldM raw_step raw_pairs walk0 = Ok w -> tc irel c x -> x ∈ wk_tb w c.
  Proof.
    intros Hbf Hw Hx. apply enters_final; [exact Hw|].
    apply tc_nsteps in Hx as (k & Hk & Hx). destruct k as [|k]; [lia|].
    inversion Hx as [|? ? a ? Ha Hax]; subst.
    apply (enters_complete_aux (S (rk a)) Hbf c a x); [lia|exact Ha|].
    eapply rtc_nsteps_2. exact Hax.
  Qed.
End Walk.

(* ------------------------------------------------------------------------- *)
(* Removal of duplicates. *)

Lemma dedup_step_ok mark l mk :
  (forall x, mk x < mark) ->
  let r := foldl (dedup_step mark) ([], mk) l in
  NoDup (fst r) /\ (forall x, x ∈ fst r <-> x ∈ l) /\ (forall x, snd r x <= mark).
Proof.
  intros Hmk. simpl.
  assert (G : NoDup (fst (foldl (dedup_step mark) ([], mk) l)) /\
    (forall x, x ∈ fst (foldl (dedup_step mark) ([], mk) l) <-> x ∈ l) /\
    (forall x, snd (foldl (dedup_step mark) ([], mk) l) x = mark <-> x ∈ l) /\
    (forall x, snd (foldl (dedup_step mark) ([], mk) l) x <= mark)).
  { apply (foldl_inv_prefix (fun l s => NoDup (fst s) /\ (forall x, x ∈ fst s <-> x ∈ l) /\
      (forall x, snd s x = mark <-> x ∈ l) /\ (forall x, snd s x <= mark))).
    - simpl. split; [constructor|]. split; [reflexivity|]. split.
      + intros x. specialize (Hmk x). split; [lia|]. intros H; inversion H.
      + intros x. specialize (Hmk x). lia.
    - intros l1 x l2 [bs m] _ (Hnd & Hel & Hm & Hle). simpl in *. case_decide as Hx; simpl.
      + assert (Hin : x ∈ l1) by (apply Hm; exact Hx).
        split; [exact Hnd|]. split; [|split; [|exact Hle]].
        * intros y. rewrite Hel, elem_of_app, elem_of_list_singleton.
          split; [auto|]. intros [?| ->]; auto.
        * intros y. rewrite Hm, elem_of_app, elem_of_list_singleton.
          split; [auto|]. intros [?| ->]; auto.
      + assert (Hin : x ∉ l1) by (intros H; apply Hx, Hm; exact H).
        split.
        { apply NoDup_app. split; [exact Hnd|]. split; [|apply NoDup_singleton].
          intros y Hy ->%elem_of_list_singleton. apply Hin, Hel. exact Hy. }
        split; [|split].
        * intros y. rewrite !elem_of_app, Hel. reflexivity.
        * intros y. rewrite elem_of_app, elem_of_list_singleton.
          unfold upd. case_decide as Hyx.
          { subst. split; auto. }
          rewrite Hm. split; [auto|]. intros [?|?]; [auto|contradiction].
        * intros y. unfold upd. case_decide; [lia|auto]. }
  destruct G as (G1 & G2 & _ & G3). auto.
Qed.

Record dedup_ok (pre : list nat) (w0 w : walk) : Prop := {
  do_elem : forall c x, x ∈ wk_tb w c <-> x ∈ wk_tb w0 c;
  do_nodup : forall c, c ∈ pre -> NoDup (wk_tb w c);
  do_marks : forall x, wk_mark w x <= wk_class_mark w
}.

Lemma dedup_all_ok n w :
  (forall x, wk_mark w x <= wk_class_mark w) -> dedup_ok (seq 0 n) w (dedup_all n w).
Proof.
  intros Hmk. unfold dedup_all.
  apply (foldl_inv_prefix (fun pre w' => dedup_ok pre w w')).
  - split; simpl.
    + reflexivity.
    + intros c Hc. inversion Hc.
    + intros x. specialize (Hmk x). lia.
  - intros l1 c l2 w1 _ [He Hnd Hm]. unfold dedup_class.
    pose proof (dedup_step_ok (S (wk_class_mark w1)) (wk_tb w1 c) (wk_mark w1)) as Hd.
    destruct (foldl _ _ _) as [bs mk]. simpl in Hd.
    destruct Hd as (D1 & D2 & D3).
    { intros x. specialize (Hm x). lia. }
    split; simpl.
    + intros c' x. unfold upd. case_decide; subst; [|auto].
      rewrite D2. auto.
    + intros c' [Hin|Hin]%elem_of_app; unfold upd; case_decide; subst; auto.
      apply elem_of_list_singleton in Hin. contradiction.
    + exact D3.
Qed.

(* ------------------------------------------------------------------------- *)
(* Direct bases. *)

Lemma foldl_mark_ok mark l (mk : mark_map) x :
  foldl (fun mk rtbb => upd mk rtbb mark) mk l x = (if decide (x ∈ l) then mark else mk x).
Proof.
  pose (P := fun (l' : list nat) (m : mark_map) =>
    m x = if decide (x ∈ l') then mark else mk x).
  change (P l (foldl (fun mk rtbb => upd mk rtbb mark) mk l)).
  apply foldl_inv_prefix; unfold P.
  - rewrite decide_False; [reflexivity|]. intros H. inversion H.
  - intros l1 y l2 m _ Hm. destruct (decide (x = y)) as [->|Hxy].
    + rewrite upd_eq, decide_True; [reflexivity|]. rewrite elem_of_app. right. left.
    + rewrite upd_ne by exact Hxy. rewrite Hm.
      destruct (decide (x ∈ l1)) as [Hx|Hx].
      * rewrite decide_True; [reflexivity|]. rewrite elem_of_app. auto.
      * rewrite decide_False; [reflexivity|].
        rewrite elem_of_app, elem_of_list_singleton. intros [?|?]; auto.
Qed.

Lemma direct_step_ok (tb : tb_map) mark l mk :
  (forall x, mk x < mark) -> NoDup l ->
  let r := foldl (direct_step tb mark) ([], mk) l in
  NoDup (fst r) /\ (forall x, x ∈ fst r -> x ∈ l) /\
  (forall x, x ∈ l -> x ∈ fst r \/ exists d, d ∈ fst r /\ x ∈ tb d) /\
  (forall x, snd r x <= mark).
Proof.
  intros Hmk Hnd. simpl.
  assert (G : NoDup (fst (foldl (direct_step tb mark) ([], mk) l)) /\
    (forall x, x ∈ fst (foldl (direct_step tb mark) ([], mk) l) -> x ∈ l) /\
    (forall x, x ∈ l -> x ∈ fst (foldl (direct_step tb mark) ([], mk) l) \/
      exists d, d ∈ fst (foldl (direct_step tb mark) ([], mk) l) /\ x ∈ tb d) /\
    (forall x, snd (foldl (direct_step tb mark) ([], mk) l) x = mark ->
      exists d, d ∈ fst (foldl (direct_step tb mark) ([], mk) l) /\ x ∈ tb d) /\
    (forall x, snd (foldl (direct_step tb mark) ([], mk) l) x <= mark)).
  { apply (foldl_inv_prefix (fun l s => NoDup (fst s) /\ (forall x, x ∈ fst s -> x ∈ l) /\
      (forall x, x ∈ l -> x ∈ fst s \/ exists d, d ∈ fst s /\ x ∈ tb d) /\
      (forall x, snd s x = mark -> exists d, d ∈ fst s /\ x ∈ tb d) /\
      (forall x, snd s x <= mark))).
    - simpl. split; [constructor|]. split; [auto|]. split.
      { intros x Hx. inversion Hx. }
      split; intros x; specialize (Hmk x); lia.
    - intros l1 x l2 [bs m] Hl (Hn & Hin & Hcov & Hm & Hle). simpl in *. case_decide as Hx; simpl.
      + split; [exact Hn|]. split.
        { intros y Hy. rewrite elem_of_app. auto. }
        split; [|auto]. intros y [Hy|Hy]%elem_of_app; [auto|].
        apply elem_of_list_singleton in Hy as ->. right. auto.
      + split.
        { apply NoDup_app. split; [exact Hn|]. split; [|apply NoDup_singleton].
          intros y Hy ->%elem_of_list_singleton. apply Hin in Hy.
          rewrite Hl in Hnd. apply NoDup_app in Hnd as (_ & Hd & _).
          apply (Hd x Hy). left. }
        split.
        { intros y. rewrite !elem_of_app. intros [?|?]; auto. }
        split.
        { intros y. rewrite elem_of_app, elem_of_list_singleton. intros [Hy| ->].
          - destruct (Hcov y Hy) as [H|(d & Hd & Hyd)].
            + left. rewrite elem_of_app. auto.
            + right. exists d. rewrite elem_of_app. auto.
          - left. rewrite elem_of_app. right. left. }
        split.
        * intros y. rewrite foldl_mark_ok. case_decide as Hy; intros Hmy.
          -- exists x. rewrite elem_of_app. split; [right; left|exact Hy].
          -- destruct (Hm y Hmy) as (d & Hd & Hyd). exists d. rewrite elem_of_app. auto.
        * intros y. rewrite foldl_mark_ok. case_decide; auto. }
  destruct G as (G1 & G2 & G3 & _ & G4). auto.
Qed.

Record direct_ok (pre : list nat) (w0 : walk) (s : walk * (nat -> list nat)) : Prop := {
  di_tb : forall c, wk_tb (fst s) c ≡ₚ wk_tb w0 c;
  di_marks : forall x, wk_mark (fst s) x <= wk_class_mark (fst s);
  di_todo : forall c, c ∉ pre -> snd s c = [];
  di_nodup : forall c, NoDup (snd s c);
  di_sub : forall c b, b ∈ snd s c -> b ∈ wk_tb w0 c;
  di_cover : forall c b, c ∈ pre -> b ∈ wk_tb w0 c ->
    b ∈ snd s c \/ exists d, d ∈ snd s c /\ b ∈ wk_tb w0 d
}.

Lemma direct_all_ok E n w :
  env_ok E ->
  (forall x, wk_mark w x <= wk_class_mark w) ->
  (forall c, c < n -> NoDup (wk_tb w c)) ->
  direct_ok (seq 0 n) w (direct_all E n w).
Proof.
  intros [_ Hsort] Hmk Hnd. unfold direct_all.
  apply (foldl_inv_prefix (fun pre s => direct_ok pre w s)).
  - split; simpl; auto.
    + intros c. apply NoDup_nil_2.
    + intros c b Hb. inversion Hb.
    + intros c b Hc. inversion Hc.
  - intros l1 c l2 [w1 db] Hl [Htb Hm Htodo Hn Hsub Hcov]. simpl in *. unfold direct_class.
    assert (Hc : c < n).
    { assert (c ∈ seq 0 n) as Hin%elem_of_seq by (rewrite Hl, elem_of_app; right; left). lia. }
    assert (Hcl1 : c ∉ l1).
    { pose proof (NoDup_seq 0 n) as H. rewrite Hl in H. apply NoDup_app in H as (_ & H & _).
      intros Hin. apply (H c Hin). left. }
    set (tb1 := upd (wk_tb w1) c (e_sort E (fun a => length (wk_tb w1 a)) (wk_tb w1 c))).
    assert (Htb1 : forall c', tb1 c' ≡ₚ wk_tb w c').
    { intros c'. unfold tb1, upd. case_decide; subst; [|auto].
      etransitivity; [apply Hsort|auto]. }
    rewrite (Htodo c Hcl1).
    pose proof (direct_step_ok tb1 (S (wk_class_mark w1)) (tb1 c) (wk_mark w1)) as Hd.
    destruct (foldl _ _ _) as [dbs mk]. simpl in Hd.
    destruct Hd as (D1 & D2 & D3 & D4).
    { intros x. specialize (Hm x). lia. }
    { rewrite Htb1. auto. }
    split; simpl.
    + exact Htb1.
    + exact D4.
    + intros c' Hc'. rewrite not_elem_of_app, elem_of_list_singleton in Hc'.
      destruct Hc' as [? ?]. rewrite upd_ne by assumption. auto.
    + intros c'. unfold upd. case_decide; auto.
    + intros c' b. unfold upd. case_decide; subst; [|auto].
      intros Hb. rewrite <- Htb1. auto.
    + intros c' b Hc' Hb. unfold upd. case_decide as Heq.
      * subst. rewrite <- Htb1 in Hb. destruct (D3 b Hb) as [?|(d & Hd & Hbd)]; [auto|].
        right. exists d. rewrite <- Htb1. auto.
      * apply elem_of_app in Hc' as [Hc'|Hc']; [auto|].
        apply elem_of_list_singleton in Hc'. contradiction.
Qed.

(* ------------------------------------------------------------------------- *)
(* Direct and transitive derived classes. *)

Lemma derived_class_ok db dd c :
  NoDup (db c) ->
  forall b, derived_class db dd c b = dd b ++ (if decide (b ∈ db c) then [c] else []).
Proof.
  intros Hnd b. unfold derived_class.
  assert (G : forall l1 l2, db c = l1 ++ l2 ->
    foldl (fun dd rtb => upd dd rtb (dd rtb ++ [c])) dd l1 b =
      dd b ++ (if decide (b ∈ l1) then [c] else [])).
  { intros l1. induction l1 as [|x l1 IH] using rev_ind; intros l2 Hl.
    - simpl. now rewrite app_nil_r.
    - rewrite foldl_app. simpl.
      assert (Hx : x ∉ l1).
      { rewrite Hl, <- app_assoc in Hnd. apply NoDup_app in Hnd as (_ & H & _).
        intros Hin. apply (H x Hin). left. }
      specialize (IH (x :: l2)). rewrite <- app_assoc in Hl. specialize (IH Hl).
      destruct (decide (b = x)) as [Hbx|Hbx].
      + subst. rewrite upd_eq, IH. rewrite decide_False by exact Hx. rewrite app_nil_r.
        rewrite decide_True; [reflexivity|]. rewrite elem_of_app. right. left.
      + rewrite upd_ne by exact Hbx. rewrite IH. f_equal.
        destruct (decide (b ∈ l1)) as [Hb1|Hb1].
        * rewrite decide_True; [reflexivity|]. rewrite elem_of_app. auto.
        * rewrite decide_False; [reflexivity|].
          rewrite elem_of_app, elem_of_list_singleton. intros [?|?]; auto. }
  apply (G (db c) []). now rewrite app_nil_r.
Qed.

Lemma derived_all_ok n db :
  (forall c, NoDup (db c)) ->
  (forall b, NoDup (derived_all n db b)) /\
  forall b x, x ∈ derived_all n db b <-> x < n /\ b ∈ db x.
Proof.
  intros Hnd. unfold derived_all.
  assert (G : (forall b, NoDup (foldl (derived_class db) (fun _ => []) (seq 0 n) b)) /\
    forall b x, x ∈ foldl (derived_class db) (fun _ => []) (seq 0 n) b <->
      x ∈ seq 0 n /\ b ∈ db x).
  { pose proof (NoDup_seq 0 n) as Hseq. revert Hseq.
    apply (foldl_inv_prefix (fun pre dd => NoDup (seq 0 n) -> (forall b, NoDup (dd b)) /\
      forall b x, x ∈ dd b <-> x ∈ pre /\ b ∈ db x)).
    - intros _. split; [intros b; constructor|]. intros b x. split.
      + intros H. inversion H.
      + intros [H _]. inversion H.
    - intros l1 c l2 dd Hl IH Hseq. destruct (IH Hseq) as [IH1 IH2].
      rewrite Hl in Hseq. apply NoDup_app in Hseq as (_ & Hd & _).
      assert (Hc : c ∉ l1) by (intros Hin; apply (Hd c Hin); left).
      split.
      + intros b. rewrite derived_class_ok by auto. case_decide.
        * apply NoDup_app. split; [auto|]. split; [|apply NoDup_singleton].
          intros x Hx ->%elem_of_list_singleton. apply IH2 in Hx as [? _]. auto.
        * now rewrite app_nil_r.
      + intros b x. rewrite derived_class_ok by auto. rewrite !elem_of_app, IH2.
        case_decide as Hb.
        * rewrite elem_of_list_singleton. split.
          { intros [[? ?]| ->]; auto. }
          intros [[?| ->] ?]; auto.
        * rewrite elem_of_list_singleton. split.
          { intros [[? ?]|H]; [auto|inversion H]. }
          intros [[?| ->] ?]; auto. contradiction. }
  destruct G as [G1 G2]. split; [exact G1|]. intros b x.
  rewrite G2, elem_of_seq. split; intros [? ?]; split; auto; lia.
Qed.

Lemma foldl_set_insert_ok l s :
  NoDup s -> NoDup (foldl set_insert s l) /\
  forall x, x ∈ foldl set_insert s l <-> x ∈ s \/ x ∈ l.
Proof.
  intros Hs.
  apply (foldl_inv_prefix (fun pre r => NoDup r /\ forall x, x ∈ r <-> x ∈ s \/ x ∈ pre)).
  - split; [exact Hs|]. intros x. split; [auto|]. intros [H|H]; [exact H|inversion H].
  - intros l1 x l2 r _ [Hr Hel]. unfold set_insert. case_decide as Hx.
    + split; [exact Hr|]. intros y. rewrite Hel, elem_of_app, elem_of_list_singleton.
      split; [tauto|]. intros [?|[?| ->]]; auto. apply Hel. exact Hx.
    + split.
      * apply NoDup_app. split; [exact Hr|]. split; [|apply NoDup_singleton].
        intros y Hy ->%elem_of_list_singleton. auto.
      * intros y. rewrite !elem_of_app, Hel, elem_of_list_singleton. tauto.
Qed.

Section Derived.
  Context (E : env) (dd : nat -> list nat) (ck : nat -> nat).
  Context (HE : env_ok E).
  Context (Hck : forall x y, y ∈ dd x -> ck y < ck x).

  Definition down (x y : nat) : Prop := y ∈ dd x.

  Definition td_complete (l : list nat) (x : nat) : Prop :=
    NoDup l /\ forall y, y ∈ l <-> rtc down x y.

  Lemma down_rank x y : rtc down x y -> ck y <= ck x.
  Proof.
    induction 1 as [|x y z Hxy _ IH]; [lia|]. apply Hck in Hxy. lia.
  Qed.

  Lemma td_complete_nonempty l x : td_complete l x -> l <> [].
  Proof.
    intros [_ H] ->. specialize (H x).
    assert (x ∈ @nil nat) as Hx by (apply H; constructor). inversion Hx.
  Qed.

  Lemma calculate_ok fuel cls td :
    ck cls < fuel ->
    (forall x, rtc down cls x -> td x = [] \/ td_complete (td x) x) ->
    exists td', calculate_transitive_derived E dd fuel cls td = Ok td' /\
      td_complete (td' cls) cls /\
      (forall x, ~ rtc down cls x -> td' x = td x) /\
      (forall x, rtc down cls x -> td' x = [] \/ td_complete (td' x) x) /\
      (forall x, td x <> [] -> td' x = td x).
  Proof.
    revert cls td. induction fuel as [|fuel IH]; intros cls td Hf Htd; [lia|].
    cbn [calculate_transitive_derived]. case_decide as Hne.
    { exists td. split; [reflexivity|].
      destruct (Htd cls) as [?|Hc]; [constructor|contradiction|]. auto. }
    rename Hne into Hnil.
    set (td0 := upd td cls (set_insert (td cls) cls)).
    assert (Htd0 : td0 cls = [cls]).
    { unfold td0. rewrite upd_eq, Hnil. reflexivity. }
    assert (Htd0' : forall x, x <> cls -> td0 x = td x).
    { intros x Hx. unfold td0. apply upd_ne. exact Hx. }
    destruct (foldM_inv_prefix
      (fun pre td1 =>
         (NoDup (td1 cls) /\
          forall y, y ∈ td1 cls <-> y = cls \/ exists d, d ∈ pre /\ rtc down d y) /\
         (forall x, ~ rtc down cls x -> td1 x = td x) /\
         (forall x, rtc down cls x -> x <> cls -> td1 x = [] \/ td_complete (td1 x) x) /\
         (forall x, td x <> [] -> td1 x = td x))
      (fun derived td =>
            let* td :=
              (if decide (td derived = [])
               then calculate_transitive_derived E dd fuel derived td
               else Ok td) in
            Ok (upd td cls
                  (foldl set_insert (td cls) (e_iter E derived (td derived)))))
      (dd cls) td0) as (td' & Hok & [Hn Hel] & Hout & Hin & Hkeep).
    - rewrite Htd0. split; [split; [apply NoDup_singleton|]|split; [|split]].
      + intros y. rewrite elem_of_list_singleton. split; [auto|].
        intros [?|(d & Hd & _)]; [assumption|inversion Hd].
      + intros x Hx. apply Htd0'. intros ->. apply Hx. constructor.
      + intros x Hx Hxc. rewrite Htd0' by exact Hxc. auto.
      + intros x Hx. apply Htd0'. intros ->. contradiction.
    - intros l1 d l2 td1 Hl ([Hn Hel] & Hout & Hin & Hkeep).
      assert (Hd : down cls d) by (unfold down; rewrite Hl, elem_of_app; right; left).
      assert (Hrk := Hck _ _ Hd).
      assert (Hdc : d <> cls) by (intros ->; lia).
      assert (Hcd : ~ rtc down d cls) by (intros H; apply down_rank in H; lia).
      assert (Hstep : exists td2,
        (if decide (td1 d = []) then calculate_transitive_derived E dd fuel d td1 else Ok td1)
          = Ok td2 /\ td2 cls = td1 cls /\ td_complete (td2 d) d /\
        (forall x, ~ rtc down cls x -> td2 x = td x) /\
        (forall x, rtc down cls x -> x <> cls -> td2 x = [] \/ td_complete (td2 x) x) /\
        (forall x, td x <> [] -> td2 x = td x)).
      { case_decide as Hd1.
        - destruct (IH d td1) as (td2 & Hok2 & Hc2 & Hout2 & Hin2 & Hkeep2).
          + lia.
          + intros x Hx. apply Hin; [eapply rtc_l; eauto|].
            intros ->. auto.
          + exists td2. split; [exact Hok2|]. split; [auto|]. split; [exact Hc2|]. split; [|split].
            * intros x Hx. rewrite Hout2; [auto|]. intros Hdx. apply Hx. eapply rtc_l; eauto.
            * intros x Hx Hxc.
              (* is x below d? decided by the result of the recursive call *)
              destruct (decide (x ∈ td2 d)) as [Hxd|Hxd].
              { apply Hin2. apply Hc2. exact Hxd. }
              rewrite Hout2; [auto|]. intros Hdx. apply Hxd, Hc2. exact Hdx.
            * intros x Hx. rewrite Hkeep2; [auto|]. rewrite Hkeep; auto.
        - exists td1. split; [reflexivity|]. split; [reflexivity|]. split.
          + destruct (Hin d) as [?|?]; auto; [apply rtc_once; exact Hd|contradiction].
          + auto. }
      destruct Hstep as (td2 & Hok2 & Hcls & Hcd2 & Hout2 & Hin2 & Hkeep2).
      rewrite Hok2. simpl. eexists. split; [reflexivity|].
      assert (Hperm : e_iter E d (td2 d) ≡ₚ td2 d) by apply HE.
      destruct (foldl_set_insert_ok (e_iter E d (td2 d)) (td2 cls)) as [Hn3 Hel3].
      { rewrite Hcls. exact Hn. }
      rewrite upd_eq. split; [split; [exact Hn3|]|split; [|split]].
      + intros y. rewrite Hel3, Hperm, Hcls, Hel. destruct Hcd2 as [_ Hcd2]. rewrite Hcd2. split.
        * intros [[->|(d' & Hd' & Hy)]|Hy]; [auto| |].
          { right. exists d'. rewrite elem_of_app. auto. }
          right. exists d. rewrite elem_of_app. split; [right; left|exact Hy].
        * intros [->|(d' & [Hd'|Hd']%elem_of_app & Hy)]; [auto| |].
          { left. right. eauto. }
          apply elem_of_list_singleton in Hd' as ->. auto.
      + intros x Hx. rewrite upd_ne; [auto|]. intros ->. apply Hx. constructor.
      + intros x Hx Hxc. rewrite upd_ne by exact Hxc. auto.
      + intros x Hx. rewrite upd_ne; [auto|]. intros ->. contradiction.
    - exists td'. split; [exact Hok|].
      assert (Hcomp : td_complete (td' cls) cls).
      { split; [exact Hn|]. intros y. rewrite Hel. split.
        - intros [->|(d & Hd & Hy)]; [constructor|]. eapply rtc_l; eauto.
        - intros [->|(d & Hd & Hy)]%rtc_inv; [auto|]. right. exists d. auto. }
      split; [exact Hcomp|]. split; [exact Hout|]. split; [|exact Hkeep].
      intros x Hx. destruct (decide (x = cls)) as [->|Hxc]; auto.
  Qed.

  Lemma transitive_derived_all_ok n :
    (forall x, ck x <= n) ->
    exists td, transitive_derived_all E n dd = Ok td /\
      (forall x, td x = [] \/ td_complete (td x) x) /\
      forall x, x < n -> td_complete (td x) x.
  Proof.
    intros Hckn. unfold transitive_derived_all.
    destruct (foldM_inv_prefix
      (fun pre (td : nat -> list nat) =>
        (forall x, td x = [] \/ td_complete (td x) x) /\
        (forall x, x ∈ pre -> td_complete (td x) x))
      (calculate_transitive_derived E dd (S n)) (seq 0 n) (fun _ => [])) as (td & Hok & Ha & Hc).
    - split; [auto|]. intros x Hx. inversion Hx.
    - intros l1 c l2 td _ [Hall Hpre].
      destruct (calculate_ok (S n) c td) as (td' & Hok & Hc & Hout & Hin & Hkeep).
      + specialize (Hckn c). lia.
      + auto.
      + exists td'. split; [exact Hok|].
        assert (Hall' : forall x, td' x = [] \/ td_complete (td' x) x).
        { intros x. destruct (decide (x ∈ td' c)) as [Hx|Hx].
          - apply Hin, Hc. exact Hx.
          - rewrite Hout; [auto|]. intros Hcx. apply Hx, Hc. exact Hcx. }
        split; [exact Hall'|]. intros x [Hx|Hx]%elem_of_app.
        * rewrite Hkeep; [auto|]. eapply td_complete_nonempty. auto.
        * apply elem_of_list_singleton in Hx as ->. exact Hc.
    - exists td. split; [exact Hok|]. split; [exact Ha|].
      intros x Hx. apply Hc. apply elem_of_seq. lia.
  Qed.
End Derived.
