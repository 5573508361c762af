(* Casts find the subobject. *)
From stdpp Require Import base list numbers relations.
From Verif Require Import Base ModelCasts SpecCasts.

Lemma direct_cons e H v c b : c <> e.1 -> direct (e :: H) v c b <-> direct H v c b.
Proof.
  intros Hne. unfold direct. split.
  - intros (bs & Hin & Hb). apply elem_of_cons in Hin as [<-|Hin]; [destruct Hne; reflexivity|]. eauto.
  - intros (bs & Hin & Hb). exists bs. split; [right; exact Hin|exact Hb].
Qed.

Lemma direct_names H v c b : direct H v c b -> c ∈ map fst H.
Proof. intros (bs & Hin & _). apply elem_of_list_fmap. exists (c, bs). auto. Qed.

Lemma ok_tail e H : hierarchy_ok (e :: H) -> hierarchy_ok H.
Proof.
  intros [Hnd Hb]. split; [apply NoDup_cons in Hnd; apply Hnd|].
  intros H1 c bs H2 b v -> Hin. apply (Hb (e :: H1) c bs H2 b v); auto.
Qed.

Lemma ok_base H v c b : hierarchy_ok H -> direct H v c b -> b ∈ map fst H.
Proof.
  intros [_ Hb] (bs & Hin & Hbb). apply elem_of_list_split in Hin as (H1 & H2 & ->).
  rewrite map_app. apply elem_of_app. right. right. eapply Hb; eauto.
Qed.

Section Cons.
  Context (d : N) (bs : list (N * bool)) (H : hierarchy) (HO : hierarchy_ok ((d, bs) :: H)).

  Lemma ok_fresh : d ∉ map fst H.
  Proof. destruct HO as [Hnd _]. apply NoDup_cons in Hnd. apply Hnd. Qed.

  Lemma ok_bases b v : (b, v) ∈ bs -> b ∈ map fst H /\ b <> d.
  Proof.
    intros Hin. assert (Hb : b ∈ map fst H) by (destruct HO as [_ Hb]; apply (Hb [] d bs H b v); auto).
    split; [exact Hb|]. intros ->. apply ok_fresh. exact Hb.
  Qed.

  Lemma direct_head v b : direct ((d, bs) :: H) v d b <-> (b, v) ∈ bs.
  Proof.
    unfold direct. split.
    - intros (bs' & Hin & Hb). apply elem_of_cons in Hin as [[= ->]|Hin]; [exact Hb|].
      exfalso. apply ok_fresh. apply elem_of_list_fmap. exists (d, bs'). auto.
    - intros Hb. exists bs. split; [left|exact Hb].
  Qed.

  Lemma direct_ne v c b : c <> d -> direct ((d, bs) :: H) v c b -> direct H v c b /\ b <> d.
  Proof.
    intros Hne Hd. apply direct_cons in Hd; [|exact Hne]. split; [exact Hd|].
    intros ->. apply ok_fresh. eapply ok_base; [eapply ok_tail; exact HO|exact Hd].
  Qed.

  Lemma inherits_cons c b : c <> d -> inherits ((d, bs) :: H) c b <-> inherits H c b /\ b <> d.
  Proof.
    intros Hne. split.
    - intros Hi. revert Hne. induction Hi as [c|c x b (v & Hd) _ IH]; intros Hne; [split; [constructor|exact Hne]|].
      destruct (direct_ne v c x Hne Hd) as [Hd' Hx]. destruct (IH Hx) as [Hi ?]. split; [|assumption].
      econstructor; [exists v; exact Hd'|exact Hi].
    - intros [Hi _]. revert Hne. induction Hi as [c|c x b (v & Hd) _ IH]; intros Hne; [constructor|].
      assert (Hd' : direct ((d, bs) :: H) v c x) by (apply direct_cons; assumption).
      econstructor; [exists v; exact Hd'|]. apply IH. apply (direct_ne v c x Hne Hd').
  Qed.

  Lemma stem_cons c s : c <> d -> stem ((d, bs) :: H) c s <-> stem H c s.
  Proof.
    intros Hne. split.
    - intros Hs. revert Hne. induction Hs as [c|c b p Hd _ IH]; intros Hne; [constructor|].
      destruct (direct_ne false c b Hne Hd) as [Hd' Hb]. econstructor; eauto.
    - intros Hs. revert Hne. induction Hs as [c|c b p Hd _ IH]; intros Hne; [constructor|].
      assert (Hd' : direct ((d, bs) :: H) false c b) by (apply direct_cons; assumption).
      econstructor; [exact Hd'|]. apply IH. apply (direct_ne false c b Hne Hd').
  Qed.

  Lemma vbase_cons c v : c <> d -> virtual_base ((d, bs) :: H) c v <-> virtual_base H c v.
  Proof.
    intros Hne. unfold virtual_base. split.
    - intros (x & Hi & Hd). apply inherits_cons in Hi as [Hi Hx]; [|exact Hne].
      exists x. split; [exact Hi|]. apply (direct_ne true x v Hx Hd).
    - intros (x & Hi & Hd).
      assert (Hx : x <> d) by (intros ->; apply ok_fresh; eapply direct_names; exact Hd).
      exists x. split; [apply inherits_cons; auto|]. apply direct_cons; assumption.
  Qed.
End Cons.

Lemma stems_spec H c s : hierarchy_ok H -> s ∈ stems H c <-> stem H c s.
Proof.
  revert c s. induction H as [|[d bs] H IH]; intros c s HO; simpl.
  - rewrite elem_of_list_singleton. split; [intros ->; constructor|].
    intros Hs. destruct Hs as [|? b p (bs & Hin & _) _]; [reflexivity|inversion Hin].
  - pose proof (ok_tail _ _ HO) as HO'. case_decide as Hc.
    + subst c. rewrite elem_of_cons, elem_of_list_In, in_flat_map. split.
      * intros [->|([b v] & Hb & Hs)]; [constructor|]. simpl in Hs.
        destruct v; [destruct Hs|]. apply in_map_iff in Hs as (p & <- & Hp).
        apply elem_of_list_In in Hb, Hp. apply IH in Hp; [|exact HO'].
        apply (stem_base _ d b p); [apply (direct_head d bs H HO); exact Hb|].
        apply (stem_cons d bs H HO); [apply (ok_bases d bs H HO b false Hb)|exact Hp].
      * intros Hs. inversion Hs as [?|? b p Hd Hp]; subst; [left; reflexivity|].
        right. apply (direct_head d bs H HO) in Hd. exists (b, false). split; [apply elem_of_list_In; exact Hd|].
        simpl. apply in_map_iff. exists p. split; [reflexivity|]. apply elem_of_list_In, IH; [exact HO'|].
        apply (stem_cons d bs H HO); [apply (ok_bases d bs H HO b false Hd)|exact Hp].
    + rewrite (IH c s HO'). symmetry. apply stem_cons; assumption.
Qed.

Lemma virtual_bases_spec H c v : hierarchy_ok H -> v ∈ virtual_bases H c <-> virtual_base H c v.
Proof.
  revert c. induction H as [|[d bs] H IH]; intros c HO; simpl.
  - split; [intros Hv; inversion Hv|]. intros (x & _ & bs & Hin & _). inversion Hin.
  - pose proof (ok_tail _ _ HO) as HO'. case_decide as Hc.
    + subst c. rewrite elem_of_list_In, in_flat_map. split.
      * intros ([b w] & Hb & Hv). simpl in Hv. apply elem_of_list_In in Hb, Hv.
        apply elem_of_app in Hv as [Hv|Hv].
        -- destruct w; [|inversion Hv]. apply elem_of_list_singleton in Hv as ->.
           exists d. split; [constructor|]. apply (direct_head d bs H HO). exact Hb.
        -- apply IH in Hv; [|exact HO']. apply (vbase_cons d bs H HO) in Hv as (x & Hi & Hd);
             [|apply (ok_bases d bs H HO b w Hb)].
           exists x. split; [|exact Hd]. econstructor; [|exact Hi]. exists w. apply (direct_head d bs H HO). exact Hb.
      * intros (x & Hi' & Hd). inversion Hi' as [? Hx|? b ? (w & Hw) Hi]; [subst x|].
        -- apply (direct_head d bs H HO) in Hd. exists (v, true). split; [apply elem_of_list_In; exact Hd|].
           simpl. left. reflexivity.
        -- apply (direct_head d bs H HO) in Hw. exists (b, w). split; [apply elem_of_list_In; exact Hw|].
           simpl. apply in_or_app. right. apply elem_of_list_In, IH; [exact HO'|].
           apply (vbase_cons d bs H HO); [apply (ok_bases d bs H HO b w Hw)|]. exists x. auto.
    + rewrite (IH c HO'). symmetry. apply vbase_cons; assumption.
Qed.

Lemma inherits_antisym H a b : hierarchy_ok H -> inherits H a b -> inherits H b a -> a = b.
Proof.
  revert a b. induction H as [|[d bs] H IH]; intros a b HO Hab Hba.
  - destruct Hab as [|? x ? (v & bs & Hin & _) _]; [reflexivity|inversion Hin].
  - destruct (decide (a = d)) as [->|Ha], (decide (b = d)) as [->|Hb]; [reflexivity|..].
    + apply (inherits_cons d bs H HO) in Hba as [_ Hne]; [contradiction|exact Hb].
    + apply (inherits_cons d bs H HO) in Hab as [_ Hne]; [contradiction|exact Ha].
    + apply (inherits_cons d bs H HO) in Hab as [Hab _]; [|exact Ha].
      apply (inherits_cons d bs H HO) in Hba as [Hba _]; [|exact Hb].
      apply (IH a b (ok_tail _ _ HO) Hab Hba).
Qed.

Section Casts.
  Context (H : hierarchy) (HO : hierarchy_ok H).

  Lemma subobjects_spec c s : s ∈ subobjects H c <-> contains H c s.
  Proof.
    unfold subobjects, contains. rewrite elem_of_remove_dups, elem_of_app, stems_spec by exact HO.
    apply or_iff_compat_l. rewrite elem_of_list_In, in_flat_map. split.
    - intros (v & Hv & Hs). apply elem_of_list_In in Hv, Hs. exists v.
      split; [apply virtual_bases_spec; assumption|apply stems_spec; assumption].
    - intros (v & Hv & Hs). exists v. split; apply elem_of_list_In.
      + apply virtual_bases_spec; assumption.
      + apply stems_spec; assumption.
  Qed.

  Lemma stem_head c s : stem H c s -> head s = Some c.
  Proof. destruct 1; reflexivity. Qed.

  Lemma stem_nonempty c s : stem H c s -> s <> [].
  Proof. destruct 1; discriminate. Qed.

  Lemma last_cons_ne (x : N) l : l <> [] -> list.last (x :: l) = list.last l.
  Proof. destruct l; [contradiction|reflexivity]. Qed.

  Lemma stem_last c s d : stem H c s -> list.last s = Some d -> inherits H c d.
  Proof.
    induction 1 as [c|c b p Hd Hs IH]; intros Hl.
    - injection Hl as <-. constructor.
    - rewrite last_cons_ne in Hl by (eapply stem_nonempty; exact Hs).
      econstructor; [exists false; exact Hd|]. exact (IH Hl).
  Qed.

  Lemma vbase_inherits c v : virtual_base H c v -> inherits H c v.
  Proof.
    intros (x & Hi & Hd). etransitivity; [exact Hi|]. econstructor; [exists true; exact Hd|constructor].
  Qed.

  Lemma contains_last c s d : contains H c s -> list.last s = Some d -> inherits H c d.
  Proof.
    intros [Hs|(v & Hv & Hs)] Hl; [eapply stem_last; eauto|].
    etransitivity; [apply vbase_inherits; exact Hv|eapply stem_last; eauto].
  Qed.

  Lemma stem_app c s d t : stem H c s -> list.last s = Some d -> stem H d t -> stem H c (s ++ tail t).
  Proof.
    induction 1 as [c|c b p Hd Hs IH]; intros Hl Ht.
    - injection Hl as <-. destruct Ht as [|? b p Hd Hp]; [constructor|]. simpl. econstructor; eauto.
    - rewrite last_cons_ne in Hl by (eapply stem_nonempty; exact Hs). simpl. econstructor; eauto.
  Qed.

  Lemma last_app_tail (s t : list N) d :
    list.last s = Some d -> head t = Some d -> list.last (s ++ tail t) = list.last t.
  Proof.
    intros Hs Ht. destruct t as [|x t]; [discriminate|]. injection Ht as ->. simpl tail.
    destruct t as [|y t]; [rewrite app_nil_r; exact Hs|]. rewrite last_app.
    change (list.last (d :: y :: t)) with (list.last (y :: t)).
    destruct (list.last (y :: t)) eqn:Hl; [reflexivity|]. apply last_None in Hl. discriminate.
  Qed.

  Lemma direct_ne_self v c : ~ direct H v c c.
  Proof.
    intros (bs & Hin & Hbb). destruct HO as [Hnd Hb].
    apply elem_of_list_split in Hin as (H1 & H2 & HH).
    specialize (Hb H1 c bs H2 c v HH Hbb). rewrite HH, map_app in Hnd. apply NoDup_app in Hnd as (_ & _ & Hnd).
    simpl in Hnd. apply NoDup_cons in Hnd as [Hnd _]. contradiction.
  Qed.

  Lemma vbase_ne c v : virtual_base H c v -> v <> c.
  Proof.
    intros (x & Hi & Hd) ->.
    assert (x = c) as ->.
    { apply (inherits_antisym H); [exact HO| |exact Hi]. econstructor; [exists true; exact Hd|constructor]. }
    exact (direct_ne_self true c Hd).
  Qed.

  (* The subobjects of a subobject are subobjects. *)
  Lemma compose_ok c s d t :
    contains H c s -> list.last s = Some d -> contains H d t ->
    contains H c (compose s t) /\ list.last (compose s t) = list.last t.
  Proof.
    intros Hs Hl Ht. unfold compose. destruct Ht as [Ht|(v & Hv & Ht)].
    - rewrite (stem_head _ _ Ht), Hl, decide_True by reflexivity.
      split; [|apply (last_app_tail s t d Hl (stem_head _ _ Ht))].
      destruct Hs as [Hs|(v & Hv & Hs)].
      + left. eapply stem_app; eauto.
      + right. exists v. split; [exact Hv|]. eapply stem_app; eauto.
    - rewrite (stem_head _ _ Ht), Hl, decide_False by (intros [= ->]; exact (vbase_ne _ _ Hv eq_refl)).
      split; [|reflexivity]. right. exists v. split; [|exact Ht].
      destruct Hv as (x & Hi & Hd). exists x. split; [|exact Hd].
      etransitivity; [eapply contains_last; eauto|exact Hi].
  Qed.

  Lemma contains_whole c : contains H c [c].
  Proof. left. constructor. Qed.

  Lemma filter_sole (P : subobject -> Prop) `{!forall x, Decision (P x)} l x :
    NoDup l -> x ∈ l -> P x -> (forall y, y ∈ l -> P y -> y = x) -> filter P l = [x].
  Proof.
    intros Hnd Hx HP Hu.
    assert (Hf : x ∈ filter P l) by (apply elem_of_list_filter; auto).
    pose proof (NoDup_filter P l Hnd) as Hnf.
    assert (Hall : forall y, y ∈ filter P l -> y = x) by (intros y Hy; apply elem_of_list_filter in Hy; apply Hu; tauto).
    destruct (filter P l) as [|a [|b k]]; [inversion Hf| |].
    - rewrite (Hall a); [reflexivity|left].
    - exfalso. apply NoDup_cons in Hnf as [Ha _]. apply Ha.
      rewrite (Hall a) by left. rewrite (Hall b) by (right; left). left.
  Qed.

  Lemma conversion_spec d b t : conversion H d b = Some t <-> only_part H d b t.
  Proof.
    unfold conversion. split.
    - intros Hc. destruct (filter _ _) as [|x [|y k]] eqn:Hf; try discriminate. injection Hc as ->.
      assert (Hin : forall s, s ∈ filter (fun t => list.last t = Some b) (subobjects H d) <-> s = t).
      { intros s. rewrite Hf. apply elem_of_list_singleton. }
      split.
      + pose proof (proj2 (Hin t) eq_refl) as Ht. apply elem_of_list_filter in Ht as [Hl Ht].
        apply subobjects_spec in Ht. auto.
      + intros s Hs Hl. apply Hin, elem_of_list_filter. split; [exact Hl|]. apply subobjects_spec. exact Hs.
    - intros [[Ht Hl] Hu]. rewrite (filter_sole _ _ t); [reflexivity|apply NoDup_remove_dups| |exact Hl|].
      + apply subobjects_spec. exact Ht.
      + intros y Hy Hly. apply Hu; [apply subobjects_spec; exact Hy|exact Hly].
  Qed.

  Lemma conversion_inherits d b t : conversion H d b = Some t -> inherits H d b.
  Proof. intros [[Ht Hl] _]%conversion_spec. eapply contains_last; eauto. Qed.

  Lemma embeds_compose d sd t s : embeds H d sd t s -> contains H d t /\ s = compose sd t.
  Proof.
    intros Hm. unfold compose. destruct Hm as [p Hl Hs|v t Hl Hv Hs].
    - split; [left; exact Hs|]. simpl. rewrite decide_True by congruence. reflexivity.
    - split; [right; eauto|]. rewrite (stem_head _ _ Hs), Hl.
      rewrite decide_False by (intros [= ->]; exact (vbase_ne _ _ Hv eq_refl)). reflexivity.
  Qed.

  Lemma compose_embeds d sd t : list.last sd = Some d -> contains H d t -> embeds H d sd t (compose sd t).
  Proof.
    intros Hl [Hs|(v & Hv & Hs)]; unfold compose; rewrite (stem_head _ _ Hs), Hl.
    - rewrite decide_True by reflexivity. pose proof (stem_head _ _ Hs) as Hh.
      destruct t as [|x t]; [discriminate|]. injection Hh as ->. apply embeds_stem; assumption.
    - rewrite decide_False by (intros [= ->]; exact (vbase_ne _ _ Hv eq_refl)).
      eapply embeds_virtual; eauto.
  Qed.

  Lemma conversion_self d : conversion H d d = Some [d].
  Proof.
    apply conversion_spec. split; [split; [apply contains_whole|reflexivity]|].
    intros s' [Hs|(v & Hv & Hs)] Hl.
    - inversion Hs as [?|? b p Hd Hp Hc Hsp]; subst; [reflexivity|]. exfalso.
      rewrite last_cons_ne in Hl by (eapply stem_nonempty; exact Hp).
      assert (b = d) as ->.
      { apply (inherits_antisym H); [exact HO|eapply stem_last; eauto|].
        econstructor; [exists false; exact Hd|constructor]. }
      exact (direct_ne_self false d Hd).
    - exfalso. apply (vbase_ne d v Hv). apply (inherits_antisym H); [exact HO|eapply stem_last; eauto|].
      apply vbase_inherits. exact Hv.
  Qed.

  Lemma compose_self s d : list.last s = Some d -> compose s [d] = s.
  Proof. intros Hl. unfold compose. simpl. rewrite decide_True by congruence. apply app_nil_r. Qed.

  (* The cast of a b part of the d part of an object of class c. *)
  Section Finds.
    Context (c b d : N) (sd t : subobject).
    Context (Hsd : contains H c sd) (Hld : list.last sd = Some d)
      (Hud : forall s', contains H c s' -> list.last s' = Some d -> s' = sd).
    Context (Ht : contains H d t) (Hlt : list.last t = Some b).

    Lemma part_self : b = d -> compose sd t = sd.
    Proof.
      intros ->. assert (t = [d]) as ->.
      { pose proof (conversion_self d) as Hdd. apply conversion_spec in Hdd. apply Hdd; assumption. }
      apply compose_self. exact Hld.
    Qed.

    Lemma not_up : b <> d -> conversion H b d = None.
    Proof.
      intros Hne. destruct (conversion H b d) as [u|] eqn:Hbd; [|reflexivity]. exfalso. apply Hne.
      apply (inherits_antisym H); [exact HO|eapply conversion_inherits; eauto|eapply contains_last; eauto].
    Qed.

    Lemma dynamic_finds : dynamic_cast H c b d (compose sd t) = Some sd.
    Proof.
      unfold dynamic_cast. destruct (decide (b = d)) as [Heq|Hne].
      { rewrite (part_self Heq), Heq, conversion_self, compose_self by exact Hld. reflexivity. }
      rewrite (not_up Hne).
      rewrite (filter_sole (fun s' => list.last s' = Some d) (subobjects H c) sd);
        [|apply NoDup_remove_dups|apply subobjects_spec; exact Hsd|exact Hld|].
      2:{ intros y Hy Hly. apply Hud; [apply subobjects_spec; exact Hy|exact Hly]. }
      destruct (filter _ [sd]) as [|x [|y k]] eqn:Hf; [reflexivity| |reflexivity].
      assert (Hx : x ∈ [sd]) by (eapply (elem_of_list_filter _ [sd] x); rewrite Hf; left).
      apply elem_of_list_singleton in Hx as ->. reflexivity.
    Qed.

    Lemma static_finds : static_castable H b d = true -> static_cast H b d (compose sd t) = Ok sd.
    Proof.
      unfold static_castable, static_cast. destruct (decide (b = d)) as [Heq|Hne].
      { intros _. rewrite (part_self Heq), Heq, conversion_self, compose_self by exact Hld. reflexivity. }
      rewrite (not_up Hne). rewrite (bool_decide_false (is_Some None)) by (intros [? [=]]). simpl.
      destruct (conversion H d b) as [t'|] eqn:Hdb; [|discriminate].
      assert (t' = t) as -> by (apply conversion_spec in Hdb; symmetry; apply Hdb; assumption).
      intros Hh. apply bool_decide_eq_true in Hh.
      assert (Hc : compose sd t = sd ++ tail t).
      { unfold compose. rewrite decide_True by congruence. reflexivity. }
      rewrite Hc, app_length, Nat.add_sub, take_app. rewrite decide_True by auto. reflexivity.
    Qed.
  End Finds.

  Theorem cast_finds k c b d sd t s :
    only_part H c d sd -> embeds H d sd t s -> list.last t = Some b ->
    cast_part k H c b d s = Ok (Some sd).
  Proof.
    intros [[Hsd Hld] Hud] Hm Hlt. apply embeds_compose in Hm as [Ht ->].
    pose proof (dynamic_finds c b d sd t Hsd Hld Hud Ht Hlt) as Hdyn.
    assert (Hopt : optimal_cast H c b d (compose sd t) = Ok (Some sd)).
    { unfold optimal_cast, requires_dynamic_cast. destruct (static_castable H b d) eqn:Hst; simpl.
      - rewrite (static_finds b d sd t Hld Ht Hlt Hst). reflexivity.
      - rewrite Hdyn. reflexivity. }
    destruct k; simpl; rewrite ?Hdyn; auto.
    case_decide as Heq; [|reflexivity]. rewrite (part_self b d sd t Hld Ht Hlt Heq). reflexivity.
  Qed.

  Lemma inherits_contains c b : inherits H c b -> exists s, contains H c s /\ list.last s = Some b.
  Proof.
    induction 1 as [c|c x b (v & Hd) Hi (s & Hs & Hl)]; [exists [c]; split; [apply contains_whole|reflexivity]|].
    assert (Hx : exists u, contains H c u /\ list.last u = Some x).
    { destruct v.
      - exists [x]. split; [|reflexivity]. right. exists x. split; [|constructor].
        exists c. split; [constructor|exact Hd].
      - exists [c; x]. split; [|reflexivity]. left. econstructor; [exact Hd|constructor]. }
    destruct Hx as (u & Hu & Hlu). exists (compose u s).
    destruct (compose_ok c u x s Hu Hlu Hs) as [H1 H2]. split; [exact H1|congruence].
  Qed.

  (* The argument is the b part of the object. *)
  Theorem cast_whole k c b d s :
    unambiguous H c b -> unambiguous H c d -> unambiguous H d b ->
    contains H c s -> list.last s = Some b ->
    exists sd t, only_part H c d sd /\ only_part H d b t /\ embeds H d sd t s /\
      cast_part k H c b d s = Ok (Some sd).
  Proof.
    intros [sb Hsb] [sd Hsd] [t Ht] Hs Hl. exists sd, t. split; [exact Hsd|]. split; [exact Ht|].
    pose proof Hsd as [[H1 H2] _]. pose proof Ht as [[H3 H4] _].
    assert (Hc : compose sd t = s).
    { destruct (compose_ok c sd d t H1 H2 H3) as [H5 H6].
      rewrite (proj2 Hsb s Hs Hl). apply (proj2 Hsb); [exact H5|rewrite H6; exact H4]. }
    assert (Hm : embeds H d sd t s) by (rewrite <- Hc; apply compose_embeds; assumption).
    split; [exact Hm|]. eapply cast_finds; eauto.
  Qed.
End Casts.
