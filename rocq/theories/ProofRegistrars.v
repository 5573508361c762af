(* Proofs about the objects that register classes, methods and overriders. *)
From stdpp Require Import base list numbers relations.
From Verif Require Import Base Registry ModelStaticList SpecStaticList ProofBase ProofStaticList
  ModelClasses ModelMethods ModelSlots ModelTables ModelHash ModelWorld
  ModelRegistrars SpecRegistrars.

(* The numbers of the objects of each kind. *)
Definition class_ix (o : registrar) : option nat := match o with RClass k => Some k | _ => None end.
Definition method_ix (o : registrar) : option nat := match o with RMethod k => Some k | _ => None end.
Definition overrider_ix (S : source) (m : nat) (o : registrar) : option nat :=
  match o with
  | ROverrider k => if decide (fst (so_overrider S k) = m) then Some k else None
  | _ => None
  end.

Lemma rep_ext s c c' : (forall i, c' i = c i) -> rep s c -> rep s c'.
Proof.
  intros He [R1 R2 R3 R4 R5]. split.
  - intros i. rewrite He. apply R1.
  - intros i. rewrite He. apply R2.
  - intros i j n. rewrite !He. apply R3.
  - intros i. rewrite He. apply R4.
  - intros n H. apply R5. intros i. rewrite <- He. apply H.
Qed.

Lemma omap_cons {A B} (f : A -> option B) x (l : list A) :
  omap f (x :: l) = match f x with Some y => y :: omap f l | None => omap f l end.
Proof. reflexivity. Qed.

Lemma omap_none {A B} (l : list A) : omap (fun _ => @None B) l = [].
Proof. induction l; auto. Qed.

Section Lists.
  Context (f : registrar -> option nat).
  Context (f_inj : forall o o' k, f o = Some k -> f o' = Some k -> o' = o).

  Lemma omap_push (l : list registrar) o :
    omap f (l ++ [o]) = omap f l ++ match f o with Some k => [k] | None => [] end.
  Proof. rewrite omap_app. simpl. destruct (f o); reflexivity. Qed.

  Lemma omap_drop (l : list registrar) o k : f o = Some k ->
    omap f (filter (fun p => p <> o) l) = filter (fun x => x <> k) (omap f l).
  Proof.
    intros Ho. induction l as [|o' l IH]; [reflexivity|].
    rewrite filter_cons. destruct (decide _) as [E|E]; rewrite !omap_cons.
    - destruct (f o') as [k'|] eqn:E'; [|exact IH].
      rewrite filter_cons. destruct (decide _) as [E2|E2]; [rewrite IH; reflexivity|].
      exfalso. apply E2. intros ->. apply E. eapply f_inj; eauto.
    - destruct (decide (o' = o)) as [->|]; [|contradiction].
      rewrite Ho. rewrite filter_cons, decide_False by (intros H; apply H; reflexivity). exact IH.
  Qed.

  Lemma omap_keep (l : list registrar) o : f o = None ->
    omap f (filter (fun p => p <> o) l) = omap f l.
  Proof.
    intros Ho. induction l as [|o' l IH]; [reflexivity|].
    rewrite filter_cons. destruct (decide _) as [E|E]; rewrite !omap_cons.
    - destruct (f o'); rewrite IH; reflexivity.
    - destruct (decide (o' = o)) as [->|]; [|contradiction]. rewrite Ho. exact IH.
  Qed.

  Lemma omap_length_le (l : list registrar) : length (omap f l) <= length l.
  Proof.
    induction l as [|o l IH]; [simpl; lia|]. rewrite omap_cons. destruct (f o); simpl; lia.
  Qed.
End Lists.

Lemma elem_concat {A} (x : A) (ls : list (list A)) :
  (exists l, x ∈ l /\ l ∈ ls) -> x ∈ concat ls.
Proof.
  intros (l & Hx & Hl). induction Hl as [l ls|l l' ls _ IH]; simpl; apply elem_of_app; auto.
Qed.

Lemma overrider_ix_some S m o k :
  overrider_ix S m o = Some k <-> o = ROverrider k /\ fst (so_overrider S k) = m.
Proof.
  destruct o; simpl; try (split; [discriminate|intros [[=] _]]).
  destruct (decide _); split.
  - intros [= <-]. auto.
  - intros [[= ->] _]. reflexivity.
  - discriminate.
  - intros [[= ->] H]. contradiction.
Qed.

(* The indices, by list. *)
Definition class_ixs (i : nat) (o : registrar) := if decide (i = 0) then class_ix o else None.
Definition method_ixs (i : nat) (o : registrar) := if decide (i = 0) then method_ix o else None.

Lemma class_ixs_inj j o n : class_ixs j o = Some n -> forall o' j', class_ixs j' o' = Some n -> o' = o.
Proof.
  unfold class_ixs. intros H o' j' H'. destruct (decide (j = 0)); [|discriminate].
  destruct (decide (j' = 0)); [|discriminate]. destruct o, o'; simpl in *; congruence.
Qed.
Lemma method_ixs_inj j o n : method_ixs j o = Some n -> forall o' j', method_ixs j' o' = Some n -> o' = o.
Proof.
  unfold method_ixs. intros H o' j' H'. destruct (decide (j = 0)); [|discriminate].
  destruct (decide (j' = 0)); [|discriminate]. destruct o, o'; simpl in *; congruence.
Qed.
Lemma overrider_ixs_inj S j o n : overrider_ix S j o = Some n ->
  forall o' j', overrider_ix S j' o' = Some n -> o' = o.
Proof.
  rewrite overrider_ix_some. intros [-> _] o' j'. rewrite overrider_ix_some. intros [-> _]. reflexivity.
Qed.

(* ---- a list of nodes given by [f] after a construction or a destruction ---- *)
Section Change.
  Context (links : links) (f : nat -> registrar -> option nat) (l : list registrar) (o : registrar).
  Context (HR : rep links (fun j => omap (f j) l)).

  Section In.
    Context (i k : nat) (Hf : forall j, f j o = if decide (j = i) then Some k else None).
    Context (Hinj : forall j o' n, f j o' = Some n -> forall o'' j', f j' o'' = Some n -> o'' = o').

    Lemma push_in : o ∉ l ->
      exists links', push_back i k links = Ok links' /\ rep links' (fun j => omap (f j) (l ++ [o])).
    Proof.
      intros Ho. destruct (push_back_rep links _ i k HR) as (s' & E & HR').
      { intros j Hj. apply elem_of_list_omap in Hj as (o' & H2 & H1). apply Ho.
        rewrite (Hinj j o' k H1 o i); [exact H2|]. rewrite Hf, decide_True; auto. }
      exists s'. split; [exact E|]. eapply rep_ext; [|exact HR'].
      intros j. simpl. etransitivity; [apply omap_push|]. rewrite Hf.
      destruct (decide (j = i)) as [->|]; [reflexivity|]. apply app_nil_r.
    Qed.

    Lemma remove_in : o ∈ l ->
      exists links', remove i k links = Ok links' /\
        rep links' (fun j => omap (f j) (filter (fun p => p <> o) l)).
    Proof.
      intros Ho. assert (Hk : f i o = Some k) by (rewrite Hf, decide_True; auto).
      destruct (remove_rep links _ i k HR) as (s' & E & HR').
      { apply elem_of_list_omap. exists o. auto. }
      exists s'. split; [exact E|]. eapply rep_ext; [|exact HR']. intros j. simpl.
      destruct (decide (j = i)) as [->|E'].
      - apply omap_drop; [|exact Hk]. intros o1 o2 n H1 H2. eapply Hinj; eauto.
      - apply omap_keep. rewrite Hf, decide_False; auto.
    Qed.
  End In.

  Section Out.
    Context (Hf : forall j, f j o = None).

    Lemma push_out : rep links (fun j => omap (f j) (l ++ [o])).
    Proof.
      eapply rep_ext; [|exact HR]. intros j. etransitivity; [apply omap_push|]. rewrite Hf.
      apply app_nil_r.
    Qed.

    Lemma remove_out : rep links (fun j => omap (f j) (filter (fun p => p <> o) l)).
    Proof. eapply rep_ext; [|exact HR]. intros j. apply omap_keep. apply Hf. Qed.
  End Out.
End Change.

(* ---- the objects of a program ---- *)
Lemma live_snoc evs ev : live (evs ++ [ev]) = live_after (live evs) ev.
Proof. unfold live. rewrite foldl_app. reflexivity. Qed.

Lemma live_constructed evs o : o ∈ live evs -> constructed evs o.
Proof.
  revert o. induction evs as [|ev evs IH] using rev_ind; intros o.
  - intros H. apply elem_of_nil in H. contradiction.
  - rewrite live_snoc. intros H.
    assert (G : o ∈ live evs \/ exists st, ev = Construct st o).
    { destruct ev as [st o'|o'|st n]; simpl in H; auto.
      - apply elem_of_app in H as [H|H]; [auto|]. apply elem_of_list_singleton in H as ->. eauto.
      - apply elem_of_list_filter in H as [_ H]. auto. }
    destruct G as [G|(st & ->)].
    + destruct (IH o G) as (st & Hs). exists st. apply elem_of_app. auto.
    + exists st. apply elem_of_app. right. left.
Qed.

Lemma live_length evs : length (live evs) <= length evs.
Proof.
  induction evs as [|ev evs IH] using rev_ind; [simpl; lia|].
  rewrite live_snoc, app_length. destruct ev as [st o|o|st n]; simpl.
  - rewrite app_length. simpl. lia.
  - pose proof (filter_length (fun p => p <> o) (live evs)). lia.
  - lia.
Qed.

Lemma lifetimes_prefix evs ev : lifetimes (evs ++ [ev]) -> lifetimes evs.
Proof.
  intros H before ev' after ->. apply (H before ev' (after ++ [ev])).
  rewrite <- app_assoc. reflexivity.
Qed.

Lemma constructed_snoc evs ev o : constructed (evs ++ [ev]) o <->
  constructed evs o \/ exists st, ev = Construct st o.
Proof.
  unfold constructed. split.
  - intros (st & H). apply elem_of_app in H as [H|H]; [eauto|].
    apply elem_of_list_singleton in H. eauto.
  - intros [(st & H)|(st & ->)]; exists st; apply elem_of_app; [auto|right; left].
Qed.

Section Run.
  Context (deferred : bool) (S : source) (HS : source_ok S).

  (* The record of [o] has the type ids of [st]. *)
  Definition holds (s : memory) (st : N -> N) (o : registrar) : Prop :=
    match o with
    | RClass k =>
        me_class s k = Some (ClassRecord (st (cr_type (so_class S k))) [] (cr_abstract (so_class S k))
                               (cr_static_vptr (so_class S k))) /\
        me_bases s (so_bases S k) = Some (st <$> cr_bases (so_class S k))
    | RMethod k => me_method s k = Some (method_with st (so_method S k) [])
    | ROverrider k => me_overrider s k = Some (overrider_with st (snd (so_overrider S k)))
    end.

  (* The lists contain the live objects. *)
  Record lists_ok (s : memory) (l : list registrar) : Prop := {
    lo_classes : rep (me_classes s) (fun j => omap (class_ixs j) l);
    lo_methods : rep (me_methods s) (fun j => omap (method_ixs j) l);
    lo_overriders : rep (me_overriders s) (fun j => omap (overrider_ix S j) l)
  }.

  Record memory_ok (s : memory) (evs : list revent) : Prop := {
    mk_lists : lists_ok s (live evs);
    mk_owner : forall k m, me_owner s k = Some m ->
      m = fst (so_overrider S k) /\ constructed evs (ROverrider k);
    mk_owned : forall k, constructed evs (ROverrider k) -> is_Some (me_owner s k);
    mk_fields : deferred = false -> forall st,
      (forall st' o x, Construct st' o ∈ evs -> st' x = st x) ->
      forall o, constructed evs o -> holds s st o
  }.

  (* Everything but the type ids. *)
  Definition same_lists (s s' : memory) : Prop :=
    me_classes s' = me_classes s /\ me_methods s' = me_methods s /\
    me_overriders s' = me_overriders s /\ me_owner s' = me_owner s.

  Lemma same_lists_refl s : same_lists s s.
  Proof. unfold same_lists. auto. Qed.
  Lemma same_lists_trans s1 s2 s3 : same_lists s1 s2 -> same_lists s2 s3 -> same_lists s1 s3.
  Proof. unfold same_lists. intros (-> & -> & -> & ->) H. exact H. Qed.
  Lemma same_lists_ok s s' l : same_lists s s' -> lists_ok s l -> lists_ok s' l.
  Proof. intros (H1 & H2 & H3 & _) [L1 L2 L3]. split; rewrite ?H1, ?H2, ?H3; assumption. Qed.

  (* ---- resolve_type_ids ---- *)
  Lemma resolve_lists st s o : same_lists s (resolve_ids S st s o).
  Proof. destruct o; unfold same_lists; simpl; auto. Qed.

  Lemma resolves_lists st os : forall s, same_lists s (foldl (resolve_ids S st) s os).
  Proof.
    induction os as [|o os IH]; intros s; simpl; [apply same_lists_refl|].
    eapply same_lists_trans; [apply resolve_lists|apply IH].
  Qed.

  Lemma resolve_holds st s o : holds (resolve_ids S st s o) st o.
  Proof. destruct o; simpl; [split|..]; apply upd_eq. Qed.

  Lemma map_ids (st st' : N -> N) (l : list N) : (forall x, st' x = st x) -> st' <$> l = st <$> l.
  Proof. intros H. induction l as [|x l IH]; [reflexivity|]. rewrite !fmap_cons, IH, H. reflexivity. Qed.

  Lemma resolve_keeps st st' s o o' : (forall x, st' x = st x) ->
    holds s st o' -> holds (resolve_ids S st' s o) st o'.
  Proof.
    intros He. destruct o as [k|k|k], o' as [k'|k'|k']; simpl; auto.
    - intros [H1 H2]. split.
      + destruct (decide (k' = k)) as [->|E]; [rewrite upd_eq, He; reflexivity|rewrite upd_ne; auto].
      + destruct (decide (so_bases S k' = so_bases S k)) as [E|E]; [|rewrite upd_ne; auto].
        rewrite E, upd_eq, (HS k' k E). f_equal. apply map_ids. exact He.
    - intros H. destruct (decide (k' = k)) as [->|E]; [|rewrite upd_ne; auto].
      rewrite upd_eq. unfold method_with. rewrite He. f_equal. f_equal. apply map_ids. exact He.
    - intros H. destruct (decide (k' = k)) as [->|E]; [|rewrite upd_ne; auto].
      rewrite upd_eq. unfold overrider_with. rewrite He. f_equal. f_equal. apply map_ids. exact He.
  Qed.

  Lemma resolve_holds_eq st st' s o : (forall x, st' x = st x) -> holds (resolve_ids S st' s o) st o.
  Proof.
    intros He. destruct o; simpl; [split|..]; rewrite upd_eq; unfold method_with, overrider_with;
      rewrite ?He; f_equal; try (f_equal; apply map_ids; exact He). apply map_ids. exact He.
  Qed.

  (* ---- the lists ---- *)
  Lemma lists_elements s l fuel : lists_ok s l -> length l <= fuel ->
    elements fuel 0 (me_classes s) = Ok (omap class_ix l) /\
    elements fuel 0 (me_methods s) = Ok (omap method_ix l) /\
    forall m, elements fuel m (me_overriders s) = Ok (omap (overrider_ix S m) l).
  Proof.
    intros [H1 H2 H3] Hf. repeat split.
    - rewrite (elements_rep _ _ 0 fuel H1); [reflexivity|].
      pose proof (omap_length_le (class_ixs 0) l). simpl. lia.
    - rewrite (elements_rep _ _ 0 fuel H2); [reflexivity|].
      pose proof (omap_length_le (method_ixs 0) l). simpl. lia.
    - intros m. rewrite (elements_rep _ _ m fuel H3); [reflexivity|].
      pose proof (omap_length_le (overrider_ix S m) l). simpl. lia.
  Qed.

  Lemma resolutions_ok s l fuel : lists_ok s l -> length l <= fuel ->
    exists os, resolutions fuel s = Ok os.
  Proof.
    intros HL Hf. destruct (lists_elements s l fuel HL Hf) as (E1 & E2 & E3).
    unfold resolutions. rewrite E1. cbn [obind]. rewrite E2. cbn [obind].
    assert (G : forall ms : list nat, exists os, mapM (fun k =>
      let* l := elements fuel k (me_overriders s) in Ok (RMethod k :: map ROverrider l)) ms = Ok os).
    { induction ms as [|k ms (os & IH)]; [exists []; reflexivity|]. cbn [mapM]. rewrite E3. cbn [obind].
      rewrite IH. cbn [obind]. eauto. }
    destruct (G (omap method_ix l)) as (os & ->). cbn [obind]. eauto.
  Qed.

  (* ---- one event ---- *)
  Lemma early_id st : deferred = false -> at_construction deferred st = st.
  Proof. unfold at_construction. intros ->. reflexivity. Qed.

  Lemma ids_prefix evs ev st :
    (forall st' o x, Construct st' o ∈ evs ++ [ev] -> st' x = st x) ->
    forall st' o x, Construct st' o ∈ evs -> st' x = st x.
  Proof. intros H st' o x Hc. apply (H st' o). apply elem_of_app. auto. Qed.

  (* The fields after the construction of [o]. *)
  Lemma construct_fields evs s s' st o :
    (deferred = false -> forall st1, (forall st' o x, Construct st' o ∈ evs -> st' x = st1 x) ->
      forall o, constructed evs o -> holds s st1 o) ->
    (forall st1 o', holds (resolve_ids S (at_construction deferred st) s o) st1 o' -> holds s' st1 o') ->
    deferred = false -> forall st1,
      (forall st' o' x, Construct st' o' ∈ evs ++ [Construct st o] -> st' x = st1 x) ->
      forall o', constructed (evs ++ [Construct st o]) o' -> holds s' st1 o'.
  Proof.
    intros HF Hs' Hd st1 H1 o' Ho'. apply Hs'. rewrite early_id by exact Hd.
    assert (He : forall x, st x = st1 x).
    { intros x. apply (H1 st o). apply elem_of_app. right. left. }
    apply constructed_snoc in Ho' as [Ho'|(st2 & [= <- <-])].
    - apply resolve_keeps; [exact He|]. apply HF; auto. eapply ids_prefix; eauto.
    - apply resolve_holds_eq. exact He.
  Qed.

  Lemma step_ok fuel evs ev s : lifetimes (evs ++ [ev]) -> length evs <= fuel -> memory_ok s evs ->
    exists s', registrar_step deferred S fuel ev s = Ok s' /\ memory_ok s' (evs ++ [ev]).
  Proof.
    intros HL Hf [HK HO1 HO2 HF]. pose proof HK as [H1 H2 H3].
    destruct ev as [st o|o|st n].
    - assert (Hno : o ∉ live evs).
      { intros H. apply live_constructed in H. apply (HL evs _ [] eq_refl). exact H. }
      destruct o as [k|k|k]; simpl.
      + unfold construct_class.
        destruct (push_in (me_classes s) class_ixs (live evs) (RClass k) H1 0 k) as (l' & E & HR);
          [reflexivity|exact class_ixs_inj|exact Hno|].
        cbn [me_classes resolve_class set_class set_bases]. rewrite E. cbn [obind].
        eexists. split; [reflexivity|]. split.
        * rewrite live_snoc. split; [exact HR|..]; apply push_out; try assumption; intros j;
            [unfold method_ixs; destruct (decide _)|]; reflexivity.
        * simpl. intros j m Hm. destruct (HO1 j m Hm) as [-> Hc]. split; [reflexivity|].
          apply constructed_snoc. auto.
        * simpl. intros j Hc. apply constructed_snoc in Hc as [Hc|(st' & [=])]. auto.
        * apply (construct_fields evs s _ st (RClass k) HF). intros st1 o'. destruct o'; auto.
      + unfold construct_method.
        destruct (push_in (me_methods s) method_ixs (live evs) (RMethod k) H2 0 k) as (l' & E & HR);
          [reflexivity|exact method_ixs_inj|exact Hno|].
        cbn [me_methods resolve_method set_method]. rewrite E. cbn [obind].
        eexists. split; [reflexivity|]. split.
        * rewrite live_snoc. split; [|exact HR|]; apply push_out; try assumption; intros j;
            [unfold class_ixs; destruct (decide _)|]; reflexivity.
        * simpl. intros j m Hm. destruct (HO1 j m Hm) as [-> Hc]. split; [reflexivity|].
          apply constructed_snoc. auto.
        * simpl. intros j Hc. apply constructed_snoc in Hc as [Hc|(st' & [=])]. auto.
        * apply (construct_fields evs s _ st (RMethod k) HF). intros st1 o'. destruct o'; auto.
      + unfold construct_overrider.
        destruct (me_owner s k) as [m|] eqn:Eo.
        { exfalso. destruct (HO1 k m Eo) as [_ Hc]. apply (HL evs _ [] eq_refl). exact Hc. }
        destruct (push_in (me_overriders s) (overrider_ix S) (live evs) (ROverrider k) H3
          (fst (so_overrider S k)) k) as (l' & E & HR);
          [|exact (overrider_ixs_inj S)|exact Hno|].
        { intros j. simpl. destruct (decide (_ = j)), (decide (j = _)); congruence. }
        cbn [me_overriders resolve_overrider set_overrider set_owner]. rewrite E. cbn [obind].
        eexists. split; [reflexivity|]. split.
        * rewrite live_snoc. split; [..|exact HR]; apply push_out; try assumption; intros j;
            [unfold class_ixs|unfold method_ixs]; destruct (decide _); reflexivity.
        * simpl. intros j m. destruct (decide (j = k)) as [->|Ej].
          -- rewrite upd_eq. intros [= <-]. split; [reflexivity|]. apply constructed_snoc. eauto.
          -- rewrite upd_ne by exact Ej. intros Hm. destruct (HO1 j m Hm) as [-> Hc].
             split; [reflexivity|]. apply constructed_snoc. auto.
        * simpl. intros j Hc. destruct (decide (j = k)) as [->|Ej]; [rewrite upd_eq; eauto|].
          rewrite upd_ne by exact Ej. apply constructed_snoc in Hc as [Hc|(st' & [= -> ->])]; [auto|].
          contradiction.
        * apply (construct_fields evs s _ st (ROverrider k) HF). intros st1 o'. destruct o'; auto.
    - assert (Hin : o ∈ live evs) by (apply (HL evs _ [] eq_refl)).
      assert (HO2' : forall k, constructed (evs ++ [Destroy o]) (ROverrider k) -> is_Some (me_owner s k)).
      { intros k Hc. apply constructed_snoc in Hc as [Hc|(st & [=])]. auto. }
      assert (HO1' : forall k m, me_owner s k = Some m ->
        m = fst (so_overrider S k) /\ constructed (evs ++ [Destroy o]) (ROverrider k)).
      { intros k m Hm. destruct (HO1 k m Hm) as [-> Hc]. split; [reflexivity|].
        apply constructed_snoc. auto. }
      assert (HF' : deferred = false -> forall st1,
        (forall st' o' x, Construct st' o' ∈ evs ++ [Destroy o] -> st' x = st1 x) ->
        forall o', constructed (evs ++ [Destroy o]) o' -> holds s st1 o').
      { intros Hd st1 He o' Hc. apply constructed_snoc in Hc as [Hc|(st & [=])].
        apply HF; auto. eapply ids_prefix; eauto. }
      destruct o as [k|k|k]; simpl.
      + unfold destroy_class.
        destruct (remove_in (me_classes s) class_ixs (live evs) (RClass k) H1 0 k) as (l' & E & HR);
          [reflexivity|exact class_ixs_inj|exact Hin|].
        rewrite E. cbn [obind]. eexists. split; [reflexivity|]. split; [|exact HO1'|exact HO2'|exact HF'].
        rewrite live_snoc. split; [exact HR|..]; apply remove_out; try assumption; intros j;
          [unfold method_ixs; destruct (decide _)|]; reflexivity.
      + unfold destroy_method.
        destruct (remove_in (me_methods s) method_ixs (live evs) (RMethod k) H2 0 k) as (l' & E & HR);
          [reflexivity|exact method_ixs_inj|exact Hin|].
        rewrite E. cbn [obind]. eexists. split; [reflexivity|]. split; [|exact HO1'|exact HO2'|exact HF'].
        rewrite live_snoc. split; [|exact HR|]; apply remove_out; try assumption; intros j;
          [unfold class_ixs; destruct (decide _)|]; reflexivity.
      + unfold destroy_overrider.
        pose proof (live_constructed _ _ Hin) as Hc.
        destruct (HO2 k Hc) as [m Hm]. rewrite Hm. cbn [deref obind].
        destruct (HO1 k m Hm) as [-> _].
        destruct (remove_in (me_overriders s) (overrider_ix S) (live evs) (ROverrider k) H3
          (fst (so_overrider S k)) k) as (l' & E & HR);
          [|exact (overrider_ixs_inj S)|exact Hin|].
        { intros j. simpl. destruct (decide (_ = j)), (decide (j = _)); congruence. }
        rewrite E. cbn [obind]. eexists. split; [reflexivity|]. split; [|exact HO1'|exact HO2'|exact HF'].
        rewrite live_snoc. split; [..|exact HR]; apply remove_out; try assumption; intros j;
          [unfold class_ixs|unfold method_ixs]; destruct (decide _); reflexivity.
    - assert (HO2' : forall k, constructed (evs ++ [Attempt st n]) (ROverrider k) -> is_Some (me_owner s k)).
      { intros k Hc. apply constructed_snoc in Hc as [Hc|(st' & [=])]. auto. }
      assert (HO1' : forall k m, me_owner s k = Some m ->
        m = fst (so_overrider S k) /\ constructed (evs ++ [Attempt st n]) (ROverrider k)).
      { intros k m Hm. destruct (HO1 k m Hm) as [-> Hc]. split; [reflexivity|].
        apply constructed_snoc. auto. }
      simpl. unfold attempt. destruct deferred eqn:Hd.
      + destruct (resolutions_ok s (live evs) fuel HK) as (os & ->).
        { pose proof (live_length evs). lia. }
        cbn [obind]. pose proof (resolves_lists st (take n os) s) as Hsl.
        eexists. split; [reflexivity|]. split; [|..|intros E; congruence].
        * rewrite live_snoc. simpl. eapply same_lists_ok; eauto.
        * destruct Hsl as (_ & _ & _ & ->). exact HO1'.
        * destruct Hsl as (_ & _ & _ & ->). exact HO2'.
      + eexists. split; [reflexivity|]. split; [|exact HO1'|exact HO2'|].
        * rewrite live_snoc. exact HK.
        * intros _ st1 He o Ho. apply constructed_snoc in Ho as [Ho|(st' & [=])].
          apply HF; auto. eapply ids_prefix; eauto.
  Qed.

  Lemma memory0_ok : memory_ok memory0 [].
  Proof.
    split.
    - split; exact rep0.
    - intros k m H. discriminate.
    - intros k (st & H). apply elem_of_nil in H. contradiction.
    - intros _ st1 _ o (st & H). apply elem_of_nil in H. contradiction.
  Qed.

  Lemma run_ok fuel evs : lifetimes evs -> length evs <= fuel ->
    exists s, registrar_run deferred S fuel evs memory0 = Ok s /\ memory_ok s evs.
  Proof.
    induction evs as [|ev evs IH] using rev_ind; intros HL Hf.
    - exists memory0. split; [reflexivity|exact memory0_ok].
    - rewrite app_length in Hf. simpl in Hf.
      destruct IH as (s & E & HK); [eapply lifetimes_prefix; eauto|lia|].
      destruct (step_ok fuel evs ev s HL) as (s' & E' & HK'); [lia|exact HK|].
      exists s'. split; [|exact HK']. unfold registrar_run in *. rewrite foldM_app, E. cbn [obind foldM].
      rewrite E'. reflexivity.
  Qed.

  (* ---- initialize ---- *)
  Section Read.
    Context (st : N -> N).

    (* [s'] comes after [s]: the lists are the same, and type ids that are right in
       [s] are right in [s']. *)
    Definition later (s s' : memory) : Prop :=
      same_lists s s' /\ forall o, holds s st o -> holds s' st o.

    Lemma later_refl s : later s s.
    Proof. split; [apply same_lists_refl|auto]. Qed.
    Lemma later_trans s1 s2 s3 : later s1 s2 -> later s2 s3 -> later s1 s3.
    Proof. intros [H1 H2] [H3 H4]. split; [eapply same_lists_trans; eauto|auto]. Qed.

    Lemma late_later o s : later s (at_initialize deferred S st o s).
    Proof.
      unfold at_initialize. destruct deferred; [|apply later_refl].
      split; [apply resolve_lists|]. intros o'. apply resolve_keeps. reflexivity.
    Qed.

    Lemma late_holds o s : deferred = true \/ holds s st o -> holds (at_initialize deferred S st o s) st o.
    Proof.
      unfold at_initialize. destruct deferred; [intros _; apply resolve_holds|]. intros [[=]|H]. exact H.
    Qed.

    Lemma read_class_ok s k : holds s st (RClass k) ->
      read_class S s k = Ok (class_with st (so_class S k)).
    Proof. intros [H1 H2]. unfold read_class. rewrite H1. cbn [deref obind]. rewrite H2. reflexivity. Qed.

    Lemma visit_classes E ks : forall s a,
      (forall k, k ∈ ks -> deferred = true \/ holds s st (RClass k)) ->
      exists s', foldM (visit_class deferred S E st) ks (s, a) =
          Ok (s', foldl (add_class (e_ti E)) a (map (fun k => class_with st (so_class S k)) ks)) /\
        later s s' /\ forall k, k ∈ ks -> holds s' st (RClass k).
    Proof.
      induction ks as [|k ks IH]; intros s a Hk.
      - exists s. split; [reflexivity|]. split; [apply later_refl|]. intros k H.
        apply elem_of_nil in H. contradiction.
      - cbn [foldM map foldl]. unfold visit_class at 1. cbn [fst snd].
        pose proof (late_holds (RClass k) s (Hk k (elem_of_list_here _ _))) as Hh.
        pose proof (late_later (RClass k) s) as Hl.
        rewrite read_class_ok by exact Hh. cbn [obind].
        destruct (IH (at_initialize deferred S st (RClass k) s) (add_class (e_ti E) a (class_with st (so_class S k))))
          as (s' & E' & Hl' & Hh').
        { intros k' Hk'. destruct (Hk k' (elem_of_list_further _ _ _ Hk')) as [H|H]; [auto|].
          right. apply Hl. exact H. }
        exists s'. split; [exact E'|]. split; [eapply later_trans; eauto|].
        intros k' Hk'. apply elem_of_cons in Hk' as [->|Hk']; [apply Hl'; exact Hh|auto].
    Qed.

    Lemma collect_objects E n cm s ks : (forall k, k ∈ ks -> holds s st (RClass k)) -> forall w,
      foldM (fun k w => let* cr := read_class S s k in collect_record E n cm cr w) ks w =
      foldM (collect_record E n cm) (map (fun k => class_with st (so_class S k)) ks) w.
    Proof.
      induction ks as [|k ks IH]; intros Hk w; [reflexivity|]. cbn [foldM map].
      rewrite read_class_ok by (apply Hk; left). cbn [obind].
      destruct (collect_record E n cm _ w); cbn [obind]; try reflexivity.
      apply IH. intros k' H. apply Hk. right. exact H.
    Qed.

    (* A loop that visits objects in turn, as one that maps their records. *)
    Lemma mapS_ok {B C} (f : nat -> memory -> outcome (memory * B)) (g : C -> outcome B) (r : nat -> C)
        (P : memory -> Prop) ks :
      (forall k s, k ∈ ks -> P s ->
         exists s', f k s = (let* y := g (r k) in Ok (s', y)) /\ later s s' /\ P s') ->
      forall s, P s ->
        exists s', mapS f ks s = (let* ys := mapM g (map r ks) in Ok (s', ys)) /\ later s s' /\ P s'.
    Proof.
      induction ks as [|k ks IH]; intros Hf s HP.
      - exists s. split; [reflexivity|]. split; [apply later_refl|exact HP].
      - cbn [mapS map mapM]. destruct (Hf k s (elem_of_list_here _ _) HP) as (s1 & -> & Hl1 & HP1).
        destruct (IH (fun k' s' H => Hf k' s' (elem_of_list_further _ _ _ H)) s1 HP1)
          as (s2 & E2 & Hl2 & HP2).
        exists s2. split; [|split; [eapply later_trans; eauto|exact HP2]].
        destruct (g (r k)) as [y|e| |]; cbn [obind]; try reflexivity.
        rewrite E2. destruct (mapM g (map r ks)); reflexivity.
    Qed.

    Definition right_ids (l : list registrar) (s : memory) : Prop :=
      forall o, o ∈ l -> deferred = true \/ holds s st o.

    Lemma right_later l s s' : later s s' -> right_ids l s -> right_ids l s'.
    Proof. intros Hl H o Ho. destruct (H o Ho) as [H'|H']; [auto|]. right. apply Hl. exact H'. Qed.

    Lemma classes_ix l : map (fun k => class_with st (so_class S k)) (omap class_ix l) = classes_of S st l.
    Proof.
      unfold classes_of. induction l as [|o l IH]; [reflexivity|]. rewrite !omap_cons.
      destruct o; cbn [class_ix map]; rewrite ?IH; reflexivity.
    Qed.

    Lemma overriders_ix m l :
      map (fun k => overrider_with st (snd (so_overrider S k))) (omap (overrider_ix S m) l) =
      overriders_of S st m l.
    Proof.
      unfold overriders_of. induction l as [|o l IH]; [reflexivity|]. rewrite !omap_cons.
      destruct o as [k|k|k]; cbn [overrider_ix]; try exact IH.
      destruct (decide _); cbn [map]; rewrite ?IH; reflexivity.
    Qed.

    Lemma methods_ix l l' :
      map (fun k => method_with st (so_method S k) (overriders_of S st k l')) (omap method_ix l) =
      omap (fun o => match o with
                     | RMethod k => Some (method_with st (so_method S k) (overriders_of S st k l'))
                     | _ => None end) l.
    Proof.
      induction l as [|o l IH]; [reflexivity|]. rewrite !omap_cons.
      destruct o; cbn [method_ix map]; rewrite ?IH; reflexivity.
    Qed.

    Lemma augment_classes_right E fuel l s : lists_ok s l -> length l <= fuel -> right_ids l s ->
      exists s', augment_classes_objects deferred S E fuel st s =
          (let* g := augment_classes E (classes_of S st l) in Ok (s', g)) /\ later s s'.
    Proof.
      intros HL Hf Hr. destruct (lists_elements s l fuel HL Hf) as (E1 & _ & _).
      unfold augment_classes_objects, augment_classes, add_classes. rewrite E1. cbn [obind].
      destruct (visit_classes E (omap class_ix l) s ([], fun _ => None)) as (s' & Hv & Hl & Hh).
      { intros k Hk. apply Hr. apply elem_of_list_omap in Hk as (o & Ho & E').
        destruct o; try discriminate. injection E' as ->. exact Ho. }
      exists s'. split; [|exact Hl].
      etransitivity; [exact (f_equal (fun z => obind z _) Hv)|]. cbn [obind]. rewrite classes_ix.
      match goal with |- (let (_, _) := ?x in _) = obind (let (_, _) := ?y in _) _ =>
        change y with x; destruct x as [cs cm] end.
      clear Hv. cbv zeta iota beta. rewrite collect_objects by exact Hh. rewrite classes_ix.
      unfold collect_all. destruct (foldM _ _ _) as [w|e| |]; cbn [obind]; try reflexivity.
      destruct (direct_all _ _ _) as [w' db]. destruct (transitive_derived_all _ _ _); reflexivity.
    Qed.

    Lemma visit_overriders E cm cov l ks s : right_ids l s -> (forall k, k ∈ ks -> ROverrider k ∈ l) ->
      exists s', mapS (visit_overrider deferred S E st cm cov) ks s =
          (let* ys := mapM (augment_overrider E cm cov)
             (map (fun k => overrider_with st (snd (so_overrider S k))) ks) in Ok (s', ys)) /\
        later s s' /\ right_ids l s'.
    Proof.
      intros Hr Hk. apply (mapS_ok _ _ _ (right_ids l)); [|exact Hr].
      intros k s1 Hin Hr1. exists (at_initialize deferred S st (ROverrider k) s1).
      pose proof (late_later (ROverrider k) s1) as Hl.
      split; [|split; [exact Hl|eapply right_later; eauto]].
      unfold visit_overrider. pose proof (late_holds (ROverrider k) s1 (Hr1 _ (Hk k Hin))) as Hh.
      simpl in Hh. rewrite Hh. cbn [deref obind]. reflexivity.
    Qed.

    Lemma visit_methods E fuel cm l ks s : length l <= fuel ->
      lists_ok s l /\ right_ids l s -> (forall k, k ∈ ks -> RMethod k ∈ l) ->
      exists s', mapS (visit_method deferred S E fuel st cm) ks s =
          (let* ys := mapM (augment_method E cm)
             (map (fun k => method_with st (so_method S k) (overriders_of S st k l)) ks) in Ok (s', ys)) /\
        later s s' /\ (lists_ok s' l /\ right_ids l s').
    Proof.
      intros Hf Hr Hk. apply (mapS_ok _ _ _ (fun s => lists_ok s l /\ right_ids l s)); [|exact Hr].
      clear s Hr. intros k s Hin [HL Hr].
      pose proof (late_later (RMethod k) s) as Hl.
      pose proof (late_holds (RMethod k) s (Hr _ (Hk k Hin))) as Hh. simpl in Hh.
      set (s1 := at_initialize deferred S st (RMethod k) s) in *.
      assert (HL1 : lists_ok s1 l) by (eapply same_lists_ok; [apply Hl|exact HL]).
      assert (Hr1 : right_ids l s1) by (eapply right_later; eauto).
      destruct (lists_elements s1 l fuel HL1 Hf) as (_ & _ & E3).
      destruct (visit_overriders E cm
        (if decide (e_ti E (st (mr_return (so_method S k))) = e_ti E (e_void E)) then None
         else cm (e_ti E (st (mr_return (so_method S k))))) l
        (omap (overrider_ix S k) l) s1 Hr1) as (s2 & E2 & Hl2 & Hr2).
      { intros k' Hk'. apply elem_of_list_omap in Hk' as (o & Ho & E').
        apply overrider_ix_some in E' as [-> _]. exact Ho. }
      exists s2. split; [|split; [eapply later_trans; eauto|split; [eapply same_lists_ok; [apply Hl2|exact HL1]|exact Hr2]]].
      unfold visit_method. fold s1. rewrite Hh. cbn [deref obind mr_vp mr_return method_with].
      unfold augment_method. cbn [mr_vp mr_return mr_overriders mr_not_implemented mr_ambiguous
        mr_slots_strides method_with].
      destruct (mapM (find_class E cm) _) as [vp|e| |]; cbn [obind]; try reflexivity.
      rewrite E3. cbn [obind]. rewrite E2, overriders_ix. clear E2.
      destruct (mapM (augment_overrider _ _ _) _); reflexivity.
    Qed.

    Lemma compile_right E n2216 fuel l s : lists_ok s l -> length l <= fuel -> right_ids l s ->
      compile_objects deferred S E n2216 fuel st s = compile E n2216 (registers S st l).
    Proof.
      intros HL Hf Hr. unfold compile_objects, compile. cbn [reg_classes reg_methods registers].
      destruct (augment_classes_right E fuel l s HL Hf Hr) as (s1 & -> & Hl).
      destruct (augment_classes E (classes_of S st l)) as [g|e| |]; cbn [obind]; try reflexivity.
      assert (HL1 : lists_ok s1 l) by (eapply same_lists_ok; [apply Hl|exact HL]).
      destruct (lists_elements s1 l fuel HL1 Hf) as (_ & E2 & _).
      unfold augment_methods_objects, augment_methods. rewrite E2. cbn [obind].
      destruct (visit_methods E fuel (g_map g) l (omap method_ix l) s1 Hf) as (s2 & -> & _).
      { split; [exact HL1|eapply right_later; eauto]. }
      { intros k Hk. apply elem_of_list_omap in Hk as (o & Ho & E').
        destruct o; try discriminate. injection E' as ->. exact Ho. }
      rewrite methods_ix. fold (methods_of S st l).
      destruct (mapM (augment_method E (g_map g)) (methods_of S st l)) as [cms|e| |]; cbn [obind]; try reflexivity.
      destruct (foldM _ _ _); reflexivity.
    Qed.
  End Read.
End Run.

Theorem registered_right deferred S fuel evs st :
  source_ok S -> lifetimes evs -> gives_ids deferred evs st -> length evs <= fuel ->
  exists s, registrar_run deferred S fuel evs memory0 = Ok s /\
    forall cf X n2216 w, initialize_objects deferred S cf X n2216 fuel st s w =
      initialize cf X n2216 (registers S st (live evs)) w.
Proof.
  intros HS HL HG Hf. destruct (run_ok deferred S HS fuel evs HL Hf) as (s & E & HK).
  exists s. split; [exact E|]. intros cf X n2216 w. unfold initialize_objects, initialize.
  rewrite (compile_right deferred S HS st (r_env X) n2216 fuel (live evs) s); [reflexivity|apply HK|..].
  - pose proof (live_length evs). lia.
  - intros o Ho. destruct deferred eqn:Hd; [auto|]. right.
    destruct HG as [[=]|HG]. apply (mk_fields _ _ _ _ HK eq_refl st HG). apply live_constructed. exact Ho.
Qed.

Lemma early_live st evs : live (early_ids st evs) = live evs.
Proof.
  unfold live. generalize (@nil registrar).
  induction evs as [|ev evs IH]; intros l; [reflexivity|]. cbn [early_ids map foldl].
  rewrite <- IH. destruct ev; reflexivity.
Qed.

Lemma early_constructed st evs o : constructed (early_ids st evs) o -> constructed evs o.
Proof.
  intros (st' & H). apply elem_of_list_fmap in H as (ev & E & H).
  destruct ev; try discriminate. injection E as -> ->. eexists. exact H.
Qed.

Lemma early_lifetimes st evs : lifetimes evs -> lifetimes (early_ids st evs).
Proof.
  intros HL before ev after E. unfold early_ids in E.
  apply map_eq_app in E as (before' & rest & -> & <- & E).
  apply map_eq_cons in E as (ev' & after' & -> & <- & _).
  specialize (HL before' ev' after' eq_refl). fold (early_ids st before').
  destruct ev' as [st' o|o|st' n]; [|rewrite early_live; exact HL|exact HL].
  intros H. apply HL. eapply early_constructed. exact H.
Qed.

(* With deferred type ids, as if they had been known from the start. *)
Theorem deferred_right S fuel evs st :
  source_ok S -> lifetimes evs -> length evs <= fuel ->
  exists s s', registrar_run true S fuel evs memory0 = Ok s /\
    registrar_run false S fuel (early_ids st evs) memory0 = Ok s' /\
    forall cf X n2216 st' w, initialize_objects true S cf X n2216 fuel st s w =
      initialize_objects false S cf X n2216 fuel st' s' w.
Proof.
  intros HS HL Hf.
  destruct (registered_right true S fuel evs st HS HL (or_introl eq_refl) Hf) as (s & E & Hs).
  destruct (registered_right false S fuel (early_ids st evs) st HS (early_lifetimes st evs HL)) as (s' & E' & Hs').
  - right. intros st' o x H. apply elem_of_list_fmap in H as (ev & Ee & _).
    destruct ev; try discriminate. injection Ee as -> ->. reflexivity.
  - unfold early_ids. rewrite map_length. exact Hf.
  - exists s, s'. split; [exact E|]. split; [exact E'|]. intros cf X n2216 st' w.
    rewrite Hs. rewrite early_live in Hs'. rewrite <- Hs'. reflexivity.
Qed.

(* An overrider whose constructor runs again is not registered again. *)
Theorem overrider_once deferred S fuel evs st k :
  source_ok S -> lifetimes evs -> length evs <= fuel -> constructed evs (ROverrider k) ->
  registrar_run deferred S fuel (evs ++ [Construct st (ROverrider k)]) memory0 =
  registrar_run deferred S fuel evs memory0.
Proof.
  intros HS HL Hf Hc. destruct (run_ok deferred S HS fuel evs HL Hf) as (s & E & [_ HO1 HO2 _]).
  unfold registrar_run in *. rewrite foldM_app, E. cbn [obind foldM registrar_step].
  unfold construct_overrider. destruct (HO2 k Hc) as [m Hm]. rewrite Hm.
  destruct (HO1 k m Hm) as [-> _]. rewrite bool_decide_true by reflexivity. reflexivity.
Qed.
