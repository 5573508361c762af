(* What the trace of initialize() tells. *)
From stdpp Require Import base list numbers list_numbers strings relations.
From Verif Require Import Base Registry Spec ModelClasses ModelMethods ModelSlots ModelTables
  ModelHash ModelWorld ModelCall SpecCall ModelTrace SpecTrace
  ProofBase ProofClasses ProofGraph ProofMethods ProofBits ProofSlots ProofSelect ProofTables
  ProofCompile ProofErrors ProofEntries ProofWrite ProofCall ProofCells ProofDispatch.

(* ---- traced operations ---- *)

Lemma snd_tbind {A B} (x : traced A) (k : A -> traced B) :
  snd (tbind x k) = obind (snd x) (fun a => snd (k a)).
Proof. unfold tbind. destruct (snd x) as [a|e| |]; try reflexivity. cbn. destruct (k a); reflexivity. Qed.

Lemma tbind_ok {A B} (x : traced A) (k : A -> traced B) ls b :
  tbind x k = (ls, Ok b) <->
  exists l1 a l2, x = (l1, Ok a) /\ k a = (l2, Ok b) /\ ls = l1 ++ l2.
Proof.
  unfold tbind. destruct x as [l1 [a|e| |]]; simpl; split; try (intros [= ]; fail);
    try (intros (? & ? & ? & [= ] & _); fail).
  - destruct (k a) as [l2 r] eqn:Hk. simpl. intros [= <- ->]. exists l1, a, l2. auto.
  - intros (l1' & a' & l2 & [= <- <-] & Hk & ->). rewrite Hk. reflexivity.
Qed.

Lemma snd_foldT {A S} (f : A -> S -> traced S) (f' : A -> S -> outcome S) l s :
  (forall x s, x ∈ l -> snd (f x s) = f' x s) -> snd (foldT f l s) = foldM f' l s.
Proof.
  revert s. induction l as [|x l IH]; intros s H; [reflexivity|]. cbn [foldT foldM].
  rewrite snd_tbind, H by left. apply obind_ext. intros s'. apply IH. intros y s'' Hy. apply H. right. exact Hy.
Qed.

Lemma snd_mapT {A B} (f : A -> traced B) (f' : A -> outcome B) l :
  (forall x, x ∈ l -> snd (f x) = f' x) -> snd (mapT f l) = mapM f' l.
Proof.
  induction l as [|x l IH]; intros H; [reflexivity|]. cbn [mapT mapM].
  rewrite snd_tbind, H by left. apply obind_ext. intros y. rewrite snd_tbind, IH; [reflexivity|].
  intros z Hz. apply H. right. exact Hz.
Qed.

(* Every line of the trace meets [P]. *)
Definition lines {A} (P : line -> Prop) (x : traced A) : Prop := Forall P (fst x).

Lemma lines_tbind {A B} P (x : traced A) (k : A -> traced B) :
  lines P x -> (forall a, snd x = Ok a -> lines P (k a)) -> lines P (tbind x k).
Proof.
  unfold lines, tbind. destruct x as [l [a|e| |]]; simpl; intros H1 H2; try exact H1.
  specialize (H2 a eq_refl). destruct (k a) as [l2 r]. apply Forall_app. split; [exact H1|exact H2].
Qed.

Lemma lines_foldT {A S} P (f : A -> S -> traced S) l s :
  (forall x s, lines P (f x s)) -> lines P (foldT f l s).
Proof.
  intros H. revert s. induction l as [|x l IH]; intros s; [constructor|].
  apply lines_tbind; [apply H|]. intros a _. apply IH.
Qed.

Lemma lines_mapT {A B} P (f : A -> traced B) l : (forall x, lines P (f x)) -> lines P (mapT f l).
Proof.
  intros H. induction l as [|x l IH]; [constructor|].
  apply lines_tbind; [apply H|]. intros a _. apply lines_tbind; [exact IH|]. intros ys _. constructor.
Qed.

Lemma lines_quietly {A} P (x : outcome A) : lines P (quietly x).
Proof. constructor. Qed.
Lemma lines_done {A} P (x : A) : lines P (done x).
Proof. constructor. Qed.
Lemma lines_say (P : line -> Prop) l : P l -> lines P (say l).
Proof. intros H. constructor; [exact H|constructor]. Qed.

(* ---- the trace reads nothing that is not there ---- *)

Definition named (g : graph) (c : nat) : Prop := exists t, class_name g c = Ok t.
Definition nm (g : graph) (c : nat) : N := match class_name g c with Ok t => t | _ => 0%N end.

Lemma named_eq g c : named g c -> class_name g c = Ok (nm g c).
Proof. intros [t H]. unfold nm. rewrite H. reflexivity. Qed.

Lemma say_class_eq g l c : named g c -> say_class g l c = ([l ++ [PName (nm g c)]], Ok tt).
Proof. intros H. unfold say_class, quietly. rewrite (named_eq _ _ H). reflexivity. Qed.

Lemma class_names_ok g cs : (forall c, c ∈ cs -> named g c) -> exists l, class_names g cs = Ok l.
Proof.
  intros H. unfold class_names. assert (exists ts, mapM (class_name g) cs = Ok ts) as [ts ->]; [|simpl; eauto].
  induction cs as [|c cs IH]; [exists []; reflexivity|].
  destruct (H c) as [t Ht]; [left|]. destruct IH as [ts Hts]; [intros x Hx; apply H; right; exact Hx|].
  exists (t :: ts). cbn [mapM]. rewrite Ht. simpl. rewrite Hts. reflexivity.
Qed.

Section Harmless.
  Context (E : env) (R : registrations) (HE : env_ok E) (Hac : acyclic (e_ti E) R).
  Notation ti := (e_ti E).

  Section Graph.
  Context (g : graph) (HG : graph_ok E R g).
  Let HC := go_classes _ _ _ HG.

  Lemma lt_named c : c < g_n g -> named g c.
  Proof.
    intros Hc. unfold g_n in Hc. apply lookup_lt_is_Some in Hc as [e He].
    destruct (co_entry _ _ _ _ HC c e He) as (a & cr & _ & _ & _ & _ & Hh & _).
    exists (cr_type cr). unfold class_name, at_. rewrite He. simpl.
    destruct (ce_type_ids e) as [|x l]; [discriminate|]. injection Hh as ->. reflexivity.
  Qed.

  Lemma nm_class a c : g_map g a = Some c -> ti (nm g c) = a.
  Proof.
    intros Ha. pose proof (co_lt _ _ _ _ HC _ _ Ha) as Hc. apply lookup_lt_is_Some in Hc as [e He].
    destruct (co_entry _ _ _ _ HC c e He) as (a' & cr & Ha' & Hf & _ & _ & Hh & _).
    assert (a' = a) as -> by (eapply (co_inj _ _ _ _ HC); eauto).
    unfold nm, class_name, at_. rewrite He. simpl.
    destruct (ce_type_ids e) as [|x l]; [discriminate|]. injection Hh as ->. simpl.
    apply (f_equal (fun o => match o with Some x => [x] | None => [] end)) in Hf.
    assert (cr ∈ filter (fun cr => ti (cr_type cr) = a) (reg_classes R)) as Hin.
    { destruct (filter _ _) as [|x' l']; [discriminate|]. injection Hf as ->. left. }
    apply elem_of_list_filter in Hin. tauto.
  Qed.

  Lemma td_named v c : v < g_n g -> c ∈ g_td g v -> named g c.
  Proof.
    intros Hv Hc. apply lt_named. apply (go_td_sound _ _ _ HG) in Hc. eapply rtc_irel_lt; eauto.
  Qed.

  Lemma iter_named v c : v < g_n g -> c ∈ e_iter E v (g_td g v) -> named g c.
  Proof. intros Hv Hc. apply (td_named v); [exact Hv|]. rewrite <- (proj1 HE v (g_td g v)). exact Hc. Qed.

  Lemma trace_class_ok c : c < g_n g -> exists ls, trace_class E g c = (ls, Ok tt).
  Proof.
    intros Hc. unfold trace_class.
    destruct (class_names_ok g (g_db g c)) as [b Hb].
    { intros x Hx. apply lt_named. apply (go_db _ _ _ HG) in Hx. eapply tc_irel_lt in Hx; [apply Hx|exact HC]. }
    destruct (class_names_ok g (g_dd g c)) as [d Hd].
    { intros x Hx. apply lt_named. apply (go_dd _ _ _ HG) in Hx. tauto. }
    destruct (class_names_ok g (e_iter E c (g_td g c))) as [t Ht].
    { intros x Hx. apply (iter_named c); assumption. }
    rewrite (say_class_eq _ _ _ (lt_named c Hc)), Hb, Hd, Ht. eexists. reflexivity.
  Qed.
  End Graph.

  Lemma snd_classes : snd (trace_classes E (reg_classes R)) = augment_classes E (reg_classes R).
  Proof.
    unfold trace_classes. rewrite snd_tbind. cbn [say snd obind].
    rewrite snd_tbind.
    rewrite (snd_foldT _ (fun _ _ => Ok tt)) by reflexivity.
    assert (forall (l : list class_record), foldM (fun _ (_ : unit) => Ok tt) l tt = Ok tt) as ->.
    { induction l as [|x l IH]; [reflexivity|exact IH]. }
    cbn [obind]. rewrite snd_tbind. cbn [quietly snd].
    destruct (augment_classes E (reg_classes R)) as [g|e| |] eqn:Hg; try reflexivity. cbn [obind].
    destruct (augment_classes_inv E R HE Hac g Hg) as [_ HG].
    rewrite snd_tbind. cbn [say snd obind]. rewrite snd_tbind.
    rewrite (snd_foldT _ (fun _ _ => Ok tt)).
    - assert (forall (l : list nat), foldM (fun _ (_ : unit) => Ok tt) l tt = Ok tt) as ->.
      { induction l as [|x l IH]; [reflexivity|exact IH]. } reflexivity.
    - intros c _ Hc. apply elem_of_seq in Hc. destruct (trace_class_ok g HG c) as [ls ->]; [lia|reflexivity].
  Qed.

  Lemma mapM_imap {A B} (f : nat * A -> outcome B) (f' : A -> outcome B) (l : list A) k :
    (forall i x, f (i, x) = f' x) -> mapM f (imap (fun i x => (k + i, x)) l) = mapM f' l.
  Proof.
    intros H. revert k. induction l as [|x l IH]; intros k; [reflexivity|]. cbn. rewrite H.
    apply obind_ext. intros y. f_equal. rewrite <- (IH (S k)). f_equal. unfold compose.
    apply imap_ext. intros i z _. f_equal. lia.
  Qed.
  Lemma mapM_imap0 {A B} (f : nat * A -> outcome B) (f' : A -> outcome B) (l : list A) :
    (forall i x, f (i, x) = f' x) -> mapM f (imap pair l) = mapM f' l.
  Proof. intros H. apply (mapM_imap f f' l 0 H). Qed.

  Lemma snd_method cm im : snd (trace_method E cm im) = augment_method E cm (snd im).
  Proof.
    destruct im as [mi m]. unfold trace_method, augment_method. rewrite snd_tbind. cbn [say snd obind].
    rewrite snd_tbind. rewrite (snd_mapT _ (find_class E cm)).
    2: { intros t _. unfold trace_param, find_class. destruct (cm (ti t)); reflexivity. }
    apply obind_ext. intros vp. rewrite snd_tbind.
    set (cov := if decide _ then None else _).
    rewrite (snd_mapT _ (fun io : nat * overrider_record => augment_overrider E cm cov (snd io))).
    - rewrite (mapM_imap0 _ (augment_overrider E cm cov)) by reflexivity. reflexivity.
    - intros [i o] _. unfold trace_overrider, augment_overrider. rewrite snd_tbind. cbn [say snd obind].
      rewrite snd_tbind. rewrite (snd_mapT _ (find_class E cm)).
      2: { intros t _. unfold trace_overrider_param, find_class. destruct (cm (ti t)); reflexivity. }
      apply obind_ext. intros ovp. rewrite snd_tbind. reflexivity.
  Qed.

  Lemma snd_methods g ms : snd (trace_methods E g ms) = augment_methods E g ms.
  Proof.
    unfold trace_methods, augment_methods. rewrite snd_tbind. cbn [say snd obind]. rewrite snd_tbind.
    rewrite (snd_mapT _ (fun im : nat * method_record => augment_method E (g_map g) (snd im)))
      by (intros im _; apply snd_method).
    rewrite (mapM_imap0 _ (augment_method E (g_map g))) by reflexivity.
    apply obind_ext. intros cms. rewrite snd_tbind. reflexivity.
  Qed.

  Section Tables.
  Context (g : graph) (HG : graph_ok E R g).
  Let HC := go_classes _ _ _ HG.

  Lemma snd_mask mi m dim c : named g c -> snd (trace_mask g mi m dim c) = class_mask g m dim c.
  Proof.
    intros Hc. unfold trace_mask, class_mask. rewrite snd_tbind, (say_class_eq _ _ _ Hc). cbn [snd obind].
    rewrite (snd_mapT _ (fun io : nat * overrider =>
      let* vp := at_ (ov_vp (snd io)) dim in Ok (is_base_of g vp c))).
    - apply mapM_imap0. reflexivity.
    - intros [i o] _. rewrite snd_tbind. apply obind_ext. intros vp. rewrite snd_tbind.
      destruct (is_base_of g vp c); reflexivity.
  Qed.

  Lemma snd_groups mi m dim vp : vp < g_n g ->
    snd (trace_groups E g mi m (dim, vp)) = dim_groups E g m dim vp.
  Proof.
    intros Hv. unfold trace_groups, dim_groups.
    rewrite snd_tbind, (say_class_eq _ _ _ (lt_named g HG vp Hv)). cbn [snd obind].
    apply snd_foldT. intros c gm Hc. rewrite snd_tbind, (snd_mask mi m dim c).
    - reflexivity.
    - apply (iter_named g HG vp); assumption.
  Qed.

  Lemma snd_candidates mi cs : snd (say_candidates mi cs) = Ok tt.
  Proof.
    unfold say_candidates. rewrite (snd_foldT _ (fun _ _ => Ok tt)).
    - induction cs as [|x l IH]; [reflexivity|exact IH].
    - intros [i|] []; reflexivity.
  Qed.

  Lemma snd_selected mi m i b : i < length (m_ovs m) -> snd (say_selected mi m i b) = Ok tt.
  Proof.
    intros Hi. apply lookup_lt_is_Some in Hi as [o Ho]. unfold say_selected.
    rewrite snd_tbind. cbn [quietly snd]. unfold at_. rewrite Ho. reflexivity.
  Qed.

  Definition below (m : cmethod) (cs : candidates) : Prop := forall i, Some i ∈ cs -> i < length (m_ovs m).

  Lemma mask_below m mask :
    below m (map Some (filter (fun i => bit mask i = true) (seq 0 (length (m_ovs m))))).
  Proof.
    intros i Hi. apply elem_of_list_fmap in Hi as (j & [= ->] & Hj).
    apply elem_of_list_filter in Hj as [_ Hj]. apply elem_of_seq in Hj. lia.
  Qed.

  Lemma sub_below m cs cs' : sub_set cs' cs -> below m cs -> below m cs'.
  Proof. intros Hs Hb i Hi. apply Hb, Hs. exact Hi. Qed.

  Lemma snd_cell n2216 mi m mask : snd (trace_cell g n2216 mi m mask) = build_cell g n2216 m mask.
  Proof.
    unfold trace_cell, build_cell. pose proof (mask_below m mask) as Hb.
    set (ovs := map Some _) in *.
    rewrite snd_tbind. cbn [say snd obind]. rewrite snd_tbind, snd_candidates. cbn [obind].
    rewrite snd_tbind. cbn [quietly snd].
    destruct (select_dominant_overriders g n2216 m ovs) as [[[doms pick] rem]|e| |] eqn:Hs; try reflexivity.
    cbn [obind]. pose proof (sub_below m _ _ (select_sub _ _ _ _ _ _ _ Hs) Hb) as Hd.
    case_decide; [reflexivity|]. case_decide; [reflexivity|].
    rewrite snd_tbind. cbn [quietly snd].
    destruct (at_ doms pick) as [o|e| |] eqn:Ho; try reflexivity. cbn [obind]. apply at_ok in Ho.
    rewrite snd_tbind. cbn [quietly snd]. destruct o as [o|]; [|reflexivity]. cbn [deref obind].
    rewrite snd_tbind, snd_selected by (apply Hd; eapply elem_of_list_lookup_2; eauto). cbn [obind].
    pose proof (sub_below m _ _ (remove_sub ovs doms) Hb) as Hr.
    destruct (remove_dominants ovs doms) as [ovs' rem']. simpl in Hr.
    case_decide; [reflexivity|].
    rewrite snd_tbind. cbn [say snd obind]. rewrite snd_tbind, snd_candidates. cbn [obind].
    rewrite snd_tbind. cbn [quietly snd].
    destruct (select_dominant_overriders g n2216 m ovs') as [[[doms' pick'] rem'']|e| |] eqn:Hs'; try reflexivity.
    cbn [obind]. pose proof (sub_below m _ _ (select_sub _ _ _ _ _ _ _ Hs') Hr) as Hd'.
    case_decide; [reflexivity|].
    rewrite snd_tbind. cbn [quietly snd].
    destruct (at_ doms' pick') as [nx|e| |] eqn:Hn; try reflexivity. cbn [obind]. apply at_ok in Hn.
    rewrite snd_tbind. cbn [quietly snd]. destruct nx as [nx|]; [|reflexivity]. cbn [deref obind].
    rewrite snd_tbind, snd_selected by (apply Hd'; eapply elem_of_list_lookup_2; eauto). reflexivity.
  Qed.

  Definition groups_named (gm : group_map) : Prop :=
    forall k gp c, (k, gp) ∈ gm -> c ∈ gp_classes gp -> named g c.

  Lemma snd_class_list cs : (forall c, c ∈ cs -> named g c) ->
    foldT (fun c (_ : unit) => say_class g [] c) cs tt = (map (fun c => [PName (nm g c)]) cs, Ok tt).
  Proof.
    induction cs as [|c cs IH]; intros H; [reflexivity|]. cbn [foldT].
    rewrite (say_class_eq _ _ _ (H c (elem_of_list_here _ _))). unfold tbind. cbn [fst snd].
    rewrite IH by (intros x Hx; apply H; right; exact Hx). reflexivity.
  Qed.

  (* What is done with the groups after the first of [groups]. *)
  Definition trace_rest (n2216 : bool) (mi : nat) (m : cmethod) (rest : list group_map) (mask : bitset)
      (cells : list cell) (gi : nat) : traced (list cell * nat) :=
    match rest with
    | [] =>
        let^ c := trace_cell g n2216 mi m mask in
        done (cells ++ [c], if continues c then gi else S gi)
    | _ :: _ =>
        let^ cs := trace_table g n2216 mi m rest mask in done (cells ++ cs, S gi)
    end.
  Definition trace_body (n2216 : bool) (mi : nat) (m : cmethod) (rest : list group_map) (mask : bitset)
      (kg : bitset * group) (s : list cell * nat) : traced (list cell * nat) :=
    let '(cells, gi) := s in
    let^ _ := say [PText "group "; PNumber (length rest); PText "/"; PNumber gi;
                   PText " mask "; PBits (zip_with andb mask (fst kg))] in
    let^ _ := foldT (fun c _ => say_class g [] c) (gp_classes (snd kg)) tt in
    trace_rest n2216 mi m rest (zip_with andb mask (fst kg)) cells gi.
  Lemma trace_cons n2216 mi m gm rest mask :
    trace_table g n2216 mi m (gm :: rest) mask =
    let^ '(cells, _) := foldT (trace_body n2216 mi m rest mask) gm ([], 0) in done cells.
  Proof. destruct rest; reflexivity. Qed.

  Lemma snd_table n2216 mi m groups mask :
    (forall gm, gm ∈ groups -> groups_named gm) ->
    snd (trace_table g n2216 mi m groups mask) = build_dispatch_table g n2216 m groups mask.
  Proof.
    revert mask. induction groups as [|gm rest IH]; intros mask Hn; [reflexivity|].
    rewrite trace_cons, build_cons. rewrite snd_tbind.
    pose proof (Hn gm (elem_of_list_here _ _)) as Hgm.
    assert (G : forall l cells gi, (forall kg, kg ∈ l -> kg ∈ gm) ->
      obind (snd (foldT (trace_body n2216 mi m rest mask) l (cells, gi))) (fun p => Ok (fst p)) =
      foldM (fun (kg : bitset * group) cells =>
        let* cs := build_rest g n2216 m rest (zip_with andb mask (fst kg)) in Ok (cells ++ cs)) l cells).
    { induction l as [|[k gp] l IHl]; intros cells gi Hl; [reflexivity|]. cbn [foldT foldM].
      rewrite snd_tbind. unfold trace_body at 1. rewrite snd_tbind. cbn [say snd obind fst].
      rewrite snd_tbind.
      rewrite snd_class_list by (intros c Hc; apply (Hgm k gp c); [apply Hl; left|exact Hc]).
      cbn [snd obind]. unfold trace_rest, build_rest. destruct rest as [|gm' rest'].
      - rewrite snd_tbind, snd_cell. destruct (build_cell g n2216 m _) as [c|e| |]; try reflexivity.
        cbn [obind done snd]. apply IHl. intros kg Hkg. apply Hl. right. exact Hkg.
      - rewrite snd_tbind, IH by (intros gm0 H0; apply Hn; right; exact H0).
        destruct (build_dispatch_table g n2216 m (gm' :: rest') _) as [c|e| |]; try reflexivity.
        cbn [obind done snd]. apply IHl. intros kg Hkg. apply Hl. right. exact Hkg. }
    rewrite <- (G gm [] 0 (fun _ H => H)). apply obind_ext. intros [cells gi]. reflexivity.
  Qed.

  Lemma snd_entries s mi groups vt :
    (forall gm, gm ∈ groups -> groups_named gm) ->
    snd (foldT (trace_dim g s mi) (imap pair groups) vt) = foldM (set_dim s mi) (imap pair groups) vt.
  Proof.
    intros Hn. apply snd_foldT. intros [dim gm] vt0 Hin. unfold trace_dim, set_dim. cbn [fst snd].
    assert (Hgm : gm ∈ groups).
    { apply elem_of_list_lookup in Hin as [i Hi]. rewrite list_lookup_imap in Hi.
      destruct (groups !! i) as [x|] eqn:Hx; [|discriminate]. injection Hi as <- <-.
      eapply elem_of_list_lookup_2; eauto. }
    apply snd_foldT. intros [gi [k gp]] vt1 Hin1. unfold trace_group, set_group. cbn [fst snd].
    assert (Hkg : (k, gp) ∈ gm).
    { apply elem_of_list_lookup in Hin1 as [i Hi]. rewrite list_lookup_imap in Hi.
      destruct (gm !! i) as [x|] eqn:Hx; [|discriminate]. injection Hi as <- ->.
      eapply elem_of_list_lookup_2; eauto. }
    rewrite snd_tbind. cbn [say snd obind]. rewrite snd_tbind. cbn [say snd obind].
    apply snd_foldT. intros c vt2 Hc. unfold trace_entry.
    rewrite snd_tbind, (say_class_eq _ _ _ (Hn gm Hgm k gp c Hkg Hc)). reflexivity.
  Qed.

  Lemma dim_named m dim vp gm : vp < g_n g -> dim_groups E g m dim vp = Ok gm -> groups_named gm.
  Proof.
    intros Hv H. unfold dim_groups in H.
    assert (Hi : forall c, c ∈ e_iter E vp (g_td g vp) -> named g c)
      by (intros c Hc; apply (iter_named g HG vp); assumption).
    revert H Hi. generalize (e_iter E vp (g_td g vp)) as l. intros l H Hi.
    change (groups_named gm). eapply (foldM_inv_ok groups_named); [exact H| |].
    - intros k gp c Hk. inversion Hk.
    - intros x s s' Hx Hs Hf k gp c Hk Hc. apply obind_ok in Hf as (mask & _ & [= <-]).
      specialize (Hi x Hx). clear -Hs Hi Hk Hc.
      induction s as [|[k0 gp0] s IH]; simpl in Hk.
      + apply elem_of_list_singleton in Hk. injection Hk as -> ->. simpl in Hc.
        apply elem_of_list_singleton in Hc as ->. exact Hi.
      + case_decide; [|destruct (bitset_lt mask k0)].
        * apply elem_of_cons in Hk as [Hk|Hk].
          -- injection Hk as -> ->. simpl in Hc. apply elem_of_app in Hc as [Hc|Hc].
             ++ apply (Hs k0 gp0 c); [left|exact Hc].
             ++ apply elem_of_list_singleton in Hc as ->. exact Hi.
          -- apply (Hs k gp c); [right; exact Hk|exact Hc].
        * apply elem_of_cons in Hk as [Hk|Hk].
          -- injection Hk as -> ->. simpl in Hc. apply elem_of_list_singleton in Hc as ->. exact Hi.
          -- apply (Hs k gp c); [exact Hk|exact Hc].
        * apply elem_of_cons in Hk as [Hk|Hk].
          -- injection Hk as -> ->. apply (Hs k0 gp0 c); [left|exact Hc].
          -- apply IH; [|exact Hk]. intros k1 gp1 c1 H1 H2. apply (Hs k1 gp1 c1); [right; exact H1|exact H2].
  Qed.

  Lemma foldT_say {A} (f : A -> line) (l : list A) :
    foldT (fun x (_ : unit) => say (f x)) l tt = (map f l, Ok tt).
  Proof.
    induction l as [|x l IH]; [reflexivity|]. cbn [foldT]. unfold tbind, say at 1. cbn [fst snd].
    rewrite IH. reflexivity.
  Qed.

  Lemma groups_of mi m : (forall vp, vp ∈ m_vp m -> vp < g_n g) ->
    snd (mapT (trace_groups E g mi m) (imap pair (m_vp m))) =
    mapM (fun dv => dim_groups E g m (fst dv) (snd dv)) (imap pair (m_vp m)).
  Proof.
    intros Hv. apply snd_mapT. intros [dim vp] Hin. apply snd_groups. apply Hv.
    apply elem_of_list_lookup in Hin as [i Hi]. rewrite list_lookup_imap in Hi.
    destruct (m_vp m !! i) as [x|] eqn:Hx; [|discriminate]. injection Hi as <- <-.
    eapply elem_of_list_lookup_2; eauto.
  Qed.

  Lemma groups_all_named m gs : (forall vp, vp ∈ m_vp m -> vp < g_n g) ->
    mapM (fun dv => dim_groups E g m (fst dv) (snd dv)) (imap pair (m_vp m)) = Ok gs ->
    forall gm, gm ∈ gs -> groups_named gm.
  Proof.
    intros Hv H gm Hgm. apply mapM_ok in H. apply elem_of_list_lookup in Hgm as [i Hi].
    destruct (Forall2_lookup_r _ _ _ _ _ H Hi) as ([dim vp] & Hdv & Hg). cbn [fst snd] in Hg.
    eapply dim_named; [|exact Hg]. rewrite list_lookup_imap in Hdv.
    destruct (m_vp m !! i) as [x|] eqn:Hx; [|discriminate]. injection Hdv as <- <-.
    apply Hv. eapply elem_of_list_lookup_2; eauto.
  Qed.

  Lemma snd_build n2216 s mi m acc : (forall vp, vp ∈ m_vp m -> vp < g_n g) ->
    snd (trace_build E g n2216 s (mi, m) acc) = build_method E g n2216 s (mi, m) acc.
  Proof.
    intros Hv. destruct acc as [ts vt]. unfold trace_build, build_method.
    rewrite snd_tbind. cbn [say snd obind]. rewrite snd_tbind, (groups_of mi m Hv).
    destruct (mapM _ (imap pair (m_vp m))) as [gs|e| |] eqn:Hgs; try reflexivity. cbn [obind].
    pose proof (groups_all_named m gs Hv Hgs) as Hn.
    rewrite snd_tbind, foldT_say. cbn [snd obind]. rewrite snd_tbind, snd_entries by exact Hn.
    apply obind_ext. intros vt'. rewrite snd_tbind. cbn [say snd obind]. rewrite snd_tbind, snd_table.
    - apply obind_ext. intros cells. rewrite snd_tbind.
      destruct (decide (1 < length (m_vp m))); reflexivity.
    - intros gm Hgm. apply Hn. apply elem_of_list_In, in_rev, elem_of_list_In. exact Hgm.
  Qed.

  Lemma snd_tables n2216 ms s : (forall m vp, m ∈ ms -> vp ∈ m_vp m -> vp < g_n g) ->
    snd (trace_tables E g n2216 ms s) = build_dispatch_tables E g n2216 ms s.
  Proof.
    intros Hv. unfold trace_tables, build_dispatch_tables. rewrite snd_tbind.
    rewrite (snd_foldT _ (build_method E g n2216 s)).
    - apply obind_ext. intros [ts vt]. reflexivity.
    - intros [mi m] acc Hin. apply snd_build. intros vp Hvp. apply (Hv m vp); [|exact Hvp].
      apply elem_of_list_lookup in Hin as [i Hi]. rewrite list_lookup_imap in Hi.
      destruct (ms !! i) as [x|] eqn:Hx; [|discriminate]. injection Hi as <- <-.
      eapply elem_of_list_lookup_2; eauto.
  Qed.
  End Tables.

  Lemma methods_vp_lt g ms u : graph_ok E R g -> augment_methods E g (reg_methods R) = Ok (ms, u) ->
    forall m vp, m ∈ ms -> vp ∈ m_vp m -> vp < g_n g.
  Proof.
    intros HG Hms m vp Hm Hvp. destruct (augment_methods_ok _ _ _ _ _ Hms) as (H1 & _ & _).
    apply elem_of_list_lookup in Hm as [i Hi], Hvp as [d Hd].
    destruct (Forall2_lookup_r _ _ _ _ _ H1 Hi) as (mr & _ & Hok).
    destruct (Forall2_lookup_r _ _ _ _ _ (mo_vp _ _ _ _ Hok) Hd) as (t & _ & Ht).
    eapply (co_lt _ _ _ _ (go_classes _ _ _ HG)); exact Ht.
  Qed.

  (* Tracing changes nothing. *)
  Theorem trace_harmless n2216 : snd (trace_compile E n2216 R) = compile E n2216 R.
  Proof.
    unfold trace_compile, compile. rewrite snd_tbind, snd_classes.
    destruct (augment_classes E (reg_classes R)) as [g|e| |] eqn:Hg; try reflexivity. cbn [obind].
    destruct (augment_classes_inv E R HE Hac g Hg) as [_ HG].
    rewrite snd_tbind, snd_methods.
    destruct (augment_methods E g (reg_methods R)) as [[ms u]|e| |] eqn:Hms; try reflexivity. cbn [obind].
    rewrite snd_tbind. cbn [quietly snd]. apply obind_ext. intros s.
    rewrite snd_tbind, (snd_tables g HG n2216 ms s (methods_vp_lt g ms u HG Hms)). reflexivity.
  Qed.
End Harmless.
