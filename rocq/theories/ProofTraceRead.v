(* What a reader of the trace finds in it. *)
From stdpp Require Import base list numbers list_numbers strings relations.
From Verif Require Import Base Registry Spec ModelClasses ModelMethods ModelSlots ModelTables
  ModelHash ModelWorld ModelCall SpecCall ModelTrace SpecTrace
  ProofBase ProofClasses ProofGraph ProofMethods ProofBits ProofSlots ProofSelect ProofTables
  ProofCompile ProofErrors ProofEntries ProofWrite ProofCall ProofCells ProofDispatch ProofTrace.

(* ---- lines that say nothing to the reader ---- *)

(* Outside of the table of a method. *)
Definition plain (l : line) : Prop :=
  head l <> Some (PText "group ") /\ head l <> Some (PText "Building dispatch table for ").

Lemma read_plain r l : plain l -> rd_expects r = Nothing -> read r l = r.
Proof.
  intros [H1 H2] Hr. unfold read. rewrite Hr.
  repeat (match goal with
    | |- context [match ?x with _ => _ end] => is_var x; destruct x
    | |- context [decide (?a = ?b)] => destruct (decide (a = b)) as [->|]
    | _ => first [reflexivity | exfalso; apply H1; reflexivity | exfalso; apply H2; reflexivity]
    end).
Qed.

Lemma read_plains r ls : Forall plain ls -> rd_expects r = Nothing -> foldl read r ls = r.
Proof.
  intros H Hr. induction H as [|l ls Hl _ IH]; [reflexivity|]. cbn [foldl].
  rewrite (read_plain r l Hl Hr). exact IH.
Qed.

Ltac plain_tac := split; cbn; congruence.

Lemma lines_class g l c : plain (l ++ [PName (nm g c)]) -> (forall t, plain (l ++ [PName t])) ->
  lines plain (say_class g l c).
Proof.
  intros _ H. apply lines_tbind; [apply lines_quietly|]. intros t _. apply lines_say, H.
Qed.
Lemma lines_class' g l c : (forall t, plain (l ++ [PName t])) -> lines plain (say_class g l c).
Proof. intros H. apply lines_class; auto. Qed.

Ltac lines_tac :=
  repeat first
    [ apply lines_quietly | apply lines_done
    | apply lines_say; plain_tac
    | apply lines_class'; intros; plain_tac
    | apply lines_foldT; intros | apply lines_mapT; intros
    | apply lines_tbind; [|intros] ].

Lemma classes_plain E crs : lines plain (trace_classes E crs).
Proof. unfold trace_classes, trace_class. lines_tac. Qed.

Lemma methods_plain E g ms : lines plain (trace_methods E g ms).
Proof.
  unfold trace_methods. lines_tac. unfold trace_method. destruct x as [mi m]. lines_tac.
  - unfold trace_param. destruct (g_map g _); lines_tac.
  - destruct x as [i o]. unfold trace_overrider. lines_tac.
    unfold trace_overrider_param. destruct (g_map g _); lines_tac.
Qed.

Lemma groups_plain E g mi m dv : lines plain (trace_groups E g mi m dv).
Proof.
  destruct dv as [dim vp]. unfold trace_groups, trace_mask. lines_tac.
  destruct (is_base_of g _ _); lines_tac.
Qed.

Lemma entries_plain g s mi dg vt : lines plain (trace_dim g s mi dg vt).
Proof. unfold trace_dim, trace_group, trace_entry. lines_tac. Qed.

(* ---- a cell ---- *)

Definition verdict_to (m : cmethod) (t : target) : verdict :=
  match t with
  | TNotImplemented => SaysNone
  | TAmbiguous => SaysAmbiguous
  | TOverrider i => SaysOverrider i (match m_ovs m !! i with Some o => ov_pf o | None => 0%N end)
  end.
Definition verdict_of (m : cmethod) (c : cell) : verdict := verdict_to m (cl_target c).
Definition next_of (m : cmethod) (c : cell) : option verdict := verdict_to m ∘ snd <$> cl_next c.

Lemma candidates_ignored mi cs ls u r :
  say_candidates mi cs = (ls, u) -> foldl read r ls = r.
Proof.
  unfold say_candidates. revert ls u r. induction cs as [|c cs IH]; intros ls u r H.
  { injection H as <- <-. reflexivity. }
  cbn [foldT] in H. unfold tbind in H. destruct c as [i|]; cbn [say done fst snd] in H.
  - destruct (foldT _ cs tt) as [l2 u2] eqn:Hf. injection H as <- <-. cbn [app foldl fst snd].
    change (read r (numbered mi i)) with r. eapply IH. reflexivity.
  - destruct (foldT _ cs tt) as [l2 u2] eqn:Hf. injection H as <- <-. cbn [app foldl fst snd].
    eapply IH. reflexivity.
Qed.

Lemma candidates_plain mi cs : lines plain (say_candidates mi cs).
Proof. unfold say_candidates. apply lines_foldT. intros [i|] _; [apply lines_say; plain_tac|apply lines_done]. Qed.

Definition with_verdict (r : reader) (v : verdict) (nx : option verdict) : reader :=
  Reader (rd_method r) (rd_groups r) Nothing
    (rd_found r ++ [Reading (rd_method r) (map snd (rd_groups r)) v nx]).

Lemma complete_last rs mi ts s o v :
  complete (rs ++ [Reading mi ts s o]) v = rs ++ [Reading mi ts s (Some v)].
Proof. unfold complete. rewrite reverse_snoc, reverse_involutive. reflexivity. Qed.
Lemma found_next_with r v v' :
  found_next (found r v Next) v' = with_verdict r v (Some v').
Proof. unfold found_next, found, with_verdict. cbn [rd_method rd_groups rd_found]. rewrite complete_last. reflexivity. Qed.

Lemma read_cell g n2216 mi m mask ls c r :
  trace_cell g n2216 mi m mask = (ls, Ok c) -> rd_expects r = Types ->
  foldl read r ls = with_verdict r (verdict_of m c) (next_of m c).
Proof.
  intros H Hr. unfold trace_cell in H. set (ovs := map Some _) in *.
  apply tbind_ok in H as (l1 & [] & ls1 & [= <-] & H & ->).
  apply tbind_ok in H as (l2 & [] & ls2 & H2 & H & ->).
  rewrite !foldl_app. cbn [foldl].
  destruct r as [rm rg re rf]. cbn [rd_expects] in Hr. subst re.
  change (read _ [PText "select best of:"]) with (Reader rm rg Verdict rf).
  rewrite (candidates_ignored _ _ _ _ _ H2). clear H2 l2.
  apply tbind_ok in H as (l3 & [[doms pick] rem] & ls3 & H3 & H & ->).
  unfold quietly in H3. injection H3 as <- Hsel. cbn [app].
  case_decide.
  { apply tbind_ok in H as (l4 & [] & l5 & [= <-] & [= <- <-] & ->). reflexivity. }
  case_decide.
  { apply tbind_ok in H as (l4 & [] & l5 & [= <-] & [= <- <-] & ->). reflexivity. }
  apply tbind_ok in H as (l4 & o & l5 & H4 & H & ->).
  unfold quietly in H4. injection H4 as <- Ho. cbn [app].
  apply tbind_ok in H as (l4 & i & l6 & H4 & H & ->).
  unfold quietly in H4. injection H4 as <- Hi. cbn [app].
  apply tbind_ok in H as (l4 & [] & l7 & H4 & H & ->).
  unfold say_selected in H4. apply tbind_ok in H4 as (l8 & ov & l9 & H8 & [= <-] & ->).
  unfold quietly in H8. injection H8 as <- Hov. apply at_ok in Hov.
  cbn [app foldl].
  match goal with |- context [read (Reader rm rg Verdict rf) ?l] =>
    change (read (Reader rm rg Verdict rf) l) with
      (found (Reader rm rg Verdict rf) (SaysOverrider i (ov_pf ov)) Next) end.
  set (r0 := Reader rm rg Verdict rf) in *.
  change (Reader rm rg Types rf) with (Reader (rd_method r0) (rd_groups r0) Types (rd_found r0)).
  destruct (remove_dominants ovs doms) as [ovs' rem'].
  assert (Hv : forall nx a, verdict_of m (Cell (TOverrider i) nx a) = SaysOverrider i (ov_pf ov))
    by (intros nx a; unfold verdict_of, verdict_to; cbn [cl_target]; rewrite Hov; reflexivity).
  case_decide.
  { apply tbind_ok in H as (l4 & [] & l5' & [= <-] & [= <- <-] & ->). rewrite Hv. apply (found_next_with r0). }
  apply tbind_ok in H as (l4 & [] & l10 & [= <-] & H & ->). cbn [app foldl].
  change (read (found r0 (SaysOverrider i (ov_pf ov)) Next) [PText "for 'next', select best of:"])
    with (found r0 (SaysOverrider i (ov_pf ov)) Next).
  apply tbind_ok in H as (l11 & [] & l12 & H11 & H & ->). rewrite foldl_app.
  rewrite (candidates_ignored _ _ _ _ _ H11). clear H11.
  apply tbind_ok in H as (l13 & [[doms' pick'] rem''] & l14 & H13 & H & ->).
  unfold quietly in H13. injection H13 as <- Hsel'. cbn [app].
  case_decide.
  { apply tbind_ok in H as (l4 & [] & l5' & [= <-] & [= <- <-] & ->). rewrite Hv. apply (found_next_with r0). }
  apply tbind_ok in H as (l4 & o' & l5' & H4 & H & ->).
  unfold quietly in H4. injection H4 as <- Ho'. cbn [app].
  apply tbind_ok in H as (l4 & i' & l6' & H4 & H & ->).
  unfold quietly in H4. injection H4 as <- Hi'. cbn [app].
  apply tbind_ok in H as (l4 & [] & l7' & H4 & [= <- <-] & ->).
  unfold say_selected in H4. apply tbind_ok in H4 as (l8 & ov' & l9 & H8 & [= <-] & ->).
  unfold quietly in H8. injection H8 as <- Hov'. apply at_ok in Hov'. rewrite Hv. cbn [app foldl].
  unfold next_of, verdict_to. cbn [cl_next fmap option_fmap option_map compose snd]. rewrite Hov'.
  apply (found_next_with r0).
Qed.

(* ---- a table ---- *)

(* The combinations of one element of each list, those of the last lists first. *)
Fixpoint paths (groups : list (list (list N))) : list (list (list N)) :=
  match groups with
  | [] => [[]]
  | gm :: rest => flat_map (fun ts => map (fun p => p ++ [ts]) (paths rest)) gm
  end.

Section Table.
  Context (g : graph).

  Definition group_names (gm : group_map) : list (list N) :=
    map (fun kg : bitset * group => map (nm g) (gp_classes (snd kg))) gm.

  Lemma read_names r d ts tops cs :
    rd_expects r = Types -> rd_groups r = (d, ts) :: tops ->
    foldl read r (map (fun c => [PName (nm g c)]) cs) =
    Reader (rd_method r) ((d, ts ++ map (nm g) cs) :: tops) Types (rd_found r).
  Proof.
    intros He Hg. destruct r as [rm rg re rf]. cbn in *. subst. revert ts.
    induction cs as [|c cs IH]; intros ts; cbn [map foldl].
    - rewrite app_nil_r. reflexivity.
    - change (read _ [PName (nm g c)]) with (Reader rm ((d, ts ++ [nm g c]) :: tops) Types rf).
      rewrite IH. rewrite <- app_assoc. reflexivity.
  Qed.

  Definition entries (rm : nat) (m : cmethod) (tops : list (nat * list N)) (ps : list (list (list N)))
      (cells : list cell) : list reading :=
    zip_with (fun p c => Reading rm (p ++ map snd tops) (verdict_of m c) (next_of m c)) ps cells.

  Lemma entries_app rm m tops p1 p2 c1 c2 : length p1 = length c1 ->
    entries rm m tops (p1 ++ p2) (c1 ++ c2) = entries rm m tops p1 c1 ++ entries rm m tops p2 c2.
  Proof. apply zip_with_app. Qed.

  Lemma entries_snoc rm m d ts tops ps cells :
    entries rm m ((d, ts) :: tops) ps cells = entries rm m tops (map (fun p => p ++ [ts]) ps) cells.
  Proof.
    unfold entries. revert cells. induction ps as [|p ps IH]; intros [|c cells]; try reflexivity.
    cbn [map zip_with]. rewrite IH. rewrite <- app_assoc. reflexivity.
  Qed.

  Definition reads_as (m : cmethod) (n : nat) (r : reader) (tops : list (nat * list N))
      (ps : list (list (list N))) (cells : list cell) (r' : reader) : Prop :=
    length ps = length cells /\ rd_method r' = rd_method r /\
    filter (fun p => n < fst p) (rd_groups r') = tops /\
    rd_found r' = rd_found r ++ entries (rd_method r) m tops ps cells.

  Lemma tops_above (tops : list (nat * list N)) n ts :
    Forall (fun p => n < fst p) tops ->
    forall n', n' < n -> filter (fun p : nat * list N => n' < fst p) ((n, ts) :: tops) = (n, ts) :: tops.
  Proof.
    intros H n' Hn. rewrite filter_cons_True by exact Hn. f_equal.
    induction H as [|p l Hp _ IH]; [reflexivity|]. rewrite filter_cons_True by (cbn; lia).
    rewrite IH. reflexivity.
  Qed.

  Lemma read_table n2216 mi m groups :
    (forall gm, gm ∈ groups -> groups_named g gm) ->
    forall mask ls cells r tops,
    trace_table g n2216 mi m groups mask = (ls, Ok cells) ->
    filter (fun p => length groups - 1 < fst p) (rd_groups r) = tops ->
    reads_as m (length groups - 1) r tops (paths (map group_names groups)) cells (foldl read r ls).
  Proof.
    induction groups as [|gm rest IH]; intros Hn mask ls cells r tops H Ht; [discriminate|].
    rewrite trace_cons in H. apply tbind_ok in H as (l1 & [cells' gi'] & l2 & H & [= <- <-] & ->).
    rewrite app_nil_r. cbn [length] in *. replace (S (length rest) - 1) with (length rest) in * by lia.
    pose proof (Hn gm (elem_of_list_here _ _)) as Hgm.
    assert (Htops : Forall (fun p => length rest < fst p) tops).
    { rewrite <- Ht. apply Forall_forall. intros p Hp. apply elem_of_list_filter in Hp. tauto. }
    cbn [map paths].
    assert (G : forall l pre gi ls cells gi' r0, (forall kg, kg ∈ l -> kg ∈ gm) ->
      foldT (trace_body g n2216 mi m rest mask) l (pre, gi) = (ls, Ok (cells, gi')) ->
      filter (fun p => length rest < fst p) (rd_groups r0) = tops ->
      exists new, cells = pre ++ new /\
        reads_as m (length rest) r0 tops
          (flat_map (fun ts => map (fun p => p ++ [ts]) (paths (map group_names rest))) (group_names l))
          new (foldl read r0 ls)).
    { clear H Ht cells' gi' r l1. induction l as [|[k gp] l IHl]; intros pre gi ls cells gi' r0 Hl H Ht.
      - injection H as <- <- <-. exists []. rewrite app_nil_r. split; [reflexivity|].
        split; [reflexivity|]. split; [reflexivity|]. split; [exact Ht|]. cbn. rewrite app_nil_r. reflexivity.
      - cbn [foldT] in H. apply tbind_ok in H as (la & [cells1 gi1] & lb & Ha & Hb & ->).
        unfold trace_body in Ha.
        apply tbind_ok in Ha as (lc & [] & ld & [= <-] & Ha & ->).
        apply tbind_ok in Ha as (le & [] & lf & He & Ha & ->). cbn [fst snd] in *.
        rewrite snd_class_list in He by (intros c Hc; apply (Hgm k gp c); [apply Hl; left|exact Hc]).
        injection He as <-.
        rewrite <- !app_assoc, !foldl_app. cbn [foldl].
        change (read r0 [PText "group "; PNumber (length rest); PText "/"; PNumber gi; PText " mask ";
                         PBits (zip_with andb mask k)])
          with (Reader (rd_method r0) (open_group (length rest) (rd_groups r0)) Types (rd_found r0)).
        unfold open_group. rewrite Ht.
        rewrite (read_names (Reader (rd_method r0) ((length rest, []) :: tops) Types (rd_found r0))
          (length rest) [] tops (gp_classes gp) eq_refl eq_refl).
        cbn [rd_method rd_found app].
        set (names := map (nm g) (gp_classes gp)).
        set (r1 := Reader (rd_method r0) ((length rest, names) :: tops) Types (rd_found r0)).
        assert (exists new1, cells1 = pre ++ new1 /\
          reads_as m (length rest) r0 tops (map (fun p => p ++ [names]) (paths (map group_names rest)))
            new1 (foldl read r1 lf)) as (new1 & -> & L1 & L2 & L3 & L4).
        { unfold trace_rest in Ha. destruct rest as [|gm' rest'].
          - apply tbind_ok in Ha as (lg & c & lh & Hc & [= <- <- <-] & ->). exists [c].
            split; [reflexivity|]. rewrite app_nil_r, (read_cell _ _ _ _ _ _ _ r1 Hc eq_refl).
            split; [reflexivity|]. split; [reflexivity|]. split; [|reflexivity].
            cbn [with_verdict rd_groups r1]. rewrite filter_cons_False by (cbn; lia).
            rewrite <- Ht. rewrite list_filter_filter. apply list_filter_iff. intros p. tauto.
          - apply tbind_ok in Ha as (lg & cs & lh & Hc & [= <- <- <-] & ->). exists cs.
            split; [reflexivity|]. rewrite app_nil_r.
            destruct (IH (fun gm0 H0 => Hn gm0 (elem_of_list_further _ _ _ H0)) _ lg cs r1 _ Hc eq_refl)
              as (M1 & M2 & M3 & M4).
            cbn [length] in *. replace (S (length rest') - 1) with (length rest') in * by lia.
            cbn [rd_groups r1] in M3, M4.
            rewrite (tops_above tops (S (length rest')) names Htops (length rest') (Nat.lt_succ_diag_r _)) in M3, M4.
            split; [rewrite map_length; exact M1|]. split; [exact M2|]. split.
            + assert (Hsub : filter (fun p : nat * list N => S (length rest') < fst p)
                (filter (fun p => length rest' < fst p) (rd_groups (foldl read r1 lg))) =
                filter (fun p => S (length rest') < fst p) (rd_groups (foldl read r1 lg))).
              { rewrite list_filter_filter. apply list_filter_iff. intros p. split; [tauto|]. intros Hp. split; [exact Hp|lia]. }
              rewrite <- Hsub, M3. rewrite filter_cons_False by (cbn; lia).
              rewrite <- Ht. rewrite list_filter_filter. apply list_filter_iff. intros p. tauto.
            + rewrite M4. cbn [rd_method rd_found r1]. rewrite entries_snoc. reflexivity. }
        destruct (IHl _ _ _ _ _ (foldl read r1 lf) (fun kg H0 => Hl kg (elem_of_list_further _ _ _ H0)) Hb L3)
          as (new2 & -> & M1 & M2 & M3 & M4).
        exists (new1 ++ new2). split; [rewrite app_assoc; reflexivity|].
        change (group_names ((k, gp) :: l)) with (names :: group_names l). cbn [flat_map].
        split; [rewrite !app_length, L1, M1; reflexivity|]. split; [congruence|]. split; [exact M3|].
        rewrite entries_app by exact L1. rewrite M4, L4, L2, app_assoc. reflexivity. }
    destruct (G gm [] 0 l1 cells' gi' r (fun _ H0 => H0) H Ht) as (new & -> & HR). exact HR.
  Qed.
End Table.
