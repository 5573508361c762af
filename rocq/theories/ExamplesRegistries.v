(* A program with two registries, and two names of one registry. *)
From stdpp Require Import base list numbers relations.
From Verif Require Import Base Registry Spec ModelClasses ModelMethods ModelTables ModelHash
  ModelWorld ModelCall SpecCall ModelLife SpecLife ModelPolicies ModelRegistries SpecRegistries
  ProofBase ProofRegistries Decide ExamplesModel ExamplesDispatch ExamplesVptr ExamplesLife.

(* ---- the two registries ---- *)
Definition r_checked : list N :=
  with_ std_is_base std_category default_registry [p_runtime_checks].
Definition r_indirect : list N :=
  with_ std_is_base std_category indirect_registry [p_runtime_checks].

(* The same program, with its variables elsewhere. *)
Definition move (k : nat) (R : registrations) : registrations :=
  Registrations
    (map (fun c => ClassRecord (cr_type c) (cr_bases c) (cr_abstract c) (k + cr_static_vptr c))
       (reg_classes R))
    (map (fun m => MethodRecord (mr_vp m) (mr_return m)
            (map (fun o => OverriderRecord (or_vp o) (or_return o) (or_pf o) (k + or_next o))
               (mr_overriders m))
            (mr_not_implemented m) (mr_ambiguous m) (k + mr_slots_strides m))
       (reg_methods R)).

Definition spaceb (r : list N) (a : nat) : bool :=
  (bool_decide (r = r_checked) && (a <? 100)) ||
  (bool_decide (r = r_indirect) && (100 <=? a)).
Definition space (r : list N) (a : nat) : Prop := spaceb r a = true.
Definition P2 : places := Places space space space.

Lemma space_separate r r' a : space r a -> space r' a -> r = r'.
Proof.
  unfold space, spaceb. intros H1 H2.
  apply orb_true_iff in H1 as [H1|H1], H2 as [H2|H2];
    apply andb_true_iff in H1 as [H1 H1'], H2 as [H2 H2'];
    apply bool_decide_eq_true in H1, H2; subst; try reflexivity;
    repeat match goal with
    | H : (_ <? _) = true |- _ => apply Nat.ltb_lt in H
    | H : (_ <=? _) = true |- _ => apply Nat.leb_le in H
    end; lia.
Qed.

Lemma P2_separate : separate P2.
Proof. split; apply space_separate. Qed.

Definition placedb (r : list N) (R : registrations) : bool :=
  forallb (fun c => spaceb r (cr_static_vptr c)) (reg_classes R) &&
  forallb (fun m => spaceb r (mr_slots_strides m) &&
             forallb (fun o => spaceb r (or_next o)) (mr_overriders m)) (reg_methods R).

Lemma placed_check r R : placedb r R = true -> placed P2 r R.
Proof.
  unfold placedb. rewrite andb_true_iff, !forallb_forall. intros [H1 H2].
  assert (H3 : forall m, m ∈ reg_methods R -> spaceb r (mr_slots_strides m) = true /\
    forall o, o ∈ mr_overriders m -> spaceb r (or_next o) = true).
  { intros m Hm. apply elem_of_list_In, H2, andb_true_iff in Hm as [A B].
    split; [exact A|]. rewrite forallb_forall in B. intros o Ho. apply B, elem_of_list_In, Ho. }
  split; simpl; unfold space.
  - intros c Hc. apply H1, elem_of_list_In, Hc.
  - intros m Hm. apply H3, Hm.
  - intros m o Hm. apply H3, Hm.
Qed.

(* ---- computing a run ---- *)
Inductive ev2 := ERegisters (R : registrations) | EInitializes | EFinalizes.
Definition event_of (e : ev2) : event :=
  match e with ERegisters R => Registers R | EInitializes => Initializes run0 false | EFinalizes => Finalizes end.

Definition allowedb (r : list N) (e : ev2) (p : program) : bool :=
  match e with
  | ERegisters R => placedb r R
  | EInitializes => programb (regs p r)
  | EFinalizes => true
  end.

Lemma allowed_check r e p : allowedb r e p = true -> allowed config_of P2 r (event_of e) p.
Proof. destruct e; simpl; [apply placed_check|apply program_check|auto]. Qed.

Definition go (evs : list (list N * ev2)) (p : program) :
    option (list (list N * event * result) * program) :=
  foldl (fun s re =>
      match s with
      | None => None
      | Some (h, p) =>
          if allowedb (fst re) (snd re) p then
            match step_in config_of (fst re) (event_of (snd re)) p with
            | Ok (p', res) => Some (h ++ [(fst re, event_of (snd re), res)], p')
            | _ => None
            end
          else None
      end) (Some ([], p)) evs.

Lemma go_runs evs p h p' : go evs p = Some (h, p') -> runs config_of P2 p h p'.
Proof.
  revert h p'. unfold go. induction evs as [|[r e] evs IH] using rev_ind; intros h p' H.
  - simpl in H. injection H as <- <-. constructor.
  - rewrite foldl_app in H. simpl in H.
    destruct (foldl _ _ evs) as [[h1 p1]|]; [|discriminate].
    destruct (allowedb r e p1) eqn:Ha; [|discriminate].
    destruct (step_in config_of r (event_of e) p1) as [[p2 res]| | |] eqn:Hs; try discriminate.
    injection H as <- <-. econstructor; [apply IH; reflexivity|apply allowed_check, Ha|exact Hs].
Qed.

Definition gone (evs : list (list N * ev2)) (p : program) :=
  default ([], program0) (go evs p).

Lemma gone_runs evs p : match go evs p with Some _ => true | None => false end = true ->
  runs config_of P2 p (fst (gone evs p)) (snd (gone evs p)).
Proof.
  intros H. unfold gone. destruct (go evs p) as [[h p']|] eqn:Hg; [|discriminate]. simpl.
  apply (go_runs evs). exact Hg.
Qed.

(* ---- while r_checked is in use, r_indirect is initialized, finalized, fails to
   initialize, and is initialized again ---- *)
Definition R_ind : registrations := move 100 R1.
Definition evs_first : list (list N * ev2) :=
  [(r_indirect, ERegisters R_ind); (r_checked, ERegisters R0); (r_indirect, EInitializes);
   (r_checked, EInitializes)].
Definition evs_then : list (list N * ev2) :=
  [(r_indirect, EFinalizes); (r_indirect, ERegisters (move 100 R_broken)); (r_indirect, EInitializes);
   (r_indirect, ERegisters (move 100 R0)); (r_indirect, EInitializes)].
Definition h_first := fst (gone evs_first program0).
Definition p_first : program := snd (gone evs_first program0).
Definition h_then := fst (gone evs_then p_first).
Definition p_then : program := snd (gone evs_then p_first).

Definition idleb (r : list N) (h : list (list N * event * result)) : bool :=
  forallb (fun x => negb (bool_decide (fst (fst x) = r))) h.
Lemma idle_check r h : idleb r h = true -> idle r h.
Proof.
  unfold idleb, idle. rewrite forallb_forall. intros H x Hx.
  apply elem_of_list_In, H, negb_true_iff, bool_decide_eq_false in Hx. exact Hx.
Qed.

Lemma others_example :
  separate P2 /\ runs config_of P2 program0 h_first p_first /\
  runs config_of P2 p_first h_then p_then /\ idle r_checked h_then /\
  map snd h_then = [Done; Done; Failed (EMissingClass 1); Done; Done]%N /\
  pl_ss P2 r_checked (mr_slots_strides meet) /\
  Forall (arg_of P2 r_checked p_first) [APtr (pg_static p_first 2) 4; AObject 1]%N /\
  call (config_of r_checked) (view p_then r_checked) 2 meet [APtr (pg_static p_first 2) 4; AObject 1]%N
  = Ok (Calls 22%N) /\
  call (config_of r_indirect) (view p_then r_indirect) 2 (default meet (list.last (reg_methods (move 100 R0))))
    [AObject 2; AObject 4]%N = Ok (Calls 24%N).
Proof.
  split; [exact P2_separate|].
  split; [apply gone_runs; by_compute|]. split; [apply gone_runs; by_compute|].
  split; [apply idle_check; by_compute|]. split; [by_compute|]. split; [by_compute|].
  split; [|split; by_compute].
  constructor; [|constructor; [constructor|constructor]].
  apply (arg_ptr P2 r_checked p_first 2). vm_compute. reflexivity.
Qed.

Definition h_all := fst (gone (evs_first ++ evs_then) program0).
Definition p_all : program := snd (gone (evs_first ++ evs_then) program0).
Definition w_alone : world := state (config_of r_checked) false R0.

Lemma args_alone p r w : Forall2 (same_arg id R0 (view p r) w)
    [APtr (pg_static p 2) 2; AObject 4]%N [APtr (w_static w 2) 2; AObject 4]%N.
Proof.
  constructor; [|constructor; [|constructor]].
  - apply (same_ptr id R0 (view p r) w 2 (cls 2 [2; 1])%N). vm_compute. reflexivity.
  - constructor. right. right. right. left.
Qed.

Lemma alone_example :
  separate P2 /\
  runs config_of P2 program0
    (take 3 h_all ++ (r_checked, Initializes run0 false, Done) :: drop 4 h_all) p_all /\
  idle r_checked (drop 4 h_all) /\ regs p_all r_checked = R0 /\
  (exists rep, initialize (config_of r_checked) run0 false R0 world0 = (w_alone, Ok rep)) /\
  Forall2 (same_arg id R0 (view p_all r_checked) w_alone)
    [APtr (pg_static p_all 2) 2; AObject 4]%N [APtr (w_static w_alone 2) 2; AObject 4]%N /\
  pg_static p_all 2 <> w_static w_alone 2 /\
  call (config_of r_checked) (view p_all r_checked) 2 meet [APtr (pg_static p_all 2) 2; AObject 4]%N
  = Ok (Calls 24%N).
Proof.
  split; [exact P2_separate|]. split; [|split; [|split; [|split; [|split; [|split]]]]].
  - rewrite take_drop_middle; [apply gone_runs; by_compute|]. by_compute.
  - apply idle_check. by_compute.
  - by_compute.
  - assert (H : succeedsb (config_of r_checked) false R0 = true) by by_compute.
    unfold succeedsb, w_alone, state in *.
    destruct (initialize (config_of r_checked) run0 false R0 world0) as [w [rep| | |]]; try discriminate.
    exists rep. reflexivity.
  - apply args_alone.
  - intros H. apply (f_equal (fun v => match v with VPtr b _ => b | VNull => 7 end)) in H.
    revert H. vm_compute. discriminate.
  - by_compute.
Qed.

Lemma results_example :
  runs config_of P2 program0 h_all p_all /\
  map snd (events_of r_indirect h_all) =
    [Done; Done; Done; Done; Failed (EMissingClass 1); Done; Done]%N /\
  map snd (events_of r_checked h_all) = [Done; Done].
Proof. split; [apply gone_runs; by_compute|]. split; by_compute. Qed.

(* ---- two names for one registry ---- *)

(* struct a : registry<...> {}; struct b : registry<the same> {}; *)
Definition two_names : N -> list N := fun _ => r_checked.

Lemma two_names_interfere :
  exists h p p',
    runs config_of P2 program0 h p /\
    runs config_of P2 p [(two_names 2, Finalizes, Done)] p' /\
    call (config_of (two_names 1)) (view p (two_names 1)) 2 meet [AObject 2; AObject 4]%N
    = Ok (Calls 24%N) /\
    call (config_of (two_names 1)) (view p' (two_names 1)) 2 meet [AObject 2; AObject 4]%N
    = Err ENotInitialized.
Proof.
  exists h_first, p_first, (snd (gone [(r_checked, EFinalizes)] p_first)).
  split; [apply gone_runs; by_compute|]. split; [|split; by_compute].
  apply (runs_snoc config_of P2 p_first [] p_first r_checked Finalizes _ Done); [constructor|exact I|].
  unfold gone. simpl. reflexivity.
Qed.

Lemma same_policies : exists (names : N -> list N) a b cfs P h p p' m args f,
  a <> b /\ separate P /\
  runs cfs P program0 h p /\ runs cfs P p [(names b, Finalizes, Done)] p' /\
  call (cfs (names a)) (view p (names a)) 2 m args = Ok (Calls f) /\
  call (cfs (names a)) (view p' (names a)) 2 m args = Err ENotInitialized.
Proof.
  destruct two_names_interfere as (h & p & p' & H1 & H2 & H3 & H4).
  exists two_names, 1%N, 2%N, config_of, P2, h, p, p', meet, [AObject 2; AObject 4]%N, 24%N.
  split; [discriminate|]. split; [exact P2_separate|]. auto.
Qed.
