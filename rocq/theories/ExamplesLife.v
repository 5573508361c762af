(* Histories of a registry: programs that load and unload parts of themselves. *)
From stdpp Require Import base list numbers relations.
From Verif Require Import Base Registry Spec ModelClasses ModelMethods ModelTables ModelHash
  ModelWorld ModelCall SpecCall ModelLife SpecLife ProofBase ProofHash ProofWorld ProofLife ProofReinit
  ProofFail Decide ExamplesModel ExamplesDispatch ExamplesVptr.

Lemma play_example cf evs :
  match play cf evs with Ok _ => true | _ => false end = true ->
  exists h p, play cf evs = Ok (h, p) /\ history cf h p.
Proof.
  intros H. destruct (play cf evs) as [[h p]| | |] eqn:Hp; try discriminate.
  exists h, p. split; [reflexivity|]. apply (play_history cf evs). exact Hp.
Qed.

Definition played (cf : config) (evs : list event) : list (event * result) * process :=
  match play cf evs with Ok hp => hp | _ => ([], process0) end.

Lemma played_history cf evs :
  match play cf evs with Ok _ => true | _ => false end = true ->
  history cf (fst (played cf evs)) (snd (played cf evs)).
Proof.
  intros H. unfold played. destruct (play cf evs) as [[h p]| | |] eqn:Hp; try discriminate.
  apply (play_history cf evs). exact Hp.
Qed.

Lemma succeeds_again cf R w : succeedsb cf false R = true ->
  exists rep, initialize cf run0 false R w = (fst (initialize cf run0 false R w), Ok rep) /\
    initialize cf run0 false R world0 = (fst (initialize cf run0 false R world0), Ok rep).
Proof.
  unfold succeedsb. intros Hs. pose proof (initialize_outcome cf run0 false R w world0) as H.
  destruct (initialize cf run0 false R world0) as [w0 [rep| | |]]; try discriminate.
  destruct (initialize cf run0 false R w) as [w1 o]. simpl in *. subst o. exists rep. auto.
Qed.

(* ---- a plugin replaces the method purr by meet, then another failed ---- *)
Definition R_broken : registrations := Registrations [cls 2 [2; 1]]%N [].
Definition evs1 : list event :=
  [Registers R1; Initializes run0 false; Finalizes; Registers R_broken; Initializes run0 false;
   Registers R1; Initializes run0 false; Registers R0].
Definition p1 : process := snd (played cf0 evs1).

Lemma evs1_results : map snd (fst (played cf0 evs1)) =
  [Done; Done; Done; Done; Failed (EMissingClass 1); Done; Done; Done]%N.
Proof. by_compute. Qed.

Definition w_again : world := fst (initialize cf0 run0 false (pr_regs p1) (pr_world p1)).

Lemma reinitialize_example :
  history cf0 (fst (played cf0 evs1)) p1 /\ pr_regs p1 = R0 /\ program_ok cf0 env0 (pr_regs p1) /\
  (exists rep, initialize cf0 run0 false (pr_regs p1) (pr_world p1) = (w_again, Ok rep)) /\
  w_data (pr_world p1) = Some 1 /\ w_data w_again = Some 2 /\
  map (fun ab => call cf0 w_again 2 meet (map AObject ab)) [[1;1];[2;1];[1;4];[2;4];[3;2]]%N
  = [Ok (Calls 21); Ok (Calls 22); Ok (Calls 23); Ok (Calls 24); Ok (Calls 21)]%N.
Proof.
  split; [apply played_history; by_compute|]. split; [by_compute|].
  split; [apply program_check; by_compute|].
  split.
  { destruct (succeeds_again cf0 (pr_regs p1) (pr_world p1)) as (rep & H1 & _); [by_compute|].
    exists rep. exact H1. }
  split; [by_compute|]. split; by_compute.
Qed.

Lemma refails_example cf : cf = cf0 \/ cf = cf_map ->
  exists h p w', history cf h p /\ live h /\ program_ok cf env0 (pr_regs p) /\
    initialize cf run0 false (pr_regs p) (pr_world p) = (w', Err (EMissingClass 1)).
Proof.
  intros Hcf. set (evs := [Registers R1; Initializes run0 false; Registers R_broken]).
  exists (fst (played cf evs)), (snd (played cf evs)), (pr_world (snd (played cf evs))).
  assert (Hh : history cf (fst (played cf evs)) (snd (played cf evs)))
    by (apply played_history; destruct Hcf as [-> | ->]; by_compute).
  assert (Hr : pr_regs (snd (played cf evs)) = R_broken) by (destruct Hcf as [-> | ->]; by_compute).
  split; [exact Hh|].
  split; [apply (history_live cf _ _ Hh); destruct Hcf as [-> | ->]; by_compute|].
  rewrite Hr. split; [apply program_check; by_compute|].
  apply initialize_stage_error. by_compute.
Qed.

(* ---- next keeps the value set by an earlier initialize() ---- *)
Definition R_before : registrations :=
  Registrations diamond [mth 1 [1] [ovr [1] 11; ovr [2] 12]]%N.
Definition R_after : registrations :=
  Registrations diamond [mth 1 [1] [ovr [1] 11; ovr [2] 12; ovr [2] 22]]%N.

Lemma next_stale : exists cf h p X w w0 rep m o,
  history cf h p /\ program_ok cf (r_env X) (pr_regs p) /\
  initialize cf X false (pr_regs p) (pr_world p) = (w, Ok rep) /\
  initialize cf X false (pr_regs p) world0 = (w0, Ok rep) /\
  m ∈ reg_methods (pr_regs p) /\ o ∈ mr_overriders m /\
  w_next w (or_next o) <> w_next w0 (or_next o).
Proof.
  set (evs := [Registers R_before; Initializes run0 false; Registers R_after]).
  set (p := snd (played cf0 evs)).
  destruct (succeeds_again cf0 R_after (pr_world p)) as (rep & H1 & H2); [by_compute|].
  assert (Hr : pr_regs p = R_after) by by_compute.
  exists cf0, (fst (played cf0 evs)), p, run0,
    (fst (initialize cf0 run0 false R_after (pr_world p))),
    (fst (initialize cf0 run0 false R_after world0)), rep,
    (mth 1 [1] [ovr [1] 11; ovr [2] 12; ovr [2] 22])%N, (ovr [2] 12)%N.
  rewrite Hr.
  split; [apply played_history; by_compute|]. split; [apply program_check; by_compute|].
  split; [exact H1|]. split; [exact H2|].
  split; [left|]. split; [right; left|].
  intros H. vm_compute in H. discriminate.
Qed.

(* ---- a class with 17 type ids makes the search fail ---- *)
Definition env17 : env := Env (fun _ => 1)%N 0 (fun _ l => l) sort_desc.
Definition run17 : run := Run env17 (fun _ => 0)%N.
Definition feed : method_record := (mth 1 [1] [ovr [1] 11])%N.
Definition R_one : registrations := Registrations [cls 1 [1]]%N [feed].
Definition R_17 : registrations :=
  Registrations (map (fun t => ClassRecord t [t] false 1) ids17)%N [feed].

Lemma env17_ok : env_ok env17.
Proof. destruct env0_ok as [H1 H2]. split; assumption. Qed.

Lemma program17 cf R :
  rankb (e_ti env17) R N.to_nat && arityb R && idsb R && addressesb (e_ti env17) R &&
  (N.of_nat (length (reg_classes R)) <=? max_classes)%N = true -> program_ok cf env17 R.
Proof.
  rewrite !andb_true_iff. intros [[[[H1 H2] H3] H4] H5]. split.
  - exact env17_ok.
  - eapply rankb_spec; exact H1.
  - apply arityb_spec; exact H2.
  - apply idsb_spec; exact H3.
  - intros _. apply N.leb_le. exact H5.
  - apply addressesb_spec; exact H4.
Qed.

Lemma compile_counts E R n k :
  match compile E false R with
  | Ok cp => (g_n (cp_graph cp) =? n) && (length (all_type_ids (cp_graph cp)) =? k)
  | _ => false end = true ->
  exists cp, compile E false R = Ok cp /\ g_n (cp_graph cp) = n /\
    length (all_type_ids (cp_graph cp)) = k.
Proof.
  destruct (compile E false R) as [cp| | |]; try discriminate.
  rewrite andb_true_iff, !Nat.eqb_eq. eauto.
Qed.

Lemma search_fails w : world_ok w -> exists w',
  initialize cf0 run17 false R_17 w = (w', Err (ESearch 400000 32)).
Proof.
  intros Hw.
  assert (HP : program_ok cf0 env17 R_17) by (apply program17; by_compute).
  destruct (compile_counts env17 R_17 1 17) as (cp & Hcp & H1 & H2); [by_compute|].
  destruct (initialize_search cf0 run17 R_17 w HP Hw false cp Hcp eq_refl eq_refl) as [w' H].
  - rewrite H1, H2. by_compute.
  - exists w'. rewrite H, H1. reflexivity.
Qed.

Definition evs17 : list event := [Registers R_one; Initializes run17 false; Registers R_17].
Definition p17 : process := snd (played cf0 evs17).

Lemma search_corrupts : exists cf h p X w' a b mid m v t f,
  history cf h p /\ live h /\ program_ok cf (r_env X) (pr_regs p) /\
  initialize cf X false (pr_regs p) (pr_world p) = (w', Err (ESearch a b)) /\
  m ∈ reg_methods (pr_regs p) /\
  call cf (pr_world p) mid m [APtr (w_static (pr_world p) v) t] = Ok (Calls f) /\
  call cf w' mid m [APtr (w_static w' v) t] = Undef.
Proof.
  assert (Hh : history cf0 (fst (played cf0 evs17)) p17) by (apply played_history; by_compute).
  assert (Hr : pr_regs p17 = R_17) by by_compute.
  assert (Hl : w_initialized (pr_world p17) = true) by by_compute.
  assert (HP : program_ok cf0 env17 (pr_regs p17)) by (rewrite Hr; apply program17; by_compute).
  pose proof (history_world_ok _ _ _ Hh) as Hw.
  destruct (search_fails (pr_world p17) Hw) as [w' Hi]. rewrite <- Hr in Hi.
  exists cf0, (fst (played cf0 evs17)), p17, run17, w', 400000%N, 32%N, 1%N, feed, 1, 1%N, 11%N.
  split; [exact Hh|]. split; [apply (history_live _ _ _ Hh); exact Hl|].
  split; [exact HP|]. split; [exact Hi|]. split; [left|]. split; [by_compute|].
  eapply (search_undef cf0 run17 (pr_regs p17) (pr_world p17) HP Hw w' _ _ Hi 1%N feed
    (ClassRecord 1 [1] false 1)%N 1%N _ [] 1%N); [left| |by_compute|reflexivity].
  left. apply initialize_flag in Hi. rewrite Hi. exact Hl.
Qed.

Lemma search_example2 : exists h p w' a b,
  history cf0 h p /\ live h /\ program_ok cf0 env17 (pr_regs p) /\
  initialize cf0 run17 false (pr_regs p) (pr_world p) = (w', Err (ESearch a b)) /\
  feed ∈ reg_methods (pr_regs p) /\
  first_record (e_ti env17) (pr_regs p) 1 = Some (ClassRecord 1 [1] false 1)%N.
Proof.
  assert (Hh : history cf0 (fst (played cf0 evs17)) p17) by (apply played_history; by_compute).
  assert (Hr : pr_regs p17 = R_17) by by_compute.
  pose proof (history_world_ok _ _ _ Hh) as Hw.
  destruct (search_fails (pr_world p17) Hw) as [w' Hi]. rewrite <- Hr in Hi.
  exists (fst (played cf0 evs17)), p17, w', 400000%N, 32%N.
  split; [exact Hh|]. split; [apply (history_live _ _ _ Hh); by_compute|].
  rewrite Hr. split; [apply program17; by_compute|]. rewrite <- Hr at 1. split; [exact Hi|].
  split; [left|]. by_compute.
Qed.

Lemma finalized_history cf R : succeedsb cf false R = true ->
  fst (played cf [Registers R; Initializes run0 false; Finalizes]) =
  [(Registers R, Done); (Initializes run0 false, Done); (Finalizes, Done)].
Proof.
  unfold succeedsb. intros Hs.
  assert (Hi : exists rep, initialize cf run0 false R world0 = (fst (initialize cf run0 false R world0), Ok rep)).
  { destruct (initialize cf run0 false R world0) as [w [r| | |]]; try discriminate. eauto. }
  destruct Hi as [rep Hi]. unfold played, play. cbn [foldM obind step process0 pr_regs pr_world snd fst app].
  simpl. rewrite Hi. reflexivity.
Qed.

(* Before the first initialize(), after finalize(), and in between. *)
Lemma not_initialized_example :
  (exists h p, history cf0 h p /\ ~ live h /\ pr_regs p = R0) /\
  (exists h p, history cf0 h p /\ live h /\ pr_regs p = R0) /\
  (exists h p, history cf0 h p /\ ~ live h /\ (Initializes run0 false, Done) ∈ h).
Proof.
  split; [|split].
  - set (evs := [Registers R0]).
    assert (Hh : history cf0 (fst (played cf0 evs)) (snd (played cf0 evs))) by (apply played_history; by_compute).
    eexists _, _. split; [exact Hh|]. split; [|by_compute].
    rewrite <- (history_live _ _ _ Hh). vm_compute. discriminate.
  - set (evs := [Registers R0; Initializes run0 false]).
    assert (Hh : history cf0 (fst (played cf0 evs)) (snd (played cf0 evs))) by (apply played_history; by_compute).
    eexists _, _. split; [exact Hh|]. split; [|by_compute].
    rewrite <- (history_live _ _ _ Hh). by_compute.
  - set (evs := [Registers R0; Initializes run0 false; Finalizes]).
    assert (Hh : history cf0 (fst (played cf0 evs)) (snd (played cf0 evs))) by (apply played_history; by_compute).
    eexists _, _. split; [exact Hh|]. split.
    + rewrite <- (history_live _ _ _ Hh). vm_compute. discriminate.
    + replace (fst (played cf0 evs)) with [(Registers R0, Done); (Initializes run0 false, Done); (Finalizes, Done)];
        [right; left|].
      symmetry. apply finalized_history. by_compute.
Qed.

Lemma present_example : exists h p,
  history cf0 h p /\ present h R1 /\ length h = 6 /\ (Finalizes, Done) ∈ h /\
  (Registers R0, Done) ∈ h.
Proof.
  set (evs := [Registers R0; Initializes run0 false; Registers R1; Initializes run0 false; Finalizes;
               Initializes run0 false]).
  assert (Hh : history cf0 (fst (played cf0 evs)) (snd (played cf0 evs))) by (apply played_history; by_compute).
  exists (fst (played cf0 evs)), (snd (played cf0 evs)). split; [exact Hh|]. clear Hh.
  assert (fst (played cf0 evs) =
    [(Registers R0, Done); (Initializes run0 false, Done); (Registers R1, Done);
     (Initializes run0 false, Done); (Finalizes, Done); (Initializes run0 false, Done)]) as -> by by_compute.
  split; [|split; [reflexivity|split; [do 4 right; left|left]]].
  exists [(Registers R0, Done); (Initializes run0 false, Done)], Done,
    [(Initializes run0 false, Done); (Finalizes, Done); (Initializes run0 false, Done)].
  split; [reflexivity|]. intros R' r' H.
  repeat (apply elem_of_cons in H as [H|H]; [discriminate H|]). by apply elem_of_nil in H.
Qed.
