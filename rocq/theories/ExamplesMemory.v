(* Programs that run out of memory. *)
From stdpp Require Import base list numbers relations.
From Verif Require Import Base Registry Spec ModelClasses ModelMethods ModelTables ModelHash
  ModelWorld ModelCall SpecCall ModelLife SpecLife ModelMemory SpecMemory ProofBase ProofWorld ProofLife
  ProofMemory Decide ExamplesModel ExamplesDispatch ExamplesVptr ExamplesLife.

(* What is done to a registry, with the shortages. *)
Inductive trial := Does (ev : event) | Lacks (X : run) (n2216 : bool) (sh : shortage).

Definition try_ (cf : config) (x : trial) (hp : list happening * process) :
    outcome (list happening * process) :=
  let '(h, p) := hp in
  match x with
  | Does ev => let* '(p', r) := ModelLife.step cf ev p in Ok (h ++ [Ends ev r], p')
  | Lacks X n2216 sh =>
      let* w := deref (initialize_short cf X n2216 (pr_regs p) (pr_world p) sh) in
      Ok (h ++ [RunsOut X n2216 sh], Process (pr_regs p) w)
  end.

Definition tried (cf : config) (xs : list trial) : list happening * process :=
  match foldM (try_ cf) xs ([], process0) with Ok hp => hp | _ => ([], process0) end.

Lemma tried_troubled cf xs :
  troubled cf (fst (tried cf xs)) (snd (tried cf xs)).
Proof.
  unfold tried. destruct (foldM (try_ cf) xs ([], process0)) as [[h p]| | |] eqn:H; try constructor.
  simpl.
  assert (G : forall xs h0 p0, troubled cf h0 p0 ->
    foldM (try_ cf) xs (h0, p0) = Ok (h, p) -> troubled cf h p).
  { clear H xs. intros xs. induction xs as [|x l IH]; intros h0 p0 H0 H; simpl in H.
    - injection H as <- <-. exact H0.
    - apply obind_ok in H as ([h1 p1] & Hs & H). eapply IH; [|exact H].
      destruct x as [ev|X n2216 sh]; simpl in Hs.
      + apply obind_ok in Hs as ([p' r] & Hs & [= <- <-]). econstructor; eauto.
      + apply obind_ok in Hs as (w & Hs & [= <- <-]).
        destruct (initialize_short cf X n2216 (pr_regs p0) (pr_world p0) sh) eqn:Hi; [|discriminate].
        injection Hs as <-. econstructor; eauto. }
  eapply G; [constructor|exact H].
Qed.

(* ---- R0 is loaded over R1 and the vector of v-table pointers cannot grow ---- *)
Definition xs1 : list trial :=
  [Lacks run0 false InCompile; Does (Registers R1); Does (Initializes run0 false); Does (Registers R0);
   Lacks run0 false InData; Lacks run0 false (InHash 0); Lacks run0 false InVector].

Lemma recovers_example :
  troubled cf0 (fst (tried cf0 xs1)) (snd (tried cf0 xs1)) /\
  pr_regs (snd (tried cf0 xs1)) = R0 /\ length (fst (tried cf0 xs1)) = 7 /\
  program_ok cf0 env0 R0 /\
  exists rep, initialize cf0 run0 false R0 world0 = (w0, Ok rep).
Proof.
  split; [apply tried_troubled|]. split; [by_compute|]. split; [by_compute|].
  split; [apply program_check; by_compute|].
  destruct (succeeds_again cf0 R0 world0) as (rep & H1 & _); [by_compute|]. exists rep. exact H1.
Qed.

(* ---- nothing was ever installed; then R1 is, and R0 is not ---- *)
Lemma short_not_initialized_example :
  (exists h p, troubled cf0 h p /\ ~ still_live h /\ pr_regs p = R0 /\
     RunsOut run0 false InVector ∈ h) /\
  (exists h p, troubled cf0 h p /\ still_live h /\ pr_regs p = R0 /\
     RunsOut run0 false InVector ∈ h).
Proof.
  split.
  - set (xs := [Does (Registers R0); Lacks run0 false InVector]).
    exists (fst (tried cf0 xs)), (snd (tried cf0 xs)).
    pose proof (tried_troubled cf0 xs) as Ht. split; [exact Ht|].
    split; [rewrite <- (troubled_live _ _ _ Ht); vm_compute; discriminate|].
    split; [by_compute|].
    assert (fst (tried cf0 xs) = [Ends (Registers R0) Done; RunsOut run0 false InVector]) as -> by by_compute.
    right. left.
  - exists (fst (tried cf0 xs1)), (snd (tried cf0 xs1)).
    pose proof (tried_troubled cf0 xs1) as Ht. split; [exact Ht|].
    split; [rewrite <- (troubled_live _ _ _ Ht); by_compute|].
    split; [by_compute|].
    assert (fst (tried cf0 xs1) =
      [RunsOut run0 false InCompile; Ends (Registers R1) Done; Ends (Initializes run0 false) Done;
       Ends (Registers R0) Done; RunsOut run0 false InData; RunsOut run0 false (InHash 0);
       RunsOut run0 false InVector]) as -> by by_compute.
    do 6 right. left.
Qed.

(* ---- the same registrations again, with vptr_map ---- *)
Definition w_map0 : world := state cf_map false R0.
Definition short_map (R : registrations) (w : world) : world :=
  match initialize_short cf_map run0 false R w InMap with Some w' => w' | None => w end.

Lemma short_map_some R w :
  match initialize_short cf_map run0 false R w InMap with Some _ => true | _ => false end = true ->
  initialize_short cf_map run0 false R w InMap = Some (short_map R w).
Proof. unfold short_map. destruct (initialize_short _ _ _ _ _ _); [reflexivity|discriminate]. Qed.

Lemma short_calls_example :
  program_ok cf_map env0 R0 /\ world_ok world0 /\
  (exists rep, initialize cf_map run0 false R0 world0 = (w_map0, Ok rep)) /\
  initialize_short cf_map run0 false R0 w_map0 InMap = Some (short_map R0 w_map0) /\
  meet ∈ reg_methods R0 /\
  call cf_map w_map0 2 meet [AObject 2; APtr (w_static w_map0 4) 4]%N = Ok (Calls 24)%N /\
  Forall (keeps_vptr cf_map) [AObject 2; APtr (w_static w_map0 4) 4]%N /\
  w_static (short_map R0 w_map0) 4 <> w_static w_map0 4.
Proof.
  split; [apply program_check; by_compute|]. split; [apply world0_ok|].
  split.
  { destruct (succeeds_again cf_map R0 world0) as (rep & H1 & _); [by_compute|]. exists rep. exact H1. }
  split; [apply short_map_some; by_compute|]. split; [right; left|]. split; [by_compute|].
  split; [repeat constructor|]. intros H. vm_compute in H. discriminate.
Qed.

Lemma short_undef_example :
  program_ok cf_map env0 R0 /\ world_ok w_map0 /\ w_initialized w_map0 = true /\
  initialize_short cf_map run0 false R0 w_map0 InMap = Some (short_map R0 w_map0) /\
  in_policies InMap /\ first_record (e_ti env0) R0 2 = Some (cls 2 [2; 1])%N.
Proof.
  split; [apply program_check; by_compute|].
  split.
  { destruct (succeeds_again cf_map R0 world0) as (rep & H1 & _); [by_compute|].
    eapply initialize_world_ok; [exact H1|apply world0_ok]. }
  split; [by_compute|]. split; [apply short_map_some; by_compute|]. split; [exact I|by_compute].
Qed.

(* ---- a library that defines the method 1 is unloaded ---- *)
Definition bark : method_record := (mth 1 [1] [ovr [1] 11])%N.
Definition growl : method_record := (mth 2 [1] [ovr [1] 22])%N.
Definition R_both : registrations := Registrations [cls 1 [1]]%N [bark; growl].
Definition R_growl : registrations := Registrations [cls 1 [1]]%N [growl].
Definition xs2 : list trial :=
  [Does (Registers R_both); Does (Initializes run0 false); Does (Registers R_growl)].

Lemma other_overrider : exists cf h p X sh w' mid m t f g,
  troubled cf h p /\ still_live h /\ program_ok cf (r_env X) (pr_regs p) /\
  initialize_short cf X false (pr_regs p) (pr_world p) sh = Some w' /\
  m ∈ reg_methods (pr_regs p) /\
  call cf (pr_world p) mid m [AObject t] = Ok (Calls f) /\ f ∈ or_pf <$> mr_overriders m /\
  call cf w' mid m [AObject t] = Ok (Calls g) /\ g ∉ or_pf <$> mr_overriders m.
Proof.
  pose proof (tried_troubled cf_map xs2) as Ht.
  assert (Hr : pr_regs (snd (tried cf_map xs2)) = R_growl) by by_compute.
  exists cf_map, (fst (tried cf_map xs2)), (snd (tried cf_map xs2)), run0, InMap,
    (short_map R_growl (pr_world (snd (tried cf_map xs2)))), 2%N, growl, 1%N, 22%N, 11%N.
  split; [exact Ht|]. split; [apply (troubled_live _ _ _ Ht); by_compute|].
  rewrite Hr. split; [apply program_check; by_compute|].
  split; [apply short_map_some; by_compute|]. split; [left|].
  split; [by_compute|]. split; [left|]. split; [by_compute|].
  intros H. apply elem_of_list_singleton in H. discriminate.
Qed.

Lemma troubled_present_example :
  troubled cf0 (fst (tried cf0 xs1)) (snd (tried cf0 xs1)) /\
  still_present (fst (tried cf0 xs1)) R0 /\ RunsOut run0 false InVector ∈ fst (tried cf0 xs1).
Proof.
  split; [apply tried_troubled|].
  assert (fst (tried cf0 xs1) =
    [RunsOut run0 false InCompile; Ends (Registers R1) Done; Ends (Initializes run0 false) Done;
     Ends (Registers R0) Done; RunsOut run0 false InData; RunsOut run0 false (InHash 0);
     RunsOut run0 false InVector]) as -> by by_compute.
  split; [|do 6 right; left].
  exists [RunsOut run0 false InCompile; Ends (Registers R1) Done; Ends (Initializes run0 false) Done], Done,
    [RunsOut run0 false InData; RunsOut run0 false (InHash 0); RunsOut run0 false InVector].
  split; [reflexivity|]. intros R' r' H.
  repeat (apply elem_of_cons in H as [H|H]; [discriminate H|]). by apply elem_of_nil in H.
Qed.
