(* Two runs of a program that differ in the type ids, the addresses, the vptr policy
   and the order in which the containers are traversed. *)
From stdpp Require Import base list numbers list_numbers relations.
From Verif Require Import Base Registry Spec SpecN2216 SpecRuns ModelClasses ModelMethods ModelSlots
  ModelTables ModelHash ModelWorld ModelCall ModelErrors SpecCall Decide ExamplesModel ExamplesDispatch
  ProofDispatch ExamplesVptr ExamplesN2216.

Definition env_rev : env := Env (fun t => t) 0 (fun _ l => rev l) sort_desc.
Definition run_rev : run := Run env_rev (fun _ => 0%N).

Lemma env_rev_ok : env_ok env_rev.
Proof.
  destruct env0_ok as [_ H2]. split; [|exact H2].
  intros n l. apply Permutation_sym, Permutation_rev.
Qed.

Lemma program_rev cf R : program_ok cf env0 R -> program_ok cf env_rev R.
Proof. intros [H1 H2 H3 H4 H5 H6]. split; try assumption. apply env_rev_ok. Qed.

Definition moved (R : registrations) : registrations :=
  Registrations (map cls_m (reg_classes R)) (map mth_m (reg_methods R)).

Lemma moved_program R : same_program id id 0%N 0%N move R (moved R).
Proof.
  split.
  - intros x y. unfold move, id. lia.
  - reflexivity.
  - apply Forall2_fmap_r. apply Forall_Forall2_diag. rewrite Forall_forall. intros c _. split; reflexivity.
  - apply Forall2_fmap_r. apply Forall_Forall2_diag. rewrite Forall_forall. intros m _.
    split; [reflexivity|]. split; [reflexivity|]. simpl.
    apply Forall2_fmap_r, Forall_Forall2_diag. rewrite Forall_forall. intros o _. split; reflexivity.
Qed.

Lemma runs_example :
  same_program id id 0%N 0%N move R_clone (moved R_clone) /\
  program_ok cf0 env0 R_clone /\ program_ok cf_map env_rev (moved R_clone) /\ world_ok world0 /\
  untangled id 0%N R_clone /\
  snd (initialize cf0 run0 true R_clone world0) = Ok (Report 8 0 2) /\
  snd (initialize cf_map run_rev true (moved R_clone) world0) = Ok (Report 8 0 2).
Proof.
  split; [apply moved_program|]. split; [apply R_clone_program|].
  split; [apply program_rev, program_check; by_compute|]. split; [apply world0_start|].
  split; [apply (untangledb_spec R_clone 4); by_compute|]. split; by_compute.
Qed.

(* Class 9, missing in the first run, is 63 in the second. *)
Lemma stray_runs :
  same_program id id 0%N 0%N move R_stray (moved R_stray) /\
  program_ok cf0 env0 R_stray /\ program_ok cf_map env_rev (moved R_stray) /\ world_ok world0 /\
  untangled id 0%N R_stray /\
  snd (initialize cf0 run0 true R_stray world0) = Err (EMissingClass 9%N) /\
  snd (initialize cf_map run_rev true (moved R_stray) world0) = Err (EMissingClass 63%N).
Proof.
  split; [apply moved_program|]. split; [apply program_check; by_compute|].
  split; [apply program_rev, program_check; by_compute|]. split; [apply world0_start|].
  split; [apply (untangledb_spec R_stray 4); by_compute|]. split; by_compute.
Qed.

(* The overrider of clone for Cat: next is the one for Dog, because of Chimera (see
   C29_next_refuted). *)
Definition w_rev : world := fst (initialize cf_map run_rev true (moved R_clone) world0).

Lemma succeeds cf X b R :
  (match snd (initialize cf X b R world0) with Ok _ => true | _ => false end) = true ->
  exists rep, initialize cf X b R world0 = (fst (initialize cf X b R world0), Ok rep).
Proof. destruct (initialize cf X b R world0) as [w [rep| | |]]; simpl; [eauto|discriminate..]. Qed.

Lemma next_runs :
  same_program id id 0%N 0%N move R_clone (moved R_clone) /\
  program_ok cf0 env0 R_clone /\ program_ok cf_map env_rev (moved R_clone) /\ world_ok world0 /\
  (exists rep, initialize cf0 run0 true R_clone world0 = (w_clone_n, Ok rep)) /\
  (exists rep, initialize cf_map run_rev true (moved R_clone) world0 = (w_rev, Ok rep)) /\
  reg_methods R_clone !! 2 = Some clone /\ reg_methods (moved R_clone) !! 2 = Some (mth_m clone) /\
  functions_ok clone /\ functions_ok (mth_m clone) /\
  mr_overriders clone !! 2 = Some (ovr_r [3] 3 53)%N /\
  mr_overriders (mth_m clone) !! 2 = Some (ovr_m (ovr_r [3] 3 53)%N) /\
  w_next world0 53 = None /\ w_next world0 153 = None /\
  call_next w_clone_n 5 clone 53 [AObject 3]%N = Ok (Calls 52%N) /\
  call_next w_rev 5 (mth_m clone) 153 [AObject 21]%N = Ok (Calls 152%N).
Proof.
  split; [apply moved_program|]. split; [apply R_clone_program|].
  split; [apply program_rev, program_check; by_compute|]. split; [apply world0_start|].
  split; [apply succeeds; by_compute|]. split; [apply succeeds; by_compute|].
  split; [reflexivity|]. split; [reflexivity|].
  split; [apply functions_check; by_compute|]. split; [apply functions_check; by_compute|].
  split; [reflexivity|]. split; [reflexivity|]. split; [reflexivity|]. split; [reflexivity|].
  split; by_compute.
Qed.
