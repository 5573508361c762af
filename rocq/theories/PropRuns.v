(* C42: every run of a program initializes alike. *)
From stdpp Require Import base list numbers.
From Verif Require Import Base Registry Spec SpecN2216 SpecRuns ModelClasses ModelTables ModelWorld
  ModelCall ModelErrors SpecCall ExamplesModel ExamplesDispatch ExamplesVptr ExamplesN2216 ExamplesRuns ProofRuns.

(* Two runs of a program.  In the second, type t is rho t, the objects and functions
   have other addresses, the containers are traversed in other orders, the sort is
   another one, the random numbers are other numbers, the vptr policies may differ.
   initialize() returns the same report, or it fails for the same type. *)
Theorem C42_initialize :
  forall cf cf' X X' rho R R' w0 w0',
  same_program (e_ti (r_env X)) (e_ti (r_env X')) (e_void (r_env X)) (e_void (r_env X')) rho R R' ->
  program_ok cf (r_env X) R -> program_ok cf' (r_env X') R' -> world_ok w0 -> world_ok w0' ->
  forall n2216, (n2216 = true -> untangled (e_ti (r_env X)) (e_void (r_env X)) R) ->
  same_result rho (snd (initialize cf X n2216 R w0)) (snd (initialize cf' X' n2216 R' w0')).
Proof. exact initialize_same. Qed.
Print Assumptions C42_initialize.

Example C42_initialize_example :
  same_program id id 0%N 0%N move R_clone (moved R_clone) /\
  program_ok cf0 env0 R_clone /\ program_ok cf_map env_rev (moved R_clone) /\ world_ok world0 /\
  untangled id 0%N R_clone /\
  snd (initialize cf0 run0 true R_clone world0) = Ok (Report 8 0 2) /\
  snd (initialize cf_map run_rev true (moved R_clone) world0) = Ok (Report 8 0 2).
Proof. exact runs_example. Qed.

Example C42_initialize_example_error :
  same_program id id 0%N 0%N move R_stray (moved R_stray) /\
  program_ok cf0 env0 R_stray /\ program_ok cf_map env_rev (moved R_stray) /\ world_ok world0 /\
  untangled id 0%N R_stray /\
  snd (initialize cf0 run0 true R_stray world0) = Err (EMissingClass 9%N) /\
  snd (initialize cf_map run_rev true (moved R_stray) world0) = Err (EMissingClass 63%N).
Proof. exact stray_runs. Qed.

(* After initialize() has succeeded in both, calls through next enter corresponding
   overriders, or raise the same error, or have no overrider to go to, in both. *)
Theorem C42_next :
  forall cf cf' X X' rho R R' w0 w0',
  same_program (e_ti (r_env X)) (e_ti (r_env X')) (e_void (r_env X)) (e_void (r_env X')) rho R R' ->
  program_ok cf (r_env X) R -> program_ok cf' (r_env X') R' -> world_ok w0 -> world_ok w0' ->
  forall w w' rep rep' n2216,
  initialize cf X n2216 R w0 = (w, Ok rep) -> initialize cf' X' n2216 R' w0' = (w', Ok rep') ->
  forall k m m' i o o' mid mid' args args',
  reg_methods R !! k = Some m -> reg_methods R' !! k = Some m' ->
  mr_overriders m !! i = Some o -> mr_overriders m' !! i = Some o' ->
  functions_ok m -> functions_ok m' ->
  w_next w0 (or_next o) = None -> w_next w0' (or_next o') = None ->
  has_next w' m' (or_next o') = has_next w m (or_next o) /\
  ((exists sel, behaves m sel (call_next w mid m (or_next o) args) /\
      behaves m' sel (call_next w' mid' m' (or_next o') args')) \/
   (call_next w mid m (or_next o) args = Undef /\ call_next w' mid' m' (or_next o') args' = Undef)).
Proof. exact next_same_behaviour. Qed.
Print Assumptions C42_next.

Example C42_next_example :
  same_program id id 0%N 0%N move R_clone (moved R_clone) /\
  program_ok cf0 env0 R_clone /\ program_ok cf_map env_rev (moved R_clone) /\ world_ok world0 /\
  (exists rep, initialize cf0 run0 true R_clone world0 = (w_clone_n, Ok rep)) /\
  (exists rep, initialize cf_map run_rev true (moved R_clone) world0 = (w_rev, Ok rep)) /\
  reg_methods R_clone !! 2 = Some clone /\ reg_methods (moved R_clone) !! 2 = Some (mth_m clone) /\
  functions_ok clone /\ functions_ok (mth_m clone) /\
  mr_overriders clone !! 2 = Some (ovr_r [3] 3 53)%N /\
  mr_overriders (mth_m clone) !! 2 = Some (ovr_m (ovr_r [3] 3 53)%N) /\
  w_next world0 53 = None /\ w_next world0 153 = None /\
  call_next w_clone_n 5 clone 53 [AObject 3]%N = Ok (Calls 52%N) /\
  call_next w_rev 5 (mth_m clone) 153 [AObject 21]%N = Ok (Calls 152%N).
Proof. exact next_runs. Qed.
