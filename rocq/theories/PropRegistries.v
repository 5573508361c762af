(* Properties of programs with several registries. *)
From stdpp Require Import base list numbers relations.
From Verif Require Import Base Registry Spec ModelClasses ModelMethods ModelTables ModelHash
  ModelWorld ModelCall SpecCall ModelLife SpecLife ModelPolicies ModelRegistries SpecRegistries
  ProofRegistries ExamplesModel ExamplesDispatch ExamplesRegistries.

(* C36: whatever happens in other registries (registrations, initialize() that
   succeeds or fails, finalize()), in this one the registrations, the v-table
   pointers, the next overriders and what calls do stay the same. *)
Theorem C36_others_unchanged : forall cfs P, separate P ->
  forall r h p h' p',
  runs cfs P program0 h p -> runs cfs P p h' p' -> idle r h' ->
  regs p' r = regs p r /\
  (forall a, pl_static P r a -> pg_static p' a = pg_static p a) /\
  (forall a, pl_next P r a -> pg_next p' a = pg_next p a) /\
  (forall t, acquire_vptr (cfs r) (view p' r) t = acquire_vptr (cfs r) (view p r) t) /\
  (forall mid m args, pl_ss P r (mr_slots_strides m) -> Forall (arg_of P r p) args ->
     call (cfs r) (view p' r) mid m args = call (cfs r) (view p r) mid m args).
Proof. exact others_unchanged. Qed.
Print Assumptions C36_others_unchanged.

Example C36_others_unchanged_example :
  separate P2 /\ runs config_of P2 program0 h_first p_first /\
  runs config_of P2 p_first h_then p_then /\ idle r_checked h_then /\
  map snd h_then = [Done; Done; Failed (EMissingClass 1); Done; Done]%N /\
  pl_ss P2 r_checked (mr_slots_strides meet) /\
  Forall (arg_of P2 r_checked p_first) [APtr (pg_static p_first 2) 4; AObject 1]%N /\
  call (config_of r_checked) (view p_then r_checked) 2 meet [APtr (pg_static p_first 2) 4; AObject 1]%N
  = Ok (Calls 22%N) /\
  call (config_of r_indirect) (view p_then r_indirect) 2 (default meet (list.last (reg_methods (move 100 R0))))
    [AObject 2; AObject 4]%N = Ok (Calls 24%N).
Proof. exact others_example. Qed.

(* C36: the operations of a registry give the results that they give in a program
   that has only this registry. *)
Theorem C36_results : forall cfs P r h p, runs cfs P program0 h p ->
  exists q, history (cfs r) (events_of r h) q /\ pr_regs q = regs p r.
Proof. exact results_alone. Qed.
Print Assumptions C36_results.

Example C36_results_example :
  runs config_of P2 program0 h_all p_all /\
  map snd (events_of r_indirect h_all) =
    [Done; Done; Done; Done; Failed (EMissingClass 1); Done; Done]%N /\
  map snd (events_of r_checked h_all) = [Done; Done].
Proof. exact results_example. Qed.

(* C36: after initialize() of a registry, calls do what they do in a program that
   just started and has only this registry. *)
Theorem C36_as_alone : forall cfs P, separate P ->
  forall r X n2216 h1 h2 p,
  runs cfs P program0 (h1 ++ (r, Initializes X n2216, Done) :: h2) p -> idle r h2 ->
  exists w0 rep, initialize (cfs r) X n2216 (regs p r) world0 = (w0, Ok rep) /\
    forall mid m args args0, m ∈ reg_methods (regs p r) ->
      Forall2 (same_arg (e_ti (r_env X)) (regs p r) (view p r) w0) args args0 ->
      call (cfs r) (view p r) mid m args = call (cfs r) w0 mid m args0.
Proof. exact as_alone. Qed.
Print Assumptions C36_as_alone.

Example C36_as_alone_example :
  separate P2 /\
  runs config_of P2 program0
    (take 3 h_all ++ (r_checked, Initializes run0 false, Done) :: drop 4 h_all) p_all /\
  idle r_checked (drop 4 h_all) /\ regs p_all r_checked = R0 /\
  (exists rep, initialize (config_of r_checked) run0 false R0 world0 = (w_alone, Ok rep)) /\
  Forall2 (same_arg id R0 (view p_all r_checked) w_alone)
    [APtr (pg_static p_all 2) 2; AObject 4]%N [APtr (w_static w_alone 2) 2; AObject 4]%N /\
  pg_static p_all 2 <> w_static w_alone 2 /\
  call (config_of r_checked) (view p_all r_checked) 2 meet [APtr (pg_static p_all 2) 2; AObject 4]%N
  = Ok (Calls 24%N).
Proof. exact alone_example. Qed.

(* Two classes derived from registry<...> with the same policies are one registry:
   finalize() of one makes the calls of the other fail. *)
Theorem C36_same_policies_refuted : exists (names : N -> list N) a b cfs P h p p' m args f,
  a <> b /\ separate P /\
  runs cfs P program0 h p /\ runs cfs P p [(names b, Finalizes, Done)] p' /\
  call (cfs (names a)) (view p (names a)) 2 m args = Ok (Calls f) /\
  call (cfs (names a)) (view p' (names a)) 2 m args = Err ENotInitialized.
Proof. exact same_policies. Qed.
Print Assumptions C36_same_policies_refuted.
