(* Properties of initialize() and finalize() over the life of a program. *)
From stdpp Require Import base list numbers relations.
From Verif Require Import Base Registry Spec ModelClasses ModelMethods ModelTables ModelHash
  ModelWorld ModelCall SpecCall ModelLife SpecLife ProofLife ProofReinit ProofFail
  ExamplesModel ExamplesDispatch ExamplesVptr ExamplesLife.

(* C25: whatever happened before, a successful initialize() gives the same report as
   in a program that just started with the present registrations, calls do the
   same, and the next overriders are the same where the latter sets them. *)
Theorem C25_reinitialize : forall cf h p X n2216 w' rep,
  history cf h p -> program_ok cf (r_env X) (pr_regs p) ->
  initialize cf X n2216 (pr_regs p) (pr_world p) = (w', Ok rep) ->
  exists w0, initialize cf X n2216 (pr_regs p) world0 = (w0, Ok rep) /\
    (forall mid m args args0, m ∈ reg_methods (pr_regs p) ->
       Forall2 (same_arg (e_ti (r_env X)) (pr_regs p) w' w0) args args0 ->
       call cf w' mid m args = call cf w0 mid m args0) /\
    (forall m o f, m ∈ reg_methods (pr_regs p) -> o ∈ mr_overriders m ->
       w_next w0 (or_next o) = Some f -> w_next w' (or_next o) = Some f).
Proof. exact reinitialize. Qed.
Print Assumptions C25_reinitialize.

Example C25_reinitialize_example :
  history cf0 (fst (played cf0 evs1)) p1 /\ pr_regs p1 = R0 /\ program_ok cf0 env0 (pr_regs p1) /\
  (exists rep, initialize cf0 run0 false (pr_regs p1) (pr_world p1) = (w_again, Ok rep)) /\
  w_data (pr_world p1) = Some 1 /\ w_data w_again = Some 2 /\
  map (fun ab => call cf0 w_again 2 meet (map AObject ab)) [[1;1];[2;1];[1;4];[2;4];[3;2]]%N
  = [Ok (Calls 21); Ok (Calls 22); Ok (Calls 23); Ok (Calls 24); Ok (Calls 21)]%N.
Proof. exact reinitialize_example. Qed.

(* C25: the present registrations are those made last: initialize() and finalize() leave
   them alone, whether they succeed or fail. *)
Theorem C25_registrations : forall cf h p, history cf h p ->
  forall R, present h R -> pr_regs p = R.
Proof. exact history_present. Qed.
Print Assumptions C25_registrations.

Example C25_registrations_example : exists h p,
  history cf0 h p /\ present h R1 /\ length h = 6 /\ (Finalizes, Done) ∈ h /\
  (Registers R0, Done) ∈ h.
Proof. exact present_example. Qed.

(* C25: and it fails in the same way. *)
Theorem C25_fails_alike : forall cf h p X n2216 w' e,
  history cf h p -> initialize cf X n2216 (pr_regs p) (pr_world p) = (w', Err e) ->
  exists w0, initialize cf X n2216 (pr_regs p) world0 = (w0, Err e).
Proof. exact refails. Qed.
Print Assumptions C25_fails_alike.

Example C25_fails_alike_example :
  exists h p w', history cf0 h p /\ live h /\ program_ok cf0 env0 (pr_regs p) /\
    initialize cf0 run0 false (pr_regs p) (pr_world p) = (w', Err (EMissingClass 1)).
Proof. exact (refails_example cf0 (or_introl eq_refl)). Qed.

(* C25: a next overrider that the fresh program leaves unset may keep the value of
   an earlier initialize(). *)
Theorem C25_next_refuted : exists cf h p X w w0 rep m o,
  history cf h p /\ program_ok cf (r_env X) (pr_regs p) /\
  initialize cf X false (pr_regs p) (pr_world p) = (w, Ok rep) /\
  initialize cf X false (pr_regs p) world0 = (w0, Ok rep) /\
  m ∈ reg_methods (pr_regs p) /\ o ∈ mr_overriders m /\
  w_next w (or_next o) <> w_next w0 (or_next o).
Proof. exact next_stale. Qed.
Print Assumptions C25_next_refuted.

(* C26: an initialize() that fails otherwise than by the hash search changes nothing. *)
Theorem C26_failure_unchanged : forall cf h p X n2216 w' e,
  history cf h p -> program_ok cf (r_env X) (pr_regs p) ->
  initialize cf X n2216 (pr_regs p) (pr_world p) = (w', Err e) ->
  (forall attempts buckets, e <> ESearch attempts buckets) -> w' = pr_world p.
Proof. exact failed_unchanged. Qed.
Print Assumptions C26_failure_unchanged.

Example C26_failure_unchanged_example :
  exists h p w', history cf0 h p /\ live h /\ program_ok cf0 env0 (pr_regs p) /\
    initialize cf0 run0 false (pr_regs p) (pr_world p) = (w', Err (EMissingClass 1)).
Proof. exact (refails_example cf0 (or_introl eq_refl)). Qed.

(* C26: without a hash that is every failure. *)
Theorem C26_no_hash_unchanged : forall cf h p X n2216 w' e,
  history cf h p -> program_ok cf (r_env X) (pr_regs p) ->
  initialize cf X n2216 (pr_regs p) (pr_world p) = (w', Err e) ->
  cf_vptr cf <> VptrVector \/ cf_hash cf = false -> w' = pr_world p.
Proof. exact failed_no_hash. Qed.
Print Assumptions C26_no_hash_unchanged.

Example C26_no_hash_unchanged_example :
  exists h p w', history cf_map h p /\ live h /\ program_ok cf_map env0 (pr_regs p) /\
    initialize cf_map run0 false (pr_regs p) (pr_world p) = (w', Err (EMissingClass 1)).
Proof. exact (refails_example cf_map (or_intror eq_refl)). Qed.

(* C26: after a failed search in an initialized program, a call passing a virtual_ptr
   that carries the current v-table pointer of a registered class is undefined. *)
Theorem C26_search_undefined : forall cf X R w, program_ok cf (r_env X) R -> world_ok w ->
  forall w' attempts buckets, initialize cf X false R w = (w', Err (ESearch attempts buckets)) ->
  forall mid m cr t all args a, m ∈ reg_methods R ->
  w_initialized w' = true \/ cf_checks cf = false ->
  first_record (e_ti (r_env X)) R a = Some cr ->
  all = APtr (w_static w' (cr_static_vptr cr)) t :: args ->
  call cf w' mid m all = Undef.
Proof. exact search_undef. Qed.
Print Assumptions C26_search_undefined.

Example C26_search_undefined_example : exists h p w' a b,
  history cf0 h p /\ live h /\ program_ok cf0 env17 (pr_regs p) /\
  initialize cf0 run17 false (pr_regs p) (pr_world p) = (w', Err (ESearch a b)) /\
  feed ∈ reg_methods (pr_regs p) /\
  first_record (e_ti env17) (pr_regs p) 1 = Some (ClassRecord 1 [1] false 1)%N.
Proof. exact search_example2. Qed.

Theorem C26_search_refuted : exists cf h p X w' a b mid m v t f,
  history cf h p /\ live h /\ program_ok cf (r_env X) (pr_regs p) /\
  initialize cf X false (pr_regs p) (pr_world p) = (w', Err (ESearch a b)) /\
  m ∈ reg_methods (pr_regs p) /\
  call cf (pr_world p) mid m [APtr (w_static (pr_world p) v) t] = Ok (Calls f) /\
  call cf w' mid m [APtr (w_static w' v) t] = Undef.
Proof. exact search_corrupts. Qed.
Print Assumptions C26_search_refuted.

(* C27: with runtime checks, a call signals not_initialized exactly when no
   initialize() succeeded, or finalize() was called since. *)
Theorem C27_call_not_initialized : forall cf h p mid m args,
  history cf h p -> cf_checks cf = true ->
  call cf (pr_world p) mid m args = Err ENotInitialized <-> ~ live h.
Proof. exact not_initialized_iff. Qed.
Print Assumptions C27_call_not_initialized.

Example C27_call_not_initialized_example :
  (exists h p, history cf0 h p /\ ~ live h /\ pr_regs p = R0) /\
  (exists h p, history cf0 h p /\ live h /\ pr_regs p = R0) /\
  (exists h p, history cf0 h p /\ ~ live h /\ (Initializes run0 false, Done) ∈ h).
Proof. exact not_initialized_example. Qed.

(* C27: so does the acquisition of the v-table pointer of an object. *)
Theorem C27_acquire_not_initialized : forall cf h p t,
  history cf h p -> cf_checks cf = true ->
  acquire_vptr cf (pr_world p) t = Err ENotInitialized <-> ~ live h.
Proof. exact acquire_not_initialized_iff. Qed.
Print Assumptions C27_acquire_not_initialized.

Example C27_acquire_not_initialized_example :
  (exists h p, history cf0 h p /\ ~ live h /\ pr_regs p = R0) /\
  (exists h p, history cf0 h p /\ live h /\ pr_regs p = R0) /\
  (exists h p, history cf0 h p /\ ~ live h /\ (Initializes run0 false, Done) ∈ h).
Proof. exact not_initialized_example. Qed.
