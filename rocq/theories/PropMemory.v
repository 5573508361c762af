(* C46: initialize() running out of memory. *)
From stdpp Require Import base list numbers relations.
From Verif Require Import Base Registry Spec ModelClasses ModelTables ModelHash
  ModelWorld ModelCall SpecCall ModelLife SpecLife ModelMemory SpecMemory ProofMemory
  ExamplesModel ExamplesDispatch ExamplesVptr ExamplesMemory.

(* C46: wherever the memory ran out before, an initialize() for which there is enough
   ends as in a program that just started, and calls do the same after it. *)
Theorem C46_recover : forall cf h p X n2216 w0 rep,
  troubled cf h p -> program_ok cf (r_env X) (pr_regs p) ->
  initialize cf X n2216 (pr_regs p) world0 = (w0, Ok rep) ->
  exists w', initialize cf X n2216 (pr_regs p) (pr_world p) = (w', Ok rep) /\
    (forall mid m args args0, m ∈ reg_methods (pr_regs p) ->
       Forall2 (same_arg (e_ti (r_env X)) (pr_regs p) w' w0) args args0 ->
       call cf w' mid m args = call cf w0 mid m args0) /\
    (forall m o f, m ∈ reg_methods (pr_regs p) -> o ∈ mr_overriders m ->
       w_next w0 (or_next o) = Some f -> w_next w' (or_next o) = Some f).
Proof. exact recovers. Qed.
Print Assumptions C46_recover.

Example C46_recover_example :
  troubled cf0 (fst (tried cf0 xs1)) (snd (tried cf0 xs1)) /\
  pr_regs (snd (tried cf0 xs1)) = R0 /\ length (fst (tried cf0 xs1)) = 7 /\
  program_ok cf0 env0 R0 /\
  exists rep, initialize cf0 run0 false R0 world0 = (w0, Ok rep).
Proof. exact recovers_example. Qed.

(* C46: the registrations are kept. *)
Theorem C46_registrations : forall cf h p, troubled cf h p ->
  forall R, still_present h R -> pr_regs p = R.
Proof. exact troubled_present. Qed.
Print Assumptions C46_registrations.

Example C46_registrations_example :
  troubled cf0 (fst (tried cf0 xs1)) (snd (tried cf0 xs1)) /\
  still_present (fst (tried cf0 xs1)) R0 /\ RunsOut run0 false InVector ∈ fst (tried cf0 xs1).
Proof. exact troubled_present_example. Qed.

(* C46: with runtime checks, as long as no initialize() succeeded, a call signals
   not_initialized, wherever the memory ran out; and so does making a virtual_ptr. *)
Theorem C46_not_initialized : forall cf h p mid m args,
  troubled cf h p -> cf_checks cf = true ->
  call cf (pr_world p) mid m args = Err ENotInitialized <-> ~ still_live h.
Proof. exact short_not_initialized. Qed.
Print Assumptions C46_not_initialized.

Example C46_not_initialized_example :
  (exists h p, troubled cf0 h p /\ ~ still_live h /\ pr_regs p = R0 /\
     RunsOut run0 false InVector ∈ h) /\
  (exists h p, troubled cf0 h p /\ still_live h /\ pr_regs p = R0 /\
     RunsOut run0 false InVector ∈ h).
Proof. exact short_not_initialized_example. Qed.

Theorem C46_acquire : forall cf h p t,
  troubled cf h p -> cf_checks cf = true ->
  acquire_vptr cf (pr_world p) t = Err ENotInitialized <-> ~ still_live h.
Proof. exact short_acquire. Qed.
Print Assumptions C46_acquire.

Example C46_acquire_example :
  (exists h p, troubled cf0 h p /\ ~ still_live h /\ pr_regs p = R0 /\
     RunsOut run0 false InVector ∈ h) /\
  (exists h p, troubled cf0 h p /\ still_live h /\ pr_regs p = R0 /\
     RunsOut run0 false InVector ∈ h).
Proof. exact short_not_initialized_example. Qed.

(* C46, what holds of "nothing changed": if the registrations are those of the last
   initialize() that succeeded, calls through v-table pointers that were stored by it
   (in vptr_map, or in a virtual_ptr) do what they did, and next is the same. *)
Theorem C46_unchanged_partial : forall cf X n2216 R,
  program_ok cf (r_env X) R -> forall w0 w w' rep, world_ok w0 ->
  initialize cf X n2216 R w0 = (w, Ok rep) ->
  forall sh, initialize_short cf X n2216 R w sh = Some w' ->
  forall mid m args, m ∈ reg_methods R -> cf_indirect cf = false ->
  Forall (keeps_vptr cf) args ->
  call cf w' mid m args = call cf w mid m args /\
  forall o, o ∈ mr_overriders m -> w_next w' (or_next o) = w_next w (or_next o).
Proof. exact short_calls. Qed.
Print Assumptions C46_unchanged_partial.

Example C46_unchanged_partial_example :
  program_ok cf_map env0 R0 /\ world_ok world0 /\
  (exists rep, initialize cf_map run0 false R0 world0 = (w_map0, Ok rep)) /\
  initialize_short cf_map run0 false R0 w_map0 InMap = Some (short_map R0 w_map0) /\
  meet ∈ reg_methods R0 /\
  call cf_map w_map0 2 meet [AObject 2; APtr (w_static w_map0 4) 4]%N = Ok (Calls 24)%N /\
  Forall (keeps_vptr cf_map) [AObject 2; APtr (w_static w_map0 4) 4]%N /\
  w_static (short_map R0 w_map0) 4 <> w_static w_map0 4.
Proof. exact short_calls_example. Qed.

(* C46: if the memory ran out in the policies, a call that uses the present v-table
   pointer of a class is undefined. *)
Theorem C46_undefined : forall cf X n2216 R w w',
  program_ok cf (r_env X) R -> world_ok w ->
  forall sh, initialize_short cf X n2216 R w sh = Some w' ->
  forall mid m cr t args a, in_policies sh -> w_initialized w = true \/ cf_checks cf = false ->
  first_record (e_ti (r_env X)) R a = Some cr ->
  call cf w' mid m (APtr (w_static w' (cr_static_vptr cr)) t :: args) = Undef.
Proof. exact short_undef. Qed.
Print Assumptions C46_undefined.

Example C46_undefined_example :
  program_ok cf_map env0 R0 /\ world_ok w_map0 /\ w_initialized w_map0 = true /\
  initialize_short cf_map run0 false R0 w_map0 InMap = Some (short_map R0 w_map0) /\
  in_policies InMap /\ first_record (e_ti env0) R0 2 = Some (cls 2 [2; 1])%N.
Proof. exact short_undef_example. Qed.

(* C46: after other registrations, a call may enter an overrider of another method. *)
Theorem C46_unchanged_refuted : exists cf h p X sh w' mid m t f g,
  troubled cf h p /\ still_live h /\ program_ok cf (r_env X) (pr_regs p) /\
  initialize_short cf X false (pr_regs p) (pr_world p) sh = Some w' /\
  m ∈ reg_methods (pr_regs p) /\
  call cf (pr_world p) mid m [AObject t] = Ok (Calls f) /\ f ∈ or_pf <$> mr_overriders m /\
  call cf w' mid m [AObject t] = Ok (Calls g) /\ g ∉ or_pf <$> mr_overriders m.
Proof. exact other_overrider. Qed.
Print Assumptions C46_unchanged_refuted.
