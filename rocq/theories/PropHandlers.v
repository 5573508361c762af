(* Properties of the errors: what they say, and how they end an operation. *)
From stdpp Require Import base list numbers.
From Verif Require Import Base Registry Spec ModelClasses ModelHash ModelWorld ModelCall SpecCall
  ModelLife SpecLife ModelVirtualPtr ModelErrors SpecErrors ProofHandlers
  ExamplesModel ExamplesDispatch ExamplesNext ExamplesVirtualPtr ExamplesHandlers.

(* C30, partial: the error carries the method and the type ids of the arguments in
   order; its [arity] is the number of virtual arguments if there are no other
   arguments.  Missing, because it is false: the same with non-virtual arguments. *)
Theorem C30_bad_call_partial : forall cf w mid m args e id n ts,
  call cf w mid m args = Err e -> length args <= 16 ->
  e = ENoOverrider id n ts \/ e = EAmbiguousCall id n ts ->
  id = mid /\ lists_types ts args /\ (virtual_args args = args -> n = length (virtual_args args)).
Proof. exact bad_call_says. Qed.
Print Assumptions C30_bad_call_partial.

Example C30_bad_call_example :
  call cf0 w1 3 purr [AObject 2%N] = Err (ENoOverrider 3 1 (types_of [2%N])) /\
  call cf0 w1 1 poke [AOther 6; AObject 4; AOther 8]%N = Err (EAmbiguousCall 1 3 (types_of [6; 4; 8]%N)).
Proof. exact bad_call_example. Qed.

(* C30, partial: likewise when an overrider calls its next. *)
Theorem C30_bad_next_partial : forall w mid m loc args e,
  call_next w mid m loc args = Err e -> length args <= 16 ->
  exists n ts, (e = ENoOverrider mid n ts \/ e = EAmbiguousCall mid n ts) /\
    lists_types ts args /\ (virtual_args args = args -> n = length (virtual_args args)).
Proof. exact bad_next_says. Qed.
Print Assumptions C30_bad_next_partial.

Example C30_bad_next_example :
  call_next w1 3 purr (or_next (ovr [3] 31)%N) [AObject 4%N] = Err (ENoOverrider 3 1 (types_of [4%N])).
Proof. exact bad_next_example. Qed.

(* C12, C30: a call through next enters the overrider selected for it, or signals that
   there is none, or several. *)
Theorem C12_next_call : forall cf X R w mid m i o all,
  program_ok cf (r_env X) R -> initialized_by cf X false R w ->
  m ∈ reg_methods R -> mr_overriders m !! i = Some o ->
  unique_signature (e_ti (r_env X)) (mr_overriders m) i ->
  (forall args, valid_args (e_ti (r_env X)) R m args ->
     pointwise (e_ti (r_env X)) R (mr_overriders m)
       (candidate (e_ti (r_env X)) R (mr_overriders m) args)) ->
  functions_ok m ->
  exists sel, selects_next (e_ti (r_env X)) R (mr_overriders m) i sel /\
    (forall sel', selects_next (e_ti (r_env X)) R (mr_overriders m) i sel' -> sel' = sel) /\
    behaves m sel (call_next w mid m (or_next o) all).
Proof. exact next_behaves. Qed.
Print Assumptions C12_next_call.

Example C12_next_call_example :
  program_ok cf0 env0 R_greet /\ initialized_by cf0 run0 false R_greet w_greet /\
  greet ∈ reg_methods R_greet /\ mr_overriders greet !! 3 = Some (ovr [4; 4] 24)%N /\
  unique_signature id (mr_overriders greet) 3 /\ functions_ok greet /\
  (forall args, valid_args id R_greet greet args ->
     pointwise id R_greet (mr_overriders greet) (candidate id R_greet (mr_overriders greet) args)) /\
  selects_next id R_greet (mr_overriders greet) 3 (SOverrider 2) /\
  map (w_next w_greet) [24; 23; 22; 21] = [Some 23; Some 22; Some 21; Some 1002]%N.
Proof. exact greet_example. Qed.

(* The documentation says "number of virtual arguments". *)
Theorem C30_arity_refuted : exists cf X R w mid m all args n ts,
  program_ok cf (r_env X) R /\ bases_first (e_ti (r_env X)) R /\
  initialized_by cf X false R w /\ call_ok cf (e_ti (r_env X)) R w m all args /\ functions_ok m /\
  call cf w mid m all = Err (ENoOverrider mid n ts) /\ n <> length (virtual_args all).
Proof. exact arity_wrong. Qed.
Print Assumptions C30_arity_refuted.

(* C30: a call signals no other errors than these, not_initialized, and missing_class
   with the type of one of its arguments. *)
Theorem C30_call_errors : forall cf w mid m args e,
  call cf w mid m args = Err e -> length args <= 16 ->
  e = ENotInitialized \/ (exists t, e = EMissingClass t /\ AObject t ∈ args) \/
  exists n ts, e = ENoOverrider mid n ts \/ e = EAmbiguousCall mid n ts.
Proof. exact call_signals. Qed.
Print Assumptions C30_call_errors.

Example C30_call_errors_example :
  call cf0 w1 3 purr [AObject 23%N] = Err (EMissingClass 23) /\
  call cf0 world0 3 purr [AObject 2%N] = Err ENotInitialized.
Proof. exact call_errors_example. Qed.

(* C32: each operation either returns and no handler is entered, or it detects one
   error, the handler in place is called once with that error, and the operation ends
   with the exception the handler throws, or abort(). *)
Theorem C32_operations_end : forall S t pg a es en h,
  executes S (t ++ [Deed a es en]) pg -> handler_in_place t h ->
  (exists v, en = Returns v /\ es = []) \/ (exists e, handled S h e es en).
Proof. exact operation_ends. Qed.
Print Assumptions C32_operations_end.

Example C32_operations_end_example : exists t pg a es en e,
  executes S0 (t ++ [Deed a es en]) pg /\ handler_in_place t (HUser 1) /\
  es = [Entered 1 e] /\ en = Throws (ThrownUser 99).
Proof. exact throws_example. Qed.

(* C32: a mistake is detected, and leads to its error; it never returns. *)
Theorem C32_mistakes_handled : forall S t pg a e h,
  executes S t pg -> handler_in_place t h -> mistake S t pg a e ->
  exists pg' es en, act S a pg = Ok (pg', es, en) /\ handled S h e es en.
Proof. exact mistake_handled. Qed.
Print Assumptions C32_mistakes_handled.

Example C32_mistakes_handled_example :
  executes S0 (start_steps R1) (started R1 w1) /\
  handler_in_place (start_steps R1) (HUser 1) /\
  mistake S0 (start_steps R1) (started R1 w1) (CallsMethod 3 purr [AObject 2%N])
    (ENoOverrider 3 1 (types_of [2%N])) /\
  mistake S0 (start_steps R1) (started R1 w1) (CallsMethod 1 poke [AObject 4%N])
    (EAmbiguousCall 1 1 (types_of [4%N])) /\
  mistake S0 (start_steps R1) (started R1 w1)
    (CallsMethod 3 purr [AOther 5%N; AObject 23%N]) (EMissingClass 23) /\
  mistake S0 (start_steps R1) (started R1 w1)
    (CallsNext 3 purr (or_next (ovr [3] 31)%N) [AObject 4%N]) (ENoOverrider 3 1 (types_of [4%N])) /\
  mistake S0 (start_steps R1) (started R1 w1) (Points (Final 0 (Some 0) 3 3 true)) (EFinal 3 4) /\
  mistake S0 [] program0 (CallsMethod 3 purr [AObject 2%N]) ENotInitialized /\
  mistake S0 [] program0 (Points (PlainFromRef 0 0 false)) ENotInitialized.
Proof. exact mistakes_example. Qed.

(* C32: an operation that is no mistake enters its overrider, and no handler. *)
Theorem C32_proper_calls_return : forall S pg a f,
  proper S pg a f -> act S a pg = Ok (pg, [], Returns (VEnters f)).
Proof. exact proper_returns. Qed.
Print Assumptions C32_proper_calls_return.

Example C32_proper_calls_example :
  proper S0 (started R1 w1) (CallsMethod 3 purr [AOther 7; AObject 4]%N) 31%N /\
  proper S0 (started R_greet w_greet)
    (CallsNext 5 greet (or_next (ovr [4; 4] 24)%N) [AObject 4; AObject 4]%N) 23%N.
Proof. exact proper_example. Qed.

(* C32: setting a handler returns the one that was in place. *)
Theorem C32_set_returns_previous : forall S t pg h es en h',
  executes S (t ++ [Deed (SetsHandler h) es en]) pg -> handler_in_place t h' ->
  en = Returns (VHandler h') /\ es = [].
Proof. exact set_returns_previous. Qed.
Print Assumptions C32_set_returns_previous.

Example C32_set_returns_previous_example : exists t pg es en,
  executes S0 (t ++ [Deed (SetsHandler HEmpty) es en]) pg /\ handler_in_place t (HUser 1).
Proof. exact set_example. Qed.
