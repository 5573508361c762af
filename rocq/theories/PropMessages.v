(* C64. *)
From stdpp Require Import base list numbers strings.
From Verif Require Import Base Registry Spec ModelClasses ModelHash ModelWorld ModelCall SpecCall ModelLife
  ModelVirtualPtr ModelErrors SpecErrors ModelOptions SpecOptions ModelMessages SpecMessages ProofMessages
  ExamplesModel ExamplesDispatch ExamplesNext ExamplesVptr ExamplesReport ExamplesLife ExamplesHandlers ExamplesMessages.

(* C64.  The default handler writes the description of the error, which has the names of the types
   that the error is about, and a newline; nothing if the registry has no output policy or the
   stream is off.  Then the program aborts. *)
Theorem C64_written :
  forall names registry S t pg a e,
  executes S t pg -> handler_in_place t HDefault -> mistake S t pg a e -> su_policy S = PolicyDefault ->
  exists pg' es s, act S a pg = Ok (pg', es, Aborts) /\ describe names registry e = Ok s /\
    contains s (map names (types_in registry e)) /\
    written names registry true es = Ok (if su_output S then s +:+ newline else "") /\
    written names registry false es = Ok "".
Proof. exact written_default. Qed.
Print Assumptions C64_written.

Example C64_written_example :
  executes S_written begun_steps (begun w1) /\ handler_in_place begun_steps HDefault /\
  su_policy S_written = PolicyDefault /\ su_output S_written = true /\
  mistake S_written begun_steps (begun w1) (Points (Final 0 (Some 0) 3 3 true)) (EFinal 3 4) /\
  describe names8 0 (EFinal 3 4) =
    Ok "invalid call to final construct: static type = Cat, dynamic type = CatDog" /\
  mistake S_written begun_steps (begun w1) (CallsMethod 3 purr [AOther 5%N; AObject 23%N]) (EMissingClass 23) /\
  written names8 0 true [Written (EMissingClass 23)] = Ok ("unknown class Bear" +:+ newline).
Proof. exact written_example. Qed.

(* With throw_error_handler it is the text of the exception. *)
Theorem C64_thrown :
  forall names registry S t pg a e h,
  executes S t pg -> handler_in_place t h -> mistake S t pg a e -> su_policy S = PolicyThrow ->
  exists pg' x s, act S a pg = Ok (pg', [], Throws x) /\ what names registry x = Some (Ok s) /\
    describe names registry e = Ok s /\ contains s (map names (types_in registry e)).
Proof. exact thrown_text. Qed.
Print Assumptions C64_thrown.

Example C64_thrown_example :
  executes S_throw begun_steps (begun w1) /\ handler_in_place begun_steps HDefault /\
  su_policy S_throw = PolicyThrow /\
  mistake S_throw begun_steps (begun w1) (CallsMethod 3 purr [AOther 5%N; AObject 23%N]) (EMissingClass 23) /\
  what names8 0 (ThrownError (EMissingClass 23)) = Some (Ok "unknown class Bear").
Proof. exact thrown_example. Qed.

(* The errors of initialize() have descriptions; when no hash factors are found they have the number
   of attempts and of buckets. *)
Theorem C64_initialize :
  forall names registry cf X R w w' e,
  program_ok cf (r_env X) R -> world_ok w -> initialize cf X false R w = (w', Err e) ->
  exists s, describe names registry e = Ok s /\ contains s (map names (types_in registry e)) /\
    forall a b, e = ESearch a b ->
      exists x y, writes_number 10 a x /\ writes_number 10 b y /\ contains s [x; y].
Proof. exact initialize_described. Qed.
Print Assumptions C64_initialize.

Example C64_initialize_example :
  exists w', program_ok cf0 env17 R_17 /\ world_ok world0 /\
    initialize cf0 run17 false R_17 world0 = (w', Err (ESearch 400000 32)) /\
    describe names8 0 (ESearch 400000 32) =
      Ok ("could not find hash factors after 400000s using 32 buckets" +:+ newline).
Proof. exact search_text. Qed.

(* The description tells which error it is, whatever the names of types are. *)
Theorem C64_kind :
  forall names registry e e' s,
  describe names registry e = Ok s -> describe names registry e' = Ok s -> kind_of e = kind_of e'.
Proof. exact describe_kind. Qed.
Print Assumptions C64_kind.

Example C64_kind_example :
  describe names8 0 (EMissingBase 1 4) = Ok "missing base Animal -<| CatDog" /\
  describe names8 0 EOdrViolation = Ok "conflicting definitions of Registry" /\
  describe names8 0 ENotInitialized = Ok "not initialized" /\
  kind_of (EMissingBase 1 4) = kind_of (EMissingBase 2 4) /\ plain_names names8.
Proof. exact kinds_example. Qed.

(* It tells which types the error is about, and which is which.  Missing: the method and the types of
   the arguments of a call (C64_calls_refuted). *)
Theorem C64_types_partial :
  forall names registry e e' s, plain_names names ->
  describe names registry e = Ok s -> describe names registry e' = Ok s ->
  map names (types_in registry e) = map names (types_in registry e').
Proof. exact describe_types. Qed.
Print Assumptions C64_types_partial.

Example C64_types_example :
  describe names8 0 (EMissingBase 1 4) = Ok "missing base Animal -<| CatDog" /\
  describe names8 0 EOdrViolation = Ok "conflicting definitions of Registry" /\
  describe names8 0 ENotInitialized = Ok "not initialized" /\
  kind_of (EMissingBase 1 4) = kind_of (EMissingBase 2 4) /\ plain_names names8.
Proof. exact kinds_example. Qed.

(* Calls with different arguments that have no overrider give the same text. *)
Theorem C64_calls_refuted :
  exists S t pg a a' e e' s,
  executes S t pg /\ mistake S t pg a e /\ mistake S t pg a' e' /\ e <> e' /\
  describe names8 0 e = Ok s /\ describe names8 0 e' = Ok s.
Proof. exact calls_refuted. Qed.
Print Assumptions C64_calls_refuted.

(* rtti::defaults gives different names to different types. *)
Theorem C64_default_names :
  forall t t' s, (t < 2 ^ 64)%N -> (t' < 2 ^ 64)%N ->
  default_name t = Ok s -> default_name t' = Ok s -> t = t'.
Proof. exact default_name_inj. Qed.
Print Assumptions C64_default_names.

Example C64_default_names_example :
  default_name 255 = Ok "type_id(ff)" /\ default_name 4096 = Ok "type_id(1000)" /\
  (255 < 2 ^ 64)%N.
Proof. exact default_name_example. Qed.

(* The description is one line.  Missing: it is two when no hash factors are found
   (C64_line_refuted). *)
Theorem C64_line_partial :
  forall names registry e s, (forall t, one_line (names t)) -> kind_of e <> KSearch ->
  describe names registry e = Ok s -> one_line s.
Proof. exact describe_line. Qed.
Print Assumptions C64_line_partial.

Example C64_line_example : (forall t, one_line (names8 t)) /\ kind_of (EMissingBase 1 4) <> KSearch /\
  describe names8 0 (EMissingBase 1 4) = Ok "missing base Animal -<| CatDog".
Proof. exact line_example. Qed.

Theorem C64_line_refuted :
  exists cf X R w w' e s,
  program_ok cf (r_env X) R /\ world_ok w /\ initialize cf X false R w = (w', Err e) /\
  (forall t, one_line (names8 t)) /\ describe names8 0 e = Ok s /\ ~ one_line s.
Proof. exact line_refuted. Qed.
Print Assumptions C64_line_refuted.

(* Handlers get each error of initialize() and of calls as the alternative of its class, whatever
   errors the policies of the program add. *)
Theorem C64_wrapped :
  forall cf X R w w' e policies,
  program_ok cf (r_env X) R -> world_ok w -> own_errors cf policies ->
  initialize cf X false R w = (w', Err e) ->
  exists i, wrap (error_variant policies) (kind_of e) = Some i /\
    error_variant policies !! i = Some (kind_of e).
Proof. exact initialize_wrapped. Qed.
Print Assumptions C64_wrapped.

Example C64_wrapped_example : exists w',
  program_ok cf0 env17 R_17 /\ world_ok world0 /\
  own_errors cf0 [None; Some [KOther 0; KOther 1]; Some [KSearch]; None] /\
  initialize cf0 run17 false R_17 world0 = (w', Err (ESearch 400000 32)) /\
  wrap (error_variant [None; Some [KOther 0; KOther 1]; Some [KSearch]; None]) KSearch = Some 9.
Proof. exact wrapped_example. Qed.

Theorem C64_wrapped_call :
  forall cf w mid m args e policies,
  length args <= 16 -> own_errors cf policies -> call cf w mid m args = Err e ->
  exists i, wrap (error_variant policies) (kind_of e) = Some i /\
    error_variant policies !! i = Some (kind_of e).
Proof. exact call_wrapped. Qed.
Print Assumptions C64_wrapped_call.

Example C64_wrapped_call_example :
  own_errors cf0 [Some [KSearch]] /\ length [AObject 2%N] <= 16 /\
  call cf0 w1 3 purr [AObject 2%N] = Err (ENoOverrider 3 1 (types_of [2%N])).
Proof. exact wrapped_call_example. Qed.
