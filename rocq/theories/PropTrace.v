(* C67: the trace of initialize() tells what calls will do. *)
From stdpp Require Import base list numbers strings.
From Verif Require Import Base Registry Spec ModelClasses ModelHash ModelWorld ModelCall SpecCall
  ExamplesModel ExamplesDispatch ExamplesNext ModelTrace SpecTrace ProofTrace ProofTraceCalls ProofTraceNext ProofTraceMissing ExamplesTrace.

(* Tracing changes nothing: what is compiled, or the error, is the same as without it; nothing is read
   that is not there in order to print it. *)
Theorem C67_harmless :
  forall (E : env) (R : registrations), env_ok E -> acyclic (e_ti E) R ->
  forall n2216 : bool, snd (trace_compile E n2216 R) = compile E n2216 R.
Proof. exact trace_harmless. Qed.
Print Assumptions C67_harmless.

Example C67_harmless_example : length (fst (trace_compile env0 false R0)) = 248 /\
  length (readings (fst (trace_compile env0 false R0))) = 12 /\
  Reading 1 [[2; 4]; [3]]%N SaysAmbiguous None ∈ readings (fst (trace_compile env0 false R0)) /\
  Reading 1 [[1; 3]; [4]]%N (SaysOverrider 2 23%N) (Some (SaysOverrider 0 21%N)) ∈ readings (fst (trace_compile env0 false R0)).
Proof. exact trace0_lines. Qed.

(* For each method and any classes that its arguments can have, the trace says one thing: that there
   is no overrider, exactly if none is applicable; or which overrider is selected, an applicable one.
   Where the candidates are as in C02, it is what the documentation says. *)
Theorem C67_selects :
  forall (E : env) (R : registrations), env_ok E -> acyclic (e_ti E) R ->
  forall (cp : compiled) (mi : nat) (m : method_record) (args : list N),
    arity_ok R -> compile E false R = Ok cp ->
    reg_methods R !! mi = Some m -> valid_args (e_ti E) R m args ->
    let rds := readings (fst (trace_compile E false R)) in
    let cand := candidate (e_ti E) R (mr_overriders m) args in
    exists r sel, r ∈ rds /\ is_about (e_ti E) mi args r /\
      (forall r', r' ∈ rds -> is_about (e_ti E) mi args r' -> r' = r) /\
      says m (rg_says r) sel /\
      (sel = SNone <-> forall i, ~ cand i) /\
      (forall i, sel = SOverrider i -> cand i) /\
      (settled (e_ti E) R (mr_overriders m) cand -> selects (e_ti E) R (mr_overriders m) args sel).
Proof. exact trace_selects. Qed.
Print Assumptions C67_selects.

Example C67_selects_example : env_ok env0 /\ acyclic (e_ti env0) R0 /\ arity_ok R0 /\
  (exists cp, compile env0 false R0 = Ok cp) /\ reg_methods R0 !! 1 = Some meet /\
  valid_args (e_ti env0) R0 meet [2; 3]%N /\
  settled (e_ti env0) R0 (mr_overriders meet) (candidate (e_ti env0) R0 (mr_overriders meet) [2; 3]%N).
Proof. exact trace0_hypotheses. Qed.

(* After initialize(), with or without n2216, a call does what the trace says. *)
Theorem C67_calls :
  forall (cf : config) (X : run) (n2216 : bool) (R : registrations) (w : world) (mid : N)
         (m : method_record) (all : list arg) (args : list N),
    program_ok cf (r_env X) R -> bases_first (e_ti (r_env X)) R ->
    initialized_by cf X n2216 R w -> call_ok cf (e_ti (r_env X)) R w m all args -> functions_ok m ->
    (length (mr_vp m) = 1 \/ together all) ->
    let rds := readings (fst (trace_compile (r_env X) n2216 R)) in
    exists mi r sel, reg_methods R !! mi = Some m /\ r ∈ rds /\ is_about (e_ti (r_env X)) mi args r /\
      (forall r', r' ∈ rds -> is_about (e_ti (r_env X)) mi args r' -> r' = r) /\
      says m (rg_says r) sel /\ behaves m sel (call cf w mid m all).
Proof. exact trace_calls. Qed.
Print Assumptions C67_calls.

Example C67_calls_example : program_ok cf0 env0 R0 /\ bases_first id R0 /\ initialized_by cf0 run0 false R0 w0 /\
  call_ok cf0 id R0 w0 meet (map AObject [2; 3]%N) [2; 3]%N /\ functions_ok meet /\
  together (map AObject [2; 3]%N).
Proof. exact trace0_call. Qed.

(* The trace tells of nothing else: whatever it says is about arguments that a registered method can
   be called with. *)
Theorem C67_sound :
  forall (E : env) (R : registrations), env_ok E -> acyclic (e_ti E) R -> arity_ok R ->
  forall (n2216 : bool) (cp : compiled), compile E n2216 R = Ok cp ->
  forall r, r ∈ readings (fst (trace_compile E n2216 R)) ->
    exists m, reg_methods R !! rg_method r = Some m /\
      (exists args, is_about (e_ti E) (rg_method r) args r) /\
      forall args, is_about (e_ti E) (rg_method r) args r -> valid_args (e_ti E) R m args.
Proof. exact trace_sound. Qed.
Print Assumptions C67_sound.

Example C67_sound_example : length (fst (trace_compile env0 false R0)) = 248 /\
  length (readings (fst (trace_compile env0 false R0))) = 12 /\
  Reading 1 [[2; 4]; [3]]%N SaysAmbiguous None ∈ readings (fst (trace_compile env0 false R0)) /\
  Reading 1 [[1; 3]; [4]]%N (SaysOverrider 2 23%N) (Some (SaysOverrider 0 21%N)) ∈ readings (fst (trace_compile env0 false R0)).
Proof. exact trace0_lines. Qed.

(* The overrider that another one calls by next: where it is the one that the rule selects, as in C12,
   every combination for which the trace says that the overrider is called says so; there is one. *)
Theorem C67_next :
  forall (cf : config) (X : run) (R : registrations) (w : world) (mi : nat) (m : method_record)
         (i : nat) (o : overrider_record),
    program_ok cf (r_env X) R -> initialized_by cf X false R w ->
    reg_methods R !! mi = Some m -> mr_overriders m !! i = Some o ->
    unique_signature (e_ti (r_env X)) (mr_overriders m) i ->
    (forall args, valid_args (e_ti (r_env X)) R m args ->
       pointwise (e_ti (r_env X)) R (mr_overriders m)
         (candidate (e_ti (r_env X)) R (mr_overriders m) args)) ->
    exists sel f, selects_next (e_ti (r_env X)) R (mr_overriders m) i sel /\
      selected_fn m sel = Some f /\ w_next w (or_next o) = Some f /\
      let rds := readings (fst (trace_compile (r_env X) false R)) in
      (exists r, r ∈ rds /\ tells_of mi i r = true) /\
      forall r, r ∈ rds -> tells_of mi i r = true -> exists v, rg_next r = Some v /\ says m v sel.
Proof. exact trace_next. Qed.
Print Assumptions C67_next.

Example C67_next_example :
  program_ok cf0 env0 R_greet /\ initialized_by cf0 run0 false R_greet w_greet /\
  reg_methods R_greet !! 0 = Some greet /\ mr_overriders greet !! 3 = Some (ovr [4; 4] 24)%N /\
  unique_signature id (mr_overriders greet) 3 /\
  (forall args, valid_args id R_greet greet args ->
     pointwise id R_greet (mr_overriders greet) (candidate id R_greet (mr_overriders greet) args)) /\
  selects_next id R_greet (mr_overriders greet) 3 (SOverrider 2).
Proof. exact greet_told. Qed.

(* In any program, with or without n2216, the last that the trace says of the overrider is true. *)
Theorem C67_next_last :
  forall (cf : config) (X : run) (n2216 : bool) (R : registrations) (w : world) (mi : nat)
         (m : method_record) (i : nat) (o : overrider_record) (r : reading),
    program_ok cf (r_env X) R -> initialized_by cf X n2216 R w ->
    reg_methods R !! mi = Some m -> mr_overriders m !! i = Some o ->
    last (filter (fun r => tells_of mi i r = true)
      (readings (fst (trace_compile (r_env X) n2216 R)))) = Some r ->
    exists v sel f, rg_next r = Some v /\ says m v sel /\
      selected_fn m sel = Some f /\ w_next w (or_next o) = Some f.
Proof. exact trace_next_last. Qed.
Print Assumptions C67_next_last.

Example C67_next_last_example :
  program_ok cf0 env0 R_skew /\ initialized_by cf0 run0 false R_skew w_skew /\
  reg_methods R_skew !! 0 = Some skew /\ mr_overriders skew !! 1 = Some o_cs /\
  last (filter (fun r => tells_of 0 1 r = true) (readings (fst (trace_compile env0 false R_skew)))) =
    Some (Reading 0 [[3]; [7]]%N (SaysOverrider 1 32%N) (Some (SaysOverrider 0 31%N))) /\
  w_next w_skew (or_next o_cs) = Some 31%N.
Proof. exact skew_last. Qed.

(* What it says of next for other arguments need not be: the trace says that there is none, the
   overrider is called with these arguments, and next calls another one. *)
Theorem C67_next_refuted : exists cf X R w mid m all args mi i o r f,
  program_ok cf (r_env X) R /\ bases_first (e_ti (r_env X)) R /\
  initialized_by cf X false R w /\ call_ok cf (e_ti (r_env X)) R w m all args /\ functions_ok m /\
  together all /\ reg_methods R !! mi = Some m /\ mr_overriders m !! i = Some o /\
  call cf w mid m all = Ok (Calls (or_pf o)) /\
  r ∈ readings (fst (trace_compile (r_env X) false R)) /\ is_about (e_ti (r_env X)) mi args r /\
  tells_of mi i r = true /\ rg_next r = Some SaysNone /\
  w_next w (or_next o) = Some f /\ f <> mr_not_implemented m.
Proof. exact skew_untrue. Qed.
Print Assumptions C67_next_refuted.

(* A class that is missing, but as a base of another class: the trace ends at the method or at the
   overrider that it is missing for; with the name of the class, if the method's parameter is of that
   class.  Missing: the number of the parameter, and the name of the class for an overrider. *)
Theorem C67_missing_partial :
  forall (E : env) (R : registrations) (t : N),
    env_ok E -> acyclic (e_ti E) R -> arity_ok R -> bases_registered (e_ti E) R ->
    compile E false R = Err (EMissingClass t) ->
    exists mi p, missing_at (e_ti E) R mi p t /\ points_at (fst (trace_compile E false R)) mi p t.
Proof. exact trace_missing. Qed.
Print Assumptions C67_missing_partial.

Example C67_missing_partial_example : env_ok env0 /\ acyclic (e_ti env0) R_stranger /\ arity_ok R_stranger /\
  bases_registered (e_ti env0) R_stranger /\ compile env0 false R_stranger = Err (EMissingClass 9%N).
Proof. exact stranger_hypotheses. Qed.

(* The number of the parameter is wrong. *)
Theorem C67_parameter_refuted : exists E R t mi j,
  env_ok E /\ acyclic (e_ti E) R /\ arity_ok R /\ bases_registered (e_ti E) R /\
  compile E false R = Err (EMissingClass t) /\
  missing_at (e_ti E) R mi (InMethod j) t /\
  (forall p, missing_at (e_ti E) R mi p t -> p = InMethod j) /\
  ~ says_parameter (fst (trace_compile E false R)) j.
Proof. exact far_wrong. Qed.
Print Assumptions C67_parameter_refuted.

(* A class missing for an overrider is not named, and the number of the parameter is wrong. *)
Theorem C67_overrider_refuted : exists E R t mi i j,
  env_ok E /\ acyclic (e_ti E) R /\ arity_ok R /\ bases_registered (e_ti E) R /\
  compile E false R = Err (EMissingClass t) /\
  missing_at (e_ti E) R mi (InOverrider i j) t /\
  ~ says_parameter (fst (trace_compile E false R)) j /\
  forall l, l ∈ fst (trace_compile E false R) -> PName t ∉ l /\ PAddress t ∉ l.
Proof. exact stranger_unnamed. Qed.
Print Assumptions C67_overrider_refuted.

(* The numbers by which the trace calls the groups of classes are not those that it announced. *)
Theorem C67_numbers_refuted : exists E R,
  env_ok E /\ acyclic (e_ti E) R /\ arity_ok R /\ (exists cp, compile E false R = Ok cp) /\
  exists x, x ∈ nb_used (numbers (fst (trace_compile E false R))) /\
    x ∉ nb_announced (numbers (fst (trace_compile E false R))).
Proof. exact five_numbers. Qed.
Print Assumptions C67_numbers_refuted.

(* In another program they are. *)
Example C67_numbers_example : forall x, x ∈ nb_used (numbers (fst (trace_compile env0 false R0))) ->
  x ∈ nb_announced (numbers (fst (trace_compile env0 false R0))).
Proof. exact zero_numbers. Qed.
