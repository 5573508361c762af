(* Properties C58, C59 and C60: the options of initialize(), the trace, and numbers in
   messages. *)
From Coq Require Import Ascii.
From stdpp Require Import base list numbers strings.
From Verif Require Import Base Registry Spec SpecCall SpecN2216 ModelClasses ModelTables ModelHash
  ModelWorld ModelCall ModelErrors ModelOptions SpecOptions ProofOptions ExamplesModel
  ExamplesDispatch ExamplesVptr ExamplesN2216 ExamplesOptions.

(* C58.  The options given to initialize() take effect.  Missing: options that are not
   temporaries (refuted below).  Whatever the order and the number of options, if they
   are temporaries initialize() resolves ambiguities exactly if n2216 is among them. *)
Theorem C58_options_partial :
  forall cf output names X st R w args r out,
  temporaries args -> initialize_with cf output names X st args R w = Some (r, out) ->
  (asks_n2216 args -> r = initialize cf X true R w) /\
  (~ asks_n2216 args -> r = initialize cf X false R w).
Proof. exact options_temporaries. Qed.
Print Assumptions C58_options_partial.

(* With n2216 among the options no call that has an applicable overrider is ambiguous. *)
Theorem C58_resolved_partial :
  forall cf output names X st args R w0 w rep out,
  program_ok cf (r_env X) R -> bases_first (e_ti (r_env X)) R -> world_ok w0 ->
  temporaries args -> asks_n2216 args ->
  initialize_with cf output names X st args R w0 = Some ((w, Ok rep), out) ->
  forall mid m all dyn, call_ok cf (e_ti (r_env X)) R w m all dyn -> functions_ok m ->
  (length (mr_vp m) = 1 \/ together all) ->
  (exists i, candidate (e_ti (r_env X)) R (mr_overriders m) dyn i) ->
  exists i o, mr_overriders m !! i = Some o /\
    candidate (e_ti (r_env X)) R (mr_overriders m) dyn i /\
    call cf w mid m all = Ok (Calls (or_pf o)).
Proof. exact resolved. Qed.
Print Assumptions C58_resolved_partial.

Example C58_resolved_partial_example : exists rep out,
  program_ok cf0 env0 R_clone /\ bases_first id R_clone /\ world_ok world0 /\
  temporaries both_options /\ asks_n2216 both_options /\
  initialize_with cf0 true names0 run0 st0 both_options R_clone world0 = Some ((w_clone_n, Ok rep), out) /\
  call_ok cf0 id R_clone w_clone_n clone (map AObject [4]%N) [4]%N /\ functions_ok clone /\
  length (mr_vp clone) = 1 /\ candidate id R_clone (mr_overriders clone) [4]%N 2 /\
  call cf0 w_clone_n 5 clone (map AObject [4]%N) = Ok (Calls 53%N).
Proof. exact resolved_example. Qed.

(* Without n2216, other options do not change what is initialized, however they are passed. *)
Theorem C58_not_asked :
  forall cf output names X st R w args r out,
  ~ asks_n2216 args -> initialize_with cf output names X st args R w = Some (r, out) ->
  r = initialize cf X false R w.
Proof. exact options_not_asked. Qed.
Print Assumptions C58_not_asked.

(* initialize() compiles with at most one trace object, and with none if the registry has
   no output policy. *)
Theorem C58_compiles :
  forall cf output names X st R w args,
  trace_allowed output args ->
  exists r out, initialize_with cf output names X st args R w = Some (r, out).
Proof. exact options_compile. Qed.
Print Assumptions C58_compiles.

(* A named n2216 object compiles and has no effect: the call is ambiguous. *)
Theorem C58_named_refuted :
  exists (cf : config) output names X st args R w0 w rep out mid m all dyn,
  program_ok cf (r_env X) R /\ bases_first (e_ti (r_env X)) R /\ world_ok w0 /\ asks_n2216 args /\
  initialize_with cf output names X st args R w0 = Some ((w, Ok rep), out) /\
  call_ok cf (e_ti (r_env X)) R w m all dyn /\ functions_ok m /\ length (mr_vp m) = 1 /\
  (exists i, candidate (e_ti (r_env X)) R (mr_overriders m) dyn i) /\
  exists id n ts, call cf w mid m all = Err (EAmbiguousCall id n ts).
Proof. exact named_ignored. Qed.
Print Assumptions C58_named_refuted.

(* A named trace object that is on compiles and has no effect: nothing is written. *)
Theorem C58_named_trace_refuted :
  exists (cf : config) names X st args R w0 w rep,
  program_ok cf (r_env X) R /\ asks_trace args /\ trace_allowed true args /\
  (exists s, OpText s ∈ st_before st) /\
  initialize_with cf true names X st args R w0 = Some ((w, Ok rep), Ok []).
Proof. exact named_trace_ignored. Qed.
Print Assumptions C58_named_trace_refuted.

(* C59.  initialize() writes to the output stream only if a trace object that is on is
   given.  Missing: fast_perfect_hash with a trace object that is off (refuted below). *)
Theorem C59_quiet_partial :
  forall cf output names X st R w args r out,
  ~ asks_trace args ->
  (cf_vptr cf <> VptrVector \/ cf_hash cf = false \/ forall a, a ∈ args -> oa_type a <> OTrace) ->
  initialize_with cf output names X st args R w = Some (r, out) -> out = Ok [].
Proof. exact quiet. Qed.
Print Assumptions C59_quiet_partial.

Example C59_quiet_partial_example : exists w rep,
  ~ asks_trace trace_off /\ cf_vptr cf_map <> VptrVector /\ trace_allowed true trace_off /\
  initialize_with cf_map true names0 run0 st0 trace_off R_clone world0 = Some ((w, Ok rep), Ok []).
Proof. exact quiet_example. Qed.

(* With the policies of the default registry, initialize(trace(false)) writes a line. *)
Theorem C59_quiet_refuted :
  exists (cf : config) names X st args R w0 w rep texts,
  program_ok cf (r_env X) R /\ temporaries args /\ ~ asks_trace args /\ trace_allowed true args /\
  initialize_with cf true names X st args R w0 = Some ((w, Ok rep), Ok texts) /\ texts <> [].
Proof. exact off_written. Qed.
Print Assumptions C59_quiet_refuted.

(* With a temporary trace object that is on, what the trace statements say is written. *)
Theorem C59_traced_partial :
  forall cf output names X st R w args r out,
  temporaries args -> asks_trace args -> sized (st_before st) -> sized (st_after st) ->
  (forall cp, compile (r_env X) (has_n2216 (map deduce args)) R = Ok cp ->
     (N.of_nat (g_n (cp_graph cp)) < 2 ^ 64)%N) ->
  initialize_with cf output names X st args R w = Some (r, out) ->
  exists texts, out = Ok texts /\ forall s, OpText s ∈ st_before st ++ st_after st -> s ∈ texts.
Proof. exact traced. Qed.
Print Assumptions C59_traced_partial.

Example C59_traced_partial_example : exists w rep,
  temporaries both_options /\ asks_trace both_options /\ asks_n2216 both_options /\
  trace_allowed true both_options /\
  initialize_with cf0 true names0 run0 st0 both_options R_clone world0 =
    Some ((w, Ok rep),
      Ok ["Static class info:"; "  "; "  "; "type_id("; "1"; ")"; ": "; "("; ""; "type_id("; "1"; ")";
          ", "; "type_id("; "1"; ")"; ")"; "-> mask: "; "1"; "0"; "1"; " "; " "; "12";
          "Finding hash factor for "; "4"; String.append " types" (String "010" "");
          "  found "; "18446744073709551615"]).
Proof. exact trace_example. Qed.

(* trace::from_env() is on exactly if the variable is "1", in both versions of the code. *)
Theorem C59_from_env :
  forall s chars, c_string s chars ->
  from_env (Some s) = Ok (bool_decide (chars = ["1"%char])) /\
  from_env_msvc (Some s) = Ok (bool_decide (chars = ["1"%char])).
Proof. exact from_env_spec. Qed.
Print Assumptions C59_from_env.

Example C59_from_env_example :
  c_string ["1"; "000"]%char ["1"]%char /\ from_env (Some ["1"; "000"]%char) = Ok true /\
  c_string ["1"; "1"; "000"]%char ["1"; "1"]%char /\ from_env (Some ["1"; "1"; "000"]%char) = Ok false.
Proof. exact env_example. Qed.

(* C60.  Numbers and addresses are written in full: the buffer of 20 characters is large
   enough for all of them. *)
Theorem C60_numbers :
  forall n, (n < 2 ^ 64)%N -> exists s, put_size n = Ok s /\ writes_number 10 n s.
Proof. exact put_size_spec. Qed.
Print Assumptions C60_numbers.

Theorem C60_addresses :
  forall n, (n < 2 ^ 64)%N -> exists s, put_address n = Ok s /\ writes_number 16 n s.
Proof. exact put_address_spec. Qed.
Print Assumptions C60_addresses.

(* A text stands for one number only. *)
Theorem C60_unique :
  forall base n n' s, writes_number base n s -> writes_number base n' s -> n = n'.
Proof. exact writes_unique. Qed.
Print Assumptions C60_unique.

(* Numbers in the columns of the trace are aligned on the right, and never cut. *)
Theorem C60_aligned :
  forall width n, (n < 2 ^ 64)%N ->
  exists s, put_right true true width n =
      Ok (replicate (N.to_nat width - String.length s) " " ++ [s]) /\ writes_number 10 n s.
Proof. exact put_right_spec. Qed.
Print Assumptions C60_aligned.

Example C60_example :
  (18446744073709551615 < 2 ^ 64)%N /\ put_size 18446744073709551615 = Ok "18446744073709551615" /\
  put_address 18446744073709551615 = Ok "ffffffffffffffff" /\ put_size 0 = Ok "0" /\
  put_right true true 4 12 = Ok [" "; " "; "12"].
Proof. exact number_example. Qed.
