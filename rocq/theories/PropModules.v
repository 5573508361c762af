(* C41: what a library adds does not change what the program does. *)
From stdpp Require Import base list numbers.
From Verif Require Import Base Registry Spec ModelClasses ModelHash ModelWorld ModelCall SpecCall SpecModules
  ExamplesModel ExamplesDispatch ProofModules ExamplesModules.

(* C41.  Classes, methods and overriders are added; the overriders added to the method
   do not accept the arguments of the call. *)
Theorem C41_unrelated :
  forall cf cf' X X' R R' w w',
    program_ok cf (r_env X) R -> bases_first (e_ti (r_env X)) R -> initialized_by cf X false R w ->
    program_ok cf' (r_env X') R' -> bases_first (e_ti (r_env X)) R' -> initialized_by cf' X' false R' w' ->
    e_ti (r_env X') = e_ti (r_env X) -> extends (e_ti (r_env X)) R R' ->
  forall mid mid' m m' news all all' args,
    call_ok cf (e_ti (r_env X)) R w m all args -> call_ok cf' (e_ti (r_env X)) R' w' m' all' args ->
    functions_ok m -> functions_ok m' -> adds news m m' ->
    length (mr_vp m) = 1 \/ (together all /\ together all' /\
      settled (e_ti (r_env X)) R (mr_overriders m) (candidate (e_ti (r_env X)) R (mr_overriders m) args)) ->
    (forall o, o ∈ news -> ~ applicable (e_ti (r_env X)) R' args o) ->
    alike (call cf w mid m all) (call cf' w' mid' m' all').
Proof. exact unrelated_calls. Qed.
Print Assumptions C41_unrelated.

Example C41_example :
  program_ok cf0 env0 R0 /\ bases_first id R0 /\ initialized_by cf0 run0 false R0 w0 /\
  program_ok cf0 env0 R_plug /\ bases_first id R_plug /\ initialized_by cf0 run0 false R_plug w_plug /\
  extends id R0 R_plug /\ functions_ok meet /\ functions_ok meet_p /\ adds news0 meet meet_p.
Proof. exact plug_example. Qed.

Example C41_calls_example : forall a b, In (a, b) [(2, 2); (2, 3)]%N ->
  call_ok cf0 id R0 w0 meet (map AObject [a; b]) [a; b] /\
  call_ok cf0 id R_plug w_plug meet_p (map AObject [a; b]) [a; b] /\
  settled id R0 (mr_overriders meet) (candidate id R0 (mr_overriders meet) [a; b]) /\
  settled id R_plug (mr_overriders meet_p) (candidate id R_plug (mr_overriders meet_p) [a; b]).
Proof. exact plug_call. Qed.

Example C41_unrelated_example : forall o, o ∈ news0 -> ~ applicable id R_plug [2; 2]%N o.
Proof. exact plug_unrelated. Qed.

(* Overriders that accept the arguments are added: the call does what it did, or enters
   one of them, or is ambiguous.  It is not redirected to another overrider. *)
Theorem C41_added :
  forall cf cf' X X' R R' w w',
    program_ok cf (r_env X) R -> bases_first (e_ti (r_env X)) R -> initialized_by cf X false R w ->
    program_ok cf' (r_env X') R' -> bases_first (e_ti (r_env X)) R' -> initialized_by cf' X' false R' w' ->
    e_ti (r_env X') = e_ti (r_env X) -> extends (e_ti (r_env X)) R R' ->
  forall mid mid' m m' news all all' args,
    call_ok cf (e_ti (r_env X)) R w m all args -> call_ok cf' (e_ti (r_env X)) R' w' m' all' args ->
    functions_ok m -> functions_ok m' -> adds news m m' ->
    length (mr_vp m) = 1 \/ (together all /\ together all' /\
      settled (e_ti (r_env X)) R (mr_overriders m) (candidate (e_ti (r_env X)) R (mr_overriders m) args) /\
      settled (e_ti (r_env X)) R' (mr_overriders m') (candidate (e_ti (r_env X)) R' (mr_overriders m') args)) ->
    alike (call cf w mid m all) (call cf' w' mid' m' all') \/
    (exists o, o ∈ news /\ call cf' w' mid' m' all' = Ok (Calls (or_pf o))) \/
    exists i n ts, call cf' w' mid' m' all' = Err (EAmbiguousCall i n ts).
Proof. exact added_calls. Qed.
Print Assumptions C41_added.

Example C41_results :
  call cf0 w0 2 meet (map AObject [2; 2]%N) = Ok (Calls 24%N) /\
  call cf0 w_plug 2 meet_p (map AObject [2; 2]%N) = Ok (Calls 24%N) /\
  call cf0 w0 2 meet (map AObject [2; 3]%N) = Err (EAmbiguousCall 2 2 (types_of [2; 3]%N)) /\
  call cf0 w_plug 2 meet_p (map AObject [2; 3]%N) = Ok (Calls 26%N).
Proof. exact plug_results. Qed.

(* Without the guard on dominance after the addition, the call may be redirected. *)
Theorem C41_added_refuted :
  exists cf X R R' w w' mid m m' news all args f f',
    program_ok cf (r_env X) R /\ bases_first (e_ti (r_env X)) R /\ initialized_by cf X false R w /\
    program_ok cf (r_env X) R' /\ bases_first (e_ti (r_env X)) R' /\ initialized_by cf X false R' w' /\
    extends (e_ti (r_env X)) R R' /\
    call_ok cf (e_ti (r_env X)) R w m all args /\ call_ok cf (e_ti (r_env X)) R' w' m' all args /\
    functions_ok m /\ functions_ok m' /\ adds news m m' /\ together all /\
    settled (e_ti (r_env X)) R (mr_overriders m) (candidate (e_ti (r_env X)) R (mr_overriders m) args) /\
    call cf w mid m all = Ok (Calls f) /\ call cf w' mid m' all = Ok (Calls f') /\
    f' <> f /\ forall o, o ∈ news -> or_pf o <> f'.
Proof. exact circle_wrong. Qed.
Print Assumptions C41_added_refuted.
