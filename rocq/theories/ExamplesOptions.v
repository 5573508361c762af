(* Examples for the options of initialize(). *)
From Coq Require Import Ascii.
From stdpp Require Import base list numbers strings.
From Verif Require Import Base Registry Spec SpecCall SpecN2216 ModelClasses ModelTables ModelHash
  ModelWorld ModelCall ModelErrors ModelOptions SpecOptions ProofBase ProofN2216 ProofOptions
  ExamplesModel ExamplesDispatch ExamplesVptr ExamplesN2216.

Definition temporary_option (t : option_type) (on : bool) := OptionArg t on false false.
Definition named_option (t : option_type) (on : bool) := OptionArg t on false true.

(* initialize(trace(), n2216()) *)
Definition both_options := [temporary_option OTrace true; temporary_option ON2216 true].
(* n2216 option; initialize(option); *)
Definition named_n2216 := [named_option ON2216 true].
(* initialize(trace::from_env()), the variable not being set *)
Definition trace_off := [temporary_option OTrace false].
(* trace option; initialize(option); *)
Definition named_trace := [named_option OTrace true].

Definition names0 (t : N) : list string := ["type_id("; "1"; ")"].
Definition st0 : statements :=
  Statements
    [OpLine; OpText "Static class info:"; OpIndent 2; OpLine; OpName 1%N; OpText ": "; OpNames [1; 2]%N;
     OpOutdent 2; OpLine; OpText "-> mask: "; OpBits [true; false; true]; OpRight 4%N 12%N]
    [OpLine; OpText "  found "; OpNumber 18446744073709551615%N].

Lemma sized0 : sized (st_before st0) /\ sized (st_after st0).
Proof.
  split; intros o Ho; repeat (apply elem_of_cons in Ho as [->|Ho]; [try exact I; reflexivity|]);
    inversion Ho.
Qed.

Lemma trace_example : exists w rep,
  temporaries both_options /\ asks_trace both_options /\ asks_n2216 both_options /\
  trace_allowed true both_options /\
  initialize_with cf0 true names0 run0 st0 both_options R_clone world0 =
    Some ((w, Ok rep),
      Ok ["Static class info:"; "  "; "  "; "type_id("; "1"; ")"; ": "; "("; ""; "type_id("; "1"; ")";
          ", "; "type_id("; "1"; ")"; ")"; "-> mask: "; "1"; "0"; "1"; " "; " "; "12";
          "Finding hash factor for "; "4"; String.append " types" (String "010" "");
          "  found "; "18446744073709551615"]).
Proof.
  do 2 eexists. split; [repeat constructor|]. split; [exists (temporary_option OTrace true);
    split; [left|split; reflexivity]|].
  split; [exists (temporary_option ON2216 true); split; [right; left|reflexivity]|].
  split; [split; [vm_compute; lia|reflexivity]|]. vm_compute. reflexivity.
Qed.

(* clone(Chimera) is ambiguous without the option. *)
Lemma resolved_example : exists rep out,
  program_ok cf0 env0 R_clone /\ bases_first id R_clone /\ world_ok world0 /\
  temporaries both_options /\ asks_n2216 both_options /\
  initialize_with cf0 true names0 run0 st0 both_options R_clone world0 = Some ((w_clone_n, Ok rep), out) /\
  call_ok cf0 id R_clone w_clone_n clone (map AObject [4]%N) [4]%N /\ functions_ok clone /\
  length (mr_vp clone) = 1 /\ candidate id R_clone (mr_overriders clone) [4]%N 2 /\
  call cf0 w_clone_n 5 clone (map AObject [4]%N) = Ok (Calls 53%N).
Proof.
  destruct clone_example as (H1 & H2 & _ & H4 & H5 & H6 & _ & _ & H9 & _ & H11).
  do 2 eexists. split; [exact H1|]. split; [exact H2|]. split; [apply world0_start|].
  split; [repeat constructor|].
  split; [exists (temporary_option ON2216 true); split; [right; left|reflexivity]|].
  split; [vm_compute; reflexivity|]. split; [exact H4|]. split; [exact H5|]. split; [exact H6|].
  split; [apply H9|]. exact H11.
Qed.

(* The same, with a named option. *)
Lemma named_ignored :
  exists (cf : config) output names X st args R w0 w rep out mid m all dyn,
  program_ok cf (r_env X) R /\ bases_first (e_ti (r_env X)) R /\ world_ok w0 /\ asks_n2216 args /\
  initialize_with cf output names X st args R w0 = Some ((w, Ok rep), out) /\
  call_ok cf (e_ti (r_env X)) R w m all dyn /\ functions_ok m /\ length (mr_vp m) = 1 /\
  (exists i, candidate (e_ti (r_env X)) R (mr_overriders m) dyn i) /\
  exists id n ts, call cf w mid m all = Err (EAmbiguousCall id n ts).
Proof.
  destruct clone_example as (H1 & H2 & _ & _ & H5 & H6 & _ & _ & H9 & H10 & _).
  exists cf0, true, names0, run0, st0, named_n2216, R_clone, world0, w_clone.
  do 2 eexists. exists 5%N, clone, (map AObject [4]%N), [4]%N.
  split; [exact H1|]. split; [exact H2|]. split; [apply world0_start|].
  split; [exists (named_option ON2216 true); split; [left|reflexivity]|].
  split; [vm_compute; reflexivity|].
  split; [apply clone_call; simpl; auto|]. split; [exact H5|]. split; [exact H6|].
  split; [exists 2; apply H9|]. do 3 eexists. exact H10.
Qed.

Lemma named_trace_ignored :
  exists (cf : config) names X st args R w0 w rep,
  program_ok cf (r_env X) R /\ asks_trace args /\ trace_allowed true args /\
  (exists s, OpText s ∈ st_before st) /\
  initialize_with cf true names X st args R w0 = Some ((w, Ok rep), Ok []).
Proof.
  exists cf0, names0, run0, st0, named_trace, R_clone, world0. do 2 eexists.
  split; [apply R_clone_program|].
  split; [exists (named_option OTrace true); split; [left|split; reflexivity]|].
  split; [split; [vm_compute; lia|reflexivity]|].
  split; [exists "Static class info:"; right; left|]. vm_compute. reflexivity.
Qed.

(* With trace::on false, something is written. *)
Lemma off_written :
  exists (cf : config) names X st args R w0 w rep texts,
  program_ok cf (r_env X) R /\ temporaries args /\ ~ asks_trace args /\ trace_allowed true args /\
  initialize_with cf true names X st args R w0 = Some ((w, Ok rep), Ok texts) /\ texts <> [].
Proof.
  exists cf0, names0, run0, st0, trace_off, R_clone, world0. do 3 eexists.
  split; [apply R_clone_program|]. split; [repeat constructor|].
  split. { intros (a & Ha & _ & Ho). apply elem_of_list_singleton in Ha as ->. discriminate. }
  split; [split; [vm_compute; lia|reflexivity]|].
  split; [vm_compute; reflexivity|]. discriminate.
Qed.

Lemma quiet_example : exists w rep,
  ~ asks_trace trace_off /\ cf_vptr cf_map <> VptrVector /\ trace_allowed true trace_off /\
  initialize_with cf_map true names0 run0 st0 trace_off R_clone world0 = Some ((w, Ok rep), Ok []).
Proof.
  do 2 eexists.
  split. { intros (a & Ha & _ & Ho). apply elem_of_list_singleton in Ha as ->. discriminate. }
  split; [discriminate|]. split; [split; [vm_compute; lia|reflexivity]|]. vm_compute. reflexivity.
Qed.

Lemma env_example :
  c_string ["1"; "000"]%char ["1"]%char /\ from_env (Some ["1"; "000"]%char) = Ok true /\
  c_string ["1"; "1"; "000"]%char ["1"; "1"]%char /\ from_env (Some ["1"; "1"; "000"]%char) = Ok false.
Proof.
  split; [split; [reflexivity|intros H; repeat (apply elem_of_cons in H as [H|H]; [discriminate|]); inversion H]|].
  split; [reflexivity|].
  split; [split; [reflexivity|intros H; repeat (apply elem_of_cons in H as [H|H]; [discriminate|]); inversion H]|].
  reflexivity.
Qed.

Lemma number_example :
  (18446744073709551615 < 2 ^ 64)%N /\ put_size 18446744073709551615 = Ok "18446744073709551615" /\
  put_address 18446744073709551615 = Ok "ffffffffffffffff" /\ put_size 0 = Ok "0" /\
  put_right true true 4 12 = Ok [" "; " "; "12"].
Proof. repeat split. Qed.
