(* Properties of the lists in which classes, methods and overriders are registered. *)
From stdpp Require Import base list numbers.
From Verif Require Import Base ModelStaticList SpecStaticList ProofStaticList ExamplesStaticList.

(* C20: any number of lists behave as sequences of nodes, provided that a node is
   pushed when it is in no list and removed from the list it is in. *)
Theorem C20_lists_are_sequences : forall ops fuel,
  ops_valid ops contents0 -> length ops <= fuel ->
  exists s, list_run fuel ops links0 = Ok s /\
    forall i, elements fuel i s = Ok (ops_contents ops contents0 i) /\
              size fuel i s = Ok (length (ops_contents ops contents0 i)) /\
              (empty i s = true <-> ops_contents ops contents0 i = []).
Proof. exact lists_right. Qed.
Print Assumptions C20_lists_are_sequences.

Example C20_lists_are_sequences_example : ops_valid list_ops contents0 /\
  (ops_contents list_ops contents0 0, ops_contents list_ops contents0 1, ops_contents list_ops contents0 2)
  = ([7; 9], [5; 8], []).
Proof. exact list_ops_example. Qed.

(* C20: pushing a node that is in a list fails an assertion. *)
Theorem C20_push_twice_refused : forall ops fuel i j n,
  ops_valid ops contents0 -> length ops <= fuel ->
  n ∈ ops_contents ops contents0 j -> list_run fuel (ops ++ [LPush i n]) links0 = Undef.
Proof. exact push_twice. Qed.
Print Assumptions C20_push_twice_refused.

Example C20_push_twice_refused_example :
  ops_valid list_ops contents0 /\ 8 ∈ ops_contents list_ops contents0 1.
Proof. exact push_twice_example. Qed.

(* C20: removing a node that is in no list fails an assertion or dereferences a null
   pointer. *)
Theorem C20_remove_absent_refused : forall ops fuel i n,
  ops_valid ops contents0 -> length ops <= fuel ->
  (forall j, n ∉ ops_contents ops contents0 j) ->
  list_run fuel (ops ++ [LRemove i n]) links0 = Undef.
Proof. exact remove_absent. Qed.
Print Assumptions C20_remove_absent_refused.

Example C20_remove_absent_refused_example :
  ops_valid list_ops contents0 /\ forall j, 6 ∉ ops_contents list_ops contents0 j.
Proof. exact remove_absent_example. Qed.
