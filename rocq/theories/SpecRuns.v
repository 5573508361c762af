(* Two runs of a program: the results of initialize() that count as the same. *)
From stdpp Require Import base list numbers.
From Verif Require Import Base Registry ModelTables.

(* Type [t] of the first run is [rho t] in the second. *)
Inductive same_error (rho : N -> N) : error -> error -> Prop :=
  | same_missing_class t : same_error rho (EMissingClass t) (EMissingClass (rho t))
  | same_missing_base b d : same_error rho (EMissingBase b d) (EMissingBase (rho b) (rho d)).

(* The search of a hash function was given up.  It depends on the values of the ids and
   on random numbers. *)
Definition search_failed (r : outcome method_report) : Prop := exists n b, r = Err (ESearch n b).

(* The same report, or the same error; or the registrations are correct and a search
   was given up. *)
Inductive same_result (rho : N -> N) : outcome method_report -> outcome method_report -> Prop :=
  | same_report r : same_result rho (Ok r) (Ok r)
  | same_failure e e' : same_error rho e e' -> same_result rho (Err e) (Err e')
  | same_search o o' :
      search_failed o \/ search_failed o' ->
      search_failed o \/ (exists r, o = Ok r) -> search_failed o' \/ (exists r, o' = Ok r) ->
      same_result rho o o'.
