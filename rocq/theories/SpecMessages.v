(* Specification of the texts of errors. *)
From Coq Require Import Ascii.
From stdpp Require Import base list numbers strings.
From Verif Require Import Base Registry ModelHash ModelWorld ModelErrors ModelOptions SpecOptions ModelMessages.

(* The types that an error is about, in order: the registry, the unknown class, the base and the
   derived class, the static and the dynamic type. *)
Definition types_in (registry : N) (e : error) : list N :=
  match e with
  | EOdrViolation => [registry]
  | EMissingClass t => [t]
  | EMissingBase b d => [b; d]
  | EFinal s d => [s; d]
  | _ => []
  end.

(* [s] contains these texts, in order, one after the other. *)
Fixpoint contains (s : string) (l : list string) : Prop :=
  match l with
  | [] => True
  | x :: l => exists before after, s = before +:+ x +:+ after /\ contains after l
  end.

(* [c] is one of the characters of [s]. *)
Definition occurs (c : ascii) (s : string) : Prop := exists before after, s = before +:+ String c after.

(* One line. *)
Definition one_line (s : string) : Prop := ~ occurs "010" s.

(* The names of types contain neither "|" nor "=". *)
Definition plain_names (names : N -> string) : Prop :=
  forall t, ~ occurs "|" (names t) /\ ~ occurs "=" (names t).

(* The numbers in an error fit in a std::size_t. *)
Definition sized_error (e : error) : Prop :=
  match e with ESearch a b => (a < 2 ^ 64)%N /\ (b < 2 ^ 64)%N | _ => True end.

(* Of the policies of the registry fast_perfect_hash, and only it, has search_error among its
   errors; none has the errors of the library itself. *)
Definition errors_of (policies : list policy) : list kind := mjoin (map (fun p => default [] p) policies).
Definition own_errors (cf : config) (policies : list policy) : Prop :=
  Forall (fun k => k = KSearch \/ exists n, k = KOther n) (errors_of policies) /\
  length (filter (fun k => k = KSearch) (errors_of policies)) = if cf_hash cf then 1 else 0.
