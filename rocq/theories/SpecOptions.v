(* Specification of the options of initialize() (preamble.hpp:398-440,
   initialize.hpp:1548-1554) and of the texts written by the output stream. *)
From Coq Require Import Ascii.
From stdpp Require Import base list numbers strings.
From Verif Require Import ModelOptions.

(* An n2216 object is passed.  A trace object that is on is passed. *)
Definition asks_n2216 (args : list option_arg) : Prop := exists a, a ∈ args /\ oa_type a = ON2216.
Definition asks_trace (args : list option_arg) : Prop :=
  exists a, a ∈ args /\ oa_type a = OTrace /\ oa_on a = true.

(* The options are temporaries: initialize(trace(), n2216()). *)
Definition temporaries (args : list option_arg) : Prop :=
  Forall (fun a => oa_const a = false /\ oa_lvalue a = false) args.

(* At most one trace object is passed, and if there is one the registry has an output
   policy. *)
Definition trace_allowed (has_output : bool) (args : list option_arg) : Prop :=
  length (filter (fun a => oa_type a = OTrace) args) <= 1 /\
  (forall a, a ∈ args -> oa_type a = OTrace -> has_output = true).

(* [s] is the string [chars] in memory: the characters, then a null character. *)
Definition c_string (s chars : list ascii) : Prop :=
  s = chars ++ ["000"%char] /\ "000"%char ∉ chars.

(* The value of digits, most significant first. *)
Definition value (base : N) (ds : list N) : N := foldl (fun v d => v * base + d)%N 0%N ds.

(* The characters "0" to "9", "a" to "f", by value. *)
Definition numeral (d : N) (c : ascii) : Prop :=
  ["0"; "1"; "2"; "3"; "4"; "5"; "6"; "7"; "8"; "9"; "a"; "b"; "c"; "d"; "e"; "f"]%char !! N.to_nat d
    = Some c.

(* The text [s] is [n] in positional notation, without superfluous zeros. *)
Fixpoint spells (s : string) (cs : list ascii) : Prop :=
  match s, cs with
  | EmptyString, [] => True
  | String c s, c' :: cs => c = c' /\ spells s cs
  | _, _ => False
  end.
Definition writes_number (base n : N) (s : string) : Prop :=
  exists ds cs, spells s cs /\ Forall2 numeral ds cs /\ Forall (fun d => d < base)%N ds /\
    value base ds = n /\ ds <> [] /\ (forall ds', ds = 0%N :: ds' -> ds' = []).

(* The numbers in the trace statements are of type size_t. *)
Definition sized (ops : list trace_op) : Prop :=
  forall o, o ∈ ops -> match o with
  | OpNumber n => (n < 2 ^ 64)%N
  | OpRight _ n => (n < 2 ^ 64)%N
  | _ => True
  end.
