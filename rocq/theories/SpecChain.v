(* Specification vocabulary about chains of calls through next. *)
From stdpp Require Import base list numbers relations.
From Verif Require Import Base Registry Spec ModelClasses ModelWorld.

Section Beats.
  Context (ti : N -> N) (R : registrations) (m : method_record).

  (* Overriders [i] and [j] accept some arguments in common, and [i] is the more
     specialized one. *)
  Definition beats (i j : nat) : Prop :=
    exists oi oj args, mr_overriders m !! i = Some oi /\ mr_overriders m !! j = Some oj /\
      valid_args ti R m args /\ applicable ti R args oi /\ applicable ti R args oj /\
      dominates ti R oi oj.

  Definition outranks (i j : nat) : Prop :=
    exists a b, mr_overriders m !! i = Some a /\ mr_overriders m !! j = Some b /\ dominates ti R a b.

  (* "More specialized" does not run in circles. *)
  Definition no_circle : Prop := forall i, ~ tc beats i i.

  (* Of any two overriders that accept [args], one is the more specialized. *)
  Definition total_dominance (args : list N) : Prop :=
    forall i j a b, mr_overriders m !! i = Some a -> mr_overriders m !! j = Some b ->
      applicable ti R args a -> applicable ti R args b -> i <> j ->
      dominates ti R a b \/ dominates ti R b a.
End Beats.

Section Chain.
  Context (w : world) (m : method_record).

  (* The next of overrider [i] is overrider [j]. *)
  Definition next_is (i j : nat) : Prop :=
    exists oi oj, mr_overriders m !! i = Some oi /\ mr_overriders m !! j = Some oj /\
      w_next w (or_next oi) = Some (or_pf oj).

  (* Overriders entered one after the other, each through the next of the one
     before. *)
  Inductive chain : list nat -> Prop :=
    | chain_one i : i < length (mr_overriders m) -> chain [i]
    | chain_next i j l : next_is i j -> chain (j :: l) -> chain (i :: j :: l).
End Chain.
