(* Where the arrays of initialize() are in memory, which pointers C++ lets a program have, and single
   inheritance. *)
From stdpp Require Import base list numbers relations.
From Verif Require Import Base Registry Spec ModelClasses ModelHash ModelWorld.

(* The eight bytes that a member of the union occupies. *)
Inductive bytes_of (at_base : nat -> Z) : word -> Z -> Prop :=
  | bytes_zero : bytes_of at_base WZero 0
  | bytes_pf f : bytes_of at_base (WPf f) (Z.of_N f mod 2 ^ 64)%Z
  | bytes_null : bytes_of at_base (WPw VNull) 0
  | bytes_pw b o : bytes_of at_base (WPw (VPtr b o)) ((at_base b + 8 * o) mod 2 ^ 64)%Z
  | bytes_i i : bytes_of at_base (WIdx i) (Z.of_nat i mod 2 ^ 64)%Z.

(* Memory that holds the arrays: array [b] begins at [at_base b], does not run past the end of the
   address space, and its elements follow each other. *)
Definition holds (at_base : nat -> Z) (mem : Z -> Z) (w : world) : Prop :=
  forall b ws, w_heap w b = Some ws ->
    (0 <= at_base b)%Z /\ (at_base b + 8 * Z.of_nat (length ws) <= 2 ^ 64)%Z /\
    forall i x, ws !! i = Some x -> bytes_of at_base x (mem (at_base b + 8 * Z.of_nat i)%Z).

(* A pointer to an element of an array, or just past the last one. *)
Definition in_array (w : world) (v : vptr) : Prop :=
  exists b ws i, v = VPtr b (Z.of_nat i) /\ w_heap w b = Some ws /\ i <= length ws.

(* The v-table pointers of all classes are such. *)
Definition vptrs_in_array (ti : N -> N) (R : registrations) (w : world) : Prop :=
  forall k cr, first_record ti R k = Some cr -> in_array w (w_static w (cr_static_vptr cr)).

(* Of two bases of a class, one is a base of the other. *)
Definition single_inheritance (ti : N -> N) (R : registrations) : Prop :=
  forall k a b, derives ti R k a -> derives ti R k b -> derives ti R a b \/ derives ti R b a.
