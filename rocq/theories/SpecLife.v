(* Specification vocabulary about what happens to a registry over time. *)
From stdpp Require Import base list numbers.
From Verif Require Import Base Registry Spec ModelClasses ModelHash ModelWorld ModelCall SpecCall
  ModelLife.

(* An initialize() succeeded, and finalize() was not called since. *)
Definition live (h : list (event * result)) : Prop :=
  exists before X n2216 after, h = before ++ (Initializes X n2216, Done) :: after /\
    forall r, (Finalizes, r) ∉ after.

(* The last registrations in [h] are [R]. *)
Definition present (h : list (event * result)) (R : registrations) : Prop :=
  exists before r after, h = before ++ (Registers R, r) :: after /\
    forall R' r', (Registers R', r') ∉ after.

(* The same argument in two states of the program: an object of a registered class,
   a virtual_ptr to such an object carrying the current v-table pointer of the
   class, or something else. *)
Inductive same_arg (ti : N -> N) (R : registrations) (w1 w2 : world) : arg -> arg -> Prop :=
  | same_object t : t ∈ map cr_type (reg_classes R) ->
      same_arg ti R w1 w2 (AObject t) (AObject t)
  | same_ptr t cr : first_record ti R (ti t) = Some cr ->
      same_arg ti R w1 w2 (APtr (w_static w1 (cr_static_vptr cr)) t)
        (APtr (w_static w2 (cr_static_vptr cr)) t)
  | same_other t : same_arg ti R w1 w2 (AOther t) (AOther t).

(* The registry keeps nothing of what initialize() allocated: no dispatch data, no
   element in the containers of the policies. *)
Definition holds_nothing (w : world) : Prop :=
  (forall b, w_heap w b = None) /\ w_vec w = [] /\ w_ivec w = [] /\ w_map w = [] /\
  h_control (w_hash w) = [].

(* Limits of what the policies keep, for [n] registrations of classes with type ids up
   to [top]. *)
Definition tables_bounded (cf : config) (n : nat) (top : N) (w : world) : Prop :=
  match cf_vptr cf with
  | VptrVector => w_map w = [] /\
      if cf_hash cf then
        length (w_vec w) + length (w_ivec w) <= 20 * Nat.max 1 n /\
        length (h_control (w_hash w)) <= 20 * Nat.max 1 n
      else (N.of_nat (length (w_vec w) + length (w_ivec w)) <= top + 1)%N /\ h_control (w_hash w) = []
  | VptrMap => length (w_map w) <= n /\ w_vec w = [] /\ w_ivec w = [] /\ h_control (w_hash w) = []
  | VptrNone => w_vec w = [] /\ w_ivec w = [] /\ w_map w = [] /\ h_control (w_hash w) = []
  end.
