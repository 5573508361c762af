(* Detection of conflicting definitions of default_registry (preamble.hpp:96-116,
   default_registry.hpp:37-52, initialize.hpp:1611-1622).

   Simplified: all the units share the variables of the templates (one executable, and the
   shared libraries of a system that merges them); nothing else of a program that has
   conflicting definitions is modelled. *)
From stdpp Require Import base list numbers.
From Verif Require Import Base ModelPolicies ModelErrors.

(* A translation unit: whether it includes default_registry.hpp, and if so whether
   BOOST_OPENMETHOD_ENABLE_RUNTIME_CHECKS is defined there.  default_registry.hpp:37-48. *)
Inductive translation_unit :=
  | Without
  | Includes (checks : bool).

(* default_registry::registry_type in a unit; default_registry.hpp:37-48, preamble.hpp:936. *)
Definition registry_type (checks : bool) : list N :=
  default_registry ++ (if checks then [p_runtime_checks] else []).

(* The registries that may be initialized, by name.  default_registry.hpp:37, 62. *)
Definition n_default : N := 0.
(* default_registry.hpp:62. *)
Definition n_indirect : N := 1.

(* The variables of odr_check<Registry>, for all the registries: [od_inc] lists the variables
   inc<R> that are initialized, with the values given to them; preamble.hpp:98-102. *)
Record odr_state := OdrState {
  od_count : N -> nat;
  od_inc : list (N * list N * nat)
}.

(* Zero-initialized.  preamble.hpp:110-111. *)
Definition odr_state0 : odr_state := OdrState (fun _ => 0) [].

(* inc<R> = count++, preamble.hpp:113-114: a static data member template, initialized once,
   by the first unit with that instantiation. *)
Definition initialize_inc (name : N) (rt : list N) (st : odr_state) : odr_state :=
  if existsb (fun v => bool_decide (v.1 = (name, rt))) (od_inc st) then st
  else OdrState (fun n => if decide (n = name) then S (od_count st n) else od_count st n)
         (od_inc st ++ [(name, rt, od_count st name)]).

(* The dynamic initialization of a unit.  default_registry_odr_check_instance
   (default_registry.hpp:52) instantiates the constructor (preamble.hpp:104-106), which
   instantiates inc<registry_type>. *)
Definition load (st : odr_state) (u : translation_unit) : odr_state :=
  match u with
  | Without => st
  | Includes checks => initialize_inc n_default (registry_type checks) st
  end.

(* odr_check<Registry>::count when initialize() is called, after the initialization of
   the units [us], in order.  preamble.hpp:110-114. *)
Definition odr_count (us : list translation_unit) (name : N) : nat :=
  od_count (foldl load odr_state0 us) name.

(* The policies and variables used by initialize() of a registry, in a program made of [us].
   initialize.hpp:1611-1622. *)
Definition setup_of (us : list translation_unit) (name : N) (S : setup) : setup :=
  Setup (su_config S) (su_policy S) (su_output S) (su_users S) (odr_count us name) (su_objs S).
