(* Specification vocabulary about programs and calls: what is assumed of the
   registrations, of the run, of the state before, and of the arguments. *)
From stdpp Require Import base list numbers.
From Verif Require Import Base Registry Spec ModelClasses ModelHash ModelWorld ModelCall.

(* With a hash, the number of classes is limited. *)
Definition hash_size_ok (cf : config) (n : nat) : Prop :=
  cf_hash cf = true -> (N.of_nat n <= max_classes)%N.

(* A program: C++ guarantees about what it registers, and a standard library whose
   containers and sort behave. *)
Record program_ok (cf : config) (E : env) (R : registrations) : Prop := {
  po_env : env_ok E;
  po_acyclic : acyclic (e_ti E) R;
  po_arity : arity_ok R;
  po_ids : ids_ok R;
  po_size : hash_size_ok cf (length (reg_classes R));
  po_addresses : addresses_ok (e_ti E) R
}.

(* Live buffers are below the allocation counter. *)
Record world_ok (w : world) : Prop := {
  wo_data : forall b, w_data w = Some b -> b < w_fresh w;
  wo_heap : forall b, w_fresh w <= b -> w_heap w b = None
}.

(* [a] is a virtual argument of dynamic class [k]: an object of a registered type,
   or a virtual_ptr to an object of that class with the current v-table pointer of
   the class. *)
Inductive passes (cf : config) (ti : N -> N) (R : registrations) (w : world) : arg -> N -> Prop :=
  | passes_object t :
      cf_vptr cf <> VptrNone -> t ∈ map cr_type (reg_classes R) ->
      passes cf ti R w (AObject t) (ti t)
  | passes_ptr v t cr :
      first_record ti R (ti t) = Some cr -> v = w_static w (cr_static_vptr cr) ->
      passes cf ti R w (APtr v t) (ti t).

Definition non_virtual (args : list arg) : Prop := Forall (fun a => is_virtual_arg a = false) args.

(* The arguments of a call, with those that take part in dispatch. *)
Definition virtual_args (args : list arg) : list arg := filter (fun a => is_virtual_arg a = true) args.

(* No non-virtual argument between two virtual ones. *)
Definition together (args : list arg) : Prop :=
  exists pre post, args = pre ++ virtual_args args ++ post /\ non_virtual pre /\ non_virtual post.

(* [w] is the state after a successful initialize(). *)
Definition initialized_by (cf : config) (X : run) (n2216 : bool) (R : registrations)
    (w : world) : Prop :=
  exists w0 rep, world_ok w0 /\ initialize cf X n2216 R w0 = (w, Ok rep).

(* A call of [m] that compiles: [all] are its arguments, [args] the dynamic classes
   of the virtual ones. *)
Record call_ok (cf : config) (ti : N -> N) (R : registrations) (w : world)
    (m : method_record) (all : list arg) (args : list N) : Prop := {
  ca_method : m ∈ reg_methods R;
  ca_passes : Forall2 (passes cf ti R w) (virtual_args all) args;
  ca_valid : valid_args ti R m args
}.

(* The observable result of a call for which this selection was made. *)
Inductive behaves (m : method_record) : selection -> outcome call_result -> Prop :=
  | behaves_none mid n ts : behaves m SNone (Err (ENoOverrider mid n ts))
  | behaves_ambiguous mid n ts : behaves m SAmbiguous (Err (EAmbiguousCall mid n ts))
  | behaves_overrider i o :
      mr_overriders m !! i = Some o -> behaves m (SOverrider i) (Ok (Calls (or_pf o))).
