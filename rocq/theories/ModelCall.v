(* Model of a method call: core.hpp:1970-2000, 2437-2578, 2583-2614. *)
From stdpp Require Import base list numbers.
From Verif Require Import Base Registry ModelClasses ModelMethods ModelSlots
  ModelTables ModelHash ModelWorld.

(* One argument of a call, as seen by the dispatch code.  core.hpp:2437-2446, 2475-2482. *)
Inductive arg :=
  | AObject (t : N)            (* virtual_<T> argument; t: dynamic type id *)
  | APtr (v : vptr) (t : N)    (* virtual_ptr with this (unboxed) v-table pointer,
                                  to an object of dynamic type t *)
  | AOther (t : N).            (* non-virtual argument; t: what dynamic_type returns *)

(* is_virtual<...>, core.hpp:2496, 2515, 2545. *)
Definition is_virtual_arg (a : arg) : bool :=
  match a with AOther _ => false | _ => true end.

(* method::vptr, core.hpp:2475-2482. *)
Definition arg_vptr (cf : config) (w : world) (a : arg) : outcome vptr :=
  match a with
  | AObject t => let* r := acquire_vptr cf w t in Ok (vref_value w r)
  | APtr v _ => Ok v
  | AOther _ => Undef          (* never called on a non-virtual argument *)
  end.

(* Reading a member of detail::word.  preamble.hpp:23-36; read at core.hpp:2462-2466. *)
Definition word_pf (x : word) : outcome fptr :=
  match x with WPf f => Ok f | _ => Undef end.
(* Read at core.hpp:2523. *)
Definition word_pw (x : word) : outcome vptr :=
  match x with WPw p => Ok p | _ => Undef end.
(* Read at core.hpp:2549. *)
Definition word_i (x : word) : outcome nat :=
  match x with WIdx i => Ok i | _ => Undef end.

(* Pointer arithmetic on a vptr_type.  core.hpp:2549. *)
Definition vptr_add (p : vptr) (k : nat) : outcome vptr :=
  match p with
  | VNull => if decide (k = 0) then Ok VNull else Undef
  | VPtr b o => Ok (VPtr b (o + Z.of_nat k))
  end.

(* resolve_uni, core.hpp:2488-2502. *)
Fixpoint resolve_uni (cf : config) (w : world) (ss : list nat) (args : list arg) :
    outcome word :=
  match args with
  | [] => Undef                (* a method has a virtual parameter *)
  | a :: args =>
      if is_virtual_arg a then
        let* vtbl := arg_vptr cf w a in
        let* slot := at_ ss 0 in
        read_word w vtbl slot
      else resolve_uni cf w ss args
  end.

(* resolve_multi_next, core.hpp:2538-2559.  [va] is VirtualArg. *)
Fixpoint resolve_multi_next (cf : config) (w : world) (ss : list nat) (arity va : nat)
    (dispatch : vptr) (args : list arg) : outcome word :=
  match args with
  | [] => Undef                (* would not compile *)
  | a :: args =>
      let* dispatch :=
        (if is_virtual_arg a then
           let* vtbl := arg_vptr cf w a in
           let* slot := at_ ss va in
           let* stride := at_ ss (arity + va - 1) in
           let* x := read_word w vtbl slot in
           let* i := word_i x in
           vptr_add dispatch (i * stride)
         else Ok dispatch) in
      if decide (va + 1 = arity) then read_word w dispatch 0
      else resolve_multi_next cf w ss arity (va + 1) dispatch args
  end.

(* resolve_multi_first, core.hpp:2508-2530. *)
Fixpoint resolve_multi_first (cf : config) (w : world) (ss : list nat) (arity : nat)
    (args : list arg) : outcome word :=
  match args with
  | [] => Undef
  | a :: args =>
      if is_virtual_arg a then
        let* vtbl := arg_vptr cf w a in
        let* slot := at_ ss 0 in
        let* x := read_word w vtbl slot in
        let* dispatch := word_pw x in
        resolve_multi_next cf w ss arity 1 dispatch args
      else resolve_multi_first cf w ss arity args
  end.

(* resolve, core.hpp:2453-2470.  The arity is that of the method. *)
Definition resolve (cf : config) (w : world) (m : method_record) (args : list arg) :
    outcome fptr :=
  let arity := length (mr_vp m) in
  let ss := w_ss w (mr_slots_strides m) in
  let* _ := require_initialized cf w in
  let* x := (if decide (arity = 1) then resolve_uni cf w ss args
             else resolve_multi_first cf w ss arity args) in
  word_pf x.

(* has_next<Fn>(), core.hpp:2568-2578, for the overrider whose next variable is
   at [loc]. *)
Definition has_next (w : world) (m : method_record) (loc : nat) : bool :=
  negb (bool_decide (w_next w loc = Some (mr_not_implemented m))) &&
  negb (bool_decide (w_next w loc = Some (mr_ambiguous m))).

(* The dynamic type ids passed to init_bad_call.  core.hpp:1979-1985. *)
Definition arg_type (a : arg) : N :=
  match a with AObject t => t | APtr _ t => t | AOther t => t end.

(* bad_call::max_types, preamble.hpp:233. *)
Definition max_types : nat := 16.

(* init_bad_call::fn, core.hpp:1970-2000: fills the array [types] of the error from
   [index] on.  It does not compile for more than max_types arguments; the model
   then ignores the writes. *)
Fixpoint init_bad_call (index : nat) (args : list arg) (types : list (option N)) :
    list (option N) :=
  match args with
  | [] => types
  | a :: args => init_bad_call (index + 1) args (<[index := Some (arg_type a)]> types)
  end.

(* The elements of [types] are not initialised before (core.hpp:2588, 2606): None. *)
Definition bad_call_types (args : list arg) : list (option N) :=
  init_bad_call 0 args (repeat None max_types).
(* [sizeof...(args) + 1], core.hpp:1976. *)
Definition bad_call_arity (args : list arg) : nat := length args.

(* Function entered by the call (core.hpp:2437-2446) and what it does:
   the error stubs signal their error (core.hpp:2583-2614), an overrider runs. *)
Inductive call_result :=
  | Calls (f : fptr).

(* operator(), core.hpp:2437-2446, and the stubs, 2583-2614. *)
Definition call (cf : config) (w : world) (mid : N) (m : method_record)
    (args : list arg) : outcome call_result :=
  let* f := resolve cf w m args in
  if decide (f = mr_not_implemented m)
  then Err (ENoOverrider mid (bad_call_arity args) (bad_call_types args))
  else if decide (f = mr_ambiguous m)
  then Err (EAmbiguousCall mid (bad_call_arity args) (bad_call_types args))
  else Ok (Calls f).
