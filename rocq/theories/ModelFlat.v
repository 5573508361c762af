(* The pointer and integer arithmetic of a call, twice more: as the rules of C++ allow it
   (core.hpp:2453-2559 again, undefined as soon as a pointer leaves its array), and as a 64-bit machine
   does it, on addresses modulo 2^64.  ModelCall.v has offsets that may be negative and numbers that
   do not wrap around. *)
From stdpp Require Import base list numbers.
From Verif Require Import Base Registry ModelClasses ModelTables ModelHash ModelWorld ModelCall.

(* A pointer that C++ lets a program have: to an element of an array or just past its end.
   The arrays are dispatch_data, initialize.hpp:1308-1311. *)
Definition pointer_exists (w : world) (v : vptr) : bool :=
  match v with
  | VNull => false
  | VPtr b o =>
      match w_heap w b with
      | Some ws => bool_decide (0 <= o <= Z.of_nat (length ws))%Z
      | None => false
      end
  end.

(* p[i]: p has to exist.  core.hpp:2498, 2523, 2549. *)
Definition strict_read (w : world) (p : vptr) (i : nat) : outcome word :=
  if pointer_exists w p then read_word w p i else Undef.

(* p + k: p and the sum have to exist.  core.hpp:2549. *)
Definition strict_add (w : world) (p : vptr) (k : nat) : outcome vptr :=
  let* q := vptr_add p k in
  if pointer_exists w p && pointer_exists w q then Ok q else Undef.

(* resolve_uni, core.hpp:2488-2502. *)
Fixpoint strict_uni (cf : config) (w : world) (ss : list nat) (args : list arg) : outcome word :=
  match args with
  | [] => Undef
  | a :: args =>
      if is_virtual_arg a then
        let* vtbl := arg_vptr cf w a in
        let* slot := at_ ss 0 in
        strict_read w vtbl slot
      else strict_uni cf w ss args
  end.

(* resolve_multi_next, core.hpp:2538-2559. *)
Fixpoint strict_multi_next (cf : config) (w : world) (ss : list nat) (arity va : nat)
    (dispatch : vptr) (args : list arg) : outcome word :=
  match args with
  | [] => Undef
  | a :: args =>
      let* dispatch :=
        (if is_virtual_arg a then
           let* vtbl := arg_vptr cf w a in
           let* slot := at_ ss va in
           let* stride := at_ ss (arity + va - 1) in
           let* x := strict_read w vtbl slot in
           let* i := word_i x in
           strict_add w dispatch (i * stride)
         else Ok dispatch) in
      if decide (va + 1 = arity) then strict_read w dispatch 0
      else strict_multi_next cf w ss arity (va + 1) dispatch args
  end.

(* resolve_multi_first, core.hpp:2508-2530. *)
Fixpoint strict_multi_first (cf : config) (w : world) (ss : list nat) (arity : nat)
    (args : list arg) : outcome word :=
  match args with
  | [] => Undef
  | a :: args =>
      if is_virtual_arg a then
        let* vtbl := arg_vptr cf w a in
        let* slot := at_ ss 0 in
        let* x := strict_read w vtbl slot in
        let* dispatch := word_pw x in
        strict_multi_next cf w ss arity 1 dispatch args
      else strict_multi_first cf w ss arity args
  end.

(* resolve, core.hpp:2453-2470. *)
Definition strict_resolve (cf : config) (w : world) (m : method_record) (args : list arg) :
    outcome fptr :=
  let arity := length (mr_vp m) in
  let ss := w_ss w (mr_slots_strides m) in
  let* _ := require_initialized cf w in
  let* x := (if decide (arity = 1) then strict_uni cf w ss args
             else strict_multi_first cf w ss arity args) in
  word_pf x.

(* std::size_t and std::uintptr_t: arithmetic modulo 2^64, as in ModelHash.v.
   initialize.hpp:1064-1073; core.hpp:2549. *)
Definition wrap (x : Z) : Z := (x mod 2 ^ 64)%Z.

(* The strides, initialize.hpp:1064-1073. *)
Fixpoint flat_strides_loop (stride : Z) (sizes : list Z) : list Z :=
  match sizes with
  | [] => []
  | s :: sizes => wrap (stride * s) :: flat_strides_loop (wrap (stride * s)) sizes
  end.

(* initialize.hpp:1064-1073. *)
Definition flat_strides (sizes : list Z) : list Z :=
  flat_strides_loop 1 (take (length sizes - 1) sizes).

(* The address that a pointer has when the array [b] is at [at_base b]; a word has 8 bytes.
   preamble.hpp:23-36; initialize.hpp:1370. *)
Definition address (at_base : nat -> Z) (v : vptr) : Z :=
  match v with
  | VNull => 0
  | VPtr b o => wrap (at_base b + 8 * o)
  end.

(* &p[i], for an address p.  core.hpp:2498, 2523, 2549. *)
Definition element (p i : Z) : Z := wrap (p + 8 * i).

(* resolve_uni, core.hpp:2488-2502.  [mem]: the eight bytes at an address. *)
Fixpoint flat_uni (cf : config) (w : world) (at_base : nat -> Z) (mem : Z -> Z) (ss : list Z)
    (args : list arg) : outcome Z :=
  match args with
  | [] => Undef
  | a :: args =>
      if is_virtual_arg a then
        let* vtbl := arg_vptr cf w a in
        let* slot := at_ ss 0 in
        Ok (mem (element (address at_base vtbl) slot))
      else flat_uni cf w at_base mem ss args
  end.

(* resolve_multi_next, core.hpp:2538-2559. *)
Fixpoint flat_multi_next (cf : config) (w : world) (at_base : nat -> Z) (mem : Z -> Z) (ss : list Z)
    (arity va : nat) (dispatch : Z) (args : list arg) : outcome Z :=
  match args with
  | [] => Undef
  | a :: args =>
      let* dispatch :=
        (if is_virtual_arg a then
           let* vtbl := arg_vptr cf w a in
           let* slot := at_ ss va in
           let* stride := at_ ss (arity + va - 1) in
           let i := mem (element (address at_base vtbl) slot) in
           Ok (element dispatch (wrap (i * stride)))
         else Ok dispatch) in
      if decide (va + 1 = arity) then Ok (mem dispatch)
      else flat_multi_next cf w at_base mem ss arity (va + 1) dispatch args
  end.

(* resolve_multi_first, core.hpp:2508-2530. *)
Fixpoint flat_multi_first (cf : config) (w : world) (at_base : nat -> Z) (mem : Z -> Z) (ss : list Z)
    (arity : nat) (args : list arg) : outcome Z :=
  match args with
  | [] => Undef
  | a :: args =>
      if is_virtual_arg a then
        let* vtbl := arg_vptr cf w a in
        let* slot := at_ ss 0 in
        flat_multi_next cf w at_base mem ss arity 1 (mem (element (address at_base vtbl) slot)) args
      else flat_multi_first cf w at_base mem ss arity args
  end.

(* resolve, core.hpp:2453-2470.  [ss]: the array slots_strides of the method. *)
Definition flat_resolve (cf : config) (w : world) (at_base : nat -> Z) (mem : Z -> Z) (ss : list Z)
    (m : method_record) (args : list arg) : outcome Z :=
  let arity := length (mr_vp m) in
  let* _ := require_initialized cf w in
  if decide (arity = 1) then flat_uni cf w at_base mem ss args
  else flat_multi_first cf w at_base mem ss arity args.
