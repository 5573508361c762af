(* Specification vocabulary about what a call reads.  README.adoc:98: "Multiple dispatch in
   constant time (for a given number of virtual parameters)". *)
From stdpp Require Import base list numbers list_numbers.
From Verif Require Import Base Registry ModelClasses ModelHash ModelWorld ModelCall.

(* One variable, or one element of an array or container. *)
Inductive location :=
  | LInitialized                   (* registry::is_initialized *)
  | LSlotStride (a k : nat)        (* element k of the slots_strides array at a *)
  | LWord (b k : nat)              (* element k of the dispatch data b *)
  | LNext (a : nat)                (* a variable next<Fn> *)
  | LStatic (a : nat)              (* a variable static_vptr *)
  | LVector (k : nat)              (* element of the vector of v-table pointers *)
  | LVectorSize
  | LIndirect (k : nat)            (* element of the vector of pointers to them *)
  | LIndirectSize
  | LMap (t : N)                   (* the entry for a type id in the map *)
  | LMult | LShift | LMin | LMax   (* the hash policy *)
  | LControl (k : nat).

(* What is there.  None: nothing. *)
Inductive cell :=
  | CFlag (b : bool)
  | CNat (n : option nat)
  | CWord (x : option word)
  | CFunction (f : option fptr)
  | CVptr (v : option vptr)
  | CAddress (a : option (option nat))
  | CEntry (r : option vref)
  | CN (n : option N).

Definition contents (w : world) (l : location) : cell :=
  match l with
  | LInitialized => CFlag (w_initialized w)
  | LSlotStride a k => CNat (w_ss w a !! k)
  | LWord b k => CWord (match w_heap w b with Some ws => ws !! k | None => None end)
  | LNext a => CFunction (w_next w a)
  | LStatic a => CVptr (Some (w_static w a))
  | LVector k => CVptr (w_vec w !! k)
  | LVectorSize => CNat (Some (length (w_vec w)))
  | LIndirect k => CAddress (w_ivec w !! k)
  | LIndirectSize => CNat (Some (length (w_ivec w)))
  | LMap t => CEntry (map_find (w_map w) t)
  | LMult => CN (Some (h_mult (w_hash w)))
  | LShift => CN (Some (h_shift (w_hash w)))
  | LMin => CN (Some (h_min (w_hash w)))
  | LMax => CN (Some (h_max (w_hash w)))
  | LControl k => CN (h_control (w_hash w) !! k)
  end.

(* [f] depends on at most [n] locations of [w]: all else may be different. *)
Definition reads_at_most {A} (n : nat) (f : world -> A) (w : world) : Prop :=
  exists L : list location, length L <= n /\
    forall w', (forall l, l ∈ L -> contents w' l = contents w l) -> f w' = f w.

(* To find the v-table of an object: the flag, the index, the element, the variable to which
   it refers. *)
Definition object_reads (cf : config) : nat :=
  (if cf_checks cf then 1 else 0) +
  match cf_vptr cf with
  | VptrVector =>
      (if cf_hash cf then if cf_checks cf then 5 else 2 else if cf_checks cf then 1 else 0) +
      1 + (if cf_indirect cf then 1 else 0)
  | VptrMap => 2
  | VptrNone => 0
  end.

Definition argument_reads (cf : config) (a : arg) : nat :=
  match a with AObject _ => object_reads cf | _ => 0 end.

(* To find the function, given the v-tables: two reads with one virtual parameter, three per
   parameter with several. *)
Definition table_reads (m : method_record) : nat :=
  match length (mr_vp m) with 1 => 2 | n => 3 * n end.

Definition call_reads (cf : config) (m : method_record) (all : list arg) : nat :=
  (if cf_checks cf then 1 else 0) + sum_list (map (argument_reads cf) all) + table_reads m.
