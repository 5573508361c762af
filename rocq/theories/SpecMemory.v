(* Specification vocabulary about programs that run out of memory. *)
From stdpp Require Import base list numbers.
From Verif Require Import Base Registry ModelWorld ModelCall ModelLife ModelMemory.

(* An initialize() succeeded, and finalize() was not called since. *)
Definition still_live (h : list happening) : Prop :=
  exists before X n2216 after, h = before ++ Ends (Initializes X n2216) Done :: after /\
    forall r, Ends Finalizes r ∉ after.

(* The last registrations in [h] are [R]. *)
Definition still_present (h : list happening) (R : registrations) : Prop :=
  exists before r after, h = before ++ Ends (Registers R) r :: after /\
    forall R' r', Ends (Registers R') r' ∉ after.

(* The memory ran out when the tables of the policies were built. *)
Definition in_policies (sh : shortage) : Prop :=
  match sh with InCompile | InData => False | _ => True end.

(* The v-table pointer of this argument was stored before: in a virtual_ptr, or in the
   table of vptr_map.  (Without indirect_vptr.) *)
Definition keeps_vptr (cf : config) (a : arg) : Prop :=
  match a with AObject _ => cf_vptr cf = VptrMap | _ => True end.
