(* C45: the cost of a call does not depend on the size of the program. *)
From stdpp Require Import base list numbers.
From Verif Require Import Base Registry ModelClasses ModelHash ModelWorld ModelCall ModelErrors SpecCall
  ExamplesModel ExamplesDispatch SpecReads ProofReads ExamplesReads.

(* The result of a call depends on a number of memory cells given by the policies and by the
   parameters of the method only: any other state of the registry that agrees on these cells
   gives the same result. *)
Theorem C45_call :
  forall (cf : config) (w : world) (mid : N) (m : method_record) (all : list arg),
    mr_vp m <> [] ->
    reads_at_most (call_reads cf m all) (fun w => call cf w mid m all) w.
Proof. exact call_reads_at_most. Qed.
Print Assumptions C45_call.

Example C45_call_example :
  call_reads cf0 meet (map AObject [2; 4]%N) = 21 /\
  call_reads fast meet (map AObject [2; 4]%N) = 12 /\
  call_reads fast poke [AOther 0; APtr (VPtr 0 0) 2]%N = 2.
Proof. exact reads_examples. Qed.

(* One bound for all policies and programs. *)
Theorem C45_constant :
  forall (cf : config) (w : world) (mid : N) (m : method_record) (all : list arg),
    mr_vp m <> [] -> length (virtual_args all) = length (mr_vp m) ->
    reads_at_most (11 * length (mr_vp m) + 1) (fun w => call cf w mid m all) w.
Proof. exact call_reads_constant. Qed.
Print Assumptions C45_constant.

Example C45_constant_example :
  mr_vp meet <> [] /\ length (virtual_args (map AObject [2; 4]%N)) = length (mr_vp meet) /\
  call cf0 w0 2 meet (map AObject [2; 4]%N) = Ok (Calls 24)%N.
Proof. exact meet_reads. Qed.

(* Through virtual_ptrs and without runtime checks: two reads for one virtual parameter, three
   per parameter otherwise (performance.adoc:91-93). *)
Theorem C45_virtual_ptr :
  forall (cf : config) (w : world) (mid : N) (m : method_record) (all : list arg),
    cf_checks cf = false -> mr_vp m <> [] -> (forall t, AObject t ∉ all) ->
    reads_at_most (table_reads m) (fun w => call cf w mid m all) w.
Proof. exact pointers_reads. Qed.
Print Assumptions C45_virtual_ptr.

Example C45_virtual_ptr_example :
  cf_checks fast = false /\ mr_vp poke <> [] /\ (forall t, AObject t ∉ [AOther 0; APtr (VPtr 0 0) 2]%N) /\
  table_reads poke = 2.
Proof. exact poke_pointer. Qed.

Theorem C45_next :
  forall (w : world) (mid : N) (m : method_record) (loc : nat) (all : list arg),
    reads_at_most 1 (fun w => call_next w mid m loc all) w /\
    reads_at_most 1 (fun w => has_next w m loc) w.
Proof. exact (fun w mid m loc all => conj (next_reads_at_most w mid m loc all) (has_next_reads_at_most w m loc)). Qed.
Print Assumptions C45_next.

(* Not everything has such a bound: no number of reads is enough for a whole table. *)
Example C45_unbounded_example : forall n, ~ reads_at_most n w_vec (table_world (repeat VNull (n + 1))).
Proof. exact table_unbounded. Qed.
