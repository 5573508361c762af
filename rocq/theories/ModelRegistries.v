(* Several registries in one program (preamble.hpp:872-945, 1043-1057).
   Each specialisation registry<Policy...> has its own static members, and so have
   the policies' fn<Registry> classes.  The variables static_vptr<Class> of all the
   registries, and the static members of their methods, live in the same memory, at
   addresses; the dispatch_data buffers come from one allocator. *)
From stdpp Require Import base list numbers.
From Verif Require Import Base Registry ModelClasses ModelMethods ModelSlots ModelTables
  ModelHash ModelWorld ModelLife.

(* The static members of one registry and of its policies.
   preamble.hpp:923-932, 1043-1057; vptr_vector.hpp:18-22; vptr_map.hpp:36; fast_perfect_hash.hpp:76-79, 152-162. *)
Record members := Members {
  mb_regs : registrations;              (* classes, methods *)
  mb_data : option nat;                 (* dispatch_data *)
  mb_vec : list vptr;
  mb_ivec : list (option nat);
  mb_map : list (N * vref);
  mb_hash : hash_state;
  mb_initialized : bool
}.

(* preamble.hpp:921-945, 1043-1057; core.hpp:2280, 2371-2375. *)
Record program := Program {
  pg_heap : nat -> option (list word);
  pg_fresh : nat;
  pg_static : nat -> vptr;
  pg_ss : nat -> list nat;
  pg_next : nat -> option fptr;
  pg_members : list N -> members        (* indexed by the policy list *)
}.

(* Zero-initialized: preamble.hpp:923-932. *)
Definition members0 : members :=
  Members (Registrations [] []) None [] [] [] hash_state0 false.
(* Zero-initialized: preamble.hpp:921-945, 1043-1057; core.hpp:2280, 2371-2375. *)
Definition program0 : program :=
  Program (fun _ => None) 0 (fun _ => VNull) (fun _ => []) (fun _ => None) (fun _ => members0).

(* The state as seen by the code of registry [r].  preamble.hpp:921-945, 1043-1057. *)
Definition view (p : program) (r : list N) : world :=
  let m := pg_members p r in
  World (pg_heap p) (pg_fresh p) (mb_data m) (pg_static p) (pg_ss p) (pg_next p)
    (mb_vec m) (mb_ivec m) (mb_map m) (mb_hash m) (mb_initialized m).

(* preamble.hpp:923-932. *)
Definition regs (p : program) (r : list N) : registrations := mb_regs (pg_members p r).

(* The program after the code of registry [r] changed the state.
   preamble.hpp:921-945, 1043-1057. *)
Definition write_back (p : program) (r : list N) (q : process) : program :=
  let w := pr_world q in
  Program (w_heap w) (w_fresh w) (w_static w) (w_ss w) (w_next w)
    (fun r' => if decide (r' = r)
               then Members (pr_regs q) (w_data w) (w_vec w) (w_ivec w) (w_map w) (w_hash w)
                      (w_initialized w)
               else pg_members p r').

(* An event in registry [r], as in ModelLife.  initialize.hpp:1611-1657. *)
Definition step_in (cfs : list N -> config) (r : list N) (ev : event) (p : program) :
    outcome (program * result) :=
  let* '(q, res) := step (cfs r) ev (Process (regs p r) (view p r)) in
  Ok (write_back p r q, res).

(* A program run: which registry did what, with which result.  initialize.hpp:1611-1657. *)
Definition play_in (cfs : list N -> config) (evs : list (list N * event)) :
    outcome (list (list N * event * result) * program) :=
  foldM (fun re hp =>
      let* '(p', res) := step_in cfs (fst re) (snd re) (snd hp) in
      Ok (fst hp ++ [(re, res)], p'))
    evs ([], program0).
