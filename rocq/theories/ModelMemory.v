(* initialize() running out of memory: an allocation throws std::bad_alloc, which
   leaves initialize() and is caught by the program.  The places that allocate are
   the containers of the compiler (initialize.hpp:535-1279), new_dispatch_data
   (initialize.hpp:1308), and what the policies do from vptr::initialize
   (initialize.hpp:1410-1412): the buckets of fast_perfect_hash (199), the resize
   of vptr_vector (vptr_vector.hpp:88-92) and the insertions of vptr_map
   (vptr_map.hpp:48-61).  Tracing is left out.  std::vector::resize has no effect
   when it throws. *)
From stdpp Require Import base list numbers.
From Verif Require Import Base Registry ModelClasses ModelMethods ModelSlots ModelTables
  ModelHash ModelWorld ModelLife.

(* Where the allocation that fails is. *)
Inductive shortage :=
  | InCompile               (* compile(), initialize.hpp:460-469 *)
  | InData                  (* new_dispatch_data, initialize.hpp:1308 *)
  | InHash (pass : nat)     (* buckets.resize of this pass, fast_perfect_hash.hpp:199 *)
  | InVector                (* resize, vptr_vector.hpp:88-92 *)
  | InMap.                  (* emplace, vptr_map.hpp:55-59 *)

(* fast_perfect_hash.hpp:187-199: the state of the policy if the allocation of pass
   [stop] fails; None if the search does not get there.  shift, min_value and
   max_value are already set, mult and the buckets are those of the pass before. *)
Fixpoint passes_until (rnd : N -> N) (types : list N) (passes stop : nat) (M total : N)
    (h : hash_state) : outcome (option hash_state) :=
  match passes with
  | 0 => Ok None
  | S passes =>
      if decide (31 <= M)%N then Undef
      else
        let shift := (64 - M)%N in
        let hash_size := (2 ^ M)%N in
        match stop with
        | 0 => Ok (Some (HashState (h_mult h) shift uintptr_max 0 (h_control h)))
        | S stop =>
            let* '(found, total, mult, s) :=
              attempts_loop rnd shift hash_size types max_attempts total (h_mult h)
                (AttemptState uintptr_max 0 []) in
            let h := HashState mult shift (a_min s) (a_max s) (a_buckets s) in
            if (found : bool) then Ok None
            else passes_until rnd types passes stop (M + 1) total h
        end
  end.

(* fast_perfect_hash.hpp:102-113: without runtime_checks the buckets are local. *)
Definition hash_until (rnd : N -> N) (checks : bool) (n : N) (types : list N) (stop : nat)
    (h : hash_state) : outcome (option hash_state) :=
  let* o := passes_until rnd types 4 stop (initial_M n) 0 h in
  Ok ((fun h' => HashState (h_mult h') (h_shift h') (h_min h') (h_max h')
         (if checks then h_control h' else h_control h)) <$> o).

(* What an initialize() that fails there leaves; None if it does not get there.
   new_dispatch_data is a local variable: it is destroyed, but the slots and
   strides, the next pointers and the v-table pointers of the classes have been
   written (initialize.hpp:1315-1408), the latter pointing into it. *)
Definition initialize_short (cf : config) (X : run) (n2216 : bool) (R : registrations)
    (w : world) (sh : shortage) : option world :=
  match sh with
  | InCompile => Some w
  | _ =>
      match compile (r_env X) n2216 R with
      | Ok cp =>
          match sh with
          | InCompile | InData => Some w
          | _ =>
              match write_tables (w_fresh w) cp w with
              | Ok wr =>
                  let left_by h :=
                    World (w_heap w) (S (w_fresh w)) (w_data w) (wr_static wr) (wr_ss wr)
                      (wr_next wr) (w_vec w) (w_ivec w) (w_map w) h (w_initialized w) in
                  let g := cp_graph cp in
                  let n := N.of_nat (g_n g) in
                  match sh, cf_vptr cf, cf_hash cf with
                  | InHash pass, VptrVector, true =>
                      match hash_until (r_rnd X) (cf_checks cf) n (all_type_ids g) pass (w_hash w) with
                      | Ok (Some h) => Some (left_by h)
                      | _ => None
                      end
                  | InVector, VptrVector, true =>
                      match hash_initialize (r_rnd X) (cf_checks cf) n (all_type_ids g) (w_hash w) with
                      | Ok (h, None) => Some (left_by h)
                      | _ => None
                      end
                  | InVector, VptrVector, false => Some (left_by (w_hash w))
                  | InMap, VptrMap, _ => Some (left_by (w_hash w))
                  | _, _, _ => None
                  end
              | _ => None
              end
          end
      | _ => None
      end
  end.

(* The life of a registry (ModelLife) in a program that may run out of memory.
   initialize.hpp:1611-1629, 1644-1657. *)
Inductive happening :=
  | Ends (ev : event) (r : result)                      (* as in ModelLife *)
  | RunsOut (X : run) (n2216 : bool) (sh : shortage).  (* initialize() *)

(* Any sequence of the above, initialize.hpp:1611-1675. *)
Inductive troubled (cf : config) : list happening -> process -> Prop :=
  | troubled_start : troubled cf [] process0
  | troubled_ends h p ev p' r :
      troubled cf h p -> step cf ev p = Ok (p', r) -> troubled cf (h ++ [Ends ev r]) p'
  | troubled_runs_out h p X n2216 sh w :
      troubled cf h p -> initialize_short cf X n2216 (pr_regs p) (pr_world p) sh = Some w ->
      troubled cf (h ++ [RunsOut X n2216 sh]) (Process (pr_regs p) w).
