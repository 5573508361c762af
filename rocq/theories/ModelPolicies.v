(* The policies of a registry: preamble.hpp:806-862, 922-1041.  A registry is
   identified by its list of policies: registry<Policy...>.  Classes are numbers;
   std::is_base_of and the member alias [category] are parameters. *)
From stdpp Require Import base list numbers.
From Verif Require Import ModelWorld.

Section Policies.
  (* [is_base b c]: std::is_base_of_v<b, c>; [category p]: p::category. *)
  Context (is_base : N -> N -> bool) (category : N -> N).

  (* mp_replace_if_q, preamble.hpp:834-838. *)
  Definition replace_if (c p : N) (l : list N) : list N :=
    map (fun q => if is_base c q then p else q) l.

  (* One step of with_aux, preamble.hpp:833-842. *)
  Definition with_one (l : list N) (p : N) : list N :=
    let r := replace_if (category p) p l in
    if decide (r = l) then l ++ [p] else r.

  (* with_aux, preamble.hpp:824-843; registry::with, 987-995. *)
  Definition with_ (l ps : list N) : list N := foldl with_one l ps.

  (* One step of without_aux: mp_remove_if_q, preamble.hpp:855-860. *)
  Definition without_one (l : list N) (c : N) : list N :=
    filter (fun q => is_base (category c) q = false) l.

  (* without_aux, preamble.hpp:845-862; registry::without, 997-1006. *)
  Definition without (l cs : list N) : list N := foldl without_one l cs.

  (* registry::policy, preamble.hpp:972-985 and get_policy_aux, 806-818: mp_find_if
     yields the index of the first match, or the size of the list. *)
  Definition policy (l : list N) (c : N) : option N :=
    match list_find (fun q => is_base c q = true) l with
    | Some (i, _) => l !! i
    | None => None                                (* void *)
    end.
End Policies.

(* The classes of namespace policies (preamble.hpp:554-794, policies/*.hpp). *)
Definition p_rtti : N := 1.                (* preamble.hpp:576 *)
Definition p_std_rtti : N := 2.            (* std_rtti.hpp:23 *)
Definition p_static_rtti : N := 3.         (* static_rtti.hpp:25 *)
Definition p_deferred_static_rtti : N := 4. (* preamble.hpp:611 *)
Definition p_error_handler : N := 5.       (* preamble.hpp:637 *)
Definition p_default_error_handler : N := 6. (* default_error_handler.hpp:34 *)
Definition p_throw_error_handler : N := 7. (* throw_error_handler.hpp:19 *)
Definition p_vptr : N := 8.                (* preamble.hpp:688 *)
Definition p_vptr_vector : N := 9.         (* vptr_vector.hpp:36 *)
Definition p_vptr_map : N := 10.           (* vptr_map.hpp:26-27 *)
Definition p_indirect_vptr : N := 11.      (* preamble.hpp:700 *)
Definition p_type_hash : N := 12.          (* preamble.hpp:748 *)
Definition p_fast_perfect_hash : N := 13.  (* fast_perfect_hash.hpp:52 *)
Definition p_output : N := 14.             (* preamble.hpp:778 *)
Definition p_stderr_output : N := 15.      (* stderr_output.hpp:17 *)
Definition p_runtime_checks : N := 16.     (* preamble.hpp:789 *)

(* Their [category]; the others are user-defined policies, each with its own.
   preamble.hpp:576-578, 637-639, 688-690, 700-703, 748-750, 778-780, 789-792. *)
Definition std_category (p : N) : N :=
  if decide (p ∈ [p_std_rtti; p_static_rtti; p_deferred_static_rtti]) then p_rtti
  else if decide (p ∈ [p_default_error_handler; p_throw_error_handler]) then p_error_handler
  else if decide (p ∈ [p_vptr_vector; p_vptr_map]) then p_vptr
  else if decide (p = p_fast_perfect_hash) then p_type_hash
  else if decide (p = p_stderr_output) then p_output
  else p.

(* Each policy derives from its category only.  The lines cited for each above. *)
Definition std_is_base (b c : N) : bool := bool_decide (b = c \/ b = std_category c).

(* default_registry without BOOST_OPENMETHOD_ENABLE_RUNTIME_CHECKS, and
   indirect_registry (default_registry.hpp:38-48, 62). *)
Definition default_registry : list N :=
  [p_std_rtti; p_vptr_vector; p_fast_perfect_hash; p_default_error_handler; p_stderr_output].
(* default_registry.hpp:62. *)
Definition indirect_registry : list N :=
  with_ std_is_base std_category default_registry [p_indirect_vptr].

(* What the dispatch code asks (preamble.hpp:1008-1040; type_hash in
   vptr_vector.hpp:51-53). *)
Definition config_of (l : list N) : config :=
  let has c := bool_decide (policy std_is_base l c <> None) in
  Config
    (match policy std_is_base l p_vptr with
     | Some p => if decide (p = p_vptr_vector) then VptrVector
                 else if decide (p = p_vptr_map) then VptrMap else VptrNone
     | None => VptrNone
     end)
    (has p_type_hash) (has p_indirect_vptr) (has p_runtime_checks).
