From stdpp Require Import base list numbers.
From Verif Require Import Base Registry ModelClasses ModelHash ModelWorld ModelCall ModelVirtualPtr
  ModelArguments SpecArguments ModelOwning SpecOwning ProofOwning ProofOwningSteps ExamplesVptr
  ExamplesOwning.

(* C53: whatever the program does with smart pointers and virtual_ptrs, and whatever is thrown,
   objects exist exactly as long as they have an owner; unique ones have one owner. *)
Theorem C53_ownership : forall cf cxx20 s, reached cf cxx20 s -> orderly s.
Proof. exact reached_orderly. Qed.
Print Assumptions C53_ownership.

Example C53_ownership_example : reached cf_map true s9 /\
  map (hp_alive (os_heap s9)) [0; 1; 2; 3] = [true; true; true; true] /\
  map (points s9) [2; 4; 5; 6; 8; 10; 12; 13; 14] =
    [None; None; Some 1; Some 2; Some 3; Some 3; None; Some 0; Some 0].
Proof. exact (conj s9_reached (conj s9_alive s9_points)). Qed.

(* C53: no operation uses an object that is gone, or deletes one twice. *)
Theorem C53_defined : forall cf cxx20 w em s op,
  reached cf cxx20 s -> allowed cf w em s op ->
  exists s' r, ostep cf w em cxx20 op s = Ok (s', r).
Proof. exact step_defined. Qed.
Print Assumptions C53_defined.

Example C53_defined_example : exists s', ostep cf_map w9 em9 true (ODestroy 13) s9 = Ok (s', None) /\
  allowed cf_map w9 em9 s9 (ODestroy 13) /\ alive s9 0 /\ ~ alive s' 0.
Proof. exact s9_last. Qed.

(* C53: the destination points to what the source pointed to; what is moved from is null; other
   variables are not affected. *)
Theorem C53_effect : forall cf cxx20 w em s op s',
  reached cf cxx20 s -> allowed cf w em s op -> ostep cf w em cxx20 op s = Ok (s', None) ->
  effect cxx20 s op s' /\ types_kept s s'.
Proof. exact step_effect. Qed.
Print Assumptions C53_effect.

Example C53_effect_example : exists s', ostep cf_map w9 em9 true (OCastMove 5 true true) s9 = Ok (s', None) /\
  allowed cf_map w9 em9 s9 (OCastMove 5 true true) /\ points s9 5 = Some 1 /\
  points s' 5 = None /\ points s' 16 = Some 1.
Proof. exact s9_move_cast. Qed.

(* C53: make_shared_virtual, make_unique_virtual and make_boost_intrusive_virtual return the only
   owner of a new object of that very class, with the v-table pointer of the class; they never
   signal final_error, and leave nothing behind when something is thrown. *)
Theorem C53_make : forall cf cxx20 w em s k t loc poly fails,
  reached cf cxx20 s ->
  exists s' r, ostep cf w em cxx20 (OMake k t loc poly fails) s = Ok (s', r) /\
    if fails then r = Some ConstructorThrows /\ unwound s s'
    else if cf_checks cf && negb (w_initialized w) then r = Some (Signals ENotInitialized) /\ unwound s s'
    else r = None /\ exists y o, made w k t loc s s' y o.
Proof. exact step_made. Qed.
Print Assumptions C53_make.

Example C53_make_example : reached cf_map true s9 /\
  cf_checks cf_map && negb (w_initialized w9) = false /\ cf_checks cf_map && negb (w_initialized world0) = true.
Proof. exact (conj s9_reached s9_makes). Qed.

(* C54, partial: the full statement has no [~ assigns_first op]. *)
Theorem C54_unwound_partial : forall cf cxx20 w em s op s' r,
  reached cf cxx20 s -> allowed cf w em s op -> ~ assigns_first op ->
  ostep cf w em cxx20 op s = Ok (s', Some r) -> unwound s s'.
Proof. exact step_unwound. Qed.
Print Assumptions C54_unwound_partial.

Example C54_unwound_example : exists s', ostep cf_map w9 em9 true (OFromMove 6 false) s9 =
    Ok (s', Some (Signals (EMissingClass 23))) /\
  allowed cf_map w9 em9 s9 (OFromMove 6 false) /\ ~ assigns_first (OFromMove 6 false) /\ points s9 6 = Some 2.
Proof. exact s9_throws. Qed.

(* C54: an assignment from a smart pointer that throws has changed the object, not the v-table
   pointer, and has deleted the object that was pointed to. *)
Theorem C54_unwound_refuted : exists cf w em cxx20 s op s' e d,
  reached cf cxx20 s /\ allowed cf w em s op /\ op = OAssignFrom d 6 false /\
  ostep cf w em cxx20 op s = Ok (s', Some (Signals e)) /\
  points s d = Some 0 /\ points s' d = Some 2 /\
  (ct_vp <$> look (os_heap s') d) = (ct_vp <$> look (os_heap s) d) /\ ~ alive s' 0.
Proof. exact assign_throws. Qed.
Print Assumptions C54_unwound_refuted.
