(* Properties C55, C56 and C57: what can be converted to a virtual_ptr. *)
From stdpp Require Import base list numbers.
From Verif Require Import Base Registry ModelArguments ModelConversions SpecConversions
  ProofConversions ExamplesConversions.

(* C55.  Whatever a virtual_ptr can be initialized from, explicitly or implicitly, is
   type-compatible: derived to base, without losing const, in the same registry, from the same kind
   of smart pointer; it is moved from if and only if it is a rvalue that is not const, and the
   v-table is the one of the object or of the source. *)
Theorem C55_conversions :
  forall derives polymorphic implicit self x o v,
  classes_ok derives polymorphic ->
  initialize_from derives polymorphic implicit self x = Selected o v ->
  exists m, carries_out o v m /\ meant derives polymorphic self x m /\
    forall m', meant derives polymorphic self x m' -> m' = m.
Proof. exact init_meant. Qed.
Print Assumptions C55_conversions.

Example C55_conversions_example :
  classes_ok derives7 polymorphic7 /\
  pass7 (VPlain (const Animal) 0) (lref (VObject 3)) = Selected Address Acquire /\
  pass7 (VPlain Animal 0) (rref (VPointer Dog)) = Selected Value Acquire /\
  pass7 (VWide Unique Animal 0) (rref (VSmart Unique Dog)) = Selected MoveObject AcquireOrNull /\
  pass7 (VWide Shared Animal 0) (lref (VWide Shared Dog 0)) = Selected CopyObject CopyVptr /\
  pass7 (VPlain Animal 0) (lref (VWide Shared Dog 0)) = Selected Value CopyVptr /\
  init7 (VPlain Animal 0) (rref VNull) = Selected ToNull NullVptr /\
  pass7 (VWide Shared Animal 0) (rref (VSmart Unique Dog)) = NotViable /\
  pass7 (VWide Shared Animal 1) (lref (VWide Shared Dog 0)) = NotViable /\
  init7 (VWide Unique Dog 0) (lref (VWide Unique Dog 0)) = DeletedFunction.
Proof. exact init_examples. Qed.

(* The same for assignments. *)
Theorem C55_assignments :
  forall derives polymorphic self x o v,
  classes_ok derives polymorphic ->
  assign_from derives polymorphic self x = Selected o v ->
  exists m, carries_out o v m /\ meant derives polymorphic self x m /\
    forall m', meant derives polymorphic self x m' -> m' = m.
Proof. exact assign_meant. Qed.
Print Assumptions C55_assignments.

Example C55_assignments_example :
  classes_ok derives7 polymorphic7 /\
  assign7 (VPlain Animal 0) (lref (VObject 3)) = Selected Address Acquire /\
  assign7 (VPlain Item 0) (lref (VObject 6)) = Selected Address Acquire /\
  assign7 (VWide Shared Animal 0) (lcref (VSmart Shared Dog)) = Selected CopyObject Acquire /\
  assign7 (VWide Unique Dog 0) (rref (VWide Unique Dog 0)) = Selected MoveObject ExchangeVptr /\
  assign7 (VWide Shared Animal 0) (lref (VWide Shared Dog 0)) = Selected CopyObject CopyVptr /\
  assign7 (VPlain Dog 0) (lref (VObject 1)) = NotViable.
Proof. exact assign_examples. Qed.

(* No conversion is ambiguous. *)
Theorem C55_unambiguous :
  forall derives polymorphic implicit self x,
  classes_ok derives polymorphic ->
  initialize_from derives polymorphic implicit self x <> Ambiguous /\
  assign_from derives polymorphic self x <> Ambiguous.
Proof. exact never_ambiguous. Qed.
Print Assumptions C55_unambiguous.

Example C55_unambiguous_example : classes_ok derives7 polymorphic7.
Proof. exact classes7. Qed.

(* C56.  Conversely, everything type-compatible is accepted, nullptr only explicitly - if, for a
   pointer, the class of the virtual_ptr itself is polymorphic. *)
Theorem C56_documented_partial :
  forall derives polymorphic implicit self x m,
  classes_ok derives polymorphic -> meant derives polymorphic self x m ->
  (temporary x -> x_const x = true) -> (x_type x = VNull -> implicit = false) ->
  pointer_ok polymorphic self x ->
  exists o v, initialize_from derives polymorphic implicit self x = Selected o v /\ carries_out o v m.
Proof. exact meant_init. Qed.
Print Assumptions C56_documented_partial.

Example C56_documented_example :
  classes_ok derives7 polymorphic7 /\
  meant derives7 polymorphic7 (VPlain Animal 0) (rref (VPointer Dog)) (Points PointsTo OfObject) /\
  ~ temporary (rref (VPointer Dog)) /\ x_type (rref (VPointer Dog)) <> VNull /\
  pointer_ok polymorphic7 (VPlain Animal 0) (rref (VPointer Dog)) /\
  meant derives7 polymorphic7 (VPlain Item 0) (lref (VObject 6)) (Points PointsTo OfObject) /\
  ~ temporary (lref (VObject 6)) /\ pointer_ok polymorphic7 (VPlain Item 0) (lref (VObject 6)) /\
  meant derives7 polymorphic7 (VWide Unique Animal 0) (rref (VSmart Unique Dog)) (Points Moves OfObject) /\
  ~ temporary (rref (VSmart Unique Dog)) /\
  pointer_ok polymorphic7 (VWide Unique Animal 0) (rref (VSmart Unique Dog)).
Proof. exact documented_examples. Qed.

Theorem C56_assigned_partial :
  forall derives polymorphic self x m,
  classes_ok derives polymorphic -> meant derives polymorphic self x m ->
  (temporary x -> x_const x = true) -> pointer_ok polymorphic self x ->
  exists o v, assign_from derives polymorphic self x = Selected o v /\ carries_out o v m.
Proof. exact meant_assign. Qed.
Print Assumptions C56_assigned_partial.

Example C56_assigned_example :
  classes_ok derives7 polymorphic7 /\
  meant derives7 polymorphic7 (VPlain Animal 0) (rref (VPointer Dog)) (Points PointsTo OfObject) /\
  ~ temporary (rref (VPointer Dog)) /\ x_type (rref (VPointer Dog)) <> VNull /\
  pointer_ok polymorphic7 (VPlain Animal 0) (rref (VPointer Dog)) /\
  meant derives7 polymorphic7 (VPlain Item 0) (lref (VObject 6)) (Points PointsTo OfObject) /\
  ~ temporary (lref (VObject 6)) /\ pointer_ok polymorphic7 (VPlain Item 0) (lref (VObject 6)) /\
  meant derives7 polymorphic7 (VWide Unique Animal 0) (rref (VSmart Unique Dog)) (Points Moves OfObject) /\
  ~ temporary (rref (VSmart Unique Dog)) /\
  pointer_ok polymorphic7 (VWide Unique Animal 0) (rref (VSmart Unique Dog)).
Proof. exact documented_examples. Qed.

(* A pointer to a polymorphic class does not convert to a virtual_ptr to a base of it that is not
   polymorphic, although it is documented to, and the object does. *)
Theorem C56_documented_refuted :
  exists derives polymorphic self x m,
    classes_ok derives polymorphic /\ meant derives polymorphic self x m /\
    ~ temporary x /\ x_type x <> VNull /\
    initialize_from derives polymorphic false self x = NotViable /\
    initialize_from derives polymorphic true self x = NotViable /\
    assign_from derives polymorphic self x = NotViable.
Proof. exact pointer_rejected. Qed.
Print Assumptions C56_documented_refuted.

(* C57.  A virtual_ptr cannot be made from a temporary object that is not const. *)
Theorem C57_temporary_partial :
  forall derives polymorphic implicit self x,
  classes_ok derives polymorphic -> temporary x -> x_const x = false ->
  initialize_from derives polymorphic implicit self x = NotViable /\
  assign_from derives polymorphic self x = NotViable.
Proof. exact temporary_rejected. Qed.
Print Assumptions C57_temporary_partial.

Example C57_temporary_example :
  classes_ok derives7 polymorphic7 /\ temporary (rref (VObject 3)) /\ x_const (rref (VObject 3)) = false /\
  is_polymorphic polymorphic7 0 3 /\ pass7 (VPlain Dog 0) (lref (VObject 3)) = Selected Address Acquire.
Proof. exact temporary_example. Qed.

(* But it can from a const one, *)
Theorem C57_temporary_refuted :
  exists derives polymorphic self x,
    classes_ok derives polymorphic /\ temporary x /\
    initialize_from derives polymorphic true self x = Selected Address Acquire /\
    assign_from derives polymorphic self x = Selected Address Acquire.
Proof. exact temporary_accepted. Qed.
Print Assumptions C57_temporary_refuted.

(* and a plain one can from a temporary smart virtual_ptr, of which it copies the pointers. *)
Theorem C57_owner_refuted :
  exists derives polymorphic self k p r,
    classes_ok derives polymorphic /\
    initialize_from derives polymorphic true self (Expression (VWide k p r) false false) =
      Selected Value CopyVptr /\
    assign_from derives polymorphic self (Expression (VWide k p r) false false) =
      Selected Value CopyVptr.
Proof. exact owner_accepted. Qed.
Print Assumptions C57_owner_refuted.
