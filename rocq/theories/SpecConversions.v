(* Specification vocabulary about what converts to a virtual_ptr, from the documentation of its
   constructors and assignments ("provided that they are type-compatible", core.hpp:643-1770)
   and smart_pointers.adoc. *)
From stdpp Require Import base list numbers.
From Verif Require Import Base Registry ModelArguments ModelConversions.

(* What the new value of a virtual_ptr is made of.  [Empty]: no object and no v-table.  Otherwise
   it points to the object of the expression - as a plain pointer, by a copy of its smart pointer,
   or by moving from it - and its v-table is that of the class of the object, or the one that the
   expression, a virtual_ptr, has. *)
Inductive transfer := PointsTo | Copies | Moves.
Inductive table := OfObject | OfSource.
Inductive meaning := Empty | Points (t : transfer) (v : table).

(* How that shows in what the selected function does. *)
Inductive carries_out : object_use -> vptr_use -> meaning -> Prop :=
  | carries_out_empty : carries_out ToNull NullVptr Empty
  | carries_out_address : carries_out Address Acquire (Points PointsTo OfObject)
  | carries_out_pointer : carries_out Value Acquire (Points PointsTo OfObject)
  | carries_out_pointers : carries_out Value CopyVptr (Points PointsTo OfSource)
  | carries_out_copy v : v = Acquire \/ v = AcquireOrNull ->
      carries_out CopyObject v (Points Copies OfObject)
  | carries_out_copies : carries_out CopyObject CopyVptr (Points Copies OfSource)
  | carries_out_move : carries_out MoveObject AcquireOrNull (Points Moves OfObject)
  | carries_out_moves : carries_out MoveObject ExchangeVptr (Points Moves OfSource).

Section Conversions.
  Context (derives : N -> N -> bool) (polymorphic : N -> vtype -> bool).

  (* A pointer to [from] may become a pointer to [to]: to the same class or a base, and const is
     not lost. *)
  Definition fits (from to : pointee) : Prop :=
    derives (pt_class from) (pt_class to) = true /\ (pt_const from = true -> pt_const to = true).

  (* The class is polymorphic, for this registry. *)
  Definition is_polymorphic (r c : N) : Prop := polymorphic r (VObject c) = true.

  (* The type-compatible expressions for a virtual_ptr of type [self], and what they mean.  The
     registries are the same; smart pointers are of the same kind; only a rvalue that is not const
     is moved from, and a std::unique_ptr is not copied. *)
  Inductive meant : vtype -> expression -> meaning -> Prop :=
    | meant_object to r c q l : fits (Pointee c q) to -> is_polymorphic r c ->
        meant (VPlain to r) (Expression (VObject c) q l) (Points PointsTo OfObject)
    | meant_pointer to r p q l : fits p to -> is_polymorphic r (pt_class p) ->
        meant (VPlain to r) (Expression (VPointer p) q l) (Points PointsTo OfObject)
    | meant_plain to r p q l : fits p to ->
        meant (VPlain to r) (Expression (VPlain p r) q l) (Points PointsTo OfSource)
    | meant_wide to r k p q l : fits p to ->
        meant (VPlain to r) (Expression (VWide k p r) q l) (Points PointsTo OfSource)
    | meant_copy k to r p q l : fits p to -> is_polymorphic r (pt_class p) ->
        k <> Unique -> q = true \/ l = true ->
        meant (VWide k to r) (Expression (VSmart k p) q l) (Points Copies OfObject)
    | meant_move k to r p : fits p to -> is_polymorphic r (pt_class p) ->
        meant (VWide k to r) (Expression (VSmart k p) false false) (Points Moves OfObject)
    | meant_copy_wide k to r p q l : fits p to -> k <> Unique -> q = true \/ l = true ->
        meant (VWide k to r) (Expression (VWide k p r) q l) (Points Copies OfSource)
    | meant_move_wide k to r p : fits p to ->
        meant (VWide k to r) (Expression (VWide k p r) false false) (Points Moves OfSource)
    | meant_null_plain to r q l : meant (VPlain to r) (Expression VNull q l) Empty
    | meant_null_smart k to r q l : meant (VWide k to r) (Expression VNull q l) Empty.

  (* A class is a base of itself for this purpose, and what derives from a polymorphic class is
     polymorphic. *)
  Definition classes_ok : Prop :=
    (forall c, derives c c = true) /\
    (forall r d c, derives d c = true -> is_polymorphic r c -> is_polymorphic r d).

  (* A temporary object. *)
  Definition temporary (x : expression) : Prop :=
    x_lvalue x = false /\ exists c, x_type x = VObject c.

  (* A pointer to a class that derives from [c], to be held as a pointer to [c]: [c] itself is
     polymorphic. *)
  Definition pointer_ok (self : vtype) (x : expression) : Prop :=
    forall to r p, self = VPlain to r -> x_type x = VPointer p -> is_polymorphic r (pt_class to).
End Conversions.
