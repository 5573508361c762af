(* Specification vocabulary for the comparison of virtual_ptrs and for virtual_ptr p(x). *)
From stdpp Require Import base list numbers.
From Verif Require Import Base Registry ModelArguments ModelConversions ModelCasts SpecCasts ModelCompare
  SpecConversions.

(* The object that a virtual_ptr points to, if any. *)
Definition object_of (v : compared) : option nat := fst <$> vc_place v.

(* "both virtual_ptrs point to the same object or both are nullptr" *)
Definition same_object (l r : compared) : Prop := object_of l = object_of r.

(* Objects have classes [cls]; the virtual_ptr is null, or points to the part of its object that
   is of its class, of which there is one. *)
Definition points_well (H : hierarchy) (cls : nat -> N) (v : compared) : Prop :=
  forall o s, vc_place v = Some (o, s) -> only_part H (cls o) (vc_class v) s.

(* One of the classes is the other, or an unambiguous base of it. *)
Definition related (H : hierarchy) (c d : N) : Prop := unambiguous H c d \/ unambiguous H d c.

(* Both are plain, or have smart pointers of the same kind, or one of them has a
   boost::intrusive_ptr and the other is plain. *)
Inductive kinds_match : pointer_kind -> pointer_kind -> Prop :=
  | match_same k : kinds_match k k
  | match_intrusive_left : kinds_match (KSmart Intrusive) KPlain
  | match_intrusive_right : kinds_match KPlain (KSmart Intrusive).

(* The virtual_ptr that the expression suggests: to the class of the object, with the smart
   pointer, or the same as the virtual_ptr given. *)
Inductive suggests (r : N) : expression -> vtype -> Prop :=
  | suggests_object c q l : suggests r (Expression (VObject c) q l) (VPlain (Pointee c q) r)
  | suggests_smart k p q l : suggests r (Expression (VSmart k p) q l) (VWide k p r)
  | suggests_plain p r' q l : suggests r (Expression (VPlain p r') q l) (VPlain p r')
  | suggests_wide k p r' q l : suggests r (Expression (VWide k p r') q l) (VWide k p r').

(* A smart pointer that is const. *)
Definition const_smart (x : expression) : Prop :=
  x_const x = true /\ exists k p, x_type x = VSmart k p.
