(* Specification vocabulary about the parameters of methods and overriders, from the
   documentation of virtual_traits (core.hpp:2825-2836), method (core.hpp:2145-2153) and
   override (core.hpp:2235-2261). *)
From stdpp Require Import base list numbers.
From Verif Require Import Base Registry Spec ModelSignature.

(* [t] is class [c], or const [c]. *)
Inductive class_type : ty -> N -> Prop :=
  | class_plain c : class_type (TyName c) c
  | class_const c : class_type (TyConst (TyName c)) c.

(* [t] is a smart pointer to class [c]. *)
Inductive smart_pointer : ty -> N -> Prop :=
  | smart_shared t c : class_type t c -> smart_pointer (TyShared t) c
  | smart_unique t c : class_type t c -> smart_pointer (TyUnique t) c
  | smart_intrusive t c : class_type t c -> smart_pointer (TyIntrusive t) c.

(* [t] refers to an object of class [c]. *)
Inductive refers : ty -> N -> Prop :=
  | refers_lref t c : class_type t c -> refers (TyLRef t) c
  | refers_rref c : refers (TyRRef (TyName c)) c
  | refers_ptr t c : class_type t c -> refers (TyPtr t) c
  | refers_smart t c : smart_pointer t c -> refers t c
  | refers_shared_ref t c : class_type t c -> refers (TyLRef (TyConst (TyShared t))) c
  | refers_intrusive_ref t c : class_type t c -> refers (TyLRef (TyConst (TyIntrusive t))) c.

(* [t] is a virtual_ptr to class [c] in registry [R], by value or by const reference. *)
Inductive virtual_pointer (R : N) : ty -> N -> Prop :=
  | vptr_value t c : class_type t c \/ smart_pointer t c -> virtual_pointer R (TyVptr t R) c
  | vptr_ref t c : class_type t c \/ smart_pointer t c ->
      virtual_pointer R (TyLRef (TyConst (TyVptr t R))) c.

(* [p] is a virtual parameter of a method, of class [c]. *)
Inductive virtual_parameter (R : N) : ty -> N -> Prop :=
  | vp_virtual t c : refers t c -> virtual_parameter R (TyVirtual t) c
  | vp_pointer p c : virtual_pointer R p c -> virtual_parameter R p c.

(* [p] is not a virtual parameter. *)
Definition ordinary (p : ty) : Prop :=
  (forall t, p <> TyVirtual t) /\
  (forall t r, p <> TyVptr t r /\ p <> TyLRef (TyVptr t r) /\ p <> TyLRef (TyConst (TyVptr t r))).

(* The classes of the virtual parameters of a method. *)
Inductive method_classes (R : N) : list ty -> list N -> Prop :=
  | mc_nil : method_classes R [] []
  | mc_ordinary p ps cs : ordinary p -> method_classes R ps cs -> method_classes R (p :: ps) cs
  | mc_virtual p c ps cs : virtual_parameter R p c -> method_classes R ps cs ->
      method_classes R (p :: ps) (c :: cs).

(* The classes of the parameters of an overrider that are in the positions of virtual
   parameters of the method. *)
Inductive overrider_classes (R : N) : list ty -> list ty -> list N -> Prop :=
  | oc_nil : overrider_classes R [] [] []
  | oc_ordinary p q ps qs ds : ordinary p -> overrider_classes R ps qs ds ->
      overrider_classes R (p :: ps) (q :: qs) ds
  | oc_virtual t q d ps qs ds : refers q d -> overrider_classes R ps qs ds ->
      overrider_classes R (TyVirtual t :: ps) (q :: qs) (d :: ds)
  | oc_pointer p q c d ps qs ds : virtual_pointer R p c -> virtual_pointer R q d ->
      overrider_classes R ps qs ds ->
      overrider_classes R (p :: ps) (q :: qs) (d :: ds).

(* The overrider has a virtual_ptr only where the method has one. *)
Definition pointers_match (ps qs : list ty) : Prop :=
  forall i q t r, qs !! i = Some q -> q = TyVptr t r -> exists p t' r', ps !! i = Some p /\ p = TyVptr t' r'.

(* [t] and [q] are both references, both pointers, or both smart pointers of one kind. *)
Inductive same_form : ty -> ty -> Prop :=
  | form_lref t q c d : class_type t c -> class_type q d -> same_form (TyLRef t) (TyLRef q)
  | form_rref c d : same_form (TyRRef (TyName c)) (TyRRef (TyName d))
  | form_ptr t q c d : class_type t c -> class_type q d -> same_form (TyPtr t) (TyPtr q)
  | form_shared t q : same_form (TyShared t) (TyShared q)
  | form_unique t q : same_form (TyUnique t) (TyUnique q)
  | form_intrusive t q : same_form (TyIntrusive t) (TyIntrusive q)
  | form_shared_ref t q : same_form (TyLRef (TyConst (TyShared t))) (TyLRef (TyConst (TyShared q)))
  | form_intrusive_ref t q : same_form (TyLRef (TyConst (TyIntrusive t))) (TyLRef (TyConst (TyIntrusive q))).

(* The requirements of override on one parameter. *)
Inductive may_override (R : N) (base_of convertible : ty -> ty -> bool) : ty -> ty -> Prop :=
  | may_ordinary p : ordinary p -> may_override R base_of convertible p p
  | may_virtual t q : same_form t q -> may_override R base_of convertible (TyVirtual t) q
  | may_vptr t u c d :
      class_type t c \/ smart_pointer t c -> class_type u d \/ smart_pointer u d ->
      base_of (TyName c) (TyName d) = true -> convertible (TyVptr u R) (TyVptr t R) = true ->
      may_override R base_of convertible (TyVptr t R) (TyVptr u R)
  | may_vptr_ref t u c d :
      class_type t c \/ smart_pointer t c -> class_type u d \/ smart_pointer u d ->
      base_of (TyName c) (TyName d) = true -> convertible (TyVptr u R) (TyVptr t R) = true ->
      may_override R base_of convertible (TyLRef (TyConst (TyVptr t R))) (TyLRef (TyConst (TyVptr u R))).

(* A list of classes is more specialized than another in some position, and nowhere less. *)
Definition better (ti : N -> N) (Rg : registrations) (id : N -> N) (ds ds' : list N) : Prop :=
  some_more_specialized ti Rg (map id ds) (map id ds') /\
  ~ some_more_specialized ti Rg (map id ds') (map id ds).

(* An overrider of parameters of classes [ds] can take arguments of types [args]. *)
Definition accepts (ti : N -> N) (Rg : registrations) (id : N -> N) (args ds : list N) : Prop :=
  Forall2 (fun a v => derives ti Rg a (ti v)) args (map id ds).

(* The source of a method and its overriders compiles and has documented parameters. *)
Record source_ok (R : N) (polymorphic : ty -> bool) (base_of convertible : ty -> ty -> bool)
    (s : method_source) : Prop := {
  so_compiles : method_source_compiles R polymorphic base_of convertible s = true;
  so_method_classes : exists cs, method_classes R (ms_parameters s) cs;
  so_overrider_classes : forall o, o ∈ ms_overriders s ->
    exists ds, overrider_classes R (ms_parameters s) (os_parameters o) ds
}.

(* [t] is a return type that refers to class [c], or one with no class: void, int. *)
Inductive returns (R : N) : ty -> option N -> Prop :=
  | returns_refers t c : refers t c -> returns R t (Some c)
  | returns_pointer t c : virtual_pointer R t c -> returns R t (Some c)
  | returns_value n : returns R (TyName n) None
  | returns_const n : returns R (TyConst (TyName n)) None.

(* The function of the program that a selection stands for. *)
Definition source_fn (s : method_source) (sel : selection) : option fptr :=
  match sel with
  | SNone => Some (ms_not_implemented s)
  | SAmbiguous => Some (ms_ambiguous s)
  | SOverrider i => os_pf <$> (ms_overriders s !! i)
  end.
