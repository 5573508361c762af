(* C63. *)
From stdpp Require Import base list numbers.
From Verif Require Import Base Registry ModelArguments ModelConversions SpecConversions ModelResults
  SpecResults ProofResults ExamplesConversions ExamplesResults.

(* C63.  What the overrider returns is what the caller of the method gets. *)
Theorem C63_result_partial :
  forall derives polymorphic vtable, classes_ok derives polymorphic ->
  forall r q got res,
  gives vtable q got -> call_returns derives polymorphic vtable r q got = Some res ->
  (reference r -> covariant derives r q) -> ~ null_pointer r q got ->
  gives vtable r res /\ (~ slices r q -> preserved got res).
Proof. exact result_kept. Qed.
Print Assumptions C63_result_partial.

Example C63_result_example :
  gives vtable7 (RLref (VObject 3) false) (Refers 8 (AnObject 8 3)) /\
  covariant derives7 (RLref (VObject 1) false) (RLref (VObject 3) false) /\
  calls7 (RLref (VObject 1) false) (RLref (VObject 3) false) (Refers 8 (AnObject 8 3)) =
    Some (Refers 8 (AnObject 8 1)) /\
  gives vtable7 (RValue (VPlain Dog 0)) (Fresh (APointer (Some 8) (Some 108))) /\
  ~ reference (RValue (VPlain Animal 0)) /\
  calls7 (RValue (VPlain Animal 0)) (RValue (VPlain Dog 0)) (Fresh (APointer (Some 8) (Some 108))) =
    Some (Fresh (APointer (Some 8) (Some 108))) /\
  gives vtable7 (RValue (VSmart Unique Dog)) (Fresh (APointer (Some 8) None)) /\
  calls7 (RValue (VWide Unique Animal 0)) (RValue (VSmart Unique Dog)) (Fresh (APointer (Some 8) None)) =
    Some (Fresh (APointer (Some 8) (Some 108))).
Proof. exact kept_examples. Qed.

(* It is seen as an object of its class or of a base, const is not lost, and the registry is the
   same. *)
Theorem C63_types :
  forall derives polymorphic vtable, classes_ok derives polymorphic ->
  forall r q got res,
  gives vtable q got -> call_returns derives polymorphic vtable r q got = Some res -> gives vtable r res ->
  (forall p' p, pointee_of q = Some p' -> pointee_of r = Some p ->
     derives (pt_class p') (pt_class p) = true /\
     (pt_const p' = true -> pt_const p = true \/ exists c, r = RValue (VObject c))) /\
  (reference r -> covariant derives r q -> const_reference q -> const_reference r) /\
  (forall n n', registry_of q = Some n -> registry_of r = Some n' -> n' = n).
Proof. exact types_kept. Qed.
Print Assumptions C63_types.

Example C63_types_example :
  gives vtable7 (RLref (VObject 3) true) (Refers 8 (AnObject 8 3)) /\
  calls7 (RValue (VPlain (const Animal) 0)) (RLref (VObject 3) true) (Refers 8 (AnObject 8 3)) =
    Some (Fresh (APointer (Some 8) (Some 108))) /\
  gives vtable7 (RValue (VPlain (const Animal) 0)) (Fresh (APointer (Some 8) (Some 108))) /\
  pointee_of (RLref (VObject 3) true) = Some (const Dog) /\
  calls7 (RValue (VPlain Animal 0)) (RLref (VObject 3) true) (Refers 8 (AnObject 8 3)) = None /\
  calls7 (RValue (VPlain Cat 0)) (RLref (VObject 3) false) (Refers 8 (AnObject 8 3)) = None.
Proof. exact types_example. Qed.

(* The result dangles exactly if the method returns a reference, and the overrider does not return
   one to the same type or to a derived class. *)
Theorem C63_dangling :
  forall derives polymorphic vtable, classes_ok derives polymorphic ->
  forall r q got res,
  gives vtable q got -> call_returns derives polymorphic vtable r q got = Some res ->
  ~ null_pointer r q got ->
  (res = Dangling <-> reference r /\ ~ covariant derives r q).
Proof. exact dangling_iff. Qed.
Print Assumptions C63_dangling.

Example C63_dangling_example :
  gives vtable7 (RValue (VObject 3)) (Fresh (AnObject 8 3)) /\
  ~ null_pointer (RLref (VObject 1) true) (RValue (VObject 3)) (Fresh (AnObject 8 3)) /\
  calls7 (RLref (VObject 1) true) (RValue (VObject 3)) (Fresh (AnObject 8 3)) = Some Dangling.
Proof. exact dangling_example. Qed.

(* The conversion is undefined behaviour exactly if the overrider returns a null pointer, and the
   method a plain virtual_ptr. *)
Theorem C63_undefined :
  forall derives polymorphic vtable, classes_ok derives polymorphic ->
  forall r q got res,
  gives vtable q got -> call_returns derives polymorphic vtable r q got = Some res ->
  (res = Undefined <-> null_pointer r q got).
Proof. exact undefined_iff. Qed.
Print Assumptions C63_undefined.

Example C63_undefined_example :
  gives vtable7 (RValue (VPointer Dog)) (Fresh (APointer None None)) /\
  null_pointer (RValue (VPlain Animal 0)) (RValue (VPointer Dog)) (Fresh (APointer None None)) /\
  calls7 (RValue (VPlain Animal 0)) (RValue (VPointer Dog)) (Fresh (APointer None None)) = Some Undefined.
Proof. exact undefined_example. Qed.

(* A result that owns its object is still owned by the caller, unless the method returns a plain
   virtual_ptr. *)
Theorem C63_owner_partial :
  forall derives polymorphic vtable r q got res,
  gives vtable q got -> call_returns derives polymorphic vtable r q got = Some res ->
  owns q -> ~ reference r -> ~ (exists p n, r = RValue (VPlain p n)) -> owns r.
Proof. exact owner_kept. Qed.
Print Assumptions C63_owner_partial.

Example C63_owner_example :
  gives vtable7 (RValue (VSmart Shared Dog)) (Fresh (APointer (Some 8) None)) /\
  owns (RValue (VSmart Shared Dog)) /\
  calls7 (RValue (VWide Shared Animal 0)) (RValue (VSmart Shared Dog)) (Fresh (APointer (Some 8) None)) =
    Some (Fresh (APointer (Some 8) (Some 108))) /\
  ~ reference (RValue (VWide Shared Animal 0)).
Proof. exact owner_example. Qed.

(* An object that is owned by a std::unique_ptr does not get a second owner: it is moved from a
   temporary, or from a rvalue. *)
Theorem C63_unique :
  forall derives polymorphic vtable, classes_ok derives polymorphic ->
  forall r q got res,
  call_returns derives polymorphic vtable r q got = Some res -> gives vtable q got ->
  unique q -> owns r ->
  (exists t, q = RValue t) \/ (exists t, q = RRref t false).
Proof. exact unique_kept. Qed.
Print Assumptions C63_unique.

Example C63_unique_example :
  gives vtable7 (RRref (VSmart Unique Dog) false) (Refers 5 (APointer (Some 8) None)) /\
  unique (RRref (VSmart Unique Dog) false) /\ owns (RValue (VSmart Shared Animal)) /\
  calls7 (RValue (VSmart Shared Animal)) (RRref (VSmart Unique Dog) false)
    (Refers 5 (APointer (Some 8) None)) = Some (Fresh (APointer (Some 8) None)) /\
  calls7 (RValue (VSmart Shared Animal)) (RLref (VSmart Unique Dog) false)
    (Refers 5 (APointer (Some 8) None)) = None.
Proof. exact unique_example. Qed.

(* The documented return types, and the conversions of pointers, compile. *)
Theorem C63_compiles :
  forall derives polymorphic vtable, classes_ok derives polymorphic ->
  forall r q got,
  returnable derives polymorphic r q -> gives vtable q got ->
  exists res, call_returns derives polymorphic vtable r q got = Some res.
Proof. exact returnable_compiles. Qed.
Print Assumptions C63_compiles.

Example C63_compiles_example :
  returnable derives7 polymorphic7 (RLref (VObject 1) true) (RLref (VObject 3) false) /\
  returnable derives7 polymorphic7 (RValue (VWide Unique (const Animal) 0)) (RValue (VWide Unique Dog 0)) /\
  returnable derives7 polymorphic7 (RValue (VPlain Animal 0)) (RLref (VWide Shared Dog 0) true) /\
  calls7 (RLref (VObject 3) false) (RLref (VObject 1) false) (Refers 8 (AnObject 8 1)) = None.
Proof. exact compiles_examples. Qed.

(* Return types that are neither the same nor covariant are accepted.  An overrider may return by
   value what the method returns by reference, *)
Theorem C63_dangling_refuted :
  exists derives polymorphic vtable r q got,
    classes_ok derives polymorphic /\ gives vtable q got /\ same_or_derived derives r q /\
    call_returns derives polymorphic vtable r q got = Some Dangling.
Proof. exact dangling_value. Qed.
Print Assumptions C63_dangling_refuted.

(* or a reference to a pointer that has to be converted, *)
Theorem C63_reference_refuted :
  exists derives polymorphic vtable r q got,
    classes_ok derives polymorphic /\ gives vtable q got /\ reference r /\ reference q /\
    call_returns derives polymorphic vtable r q got = Some Dangling.
Proof. exact dangling_reference. Qed.
Print Assumptions C63_reference_refuted.

(* or an object of a derived class by value, which is sliced, *)
Theorem C63_sliced_refuted :
  exists derives polymorphic vtable r q got res,
    classes_ok derives polymorphic /\ gives vtable q got /\ same_or_derived derives r q /\
    call_returns derives polymorphic vtable r q got = Some res /\ gives vtable r res /\
    ~ preserved got res.
Proof. exact sliced. Qed.
Print Assumptions C63_sliced_refuted.

(* or the only owner of an object that the method returns a plain virtual_ptr to. *)
Theorem C63_owner_refuted :
  exists derives polymorphic vtable r q o v,
    classes_ok derives polymorphic /\ gives vtable q (Fresh (APointer (Some o) v)) /\
    owns q /\ ~ owns r /\
    call_returns derives polymorphic vtable r q (Fresh (APointer (Some o) v)) =
      Some (Fresh (APointer (Some o) v)).
Proof. exact orphan. Qed.
Print Assumptions C63_owner_refuted.
