(* The results of calls: examples. *)
From stdpp Require Import base list numbers.
From Verif Require Import Base Registry ModelArguments ModelConversions SpecConversions ModelResults
  SpecResults ExamplesConversions.

(* The v-table of any object, in registry 0. *)
Definition vtable7 (r : N) (o : nat) : nat := 100 + o.
Notation calls7 := (call_returns derives7 polymorphic7 vtable7).

(* Animal& from Dog&, virtual_ptr<Animal> from virtual_ptr<Dog>, unique_virtual_ptr<Animal> from
   std::unique_ptr<Dog>, for the object 8. *)
Lemma kept_examples :
  gives vtable7 (RLref (VObject 3) false) (Refers 8 (AnObject 8 3)) /\
  covariant derives7 (RLref (VObject 1) false) (RLref (VObject 3) false) /\
  calls7 (RLref (VObject 1) false) (RLref (VObject 3) false) (Refers 8 (AnObject 8 3)) =
    Some (Refers 8 (AnObject 8 1)) /\
  gives vtable7 (RValue (VPlain Dog 0)) (Fresh (APointer (Some 8) (Some 108))) /\
  ~ reference (RValue (VPlain Animal 0)) /\
  calls7 (RValue (VPlain Animal 0)) (RValue (VPlain Dog 0)) (Fresh (APointer (Some 8) (Some 108))) =
    Some (Fresh (APointer (Some 8) (Some 108))) /\
  gives vtable7 (RValue (VSmart Unique Dog)) (Fresh (APointer (Some 8) None)) /\
  calls7 (RValue (VWide Unique Animal 0)) (RValue (VSmart Unique Dog)) (Fresh (APointer (Some 8) None)) =
    Some (Fresh (APointer (Some 8) (Some 108))).
Proof.
  split; [repeat constructor|]. split.
  { split; [exists (VObject 3), false; by left|]. right. by exists 1%N, 3%N. }
  split; [by vm_compute|]. split; [constructor; apply (has_plain vtable7 Dog 0 (Some 8))|].
  split; [by intros (? & ? & [?|?])|]. split; [by vm_compute|]. split; [repeat constructor|].
  by vm_compute.
Qed.

(* const Animal& from Dog: a reference to a temporary. *)
Lemma dangling_example :
  gives vtable7 (RValue (VObject 3)) (Fresh (AnObject 8 3)) /\
  ~ null_pointer (RLref (VObject 1) true) (RValue (VObject 3)) (Fresh (AnObject 8 3)) /\
  calls7 (RLref (VObject 1) true) (RValue (VObject 3)) (Fresh (AnObject 8 3)) = Some Dangling.
Proof.
  split; [repeat constructor|]. split; [|by vm_compute].
  by intros (? & ? & ? & ? & _).
Qed.

(* const std::shared_ptr<Animal>& from const std::shared_ptr<Dog>&: a reference to a temporary,
   although the overrider returns a reference to something that exists. *)
Lemma dangling_reference :
  exists derives polymorphic vtable r q got,
    classes_ok derives polymorphic /\ gives vtable q got /\ reference r /\ reference q /\
    call_returns derives polymorphic vtable r q got = Some Dangling.
Proof.
  exists derives7, polymorphic7, vtable7, (RLref (VSmart Shared Animal) true),
    (RLref (VSmart Shared Dog) true), (Refers 5 (APointer (Some 8) None)).
  split; [exact classes7|]. split; [repeat constructor|].
  split; [by do 2 eexists; left|]. split; [by do 2 eexists; left|]. by vm_compute.
Qed.

Lemma dangling_value :
  exists derives polymorphic vtable r q got,
    classes_ok derives polymorphic /\ gives vtable q got /\ same_or_derived derives r q /\
    call_returns derives polymorphic vtable r q got = Some Dangling.
Proof.
  exists derives7, polymorphic7, vtable7, (RLref (VObject 1) true), (RValue (VObject 3)),
    (Fresh (AnObject 8 3)).
  split; [exact classes7|]. split; [repeat constructor|].
  split; [right; by exists 1%N, 3%N|]. by vm_compute.
Qed.

(* Animal from Dog. *)
Lemma sliced :
  exists derives polymorphic vtable r q got res,
    classes_ok derives polymorphic /\ gives vtable q got /\ same_or_derived derives r q /\
    call_returns derives polymorphic vtable r q got = Some res /\ gives vtable r res /\
    ~ preserved got res.
Proof.
  exists derives7, polymorphic7, vtable7, (RValue (VObject 1)), (RValue (VObject 3)),
    (Fresh (AnObject 8 3)), (Fresh (AnObject 8 1)).
  split; [exact classes7|]. split; [repeat constructor|].
  split; [right; by exists 1%N, 3%N|]. split; [by vm_compute|]. split; [repeat constructor|].
  intros H. inversion H as [|v v' Hs| | |]; subst. inversion Hs.
Qed.

(* virtual_ptr<Animal> from unique_virtual_ptr<Dog>. *)
Lemma orphan :
  exists derives polymorphic vtable r q o v,
    classes_ok derives polymorphic /\ gives vtable q (Fresh (APointer (Some o) v)) /\
    owns q /\ ~ owns r /\
    call_returns derives polymorphic vtable r q (Fresh (APointer (Some o) v)) =
      Some (Fresh (APointer (Some o) v)).
Proof.
  exists derives7, polymorphic7, vtable7, (RValue (VPlain Animal 0)), (RValue (VWide Unique Dog 0)),
    8, (Some 108).
  split; [exact classes7|]. split; [constructor; apply (has_wide vtable7 Unique Dog 0 (Some 8))|].
  split; [exists Unique, Dog, 0%N; by right|]. split; [by intros (? & ? & ? & [?|?])|]. by vm_compute.
Qed.

(* virtual_ptr<Animal> from Dog*, that is null. *)
Lemma undefined_example :
  gives vtable7 (RValue (VPointer Dog)) (Fresh (APointer None None)) /\
  null_pointer (RValue (VPlain Animal 0)) (RValue (VPointer Dog)) (Fresh (APointer None None)) /\
  calls7 (RValue (VPlain Animal 0)) (RValue (VPointer Dog)) (Fresh (APointer None None)) = Some Undefined.
Proof.
  split; [repeat constructor|]. split; [|by vm_compute].
  exists Animal, 0%N, None. split; [done|]. split; [by exists Dog|]. by left.
Qed.

(* shared_virtual_ptr<Animal> from std::shared_ptr<Dog>. *)
Lemma owner_example :
  gives vtable7 (RValue (VSmart Shared Dog)) (Fresh (APointer (Some 8) None)) /\
  owns (RValue (VSmart Shared Dog)) /\
  calls7 (RValue (VWide Shared Animal 0)) (RValue (VSmart Shared Dog)) (Fresh (APointer (Some 8) None)) =
    Some (Fresh (APointer (Some 8) (Some 108))) /\
  ~ reference (RValue (VWide Shared Animal 0)).
Proof.
  split; [repeat constructor|]. split; [exists Shared, Dog, 0%N; by left|]. split; [by vm_compute|].
  by intros (? & ? & [?|?]).
Qed.

Lemma compiles_examples :
  returnable derives7 polymorphic7 (RLref (VObject 1) true) (RLref (VObject 3) false) /\
  returnable derives7 polymorphic7 (RValue (VWide Unique (const Animal) 0)) (RValue (VWide Unique Dog 0)) /\
  returnable derives7 polymorphic7 (RValue (VPlain Animal 0)) (RLref (VWide Shared Dog 0) true) /\
  calls7 (RLref (VObject 3) false) (RLref (VObject 1) false) (Refers 8 (AnObject 8 1)) = None.
Proof.
  split; [by apply returnable_reference|]. split; [by apply returnable_wide|].
  split; [by apply returnable_plain with Dog; [|right; exists Shared]|by vm_compute].
Qed.

(* virtual_ptr<const Animal> from const Dog&. *)
Lemma types_example :
  gives vtable7 (RLref (VObject 3) true) (Refers 8 (AnObject 8 3)) /\
  calls7 (RValue (VPlain (const Animal) 0)) (RLref (VObject 3) true) (Refers 8 (AnObject 8 3)) =
    Some (Fresh (APointer (Some 8) (Some 108))) /\
  gives vtable7 (RValue (VPlain (const Animal) 0)) (Fresh (APointer (Some 8) (Some 108))) /\
  pointee_of (RLref (VObject 3) true) = Some (const Dog) /\
  calls7 (RValue (VPlain Animal 0)) (RLref (VObject 3) true) (Refers 8 (AnObject 8 3)) = None /\
  calls7 (RValue (VPlain Cat 0)) (RLref (VObject 3) false) (Refers 8 (AnObject 8 3)) = None.
Proof.
  split; [repeat constructor|]. split; [by vm_compute|].
  split; [constructor; apply (has_plain vtable7 (const Animal) 0 (Some 8))|]. by vm_compute.
Qed.

(* std::shared_ptr<Animal> from std::unique_ptr<Dog>&&, but not from std::unique_ptr<Dog>&. *)
Lemma unique_example :
  gives vtable7 (RRref (VSmart Unique Dog) false) (Refers 5 (APointer (Some 8) None)) /\
  unique (RRref (VSmart Unique Dog) false) /\ owns (RValue (VSmart Shared Animal)) /\
  calls7 (RValue (VSmart Shared Animal)) (RRref (VSmart Unique Dog) false)
    (Refers 5 (APointer (Some 8) None)) = Some (Fresh (APointer (Some 8) None)) /\
  calls7 (RValue (VSmart Shared Animal)) (RLref (VSmart Unique Dog) false)
    (Refers 5 (APointer (Some 8) None)) = None.
Proof.
  split; [repeat constructor|]. split; [exists Dog, 0%N; by left|].
  split; [exists Shared, Animal, 0%N; by left|]. by vm_compute.
Qed.
