(* Conversions to virtual_ptr: examples. *)
From stdpp Require Import base list numbers.
From Verif Require Import Base Registry ModelArguments ModelConversions SpecConversions.

(* Animal (1), polymorphic, with Cat (2) and Dog (3); NonPolymorphic (4);
   struct Item {} (5) and struct Gadget : Item { virtual ~Gadget(); } (6). *)
Definition derives7 (d c : N) : bool :=
  (d =? c)%N || ((c =? 1)%N && ((d =? 2)%N || (d =? 3)%N)) || ((c =? 5)%N && (d =? 6)%N).
Definition polymorphic7 (r : N) (t : vtype) : bool :=
  match t with VObject c => (c =? 1)%N || (c =? 2)%N || (c =? 3)%N || (c =? 6)%N | _ => false end.

Lemma classes7 : classes_ok derives7 polymorphic7.
Proof.
  unfold classes_ok, is_polymorphic, derives7, polymorphic7. split.
  - intros c. by rewrite N.eqb_refl.
  - intros r d c. rewrite !orb_true_iff, !andb_true_iff, !orb_true_iff, !N.eqb_eq. naive_solver lia.
Qed.

Notation Animal := (Pointee 1 false).
Notation Cat := (Pointee 2 false).
Notation Dog := (Pointee 3 false).
Notation NonPolymorphic := (Pointee 4 false).
Notation Item := (Pointee 5 false).
Notation Gadget := (Pointee 6 false).
Definition const (p : pointee) : pointee := Pointee (pt_class p) true.

(* T&, const T&, T&& and const T&&. *)
Definition lref (t : vtype) := Expression t false true.
Definition lcref (t : vtype) := Expression t true true.
Definition rref (t : vtype) := Expression t false false.
Definition rcref (t : vtype) := Expression t true false.

Notation init7 := (initialize_from derives7 polymorphic7 false).
Notation pass7 := (initialize_from derives7 polymorphic7 true).
Notation assign7 := (assign_from derives7 polymorphic7).
Definition accepted (r : resolution) : bool := match r with Selected _ _ => true | _ => false end.
Definition construct_assign_ok (t : vtype) (x : expression) : bool :=
  accepted (init7 t x) && accepted (assign7 t x).

(* The static_asserts of the tests:
   test_virtual_ptr_value_semantics.cpp:143, 255-256, 334-346, .hpp:81-102,
   test_unique_virtual_ptr_value_semantics.cpp:42-96, 244-258, 282-295,
   test_shared_virtual_ptr_value_semantics.cpp:48-54, 167, 276-278, 370-389. *)
Definition asserts_plain : list bool :=
  [ negb (construct_assign_ok (VPlain Dog 0) (rref (VObject 3)));
    negb (construct_assign_ok (VPlain Dog 0) (lcref (VObject 3)));
    negb (construct_assign_ok (VPlain Dog 0) (rref (VPointer (const Dog))));
    negb (construct_assign_ok (VPlain NonPolymorphic 0) (lcref (VObject 4)));
    negb (construct_assign_ok (VPlain NonPolymorphic 0) (lref (VObject 4)));
    negb (construct_assign_ok (VPlain NonPolymorphic 0) (rref (VObject 4)));
    negb (construct_assign_ok (VPlain NonPolymorphic 0) (rref (VPointer (const NonPolymorphic))));
    negb (construct_assign_ok (VPlain NonPolymorphic 0) (rref (VPointer NonPolymorphic)));
    construct_assign_ok (VPlain NonPolymorphic 0) (rref (VPlain NonPolymorphic 0)) ].

Definition asserts_smart (k : ownership) : list bool :=
  [ negb (accepted (init7 (VWide k Cat 0) (rref (VSmart k Dog))));
    negb (accepted (init7 (VWide k Animal 0) (rref (VSmart k (const Animal)))));
    negb (accepted (init7 (VWide k Animal 0) (lref (VObject 1))));
    negb (accepted (init7 (VWide k Animal 0) (rref (VPointer Animal))));
    negb (accepted (init7 (VWide k Animal 0) (rref (VPlain Animal 0))));
    negb (construct_assign_ok (VWide k Dog 0) (rref (VObject 3)));
    negb (construct_assign_ok (VWide k Dog 0) (lref (VObject 3)));
    negb (construct_assign_ok (VWide k Dog 0) (rref (VPointer Dog)));
    negb (construct_assign_ok (VWide k Dog 0) (lcref (VObject 3)));
    negb (construct_assign_ok (VWide k Dog 0) (rref (VPointer (const Dog))));
    negb (accepted (assign7 (VWide k Dog 0) (rref (VObject 3))));
    negb (accepted (assign7 (VWide k Dog 0) (lcref (VObject 3))));
    negb (accepted (assign7 (VWide k Dog 0) (rref (VPointer (const Dog)))));
    negb (construct_assign_ok (VWide k NonPolymorphic 0) (lcref (VSmart k NonPolymorphic)));
    negb (construct_assign_ok (VWide k NonPolymorphic 0) (lref (VSmart k NonPolymorphic)));
    negb (construct_assign_ok (VWide k NonPolymorphic 0) (rref (VSmart k NonPolymorphic)));
    construct_assign_ok (VWide k NonPolymorphic 0) (rref (VWide k NonPolymorphic 0)) ].

Definition asserts_unique : list bool :=
  [ negb (construct_assign_ok (VWide Unique Dog 1) (lref (VSmart Unique Dog)));
    negb (construct_assign_ok (VWide Unique Dog 1) (lcref (VSmart Unique Dog)));
    negb (construct_assign_ok (VWide Unique Dog 1) (rref (VWide Unique Dog 0)));
    negb (construct_assign_ok (VWide Unique Dog 1) (lref (VWide Unique Dog 0)));
    negb (construct_assign_ok (VWide Unique Dog 1) (lcref (VWide Unique Dog 0)));
    negb (construct_assign_ok (VWide Unique Dog 1) (lcref (VWide Unique Dog 1)));
    negb (construct_assign_ok (VWide Unique Dog 1) (lref (VWide Unique Dog 1)));
    accepted (init7 (VWide Unique Animal 1) (rref (VSmart Unique Dog))) ].

Definition asserts_shared : list bool :=
  [ accepted (assign7 (VWide Shared NonPolymorphic 0) (lcref (VWide Shared NonPolymorphic 0)));
    construct_assign_ok (VWide Shared NonPolymorphic 0) (lref (VWide Shared NonPolymorphic 0)) ].

Example tests_agree :
  forallb id (asserts_plain ++ asserts_smart Shared ++ asserts_smart Unique ++ asserts_unique ++
    asserts_shared) = true.
Proof. by vm_compute. Qed.

(* A Dog to a virtual_ptr<const Animal>; a std::unique_ptr<Dog> moved to one of Animal; a
   shared_virtual_ptr<Dog> variable to a shared one and to a plain one of Animal; nullptr. *)
Lemma init_examples :
  classes_ok derives7 polymorphic7 /\
  pass7 (VPlain (const Animal) 0) (lref (VObject 3)) = Selected Address Acquire /\
  pass7 (VPlain Animal 0) (rref (VPointer Dog)) = Selected Value Acquire /\
  pass7 (VWide Unique Animal 0) (rref (VSmart Unique Dog)) = Selected MoveObject AcquireOrNull /\
  pass7 (VWide Shared Animal 0) (lref (VWide Shared Dog 0)) = Selected CopyObject CopyVptr /\
  pass7 (VPlain Animal 0) (lref (VWide Shared Dog 0)) = Selected Value CopyVptr /\
  init7 (VPlain Animal 0) (rref VNull) = Selected ToNull NullVptr /\
  pass7 (VWide Shared Animal 0) (rref (VSmart Unique Dog)) = NotViable /\
  pass7 (VWide Shared Animal 1) (lref (VWide Shared Dog 0)) = NotViable /\
  init7 (VWide Unique Dog 0) (lref (VWide Unique Dog 0)) = DeletedFunction.
Proof. split; [exact classes7|]. by vm_compute. Qed.

Lemma assign_examples :
  classes_ok derives7 polymorphic7 /\
  assign7 (VPlain Animal 0) (lref (VObject 3)) = Selected Address Acquire /\
  assign7 (VPlain Item 0) (lref (VObject 6)) = Selected Address Acquire /\
  assign7 (VWide Shared Animal 0) (lcref (VSmart Shared Dog)) = Selected CopyObject Acquire /\
  assign7 (VWide Unique Dog 0) (rref (VWide Unique Dog 0)) = Selected MoveObject ExchangeVptr /\
  assign7 (VWide Shared Animal 0) (lref (VWide Shared Dog 0)) = Selected CopyObject CopyVptr /\
  assign7 (VPlain Dog 0) (lref (VObject 1)) = NotViable.
Proof. split; [exact classes7|]. by vm_compute. Qed.

Lemma documented_examples :
  classes_ok derives7 polymorphic7 /\
  meant derives7 polymorphic7 (VPlain Animal 0) (rref (VPointer Dog)) (Points PointsTo OfObject) /\
  ~ temporary (rref (VPointer Dog)) /\ x_type (rref (VPointer Dog)) <> VNull /\
  pointer_ok polymorphic7 (VPlain Animal 0) (rref (VPointer Dog)) /\
  meant derives7 polymorphic7 (VPlain Item 0) (lref (VObject 6)) (Points PointsTo OfObject) /\
  ~ temporary (lref (VObject 6)) /\ pointer_ok polymorphic7 (VPlain Item 0) (lref (VObject 6)) /\
  meant derives7 polymorphic7 (VWide Unique Animal 0) (rref (VSmart Unique Dog)) (Points Moves OfObject) /\
  ~ temporary (rref (VSmart Unique Dog)) /\
  pointer_ok polymorphic7 (VWide Unique Animal 0) (rref (VSmart Unique Dog)).
Proof.
  unfold temporary, pointer_ok. split; [exact classes7|].
  repeat split; try (intros [? [? ?]]; discriminate); try discriminate; try naive_solver.
  all: constructor; by vm_compute.
Qed.

(* A pointer to a Gadget is documented to convert to a virtual_ptr<Item>, as the Gadget does. *)
Lemma pointer_rejected :
  exists derives polymorphic self x m,
    classes_ok derives polymorphic /\ meant derives polymorphic self x m /\
    ~ temporary x /\ x_type x <> VNull /\
    initialize_from derives polymorphic false self x = NotViable /\
    initialize_from derives polymorphic true self x = NotViable /\
    assign_from derives polymorphic self x = NotViable.
Proof.
  exists derives7, polymorphic7, (VPlain Item 0), (rref (VPointer Gadget)), (Points PointsTo OfObject).
  split; [exact classes7|]. split; [constructor; by vm_compute|].
  split; [intros [_ [c Hc]]; discriminate|]. split; [discriminate|]. by vm_compute.
Qed.

(* const Dog f(); virtual_ptr<const Dog> p = f(); *)
Lemma temporary_accepted :
  exists derives polymorphic self x,
    classes_ok derives polymorphic /\ temporary x /\
    initialize_from derives polymorphic true self x = Selected Address Acquire /\
    assign_from derives polymorphic self x = Selected Address Acquire.
Proof.
  exists derives7, polymorphic7, (VPlain (const Dog) 0), (rcref (VObject 3)).
  split; [exact classes7|]. split; [|by vm_compute]. split; [done|]. by eexists.
Qed.

(* virtual_ptr<Animal> p = make_unique_virtual<Dog>(); *)
Lemma owner_accepted :
  exists derives polymorphic self k p r,
    classes_ok derives polymorphic /\
    initialize_from derives polymorphic true self (Expression (VWide k p r) false false) =
      Selected Value CopyVptr /\
    assign_from derives polymorphic self (Expression (VWide k p r) false false) =
      Selected Value CopyVptr.
Proof.
  exists derives7, polymorphic7, (VPlain Animal 0), Unique, Dog, 0%N.
  split; [exact classes7|]. by vm_compute.
Qed.

Lemma temporary_example :
  classes_ok derives7 polymorphic7 /\ temporary (rref (VObject 3)) /\ x_const (rref (VObject 3)) = false /\
  is_polymorphic polymorphic7 0 3 /\ pass7 (VPlain Dog 0) (lref (VObject 3)) = Selected Address Acquire.
Proof. split; [exact classes7|]. by repeat split; try eexists. Qed.
