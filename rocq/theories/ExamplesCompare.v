(* Comparison of virtual_ptrs: examples. *)
From stdpp Require Import base list numbers.
From Verif Require Import Base Registry Spec ModelClasses ModelHash ModelWorld ModelCall SpecCall Decide
  ModelVirtualPtr SpecVirtualPtr ExamplesModel ExamplesDispatch ExamplesVptr ExamplesVirtualPtr
  ModelArguments ModelConversions SpecConversions ExamplesConversions
  ModelCasts SpecCasts ProofCasts ExamplesCasts ModelCompare SpecCompare ProofCompare.

(* Object 0 is a Chimera (4), object 1 a Dog (2), object 2 a Cat (3); Animal (1) is a virtual base. *)
Definition class_of (o : nat) : N := match o with 0 => 4%N | 1 => 2%N | _ => 3%N end.

(* virtual_ptr<Animal> and virtual_ptr<Cat> to object 2, virtual_ptr<Animal> and
   virtual_ptr<intrusive_ptr<Dog>> to the Chimera, null ones. *)
Definition animal_cat := Compared KPlain 1 0 (Some (2, [1]%N)).
Definition cat_cat := Compared KPlain 3 0 (Some (2, [3]%N)).
Definition animal_chimera := Compared KPlain 1 0 (Some (0, [1]%N)).
Definition dog_chimera := Compared (KSmart Intrusive) 2 0 (Some (0, [4; 2]%N)).
Definition null_cat := Compared KPlain 3 0 None.
Definition null_animal := Compared KPlain 1 0 None.
Definition shared_dog := Compared (KSmart Shared) 2 0 (Some (1, [2]%N)).

Definition wellb (H : hierarchy) (cls : nat -> N) (v : compared) : bool :=
  match vc_place v with
  | Some (o, s) => bool_decide (conversion H (cls o) (vc_class v) = Some s)
  | None => true
  end.

Lemma wellb_spec H cls v : hierarchy_ok H -> wellb H cls v = true -> points_well H cls v.
Proof.
  intros HO. unfold wellb, points_well. intros E o s Hp. rewrite Hp in E.
  apply conversion_spec; [exact HO|]. apply bool_decide_eq_true in E. exact E.
Qed.

Lemma compare_example :
  hierarchy_ok virtually /\
  Forall (points_well virtually class_of)
    [animal_cat; cat_cat; animal_chimera; dog_chimera; null_cat; null_animal; shared_dog] /\
  equal virtually animal_cat cat_cat = Some true /\
  equal virtually animal_cat animal_chimera = Some false /\
  equal virtually dog_chimera animal_chimera = Some true /\
  equal virtually null_animal null_cat = Some true /\ equal virtually cat_cat null_animal = Some false /\
  unequal virtually animal_cat cat_cat = Some false /\ unequal virtually cat_cat null_animal = Some true /\
  equal virtually shared_dog animal_chimera = None /\ equal virtually dog_chimera cat_cat = None.
Proof.
  split; [exact virtually_ok|]. split.
  - repeat (apply Forall_cons_2; [apply wellb_spec; [exact virtually_ok|by_compute]|]).
    constructor.
  - by vm_compute.
Qed.

(* A Chimera that is two animals: two virtual_ptr<Animal> to it may be unequal. *)
Lemma repeated_refuted :
  exists H cls l r o,
    hierarchy_ok H /\ object_of l = Some o /\ object_of r = Some o /\ vc_class l = vc_class r /\
    (forall v s, v = l \/ v = r -> vc_place v = Some (o, s) ->
       contains H (cls o) s /\ list.last s = Some (vc_class v)) /\
    equal H l r = Some false.
Proof.
  exists repeatedly, class_of, (Compared KPlain 1 0 (Some (0, [4; 2; 1]%N))),
    (Compared KPlain 1 0 (Some (0, [4; 3; 1]%N))), 0.
  split; [exact repeatedly_ok|]. do 3 (split; [reflexivity|]). split; [|by vm_compute].
  intros v s [-> | ->] [= <-]; (split; [|reflexivity]);
    apply (subobjects_spec _ repeatedly_ok), (bool_decide_eq_true_1 _); by vm_compute.
Qed.

(* A virtual_ptr<Dog> and a shared_virtual_ptr<Dog> to the same object. *)
Lemma kinds_refuted :
  exists H cls l r,
    hierarchy_ok H /\ points_well H cls l /\ points_well H cls r /\ vc_class l = vc_class r /\
    vc_registry l = vc_registry r /\ same_object l r /\ equal H l r = None.
Proof.
  exists virtually, class_of, shared_dog, (Compared KPlain 2 0 (Some (1, [2]%N))).
  split; [exact virtually_ok|].
  do 2 (split; [apply wellb_spec; [exact virtually_ok|by_compute]|]).
  by repeat split.
Qed.

Lemma equal_arguments_example :
  hierarchy_ok virtually /\ program_ok cf0 env0 R0 /\ initialized_by cf0 run0 false R0 w0 /\
  inplace_ok id R0 w0 objs0 /\ reaches cf0 id R0 w0 objs0 (fun op => casts_away op = false) s0 /\
  (exists b, vs_vars s0 2 = VVar (Some 2) b) /\ (exists b, vs_vars s0 11 = VVar (Some 2) b) /\
  known R0 (ob_type (objs0 2)) /\
  object_of animal_cat = Some 2 /\ object_of cat_cat = Some 2 /\
  points_well virtually class_of animal_cat /\ points_well virtually class_of cat_cat /\
  equal virtually animal_cat cat_cat = Some true.
Proof.
  split; [exact virtually_ok|]. split; [apply R0_program|]. split; [apply R0_initialized|].
  split; [apply objs0_inplace|]. split; [apply s0_reaches|].
  split; [eexists; by vm_compute|]. split; [eexists; by vm_compute|].
  split; [unfold known; apply (bool_decide_eq_true_1 _); by vm_compute|]. do 2 (split; [reflexivity|]).
  do 2 (split; [apply wellb_spec; [exact virtually_ok|by_compute]|]). by vm_compute.
Qed.

(* ---- virtual_ptr p(x) ---- *)
Notation guess7 := (deduce_class derives7 polymorphic7 0).

(* Dog dog; const Dog fido; std::shared_ptr<Dog> s; and so on. *)
Lemma deduced_example :
  classes_ok derives7 polymorphic7 /\
  guess7 (lref (VObject 3)) = Some (VPlain Dog 0, Selected Address Acquire) /\
  guess7 (lcref (VObject 3)) = Some (VPlain (const Dog) 0, Selected Address Acquire) /\
  guess7 (lref (VSmart Shared Dog)) = Some (VWide Shared Dog 0, Selected CopyObject AcquireOrNull) /\
  guess7 (rref (VSmart Unique Dog)) = Some (VWide Unique Dog 0, Selected MoveObject AcquireOrNull) /\
  guess7 (lref (VPlain Dog 1)) = Some (VPlain Dog 1, Selected Value CopyVptr) /\
  guess7 (lcref (VWide Shared Dog 1)) = Some (VWide Shared Dog 1, Selected CopyObject CopyVptr) /\
  guess7 (lref (VSmart Unique Dog)) = Some (VWide Unique Dog 0, NotViable) /\
  guess7 (rref (VObject 3)) = Some (VPlain Dog 0, NotViable) /\
  guess7 (rref (VPointer Dog)) = None /\ guess7 (rref VNull) = None.
Proof. split; [exact classes7|]. by vm_compute. Qed.

Lemma meant_deduced_example :
  classes_ok derives7 polymorphic7 /\ suggests 0 (lref (VSmart Shared Dog)) (VWide Shared Dog 0) /\
  meant derives7 polymorphic7 (VWide Shared Dog 0) (lref (VSmart Shared Dog)) (Points Copies OfObject) /\
  ~ temporary (lref (VSmart Shared Dog)) /\ ~ const_smart (lref (VSmart Shared Dog)) /\
  suggests 0 (lcref (VObject 3)) (VPlain (const Dog) 0) /\
  meant derives7 polymorphic7 (VPlain (const Dog) 0) (lcref (VObject 3)) (Points PointsTo OfObject) /\
  ~ temporary (lcref (VObject 3)) /\ ~ const_smart (lcref (VObject 3)).
Proof.
  split; [exact classes7|]. split; [constructor|]. split; [apply meant_copy; [by vm_compute|by vm_compute|discriminate|by right]|].
  split; [intros [? _]; discriminate|]. split; [intros [? _]; discriminate|].
  split; [constructor|]. split; [constructor; by vm_compute|].
  split; [intros [? _]; discriminate|]. intros [_ (k & p & E)]; discriminate.
Qed.

(* void f(const std::shared_ptr<Dog>& s) { virtual_ptr p(s); } *)
Lemma const_smart_refuted :
  exists derives polymorphic r x t m,
    classes_ok derives polymorphic /\ suggests r x t /\ meant derives polymorphic t x m /\ ~ temporary x /\
    (exists o v, initialize_from derives polymorphic true t x = Selected o v /\ carries_out o v m) /\
    deduce_class derives polymorphic r x = None.
Proof.
  exists derives7, polymorphic7, 0%N, (lcref (VSmart Shared Dog)), (VWide Shared Dog 0), (Points Copies OfObject).
  split; [exact classes7|]. split; [constructor|].
  split; [apply meant_copy; [by vm_compute|by vm_compute|discriminate|by right]|].
  split; [intros [? _]; discriminate|]. split; [|by vm_compute].
  eexists _, _. split; [by vm_compute|]. constructor. by right.
Qed.
