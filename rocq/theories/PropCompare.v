(* Properties C61 and C62: comparison of virtual_ptrs, and virtual_ptr p(x). *)
From stdpp Require Import base list numbers.
From Verif Require Import Base Registry Spec ModelClasses ModelHash ModelWorld ModelCall SpecCall
  ModelVirtualPtr SpecVirtualPtr ExamplesModel ExamplesDispatch ExamplesVptr ExamplesVirtualPtr
  ModelArguments ModelConversions SpecConversions ExamplesConversions
  ModelCasts SpecCasts ExamplesCasts ModelCompare SpecCompare ProofCompare ExamplesCompare.

(* C61.  Two virtual_ptrs are equal if and only if they point to the same object or both are
   null, whatever their classes. *)
Theorem C61_equal :
  forall H cls l r b,
  hierarchy_ok H -> points_well H cls l -> points_well H cls r ->
  equal H l r = Some b -> (b = true <-> same_object l r).
Proof. exact (fun H cls l r b HO => equal_same H HO cls l r b). Qed.
Print Assumptions C61_equal.

Theorem C61_unequal :
  forall H cls l r b,
  hierarchy_ok H -> points_well H cls l -> points_well H cls r ->
  unequal H l r = Some b -> (b = true <-> ~ same_object l r).
Proof. exact (fun H cls l r b HO => unequal_same H HO cls l r b). Qed.
Print Assumptions C61_unequal.

Example C61_example :
  hierarchy_ok virtually /\
  Forall (points_well virtually class_of)
    [animal_cat; cat_cat; animal_chimera; dog_chimera; null_cat; null_animal; shared_dog] /\
  equal virtually animal_cat cat_cat = Some true /\
  equal virtually animal_cat animal_chimera = Some false /\
  equal virtually dog_chimera animal_chimera = Some true /\
  equal virtually null_animal null_cat = Some true /\ equal virtually cat_cat null_animal = Some false /\
  unequal virtually animal_cat cat_cat = Some false /\ unequal virtually cat_cat null_animal = Some true /\
  equal virtually shared_dog animal_chimera = None /\ equal virtually dog_chimera cat_cat = None.
Proof. exact compare_example. Qed.

(* Which comparisons compile. *)
Theorem C61_compiles :
  forall H l r, hierarchy_ok H ->
  (is_Some (equal H l r) <->
     vc_registry l = vc_registry r /\ kinds_match (vc_kind l) (vc_kind r) /\ related H (vc_class l) (vc_class r)) /\
  (is_Some (unequal H l r) <-> is_Some (equal H l r)).
Proof. exact (fun H l r HO => equal_compiles H HO l r). Qed.
Print Assumptions C61_compiles.

(* Two that are equal and not null are the same argument for every method. *)
Theorem C61_arguments :
  forall H cf X n2216 R w objs cls P s x y px bx py by_ l r,
  hierarchy_ok H ->
  program_ok cf (r_env X) R -> initialized_by cf X n2216 R w -> inplace_ok (e_ti (r_env X)) R w objs ->
  reaches cf (e_ti (r_env X)) R w objs P s ->
  vs_vars s x = VVar (Some px) bx -> vs_vars s y = VVar py by_ ->
  known R (ob_type (objs px)) ->
  object_of l = Some px -> object_of r = py -> points_well H cls l -> points_well H cls r ->
  equal H l r = Some true ->
  exists a, var_arg w objs s x = Ok a /\ var_arg w objs s y = Ok a.
Proof. exact equal_arguments. Qed.
Print Assumptions C61_arguments.

Example C61_arguments_example :
  hierarchy_ok virtually /\ program_ok cf0 env0 R0 /\ initialized_by cf0 run0 false R0 w0 /\
  inplace_ok id R0 w0 objs0 /\ reaches cf0 id R0 w0 objs0 (fun op => casts_away op = false) s0 /\
  (exists b, vs_vars s0 2 = VVar (Some 2) b) /\ (exists b, vs_vars s0 11 = VVar (Some 2) b) /\
  known R0 (ob_type (objs0 2)) /\
  object_of animal_cat = Some 2 /\ object_of cat_cat = Some 2 /\
  points_well virtually class_of animal_cat /\ points_well virtually class_of cat_cat /\
  equal virtually animal_cat cat_cat = Some true.
Proof. exact equal_arguments_example. Qed.

(* Not if the class is a base of the object more than once. *)
Theorem C61_repeated_refuted :
  exists H cls l r o,
    hierarchy_ok H /\ object_of l = Some o /\ object_of r = Some o /\ vc_class l = vc_class r /\
    (forall v s, v = l \/ v = r -> vc_place v = Some (o, s) ->
       contains H (cls o) s /\ list.last s = Some (vc_class v)) /\
    equal H l r = Some false.
Proof. exact repeated_refuted. Qed.
Print Assumptions C61_repeated_refuted.

(* A plain virtual_ptr and one with a std::shared_ptr, to one object, cannot be compared. *)
Theorem C61_kinds_refuted :
  exists H cls l r,
    hierarchy_ok H /\ points_well H cls l /\ points_well H cls r /\ vc_class l = vc_class r /\
    vc_registry l = vc_registry r /\ same_object l r /\ equal H l r = None.
Proof. exact kinds_refuted. Qed.
Print Assumptions C61_kinds_refuted.

(* C62.  If virtual_ptr p(x) compiles, p has the type that x suggests, and what its constructor
   does is what is documented for that type. *)
Theorem C62_deduced :
  forall derives polymorphic r x t o v,
  classes_ok derives polymorphic ->
  deduce_class derives polymorphic r x = Some (t, Selected o v) ->
  suggests r x t /\ exists m, carries_out o v m /\ meant derives polymorphic t x m.
Proof. exact deduced_meant. Qed.
Print Assumptions C62_deduced.

Example C62_deduced_example :
  classes_ok derives7 polymorphic7 /\
  guess7 (lref (VObject 3)) = Some (VPlain Dog 0, Selected Address Acquire) /\
  guess7 (lcref (VObject 3)) = Some (VPlain (const Dog) 0, Selected Address Acquire) /\
  guess7 (lref (VSmart Shared Dog)) = Some (VWide Shared Dog 0, Selected CopyObject AcquireOrNull) /\
  guess7 (rref (VSmart Unique Dog)) = Some (VWide Unique Dog 0, Selected MoveObject AcquireOrNull) /\
  guess7 (lref (VPlain Dog 1)) = Some (VPlain Dog 1, Selected Value CopyVptr) /\
  guess7 (lcref (VWide Shared Dog 1)) = Some (VWide Shared Dog 1, Selected CopyObject CopyVptr) /\
  guess7 (lref (VSmart Unique Dog)) = Some (VWide Unique Dog 0, NotViable) /\
  guess7 (rref (VObject 3)) = Some (VPlain Dog 0, NotViable) /\
  guess7 (rref (VPointer Dog)) = None /\ guess7 (rref VNull) = None.
Proof. exact deduced_example. Qed.

(* And it compiles if a virtual_ptr of that type can be made of x - unless x is a smart pointer
   that is const. *)
Theorem C62_compiles_partial :
  forall derives polymorphic r x t m,
  classes_ok derives polymorphic -> suggests r x t -> meant derives polymorphic t x m ->
  (temporary x -> x_const x = true) -> ~ const_smart x ->
  exists o v, deduce_class derives polymorphic r x = Some (t, Selected o v) /\ carries_out o v m.
Proof. exact meant_deduced. Qed.
Print Assumptions C62_compiles_partial.

Example C62_compiles_example :
  classes_ok derives7 polymorphic7 /\ suggests 0 (lref (VSmart Shared Dog)) (VWide Shared Dog 0) /\
  meant derives7 polymorphic7 (VWide Shared Dog 0) (lref (VSmart Shared Dog)) (Points Copies OfObject) /\
  ~ temporary (lref (VSmart Shared Dog)) /\ ~ const_smart (lref (VSmart Shared Dog)) /\
  suggests 0 (lcref (VObject 3)) (VPlain (const Dog) 0) /\
  meant derives7 polymorphic7 (VPlain (const Dog) 0) (lcref (VObject 3)) (Points PointsTo OfObject) /\
  ~ temporary (lcref (VObject 3)) /\ ~ const_smart (lcref (VObject 3)).
Proof. exact meant_deduced_example. Qed.

Theorem C62_compiles_refuted :
  exists derives polymorphic r x t m,
    classes_ok derives polymorphic /\ suggests r x t /\ meant derives polymorphic t x m /\ ~ temporary x /\
    (exists o v, initialize_from derives polymorphic true t x = Selected o v /\ carries_out o v m) /\
    deduce_class derives polymorphic r x = None.
Proof. exact const_smart_refuted. Qed.
Print Assumptions C62_compiles_refuted.
