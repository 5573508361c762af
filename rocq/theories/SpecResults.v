(* Specification vocabulary for the results of calls. *)
From stdpp Require Import base list numbers.
From Verif Require Import Base Registry ModelArguments ModelConversions SpecConversions ModelResults.

(* The type that a reference or a value is of. *)
Definition type_of (r : rtype) : option vtype :=
  match r with RValue t | RLref t _ | RRref t _ => Some t | _ => None end.

(* A reference. *)
Definition reference (r : rtype) : Prop := exists t c, r = RLref t c \/ r = RRref t c.

(* A value of this type: an object of the class, or a pointer; a virtual_ptr has the v-table
   pointer of its object, in its registry. *)
Inductive has_type (vtable : N -> nat -> nat) : vtype -> value -> Prop :=
  | has_object c o : has_type vtable (VObject c) (AnObject o c)
  | has_pointer p o : has_type vtable (VPointer p) (APointer o None)
  | has_smart k p o : has_type vtable (VSmart k p) (APointer o None)
  | has_plain p r o : has_type vtable (VPlain p r) (APointer o (vtable r <$> o))
  | has_wide k p r o : has_type vtable (VWide k p r) (APointer o (vtable r <$> o))
  | has_null : has_type vtable VNull (APointer None None).

(* The function kept its promise: its result is of its return type, and a reference refers to
   something that exists. *)
Inductive gives (vtable : N -> nat -> nat) : rtype -> result -> Prop :=
  | gives_nothing : gives vtable RVoid Nothing
  | gives_number n : gives vtable RNumber (Fresh (ANumber n))
  | gives_value t v : has_type vtable t v -> gives vtable (RValue t) (Fresh v)
  | gives_lref t c x v : has_type vtable t v -> gives vtable (RLref t c) (Refers x v)
  | gives_rref t c x v : has_type vtable t v -> gives vtable (RRref t c) (Refers x v).

(* The same number, a copy of the whole object, or a pointer to the same object. *)
Inductive same_value : value -> value -> Prop :=
  | same_number n : same_value (ANumber n) (ANumber n)
  | same_content o c : same_value (AnObject o c) (AnObject o c)
  | same_pointer o u u' : same_value (APointer o u) (APointer o u').

(* A reference to the same object, maybe seen as one of a base class, or to the same pointer. *)
Inductive same_referent : value -> value -> Prop :=
  | same_object o c c' : same_referent (AnObject o c) (AnObject o c')
  | same_variable v : same_referent v v.

(* The caller gets what the overrider returned; or a virtual_ptr to the object that it returned a
   reference to. *)
Inductive preserved : result -> result -> Prop :=
  | preserved_nothing : preserved Nothing Nothing
  | preserved_value v v' : same_value v v' -> preserved (Fresh v) (Fresh v')
  | preserved_copy x v v' : same_value v v' -> preserved (Refers x v) (Fresh v')
  | preserved_pointer x o c u : preserved (Refers x (AnObject o c)) (Fresh (APointer (Some o) u))
  | preserved_reference x v v' : same_referent v v' -> preserved (Refers x v) (Refers x v').

(* The type is the same, or a derived class. *)
Definition same_or_derived (derives : N -> N -> bool) (r q : rtype) : Prop :=
  type_of r = type_of q \/
  exists c d, type_of r = Some (VObject c) /\ type_of q = Some (VObject d) /\ derives d c = true.

(* The overrider returns a reference too, to the same type or to a derived class. *)
Definition covariant (derives : N -> N -> bool) (r q : rtype) : Prop :=
  reference q /\ same_or_derived derives r q.

(* The method returns an object by value, and the overrider an object of another class. *)
Definition slices (r q : rtype) : Prop :=
  exists c d, r = RValue (VObject c) /\ type_of q = Some (VObject d) /\ c <> d.

(* The overrider returns a null pointer, where the method returns a virtual_ptr. *)
Definition null_pointer (r q : rtype) (got : result) : Prop :=
  exists p r' u, type_of r = Some (VPlain p r') /\ (exists p', type_of q = Some (VPointer p')) /\
    (got = Fresh (APointer None u) \/ exists x, got = Refers x (APointer None u)).

(* A pointer that owns its object, returned by value. *)
Definition owns (r : rtype) : Prop :=
  exists k p n, r = RValue (VSmart k p) \/ r = RValue (VWide k p n).

(* Where the result of the overrider can be returned by the method, from the rules of C++ for
   covariant return types, and those for the conversions of smart pointers and virtual_ptrs.
   Only a temporary std::unique_ptr is moved from. *)
Inductive returnable (derives : N -> N -> bool) (polymorphic : N -> vtype -> bool) : rtype -> rtype -> Prop :=
  | returnable_same r : returnable derives polymorphic r r
  | returnable_reference c d b b' : derives d c = true -> (b' = true -> b = true) ->
      returnable derives polymorphic (RLref (VObject c) b) (RLref (VObject d) b')
  | returnable_move c d b b' : derives d c = true -> (b' = true -> b = true) ->
      returnable derives polymorphic (RRref (VObject c) b) (RRref (VObject d) b')
  | returnable_pointer p p' q : fits derives p' p -> type_of q = Some (VPointer p') ->
      returnable derives polymorphic (RValue (VPointer p)) q
  | returnable_smart k p p' : fits derives p' p ->
      returnable derives polymorphic (RValue (VSmart k p)) (RValue (VSmart k p'))
  | returnable_plain p p' r q : fits derives p' p ->
      type_of q = Some (VPlain p' r) \/ (exists k, type_of q = Some (VWide k p' r)) ->
      returnable derives polymorphic (RValue (VPlain p r)) q
  | returnable_wide k p p' r : fits derives p' p ->
      returnable derives polymorphic (RValue (VWide k p r)) (RValue (VWide k p' r))
  | returnable_acquired k p p' r : fits derives p' p -> is_polymorphic polymorphic r (pt_class p') ->
      returnable derives polymorphic (RValue (VWide k p r)) (RValue (VSmart k p')).

(* The class of the object that a result is, refers to or points to, and whether the object is
   const. *)
Definition pointee_of (r : rtype) : option pointee :=
  match r with
  | RValue (VObject c) => Some (Pointee c false)
  | RLref (VObject c) b | RRref (VObject c) b => Some (Pointee c b)
  | RValue t | RLref t _ | RRref t _ =>
      match t with
      | VPointer p | VSmart _ p | VPlain p _ | VWide _ p _ => Some p
      | VObject _ | VNull => None
      end
  | RVoid | RNumber => None
  end.

(* A reference to const. *)
Definition const_reference (r : rtype) : Prop := exists t, r = RLref t true \/ r = RRref t true.

(* The registry of a virtual_ptr. *)
Definition registry_of (r : rtype) : option N :=
  match type_of r with Some (VPlain _ n) | Some (VWide _ _ n) => Some n | _ => None end.

(* The overrider returns a std::unique_ptr, by itself or in a virtual_ptr. *)
Definition unique (r : rtype) : Prop :=
  exists p n, type_of r = Some (VSmart Unique p) \/ type_of r = Some (VWide Unique p n).
