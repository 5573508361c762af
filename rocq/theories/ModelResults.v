(* The result of a call: from the overrider, through the thunk (core.hpp:2712-2728), to the caller
   of the method (core.hpp:2435-2446), of the function made by BOOST_OPENMETHOD
   (macros.hpp:75-83) or of next (macros.hpp:120-125).
   Simplified: as in ModelConversions.v; classes can be copied and are not abstract where they are
   returned by value; of the arithmetic types and their conversions only one type is modelled;
   return types have no top-level const. *)
From stdpp Require Import base list numbers.
From Verif Require Import Base Registry ModelArguments ModelConversions.

(* A return type: void, a number, or, by value, lvalue reference or rvalue reference, one of the
   types of ModelConversions.v, const if the boolean says so.  core.hpp:2715-2718. *)
Inductive rtype :=
  | RVoid
  | RNumber
  | RValue (t : vtype)
  | RLref (t : vtype) (c : bool)
  | RRref (t : vtype) (c : bool).

Global Instance rtype_eq_dec : EqDecision rtype.
Proof. solve_decision. Defined.

(* A value: a number, the contents of an object, of which [c] is the class that is seen, or a
   pointer to an object (or null), with a v-table pointer in a virtual_ptr.  core.hpp:2724. *)
Inductive value :=
  | ANumber (n : Z)
  | AnObject (o : nat) (c : N)
  | APointer (o : option nat) (vp : option nat).

(* What a function returns: nothing; a value of its own; a reference to the object or variable
   [x], that has this value; a reference to something destroyed; or the conversion is undefined
   behaviour.  core.hpp:2724. *)
Inductive result :=
  | Nothing
  | Fresh (v : value)
  | Refers (x : nat) (v : value)
  | Dangling
  | Undefined.

Section Results.
  (* The classes, as in ModelConversions.v, and the v-table pointer that is looked up for an
     object in a registry. *)
  Context (derives : N -> N -> bool) (polymorphic : N -> vtype -> bool) (vtable : N -> nat -> nat).

  (* The call of a function with this return type, as an expression ([expr.call]), core.hpp:2724. *)
  Definition call_expression (q : rtype) : option expression :=
    match q with
    | RVoid | RNumber => None
    | RValue t => Some (Expression t false false)
    | RLref t c => Some (Expression t c true)
    | RRref t c => Some (Expression t c false)
    end.

  (* A virtual_ptr made of [v] by the constructor that was selected, core.hpp:721-883, 1225-1459.
     The v-table of a null pointer cannot be acquired (core.hpp:819-820). *)
  Definition made (r : N) (o : object_use) (u : vptr_use) (v : value) : outcome value :=
    let '(p, vp) := match v with
                    | APointer p vp => (p, vp)
                    | AnObject x _ => (Some x, None)
                    | ANumber _ => (None, None)
                    end in
    match o, u, p with
    | ToNull, _, _ => Ok (APointer None None)
    | _, NullVptr, _ => Ok (APointer p None)
    | _, (CopyVptr | ExchangeVptr), _ => Ok (APointer p vp)
    | _, (Acquire | AcquireOrNull), Some x => Ok (APointer p (Some (vtable r x)))
    | _, AcquireOrNull, None => Ok (APointer None None)
    | _, Acquire, None => Undef
    end.

  (* Copy-initialization ([dcl.init]) of an object of type [t] from the expression [x], that has the
     value [v]: core.hpp:2724, with a return type that is not a reference.  None: ill-formed.  The
     constructors of virtual_ptr are those of core.hpp:721-883, 1225-1459. *)
  Definition copy_initialize (t : vtype) (x : expression) (v : value) : option (outcome value) :=
    match t with
    | VObject c =>
        match x_type x, v with
        | VObject d, AnObject o _ => if derives d c then Some (Ok (AnObject o c)) else None
        | _, _ => None
        end
    | VPointer p =>
        match x_type x, v with
        | VPointer p', APointer o _ =>
            if converts derives p' p then Some (Ok (APointer o None)) else None
        | VNull, _ => Some (Ok (APointer None None))
        | _, _ => None
        end
    | VSmart k p =>
        if smart_from derives true k p (x_const x) (x_lvalue x) (Deduced (x_type x) false false)
        then match x_type x, v with
             | VNull, _ => Some (Ok (APointer None None))
             | _, APointer o _ => Some (Ok (APointer o None))
             | _, _ => None
             end
        else None
    | VPlain _ r | VWide _ _ r =>
        match initialize_from derives polymorphic true t x with
        | Selected o u => Some (made r o u v)
        | _ => None
        end
    | VNull => match x_type x with VNull => Some (Ok (APointer None None)) | _ => None end
    end.

  (* [t] is the type of the expression, or a base class of it ([dcl.init.ref]: reference-related),
     core.hpp:2724. *)
  Definition reference_related (t : vtype) (x : expression) : bool :=
    bool_decide (t = x_type x) ||
    match t, x_type x with VObject c, VObject d => derives d c | _, _ => false end.

  (* A reference seen as one to a base class, core.hpp:2724. *)
  Definition seen_as (t : vtype) (v : value) : value :=
    match t, v with VObject c, AnObject o _ => AnObject o c | _, _ => v end.

  (* Binding the reference that a function returns ([dcl.init.ref], [class.temporary]): directly to
     what the expression refers to, or to a temporary, which does not survive the return.
     core.hpp:2724. *)
  Definition bind (t : vtype) (c rvalue : bool) (x : expression) (got : result) : option result :=
    let direct :=
      match got with
      | Refers y v => Some (Refers y (seen_as t v))
      | Fresh _ | Dangling => Some Dangling
      | Nothing | Undefined => None
      end in
    let temporary :=
      match got with
      | Fresh v | Refers _ v =>
          o ← copy_initialize t x v;
          Some (match o with Ok _ => Dangling | _ => Undefined end)
      | Dangling => Some Undefined
      | Nothing | Undefined => None
      end in
    if reference_related t x then
      if x_const x && negb c then None
      else if rvalue then (if x_lvalue x then None else direct)
      else if x_lvalue x || c then direct else None
    else if rvalue || c then temporary else None.

  (* return f(...), where f returns a [q], in a function that returns a [r]; [got] is what f
     returned.  If the types are the same, the result is the very same: a temporary is not copied
     ([dcl.init]).  core.hpp:2444-2445, 2724-2727, macros.hpp:81-82, 123-124.  None: ill-formed. *)
  Definition returns (r q : rtype) (got : result) : option result :=
    if bool_decide (r = q) then Some got
    else
      x ← call_expression q;
      match r with
      | RVoid | RNumber => None
      | RValue t =>
          match got with
          | Fresh v | Refers _ v =>
              o ← copy_initialize t x v;
              Some (match o with Ok v' => Fresh v' | _ => Undefined end)
          | Dangling => Some Undefined
          | Nothing | Undefined => None
          end
      | RLref t c => bind t c false x got
      | RRref t c => bind t c true x got
      end.

  (* A call of a method that returns a [r], which enters an overrider that returns a [q]: the
     thunk, then operator(), then the forwarding function, or next.  core.hpp:2712-2728, 2435-2446,
     macros.hpp:75-83, 120-125. *)
  Definition call_returns (r q : rtype) (got : result) : option result :=
    res ← returns r q got; res' ← returns r r res; returns r r res'.
End Results.
