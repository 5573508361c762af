(* Comparison of virtual_ptrs, core.hpp:1810-1845, and deduction of the class of a virtual_ptr
   from what it is made of, core.hpp:1788-1804.
   Simplified: as in ModelCasts.v and ModelConversions.v; const has no part in comparisons, for
   the pointers are converted to pointers to const as need be. *)
From stdpp Require Import base list numbers.
From Verif Require Import Base Registry ModelArguments ModelConversions ModelCasts.

(* ------------------------------------------------------------------------- *)
(* operator== and operator!= *)

(* What pointer() returns: a plain pointer, or a smart one.  core.hpp:1101-1103, 1724-1726. *)
Inductive pointer_kind := KPlain | KSmart (k : ownership).

Global Instance pointer_kind_eq_dec : EqDecision pointer_kind.
Proof. solve_decision. Defined.

(* Where a pointer points to: the object, and the part of it; None: null.  core.hpp:1101-1103,
   1724-1726. *)
Notation place := (option (nat * subobject)).

(* A virtual_ptr: the kind of its pointer, element_type, its registry, and where it points to.
   core.hpp:665-693, 1152-1186. *)
Record compared := Compared {
  vc_kind : pointer_kind;
  vc_class : N;
  vc_registry : N;
  vc_place : place
}.

Section Compare.
  Context (H : hierarchy).

  (* Conversion of a pointer to class d to a pointer to class b ([conv.ptr]), for
     core.hpp:1826. *)
  Definition converted_place (d b : N) (p : place) : option place :=
    t ← conversion H d b; Some ('(o, s) ← p; Some (o, compose s t)).

  (* a == b for plain pointers ([expr.eq], [expr.type]): one is converted to the type of the
     other; ill-formed if neither class is a base of the other, or it is an ambiguous one.
     core.hpp:1826. *)
  Definition equal_pointers (c : N) (p : place) (d : N) (q : place) : option bool :=
    match converted_place c d p with
    | Some p' => Some (bool_decide (p' = q))
    | None =>
        match converted_place d c q with
        | Some q' => Some (bool_decide (p = q'))
        | None => None
        end
    end.

  (* The operator== that there are for these pointers: those of the smart pointers compare
     what get() returns; boost::intrusive_ptr also has them for a plain pointer on either side.
     core.hpp:1826. *)
  Definition comparable (a b : pointer_kind) : bool :=
    match a, b with
    | KPlain, KPlain => true
    | KSmart k, KSmart k' => bool_decide (k = k')
    | KPlain, KSmart k | KSmart k, KPlain => bool_decide (k = Intrusive)
    end.

  (* operator==, core.hpp:1822-1827.  None: left == right does not compile; both have the same
     Registry. *)
  Definition equal (l r : compared) : option bool :=
    if bool_decide (vc_registry l = vc_registry r) && comparable (vc_kind l) (vc_kind r)
    then equal_pointers (vc_class l) (vc_place l) (vc_class r) (vc_place r)
    else None.

  (* operator!=, core.hpp:1840-1845. *)
  Definition unequal (l r : compared) : option bool := b ← equal l r; Some (negb b).
End Compare.

(* ------------------------------------------------------------------------- *)
(* virtual_ptr p(x) *)

(* The deduction guides, core.hpp:1793-1795 and 1802-1804, and the copy deduction candidate
   ([over.match.class.deduct]), for the primary template (core.hpp:665-666) and its
   specialization.  The other constructors do not allow Class to be deduced, except copy and
   move, which are no better than the copy deduction candidate and give the same. *)
Inductive guide := GLvalue | GForward | GCopy.

(* What the guide deduces: the template argument of virtual_ptr, or a virtual_ptr; and its rank:
   first the conversion ([over.ics.rank], as in deduce), then the most specialized
   ([temp.func.order]): virtual_ptr<...>, then Class&, then Class&&.  core.hpp:1793-1804. *)
Definition guided (g : guide) (x : expression) : option ((deduced + vtype) * nat) :=
  match g with
  | GLvalue =>
      if x_lvalue x || x_const x
      then Some (inl (Deduced (x_type x) (x_const x) false), (if x_lvalue x then 0 else 6) + 1)
      else None
  | GForward => Some (inl (Deduced (x_type x) (x_const x) (x_lvalue x)), 2)
  | GCopy =>
      match x_type x with
      | VPlain _ _ | VWide _ _ _ => Some (inr (x_type x), 0)
      | _ => None
      end
  end.

(* The best of the guides, core.hpp:1793-1804. *)
Definition best_guide (l : list ((deduced + vtype) * nat)) : option (deduced + vtype) :=
  match List.filter (fun c => forallb (fun c' => c.2 <=? c'.2)%nat l) l with
  | [c] => Some c.1
  | _ => None
  end.

(* virtual_ptr<Class, r> that can be initialized at all: core.hpp:665-666, 1152-1156.  Class is
   not a reference (there is no Class* then, core.hpp:681).  The primary template can be
   instantiated with a smart pointer that is const, a pointer and so on (virtual_traits is not
   specialized for a const smart pointer, so it is not one for core.hpp:426-434), but IsPolymorphic
   is false for them: none of its constructors accepts the expression. *)
Definition named (r : N) (d : deduced + vtype) : option vtype :=
  match d with
  | inr t => Some t
  | inl d =>
      if d_ref d then None
      else match d_type d with
           | VObject c => Some (VPlain (Pointee c (d_const d)) r)
           | VSmart k p => if d_const d then None else Some (VWide k p r)
           | _ => None
           end
  end.

(* virtual_ptr p(x), with the default registry [r]: the type of p, and the constructor that is
   selected (core.hpp:1788-1804).  None: there is no such type. *)
Definition deduce_class (derives : N -> N -> bool) (polymorphic : N -> vtype -> bool) (r : N)
    (x : expression) : option (vtype * resolution) :=
  d ← best_guide (omap (fun g => guided g x) [GLvalue; GForward; GCopy]);
  t ← named r d;
  Some (t, initialize_from derives polymorphic false t x).
