(* Which constructor or assignment of virtual_ptr an expression selects, core.hpp:434-489,
   665-1075, 1151-1698: template argument deduction, the enable_if conditions, and overload
   resolution.  Simplified: classes have no member type element_type and are not smart pointers
   or virtual_ptrs, no class has a conversion function, and there is no volatile; smart pointers
   have their default deleter. *)
From stdpp Require Import base list numbers.
From Verif Require Import Base Registry ModelArguments.

(* A class, and whether const: [Class] of core.hpp:665. *)
Record pointee := Pointee { pt_class : N; pt_const : bool }.

Global Instance pointee_eq_dec : EqDecision pointee.
Proof. solve_decision. Defined.

(* The types of the expressions that are given to the functions of core.hpp:721-1075 and
   1225-1698, without const. *)
Inductive vtype :=
  | VObject (c : N)                                      (* a class *)
  | VPointer (p : pointee)                               (* p* *)
  | VSmart (k : ownership) (p : pointee)                 (* std::shared_ptr<p>, ... *)
  | VPlain (p : pointee) (r : N)                         (* virtual_ptr<p, r>, core.hpp:665-666 *)
  | VWide (k : ownership) (p : pointee) (r : N)          (* virtual_ptr<k<p>, r>, core.hpp:1152-1156 *)
  | VNull.                                               (* std::nullptr_t *)

Global Instance vtype_eq_dec : EqDecision vtype.
Proof. solve_decision. Defined.

(* An expression given to them, core.hpp:721-1075, 1225-1698: its type, whether it is const,
   whether it is a lvalue. *)
Record expression := Expression { x_type : vtype; x_const : bool; x_lvalue : bool }.

(* What a template parameter is deduced as: the type, its const, and whether it is a lvalue
   reference; [Other] in core.hpp:762-1045, 1270-1691. *)
Record deduced := Deduced { d_type : vtype; d_const : bool; d_ref : bool }.

(* The parameter of a constructor or assignment; [Other] is its template parameter:
   core.hpp:721-1071, 1225-1692. *)
Inductive parameter :=
  | PNull              (* std::nullptr_t *)
  | PRef               (* Other& *)
  | PConstRef          (* const Other& *)
  | PForward           (* Other&& *)
  | PPointer           (* Other* *)
  | PVirtualRef        (* virtual_ptr<Other, Registry>& *)
  | PVirtualConstRef   (* const virtual_ptr<Other, Registry>& *)
  | PVirtualMove       (* virtual_ptr<Other, Registry>&& *)
  | PSelfConstRef      (* const virtual_ptr&, not a template *)
  | PSelfMove.         (* virtual_ptr&&, not a template *)

(* What the function does with the object pointer: [ToNull], the address of the parameter,
   its value, a copy of the smart pointer, or a move; and with the pointer to the v-table:
   core.hpp:722-1074, 1226-1696. *)
Inductive object_use := ToNull | Address | Value | CopyObject | MoveObject.
(* core.hpp:722-1073, 1226-1694. *)
Inductive vptr_use :=
  | NullVptr               (* null_vptr *)
  | Acquire                (* acquire_vptr of the object *)
  | AcquireOrNull          (* the same, or null_vptr if there is none *)
  | CopyVptr               (* other.vp *)
  | ExchangeVptr.          (* std::exchange(other.vp, null_vptr) *)

(* A constructor or assignment: its parameter, its condition on what [Other] is deduced as, and
   what it does: core.hpp:721-1075, 1225-1698. *)
Record candidate := Candidate {
  ca_parameter : parameter;
  ca_explicit : bool;
  ca_deleted : bool;
  ca_condition : deduced -> bool;
  ca_object : object_use;
  ca_vptr : vptr_use
}.

(* Not a template: core.hpp:721, 1071, 1225, 1229, 1231, 1482, 1609 and the implicit members. *)
Definition plain_function (c : candidate) : bool :=
  match ca_parameter c with PNull | PSelfConstRef | PSelfMove => true | _ => false end.

(* The template argument of a virtual_ptr: its class or smart pointer, as deduced from
   virtual_ptr<Other, Registry> for this registry, core.hpp:881, 1414. *)
Definition virtual_argument (r : N) (t : vtype) : option vtype :=
  match t with
  | VPlain p r' => if bool_decide (r' = r) then Some (VObject (pt_class p)) else None
  | VWide k p r' => if bool_decide (r' = r) then Some (VSmart k p) else None
  | _ => None
  end.
(* And its const, if it is a class, core.hpp:881. *)
Definition virtual_const (t : vtype) : bool :=
  match t with VPlain p _ => pt_const p | _ => false end.

(* Template argument deduction and reference binding ([temp.deduct.call], [dcl.init.ref]) of a
   parameter of the virtual_ptr type [self], in registry [r]: what [Other] is, and the rank of the
   conversion ([over.ics.rank]) - a rvalue is better bound to a rvalue reference, and a reference
   to a less const type is better. *)
Definition deduce (self : vtype) (r : N) (f : parameter) (x : expression) : option (deduced * nat) :=
  let t := x_type x in let c := x_const x in let l := x_lvalue x in
  let none := Deduced VNull false false in
  let added := if c then 0 else 1 in
  let bound := if l then 0 else 2 in
  match f with
  | PNull => if bool_decide (t = VNull) then Some (none, 0) else None
  | PRef => if l || c then Some (Deduced t c false, bound) else None
  | PConstRef => Some (Deduced t false false, bound + added)
  | PForward => Some (Deduced t c l, 0)
  | PPointer =>
      match t with
      | VPointer p => Some (Deduced (VObject (pt_class p)) (pt_const p) false, 0)
      | _ => None
      end
  | PVirtualRef =>
      a ← virtual_argument r t;
      if l && negb c then Some (Deduced a (virtual_const t) false, 0) else None
  | PVirtualConstRef =>
      a ← virtual_argument r t; Some (Deduced a (virtual_const t) false, bound + added)
  | PVirtualMove =>
      a ← virtual_argument r t;
      if negb l && negb c then Some (Deduced a (virtual_const t) false, 0) else None
  | PSelfConstRef => if bool_decide (t = self) then Some (none, bound + added) else None
  | PSelfMove => if bool_decide (t = self) && negb l && negb c then Some (none, 0) else None
  end.

Section Conversions.
  (* std::is_convertible between pointers to classes: [derives d c] if [c] is [d] or an accessible
     and unambiguous base of it; and [polymorphic r t] is what the rtti policy of [r] says. *)
  Context (derives : N -> N -> bool) (polymorphic : N -> vtype -> bool).

  (* from* converts to to*, core.hpp:767, 817. *)
  Definition converts (from to : pointee) : bool :=
    derives (pt_class from) (pt_class to) && (negb (pt_const from) || pt_const to).

  (* Other::element_type, core.hpp:443, 693, 1186 and the smart pointers; none for a reference,
     a class or a pointer. *)
  Definition element_type (d : deduced) : option pointee :=
    if d_ref d then None
    else match d_type d with
         | VSmart _ p | VPlain p _ | VWide _ p _ => Some p
         | _ => None
         end.

  (* SameSmartPtr, core.hpp:436-447, 487-489, for a smart pointer of kind [k]. *)
  Definition same_smart_ptr (k : ownership) (d : deduced) : bool :=
    match element_type d with
    | Some p => bool_decide (d_type d = VSmart k p) && negb (d_const d)
    | None => false
    end.

  (* IsPolymorphic<typename Other::element_type, Registry>, core.hpp:464-465. *)
  Definition polymorphic_element (r : N) (d : deduced) : bool :=
    match element_type d with Some p => polymorphic r (VObject (pt_class p)) | None => false end.

  (* std::is_constructible_v<Class*, Other*> and std::is_assignable_v<Class*&, Other*>,
     core.hpp:767, 817, 929, 979. *)
  Definition pointer_from (to : pointee) (d : deduced) : bool :=
    match d_type d with
    | VObject c => negb (d_ref d) && converts (Pointee c (d_const d)) to
    | _ => false
    end.

  (* The same for virtual_ptr<Other, Registry>::element_type*, core.hpp:877-880, 1042-1045. *)
  Definition element_from (to : pointee) (d : deduced) : bool :=
    match d_type d with
    | VObject c => converts (Pointee c (d_const d)) to
    | VSmart _ p => converts p to
    | _ => false
    end.

  (* std::is_constructible_v and std::is_assignable_v of the smart pointer [k] to [to], from a
     value of type [Other] ([const Other&], [Other&] or [Other&&]): core.hpp:1275, 1322, 1372, 1413, 1453, 1517, 1557, 1602,
     1646, 1691, and the smart pointers. *)
  Definition smart_from (assign : bool) (k : ownership) (to : pointee) (const_ lvalue : bool)
      (d : deduced) : bool :=
    match k, d_type d with
    | Shared, VSmart Shared p => converts p to
    | Shared, VSmart Unique p => negb const_ && negb lvalue && converts p to
    | Unique, VSmart Unique p => negb const_ && negb lvalue && converts p to
    | Intrusive, VSmart Intrusive p => converts p to
    | Intrusive, VPointer p => converts p to
    | (Shared | Unique), VPointer p => negb assign && converts p to
    | _, VNull => true
    | _, _ => false
    end.

  (* virtual_ptr<to, r>: core.hpp:721-724 ([explicit]), 762-772, 812-822, 877-883; the implicit
     copy and move constructors. *)
  Definition plain_constructors (to : pointee) (r : N) : list candidate :=
    [ Candidate PNull true false (fun _ => true) ToNull NullVptr;
      Candidate PRef false false
        (fun d => polymorphic r (d_type d) && pointer_from to d) Address Acquire;
      Candidate PPointer false false
        (fun d => polymorphic r (VObject (pt_class to)) && pointer_from to d) Value Acquire;
      Candidate PVirtualConstRef false false (element_from to) Value CopyVptr;
      Candidate PSelfConstRef false false (fun _ => true) Value CopyVptr;
      Candidate PSelfMove false false (fun _ => true) Value CopyVptr ].

  (* Its assignments: core.hpp:924-935, 974-985, 1042-1050, 1071-1075; the implicit copy and move
     assignments. *)
  Definition plain_assignments (to : pointee) (r : N) : list candidate :=
    [ Candidate PRef false false
        (fun d => polymorphic r (VObject (pt_class to)) && pointer_from to d) Address Acquire;
      Candidate PPointer false false
        (fun d => polymorphic r (VObject (pt_class to)) && pointer_from to d) Value Acquire;
      Candidate PVirtualConstRef false false (element_from to) Value CopyVptr;
      Candidate PNull false false (fun _ => true) ToNull NullVptr;
      Candidate PSelfConstRef false false (fun _ => true) Value CopyVptr;
      Candidate PSelfMove false false (fun _ => true) Value CopyVptr ].

  (* A std::unique_ptr cannot be copied: the defaulted members are deleted, core.hpp:1229, 1609. *)
  Definition not_copyable (k : ownership) : bool := bool_decide (k = Unique).

  (* virtual_ptr<k<to>, r>: core.hpp:1225-1227 ([explicit]), 1229, 1231-1236, 1270-1282, 1317-1329,
     1367-1379, 1408-1416, 1448-1459. *)
  Definition smart_constructors (k : ownership) (to : pointee) (r : N) : list candidate :=
    [ Candidate PNull true false (fun _ => true) ToNull NullVptr;
      Candidate PSelfConstRef false (not_copyable k) (fun _ => true) CopyObject CopyVptr;
      Candidate PSelfMove false false (fun _ => true) MoveObject ExchangeVptr;
      Candidate PConstRef false false
        (fun d => same_smart_ptr k d && polymorphic_element r d &&
                  smart_from false k to true true d) CopyObject AcquireOrNull;
      Candidate PRef false false
        (fun d => same_smart_ptr k d && polymorphic_element r d &&
                  smart_from false k to (d_const d) true d) CopyObject AcquireOrNull;
      Candidate PForward false false
        (fun d => same_smart_ptr k d && polymorphic_element r d &&
                  smart_from false k to (d_const d) (d_ref d) d) MoveObject AcquireOrNull;
      Candidate PVirtualConstRef false false
        (fun d => same_smart_ptr k d && smart_from false k to true true d) CopyObject CopyVptr;
      Candidate PVirtualMove false false
        (fun d => same_smart_ptr k d && smart_from false k to false false d)
        MoveObject ExchangeVptr ].

  (* Its assignments: core.hpp:1482-1486, 1512-1525, 1552-1565, 1597-1607, 1609, 1641-1651, 1686-1698.
     There is no implicit move assignment. *)
  Definition smart_assignments (k : ownership) (to : pointee) (r : N) : list candidate :=
    [ Candidate PNull false false (fun _ => true) ToNull NullVptr;
      Candidate PConstRef false false
        (fun d => same_smart_ptr k d && smart_from true k to true true d &&
                  polymorphic_element r d) CopyObject Acquire;
      Candidate PForward false false
        (fun d => same_smart_ptr k d && smart_from true k to (d_const d) (d_ref d) d &&
                  polymorphic_element r d) MoveObject AcquireOrNull;
      Candidate PVirtualRef false false
        (fun d => same_smart_ptr k d && smart_from true k to (d_const d) true d)
        CopyObject CopyVptr;
      Candidate PSelfConstRef false (not_copyable k) (fun _ => true) CopyObject CopyVptr;
      Candidate PVirtualConstRef false false
        (fun d => same_smart_ptr k d && smart_from true k to true true d) CopyObject CopyVptr;
      Candidate PVirtualMove false false
        (fun d => same_smart_ptr k d && smart_from true k to false false d)
        MoveObject ExchangeVptr ].

  (* Overload resolution, [over.match]: the only viable function of the best rank; a function that
     is not a template is better than one that is, for equal conversions. *)
  Inductive resolution :=
    | NotViable
    | Ambiguous
    | DeletedFunction
    | Selected (o : object_use) (v : vptr_use).

  (* The rank of a candidate, if it is viable, for the functions of core.hpp:721-1075, 1225-1698. *)
  Definition viable (self : vtype) (r : N) (x : expression) (c : candidate) : option (nat * candidate) :=
    '(d, n) ← deduce self r (ca_parameter c) x;
    if ca_condition c d then Some (2 * n + (if plain_function c then 0 else 1), c) else None.

  (* Those of the best rank, of the functions of core.hpp:721-1075, 1225-1698. *)
  Definition lowest (l : list (nat * candidate)) : list candidate :=
    map snd (List.filter (fun c => forallb (fun c' => c.1 <=? c'.1)%nat l) l).

  (* The function of core.hpp:721-1075, 1225-1698 that is called. *)
  Definition resolve (l : list (nat * candidate)) : resolution :=
    match lowest l with
    | [] => NotViable
    | [c] => if ca_deleted c then DeletedFunction else Selected (ca_object c) (ca_vptr c)
    | _ => Ambiguous
    end.

  (* A virtual_ptr of type [self] is initialized (core.hpp:721-883, 1225-1459): T p(x), or, if [implicit], T p = x or a parameter
     of type T initialized with x, which takes no explicit constructor ([over.match.copy]). *)
  Definition initialize_from (implicit : bool) (self : vtype) (x : expression) : resolution :=
    let run r cs :=
      resolve (omap (viable self r x) (List.filter (fun c => negb (implicit && ca_explicit c)) cs)) in
    match self with
    | VPlain to r => run r (plain_constructors to r)
    | VWide k to r => run r (smart_constructors k to r)
    | _ => NotViable
    end.

  (* A virtual_ptr is assigned to: p = x.  The copy and move assignments also take what converts
     implicitly to the type of the virtual_ptr ([over.ics.user]); such a conversion is worse than
     any other, and what they are given then is a rvalue. *)
  Definition converted (self : vtype) (r : N) (x : expression) (c : candidate) :
      option (nat * candidate) :=
    match initialize_from true self x with
    | Selected o v =>
        if bool_decide (x_type x = self) then None
        else
          '(_, n) ← deduce self r (ca_parameter c) (Expression self false false);
          match ca_parameter c with
          | PSelfConstRef | PSelfMove =>
              Some (16 + n, Candidate (ca_parameter c) false (ca_deleted c) (ca_condition c) o v)
          | _ => None
          end
    | _ => None
    end.

  (* The assignments of core.hpp:924-1075, 1482-1698. *)
  Definition assign_from (self : vtype) (x : expression) : resolution :=
    let run r cs := resolve (omap (viable self r x) cs ++ omap (converted self r x) cs) in
    match self with
    | VPlain to r => run r (plain_assignments to r)
    | VWide k to r => run r (smart_assignments k to r)
    | _ => NotViable
    end.
End Conversions.
