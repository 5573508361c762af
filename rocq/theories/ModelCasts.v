(* The casts of a virtual argument to the class of the overrider's parameter:
   core.hpp:126-148 (optimal_cast), the cast functions of virtual_traits, and the casts of
   C++ that they use.  An object has a subobject for each way to reach a base
   class; the casts go from one to another, which is what adjusting a pointer means.
   Simplified: all the bases are accessible, the classes have virtual functions, no class
   has a conversion function; cv-qualifiers are ignored. *)
From stdpp Require Import base list numbers.
From Verif Require Import Base.

(* The classes of a program, in reverse order of definition: name, and direct bases, each
   with true if it is a virtual one.  The classes that core.hpp:126-148 converts between. *)
Notation hierarchy := (list (N * list (N * bool))).

(* A subobject, in an object of class c: the classes on the way from c, or from the virtual
   base that it is a part of, through non-virtual bases.  [class.mi]. *)
Notation subobject := (list N).

(* ---- C++ ---- *)
(* The non-virtual ways from class c.  [class.mi]; used by the casts of core.hpp:126-148. *)
Fixpoint stems (H : hierarchy) (c : N) : list subobject :=
  match H with
  | [] => [[c]]
  | (d, bs) :: H' =>
      if decide (c = d)
      then [c] :: flat_map (fun bv : N * bool => if bv.2 then [] else map (cons c) (stems H' bv.1)) bs
      else stems H' c
  end.

(* The virtual bases of c, direct or not.  [class.mi]; used by the casts of core.hpp:126-148. *)
Fixpoint virtual_bases (H : hierarchy) (c : N) : list N :=
  match H with
  | [] => []
  | (d, bs) :: H' =>
      if decide (c = d)
      then flat_map (fun bv : N * bool => (if bv.2 then [bv.1] else []) ++ virtual_bases H' bv.1) bs
      else virtual_bases H' c
  end.

(* The subobjects of an object of class c.  A virtual base is there once.
   [class.mi]; used by the casts of core.hpp:126-148. *)
Definition subobjects (H : hierarchy) (c : N) : list subobject :=
  remove_dups (stems H c ++ flat_map (stems H) (virtual_bases H c)).

(* The subobject [t] of the subobject [s].  Used by the casts of core.hpp:126-148. *)
Definition compose (s t : subobject) : subobject :=
  if decide (head t = list.last s) then s ++ tail t else t.

(* The conversion from class d to its base b; there is none if b is not a base of d, or an
   ambiguous one.  [conv.ptr]; std::is_convertible, core.hpp:102-110. *)
Definition conversion (H : hierarchy) (d b : N) : option subobject :=
  match filter (fun t => list.last t = Some b) (subobjects H d) with
  | [t] => Some t
  | _ => None
  end.

(* static_cast from class b to class d is valid if there is a conversion from b to d, or one
   from d to b such that b is not a virtual base of d or a base of a virtual base of d.
   [expr.static.cast]; core.hpp:129-138. *)
Definition static_castable (H : hierarchy) (b d : N) : bool :=
  bool_decide (is_Some (conversion H b d)) ||
  match conversion H d b with
  | Some t => bool_decide (head t = Some d)
  | None => false
  end.

(* static_cast of subobject [s], of class b, to class d.  Undefined if [s] is not a
   subobject of an object of class d.  [expr.static.cast]; core.hpp:146. *)
Definition static_cast (H : hierarchy) (b d : N) (s : subobject) : outcome subobject :=
  match conversion H b d with
  | Some t => Ok (compose s t)
  | None =>
      match conversion H d b with
      | Some t =>
          let s' := take (length s - length (tail t)) s in
          if decide (s' ++ tail t = s /\ list.last s' = Some d) then Ok s' else Undef
      | None => Undef
      end
  end.

(* dynamic_cast of subobject [s], of class b, of a complete object of class c, to class d.
   None: a std::bad_cast, or a null pointer.
   [expr.dynamic.cast]; policies/std_rtti.hpp:102-105. *)
Definition dynamic_cast (H : hierarchy) (c b d : N) (s : subobject) : option subobject :=
  match conversion H b d with
  | Some t => Some (compose s t)
  | None =>
      let ds := filter (fun s' => list.last s' = Some d) (subobjects H c) in
      match filter (fun s' => s ∈ map (compose s') (subobjects H d)) ds with
      | [s'] => Some s'
      | _ => match ds with [s'] => Some s' | _ => None end
      end
  end.

(* ---- core.hpp ---- *)
(* requires_dynamic_cast, core.hpp:129-138. *)
Definition requires_dynamic_cast (H : hierarchy) (b d : N) : bool := negb (static_castable H b d).

(* optimal_cast, core.hpp:141-148, with std_rtti (policies/std_rtti.hpp:97-105). *)
Definition optimal_cast (H : hierarchy) (c b d : N) (s : subobject) : outcome (option subobject) :=
  if requires_dynamic_cast H b d then Ok (dynamic_cast H c b d s)
  else let* s' := static_cast H b d s in Ok (Some s').

(* How the virtual argument is passed.  A virtual_ptr is like a reference (core.hpp:1120-1123),
   or like the smart pointer in it, by value (core.hpp:1738-1767). *)
Inductive passed :=
  | ByReference    (* virtual_<Class&>, virtual_<Class&&> *)
  | ByPointer      (* virtual_<Class*> *)
  | ByShared       (* std::shared_ptr<Class> by value, or rvalue reference *)
  | BySharedRef    (* const std::shared_ptr<Class>& *)
  | ByUnique       (* std::unique_ptr<Class> *)
  | ByIntrusive.   (* boost::intrusive_ptr<Class>, const boost::intrusive_ptr<Class>& *)

(* cast, in virtual_traits: core.hpp:267-271, 298-302, 329-338;
   interop/std_shared_ptr.hpp:85-97, 114-129, 169-185; std_unique_ptr.hpp:41-55;
   boost_intrusive_ptr.hpp:46-58, 93-114.  std_shared_ptr.hpp:177 and std_unique_ptr.hpp:43
   ask if the pointer or the object can be static_cast to a smart pointer, to which the
   answer is no: these two are always dynamic. *)
Definition cast_part (k : passed) (H : hierarchy) (c b d : N) (s : subobject) : outcome (option subobject) :=
  match k with
  | BySharedRef => if decide (b = d) then Ok (Some s) else Ok (dynamic_cast H c b d s)
  | ByUnique => Ok (dynamic_cast H c b d s)
  | _ => optimal_cast H c b d s
  end.
