(* Model of inplace_vptr_base and inplace_vptr_derived: inplace_vptr.hpp:20-274, and
   of the order in which C++ runs constructors and destructors ([class.base.init],
   [class.dtor]).

   Simplifications.  Every class of a hierarchy has the mixin, as last base.  The
   constructors and destructors of other bases and of members are left out.  The
   number of an object stands for its address. *)
From stdpp Require Import base list numbers.
From Verif Require Import Base Registry ModelClasses ModelHash ModelWorld ModelVirtualPtr.

(* A class: its type id, how the class it is a base of inherits it, and its direct
   bases in order.  A class without bases uses inplace_vptr_base, the others
   inplace_vptr_derived.  inplace_vptr.hpp:127-157, 204-274. *)
Inductive class := Class (name : N) (virt : bool) (bases : list class).

(* The class To or Class of inplace_vptr.hpp:34-48. *)
Definition cname (c : class) : N := match c with Class n _ _ => n end.
(* [class.mi]; no code of the library depends on it directly, static_cast does: inplace_vptr.hpp:30. *)
Definition cvirt (c : class) : bool := match c with Class _ v _ => v end.
(* boost_openmethod_bases, inplace_vptr.hpp:132, 216, 246-247. *)
Definition cbases (c : class) : list class := match c with Class _ _ bs => bs end.

(* A subobject of an object: the number of the object, and the classes on the way to
   the subobject, from the most derived class or from the last virtual base.
   static_cast<Bases*>(obj), inplace_vptr.hpp:30, 150, 224, 229-230, 260, 267-272. *)
Definition loc : Type := nat * list N.
(* The address [this] of a most derived object, inplace_vptr.hpp:149, 222, 258. *)
Definition complete_at (o : nat) (c : class) : loc := (o, [cname c]).
(* static_cast<Bases*>(obj), inplace_vptr.hpp:30. *)
Definition base_at (p : loc) (b : class) : loc :=
  if cvirt b then (fst p, [cname b]) else (fst p, snd p ++ [cname b]).

(* The members boost_openmethod_vptr (inplace_vptr.hpp:134-135), by subobject.  None
   is nullptr. *)
Definition memory : Type := loc -> option box.
(* obj->boost_openmethod_vptr = ..., inplace_vptr.hpp:41-43, 155. *)
Definition set_mem (m : memory) (p : loc) (x : option box) : memory :=
  fun q => if decide (q = p) then x else m q.

(* A constructor or destructor body that runs, and the memory at that time.
   The constructors and destructors of the classes that use inplace_vptr.hpp:127-274. *)
Record event := Event { ev_ctor : bool; ev_at : loc; ev_class : class; ev_memory : memory }.

Section Inplace.
  (* [addr n]: the address of static_vptr<n>. *)
  Context (cf : config) (w : world) (addr : N -> nat).

  (* The value stored by boost_openmethod_update_vptr, inplace_vptr.hpp:39-44. *)
  Definition static_box (n : N) : box :=
    if cf_indirect cf then BRef (RStatic (addr n)) else BValue (w_static w (addr n)).

  (* boost_openmethod_update_vptr<To>(Class* obj), inplace_vptr.hpp:26-48. *)
  Fixpoint update_vptr (to : N) (p : loc) (c : class) (m : memory) : memory :=
    match c with
    | Class _ _ bs =>
        match bs with
        | [] => set_mem m p (Some (static_box to))
        | _ => foldl (fun m b => update_vptr to (base_at p b) b m) m bs
        end
    end.

  (* The constructor of the mixin: inplace_vptr.hpp:134-135 and 148-151, 220-225,
     256-261. *)
  Definition mixin_ctor (p : loc) (c : class) (m : memory) : memory :=
    match cbases c with
    | [] => update_vptr (cname c) p c (set_mem m p None)
    | _ => update_vptr (cname c) p c m
    end.

  (* The destructor of the mixin: inplace_vptr.hpp:154-156, 228-231, 266-273. *)
  Definition mixin_dtor (p : loc) (c : class) (m : memory) : memory :=
    match cbases c with
    | [] => set_mem m p None
    | bs => foldl (fun m b => update_vptr (cname b) (base_at p b) b m) m bs
    end.

  (* Of the classes that use inplace_vptr.hpp:127-274. *)
  Definition state : Type := memory * list event.

  (* The body of a constructor or destructor of a class that uses
     inplace_vptr.hpp:127-274. *)
  Definition body (ctor : bool) (p : loc) (c : class) (s : state) : state :=
    (fst s, snd s ++ [Event ctor p c (fst s)]).

  (* Constructor of a class, for a base subobject: the non-virtual bases in order,
     the mixin last, then the body.
     [class.base.init]; the mixin is inplace_vptr.hpp:148-151, 220-225, 256-261. *)
  Fixpoint construct_base (p : loc) (c : class) (s : state) : state :=
    match c with
    | Class _ _ bs =>
        let s := foldl (fun s b => if cvirt b then s else construct_base (base_at p b) b s) s bs in
        body true p c (mixin_ctor p c (fst s), snd s)
    end.

  (* Destructor: the body, then the bases in the reverse order.
     [class.dtor]; the mixin is inplace_vptr.hpp:154-156, 228-231, 266-273. *)
  Fixpoint destroy_base (p : loc) (c : class) (s : state) : state :=
    match c with
    | Class _ _ bs =>
        let s := body false p c s in
        let s := (mixin_dtor p c (fst s), snd s) in
        foldr (fun b s => if cvirt b then s else destroy_base (base_at p b) b s) s bs
    end.

  (* The virtual bases, depth first and from left to right.  [class.base.init]. *)
  Fixpoint virtual_bases (c : class) : list class :=
    match c with
    | Class _ _ bs => flat_map (fun b => virtual_bases b ++ if cvirt b then [b] else []) bs
    end.

  (* Each is constructed once.  [class.base.init]. *)
  Fixpoint once (seen : list N) (l : list class) : list class :=
    match l with
    | [] => []
    | c :: l => if decide (cname c ∈ seen) then once seen l else c :: once (cname c :: seen) l
    end.

  (* The constructor of a complete object starts with the virtual bases; the
     destructor ends with them, in the reverse order.
     [class.base.init]; inplace_vptr.hpp:148-151, 220-225, 256-261. *)
  Definition construct (o : nat) (c : class) (s : state) : state :=
    let s := foldl (fun s b => construct_base (o, [cname b]) b s) s (once [] (virtual_bases c)) in
    construct_base (complete_at o c) c s.

  (* [class.dtor]; inplace_vptr.hpp:154-156, 228-231, 266-273. *)
  Definition destroy (o : nat) (c : class) (s : state) : state :=
    let s := destroy_base (complete_at o c) c s in
    foldr (fun b s => destroy_base (o, [cname b]) b s) s (once [] (virtual_bases c)).

  (* The implicit copy constructors and copy assignment operators: those of
     inplace_vptr_base copy the pointer, those of inplace_vptr_derived do nothing.
     Virtual bases are copied with the first base that has them; copying one several
     times makes no difference.  inplace_vptr.hpp:127-157, 204-274 declare none. *)
  Fixpoint copy (p q : loc) (c : class) (m : memory) : memory :=
    match c with
    | Class _ _ bs =>
        match bs with
        | [] => set_mem m p (m q)
        | _ => foldl (fun m b => copy (base_at p b) (base_at q b) b m) m bs
        end
    end.

  (* boost_openmethod_vptr, inplace_vptr.hpp:137-144 and 248-252; for a class with
     one base overload resolution finds that of the base. *)
  Fixpoint vptr_fn (m : memory) (p : loc) (c : class) : outcome vptr :=
    match c with
    | Class _ _ bs =>
        match bs with
        | [] => match m p with
                | Some b => unbox_vptr w b
                | None => if cf_indirect cf then Undef else Ok VNull
                end
        | b :: _ => vptr_fn m (base_at p b) b
        end
    end.
End Inplace.
