(* From the parameter types written in a program to the classes that methods and overriders
   register: core.hpp:91-100, 153-189, 498-520, 1933-1968, 2032-2062, 2269-2276, 2331-2340,
   2412-2424, 2621-2728, 2787-2798; interop/std_shared_ptr.hpp:15-52.
   Partial specializations are modelled as C++ chooses them.  Simplified: const is the only
   qualifier and is not repeated; virtual_ptr has its two explicit parameters. *)
From stdpp Require Import base list numbers.
From Verif Require Import Base Registry.

(* The types of parameters.  Registries are numbered.
   core.hpp:153-189, 498-520; interop/std_shared_ptr.hpp:15-52. *)
Inductive ty :=
  | TyName (n : N)              (* a class, int, ... *)
  | TyConst (t : ty)
  | TyLRef (t : ty)
  | TyRRef (t : ty)
  | TyPtr (t : ty)
  | TyShared (t : ty)           (* std::shared_ptr<T> *)
  | TyUnique (t : ty)           (* std::unique_ptr<T> *)
  | TyIntrusive (t : ty)        (* boost::intrusive_ptr<T> *)
  | TyVirtual (t : ty)          (* virtual_<T> *)
  | TyVptr (t : ty) (r : N).    (* virtual_ptr<T, Registry> *)
Global Instance ty_eq_dec : EqDecision ty.
Proof. solve_decision. Defined.

(* std::remove_cv_t.  core.hpp:250, 312, 1857, 1903. *)
Definition remove_cv (t : ty) : ty := match t with TyConst t => t | _ => t end.

(* virtual_ptr<T>::element_type, core.hpp:693, 1186. *)
Definition element_type (t : ty) : ty :=
  match t with TyShared t | TyUnique t | TyIntrusive t => t | _ => t end.

(* is_virtual, core.hpp:153-157, 498-506. *)
Definition is_virtual (t : ty) : bool :=
  match t with
  | TyVirtual _ | TyVptr _ _ | TyLRef (TyVptr _ _) | TyLRef (TyConst (TyVptr _ _)) => true
  | _ => false
  end.

(* is_virtual_ptr, core.hpp:508-520. *)
Definition is_virtual_ptr (t : ty) : bool :=
  match t with TyVptr _ _ | TyLRef (TyConst (TyVptr _ _)) => true | _ => false end.

(* remove_virtual_, core.hpp:159-170. *)
Definition remove_virtual (t : ty) : ty := match t with TyVirtual t => t | _ => t end.

Section Signature.
  (* The registry of the method. *)
  Context (R : N).
  (* Properties of classes: rtti::is_polymorphic, or there is a boost_openmethod_vptr
     function (has_vptr_fn); std::is_base_of; std::is_convertible; rtti::static_type. *)
  Context (polymorphic : ty -> bool) (base_of convertible : ty -> ty -> bool) (static_type : ty -> N).

  (* virtual_type, core.hpp:172-185: virtual_traits<T, Registry>::virtual_type if there is one,
     core.hpp:244-249, 277-280, 308-311, 1847-1852, 1898-1903; std_shared_ptr.hpp:67, 151;
     std_unique_ptr.hpp:22; boost_intrusive_ptr.hpp:28, 75.  None is void. *)
  Definition virtual_type (t : ty) : option ty :=
    match t with
    | TyLRef (TyConst (TyShared c)) | TyLRef (TyConst (TyIntrusive c)) => Some (remove_cv c)
    | TyLRef (TyConst (TyVptr c r)) =>
        if decide (r = R) then Some (remove_cv (element_type c)) else Some (TyVptr c r)
    | TyLRef c => Some (remove_cv c)
    | TyRRef c => Some c
    | TyPtr c | TyShared c | TyUnique c | TyIntrusive c => Some (remove_cv c)
    | TyVptr c r => if decide (r = R) then Some (remove_cv (element_type c)) else None
    | _ => None
    end.

  (* validate_method_parameter, core.hpp:2032-2062, std_shared_ptr.hpp:35-50. *)
  Definition validate_method_parameter (t : ty) : bool :=
    match t with
    | TyVirtual t => match virtual_type t with Some c => polymorphic c | None => false end
    | TyVptr _ r => bool_decide (r = R)
    | TyLRef (TyShared _) => false
    | TyLRef (TyVptr (TyShared _) r) => negb (bool_decide (r = R))
    | _ => true
    end.

  (* Arity, core.hpp:2270-2271. *)
  Definition arity (ps : list ty) : nat := length (filter (fun t => is_virtual t = true) ps).

  (* The static_asserts of method, core.hpp:2274-2276. *)
  Definition method_compiles (ps : list ty) : bool :=
    forallb validate_method_parameter ps && bool_decide (0 < arity ps).

  (* static_type<T>(), T possibly void; [static_void] is static_type<void>(). *)
  Context (static_void : N).
  (* core.hpp:91-100, 2412-2424. *)
  Definition type_of (t : option ty) : N :=
    match t with Some t => static_type t | None => static_void end.

  (* init_type_ids, core.hpp:91-100, on an array of [n] type ids.  Those that are not
     written keep the value they have, zero (core.hpp:2278, 2377-2381). *)
  Definition init_type_ids (n : nat) (ids : list N) : outcome (list N) :=
    if decide (length ids <= n) then Ok (ids ++ repeat 0%N (n - length ids)) else Undef.

  (* method::resolve_type_ids, core.hpp:2412-2424, with virtual_types, core.hpp:187-189. *)
  Definition method_ids (ps : list ty) : outcome (list N) :=
    let virtual_types := map remove_virtual (filter (fun t => is_virtual t = true) ps) in
    init_type_ids (arity ps) (map (fun t => type_of (virtual_type t)) virtual_types).
  (* core.hpp:2417-2418, 2791-2792. *)
  Definition return_id (t : ty) : N := type_of (virtual_type t).

  (* select_overrider_virtual_type, core.hpp:1933-1960.  None is void. *)
  Definition select_overrider_virtual_type (p q : ty) : option ty :=
    match p, q with
    | TyVirtual _, _ => virtual_type q
    | TyVptr _ r, TyVptr _ r' | TyLRef (TyConst (TyVptr _ r)), TyLRef (TyConst (TyVptr _ r')) =>
        if decide (r = R /\ r' = R) then virtual_type q else None
    | _, _ => None
    end.

  (* overrider_virtual_types, core.hpp:1962-1968: mp_remove<..., void>. *)
  Definition overrider_virtual_types (ps qs : list ty) : list ty :=
    omap (fun pq => select_overrider_virtual_type pq.1 pq.2) (zip ps qs).

  (* override_impl::resolve_type_ids, core.hpp:2787-2798. *)
  Definition overrider_ids (ps qs : list ty) : outcome (list N) :=
    init_type_ids (arity ps) (map static_type (overrider_virtual_types ps qs)).

  (* validate_overrider_parameter, core.hpp:2628-2708: the partial specializations. *)
  Inductive specialization :=
    | SpCategory         (* 2634-2642 *)
    | SpMissing          (* 2644-2652 *)
    | SpSame             (* 2654-2655 *)
    | SpVirtual          (* 2657-2658 *)
    | SpVirtualVirtual   (* 2660-2664 *)
    | SpVptrSame         (* 2666-2668 *)
    | SpVptr             (* 2670-2681 *)
    | SpVptrRef          (* 2683-2695 *)
    | SpVptrRRef.        (* 2697-2708 *)
  (* core.hpp:2628-2708. *)
  Definition specializations : list specialization :=
    [SpCategory; SpMissing; SpSame; SpVirtual; SpVirtualVirtual; SpVptrSame; SpVptr; SpVptrRef; SpVptrRRef].

  (* same_reference_category, core.hpp:2621-2627. *)
  Definition reference_category (t : ty) : nat :=
    match t with TyLRef _ => 1 | TyRRef _ => 2 | _ => 0 end.

  (* core.hpp:2628-2708, the line ranges above. *)
  Definition matches (p q : ty) (s : specialization) : bool :=
    match s with
    | SpCategory => is_virtual_ptr p && is_virtual_ptr q
                      && negb (bool_decide (reference_category p = reference_category q))
    | SpMissing => is_virtual_ptr p && negb (is_virtual_ptr q)
    | SpSame => bool_decide (p = q)
    | SpVirtual => match p with TyVirtual _ => true | _ => false end
    | SpVirtualVirtual => match p, q with TyVirtual _, TyVirtual _ => true | _, _ => false end
    | SpVptrSame => match p with TyVptr _ _ => bool_decide (p = q) | _ => false end
    | SpVptr => match p, q with TyVptr _ _, TyVptr _ _ => true | _, _ => false end
    | SpVptrRef => match p, q with
                   | TyLRef (TyConst (TyVptr _ _)), TyLRef (TyConst (TyVptr _ _)) => true
                   | _, _ => false end
    | SpVptrRRef => match p, q with
                    | TyRRef (TyVptr _ _), TyRRef (TyVptr _ _) => true
                    | _, _ => false end
    end.

  (* The partial order of specializations: the first is more specialized than the second.
     Of those of core.hpp:2628-2708. *)
  Definition more_specialized (s s' : specialization) : bool :=
    match s, s' with
    | SpVptrSame, SpSame | SpVptrSame, SpVptr | SpVirtualVirtual, SpVirtual => true
    | _, _ => false
    end.

  (* Those that match and are less specialized than no other one that matches.
     core.hpp:2628-2708. *)
  Definition best (p q : ty) : list specialization :=
    let ms := filter (fun s => matches p q s = true) specializations in
    filter (fun s => forallb (fun s' => negb (more_specialized s' s)) ms = true) ms.

  (* C1, C2 and the static_asserts of the last three.  core.hpp:2670-2708. *)
  Definition validate_vptr (p q : ty) : bool :=
    match remove_cv (match p with TyLRef t | TyRRef t => t | _ => p end),
          remove_cv (match q with TyLRef t | TyRRef t => t | _ => q end) with
    | TyVptr t1 r, TyVptr t2 r2 =>
        bool_decide (r = r2)
          && base_of (remove_cv (element_type t1)) (remove_cv (element_type t2))
          && convertible (TyVptr t2 r) (TyVptr t1 r)
    | _, _ => false
    end.

  (* The primary template is false.  Several best specializations: an error.
     core.hpp:2628-2632. *)
  Definition validate_overrider_parameter (p q : ty) : bool :=
    match best p q with
    | [s] =>
        match s with
        | SpSame | SpVirtual | SpVptrSame => true
        | SpVptr | SpVptrRef | SpVptrRRef => validate_vptr p q
        | SpCategory | SpMissing | SpVirtualVirtual => false
        end
    | _ => false
    end.

  (* What parameter_traits::cast asks of the overrider's parameter: core.hpp:268-269, 299-300,
     330-331 (static_assert); by value Derived::element_type, std_shared_ptr.hpp:83-95,
     std_unique_ptr.hpp:42-54 (a pointer made from a raw pointer), boost_intrusive_ptr.hpp:47-59;
     std_shared_ptr.hpp:15-33, 169-184, boost_intrusive_ptr.hpp:93-114.
     Whether the class can be cast is not modelled, nor are other types of pointers that an
     intrusive_ptr could be turned into.  Other parameters are returned as they are,
     core.hpp:2006-2016: in C++17 the value of T&& cannot be returned as T&&. *)
  Definition castable (p q : ty) : bool :=
    match p with
    | TyVirtual (TyShared _) => match q with TyShared _ => true | _ => false end
    | TyVirtual (TyIntrusive _) => match q with TyIntrusive _ => true | _ => false end
    | TyVirtual (TyLRef (TyConst (TyShared _))) =>
        match q with TyShared _ | TyLRef (TyConst (TyShared _)) | TyRRef (TyShared _) => true | _ => false end
    | TyVirtual (TyLRef (TyConst (TyIntrusive _))) =>
        match q with TyIntrusive _ | TyLRef (TyConst (TyIntrusive _)) | TyRRef (TyIntrusive _) => true
                   | _ => false end
    | TyVirtual (TyUnique _) =>
        match q with TyShared _ | TyUnique _ | TyIntrusive _ => true
                   | TyVptr t _ => bool_decide (element_type t = t) | _ => false end
    | TyVirtual (TyLRef _) => match q with TyLRef _ => true | _ => false end
    | TyVirtual (TyRRef _) => match q with TyRRef _ => true | _ => false end
    | TyVirtual (TyPtr _) => match q with TyPtr _ => true | _ => false end
    | TyVirtual _ => false
    | TyVptr _ r | TyLRef (TyConst (TyVptr _ r)) => bool_decide (r = R) || bool_decide (p = q)
    | TyRRef _ => false
    | _ => bool_decide (p = q)
    end.

  (* thunk::fn and OverriderVirtualParameters, core.hpp:2331-2340, 2712-2727. *)
  Definition overrider_compiles (ps qs : list ty) : bool :=
    bool_decide (length ps = length qs)
      && forallb (fun pq => validate_overrider_parameter pq.1 pq.2 && castable pq.1 pq.2) (zip ps qs).

  (* A method and its overriders, as written.  core.hpp:2712-2728, 2733-2782. *)
  Record overrider_source := OverriderSource {
    os_parameters : list ty;
    os_return : ty;
    os_pf : fptr;                 (* the thunk *)
    os_next : nat
  }.
  (* core.hpp:2269-2410. *)
  Record method_source := MethodSource {
    ms_parameters : list ty;
    ms_return : ty;
    ms_overriders : list overrider_source;
    ms_not_implemented : fptr;
    ms_ambiguous : fptr;
    ms_slots_strides : nat
  }.

  (* core.hpp:2274-2276, 2331-2340, 2712-2728. *)
  Definition method_source_compiles (s : method_source) : bool :=
    method_compiles (ms_parameters s)
      && forallb (fun o => overrider_compiles (ms_parameters s) (os_parameters o)) (ms_overriders s).

  (* What they register: method(), core.hpp:2392-2410, override_impl(), core.hpp:2733-2785. *)
  Definition overrider_registered (ps : list ty) (o : overrider_source) : outcome overrider_record :=
    let* ids := overrider_ids ps (os_parameters o) in
    Ok (OverriderRecord ids (return_id (os_return o)) (os_pf o) (os_next o)).
  (* method(), core.hpp:2392-2424. *)
  Definition method_registered (s : method_source) : outcome method_record :=
    let* ids := method_ids (ms_parameters s) in
    let* ovs := mapM (overrider_registered (ms_parameters s)) (ms_overriders s) in
    Ok (MethodRecord ids (return_id (ms_return s)) ovs (ms_not_implemented s) (ms_ambiguous s)
          (ms_slots_strides s)).
End Signature.
