(* Specification vocabulary about the macros, from namespaces.adoc, BOOST_OPENMETHOD.adoc and
   BOOST_OPENMETHOD_OVERRIDE.adoc ("The macro adds the overrider to a method that can be called
   with the same arguments as the overrider, possibly located via argument dependent lookup"),
   and the C++ rules for name lookup. *)
From stdpp Require Import base list numbers.
From Verif Require Import Base Registry ModelSignature SpecSignature ModelMacros.

Section Macros.
  Context (convertible : ty -> ty -> bool) (associated : ty -> list namespace).

  (* [p] without virtual_<>. *)
  Inductive undecorated : ty -> ty -> Prop :=
    | undecorated_virtual t : undecorated (TyVirtual t) t
    | undecorated_other t : (forall u, t <> TyVirtual u) -> undecorated t t.

  (* A method of parameters [ps] can be called with arguments of types [qs]. *)
  Definition takes (ps qs : list ty) : Prop :=
    Forall2 (fun p q => exists p', undecorated p p' /\ convertible q p' = true) ps qs.

  (* Declaration number [j] is a method of this namespace, name and parameters. *)
  Definition method_at (ds : list declaration) (j : nat) (ns : namespace) (name : N) (ps : list ty) : Prop :=
    exists r ret fns, ds !! j = Some (Method ns name r ps ret fns).

  (* Of the methods with this name, those in [ns'] are visible from [ns]: [ns'] is [ns] or
     encloses it, and nothing hides them. *)
  Definition visible_scope (ds : list declaration) (ns : namespace) (name : N) (ns' : namespace) : Prop :=
    ns' `suffix_of` ns /\
    forall j ns'' ps, method_at ds j ns'' name ps -> ns'' `suffix_of` ns -> ns'' `suffix_of` ns'.

  (* After the declarations [ds], name(qs...) in [ns] can mean method number [j]. *)
  Definition can_mean (ds : list declaration) (ns : namespace) (name : N) (qs : list ty) (j : nat) : Prop :=
    exists ns' ps, method_at ds j ns' name ps /\ takes ps qs /\
      (visible_scope ds ns name ns' \/ exists q, q ∈ qs /\ ns' ∈ associated q).

  (* And it means that method. *)
  Definition means (ds : list declaration) (ns : namespace) (name : N) (qs : list ty) (j : nat) : Prop :=
    can_mean ds ns name qs j /\ forall j', can_mean ds ns name qs j' -> j' = j.

  (* Declaration number [i] defines an overrider, which was declared (by number [k]) for
     method number [j]. *)
  Definition overrides (ds : list declaration) (i j : nat) : Prop :=
    exists ns name qs ret pf next k,
      ds !! i = Some (Define ns name qs ret pf next) /\
      ds !! k = Some (Declare ns name qs ret) /\ k < i /\
      means (take k ds) ns name qs j.

  (* Declaration number [i] defines [o]. *)
  Definition defines (ds : list declaration) (i : nat) (o : overrider_source) : Prop :=
    exists ns name, ds !! i = Some (Define ns name (os_parameters o) (os_return o) (os_pf o) (os_next o)).

  (* Method number [j] is registered as [m]: with the overriders defined for it, in their order,
     and no others. *)
  Definition registered_as (ds : list declaration) (j : nat) (m : method_decl) : Prop :=
    exists os, ds !! j = Some (Method (md_scope m) (md_name m) (md_registry m)
                 (ms_parameters (md_source m)) (ms_return (md_source m))
                 (ms_not_implemented (md_source m), ms_ambiguous (md_source m),
                  ms_slots_strides (md_source m))) /\
      Forall2 (defines ds) os (ms_overriders (md_source m)) /\
      (forall n n' i i', n < n' -> os !! n = Some i -> os !! n' = Some i' -> i < i') /\
      (forall i, i ∈ os <-> overrides ds i j).

  (* [js] are the numbers of the methods of a translation unit, in their order. *)
  Definition numbers (ds : list declaration) (js : list nat) : Prop :=
    (forall n n' j j', n < n' -> js !! n = Some j -> js !! n' = Some j' -> j < j') /\
    (forall j, j ∈ js <-> exists ns name ps, method_at ds j ns name ps).

  (* All methods are in registry [r]; they and their overriders have documented parameters. *)
  Definition documented (r : N) (ds : list declaration) : Prop :=
    forall j ns name r' ps ret fns, ds !! j = Some (Method ns name r' ps ret fns) ->
      r' = r /\ (exists cs, method_classes r ps cs) /\
      forall i ns' name' qs ret' pf next, overrides ds i j ->
        ds !! i = Some (Define ns' name' qs ret' pf next) -> exists cs, overrider_classes r ps qs cs.
End Macros.
