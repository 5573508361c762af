(* Specification of the n2216 option (preamble.hpp:398-413), in terms of the
   registered data. *)
From stdpp Require Import base list numbers.
From Verif Require Import Registry Spec.

Section N2216.
  Context (ti : N -> N) (void : N) (R : registrations).

  (* The return type of [a] is that of [b], or derives from it. *)
  Definition return_derives (a b : overrider_record) : Prop :=
    derives ti R (ti (or_return a)) (ti (or_return b)).

  (* The return type of overrider [i] is more specialized than those of all the
     others in the set. *)
  Definition most_specialized (ovs : list overrider_record) (set : nat -> Prop) (i : nat) : Prop :=
    set i /\ exists o, ovs !! i = Some o /\
      forall j o', ovs !! j = Some o' -> set j -> j <> i ->
        return_derives o o' /\ ~ return_derives o' o.

  Definition unrelated (a b : overrider_record) : Prop :=
    ~ dominates ti R a b /\ ~ dominates ti R b a.

  (* Guard.  Of any three overriders of a method with a covariant return type that
     can be called with the same arguments, none dominating another, the second in
     order of registration does not return the class returned by the first, or a
     class derived from it. *)
  Definition untangled : Prop :=
    forall m args i j k a b c,
      m ∈ reg_methods R -> covariant ti void R m -> valid_args ti R m args ->
      i < j -> j < k ->
      mr_overriders m !! i = Some a -> mr_overriders m !! j = Some b ->
      mr_overriders m !! k = Some c ->
      applicable ti R args a -> applicable ti R args b -> applicable ti R args c ->
      unrelated a b -> unrelated a c -> unrelated b c ->
      ~ return_derives b a.
End N2216.

(* Two runs of a program.  The addresses of its variables and functions change,
   the order of registration does not.  Type [t] of the first run is [rho t] in
   the second. *)
Definition same_overrider (rho : N -> N) (o o' : overrider_record) : Prop :=
  or_vp o' = map rho (or_vp o) /\ or_return o' = rho (or_return o).

Definition same_method_record (rho : N -> N) (m m' : method_record) : Prop :=
  mr_vp m' = map rho (mr_vp m) /\ mr_return m' = rho (mr_return m) /\
  Forall2 (same_overrider rho) (mr_overriders m) (mr_overriders m').

Record same_program (ti ti' : N -> N) (void void' : N) (rho : N -> N) (R R' : registrations) : Prop := {
  sp_types : forall x y, ti' (rho x) = ti' (rho y) <-> ti x = ti y;
  sp_void : ti' (rho void) = ti' void';
  sp_classes : Forall2 (fun c c' => cr_type c' = rho (cr_type c) /\
    cr_bases c' = map rho (cr_bases c)) (reg_classes R) (reg_classes R');
  sp_methods : Forall2 (same_method_record rho) (reg_methods R) (reg_methods R')
}.
