(* What a program says about its classes with use_classes, in terms of C++
   inheritance only. *)
From stdpp Require Import base list numbers.
From Verif Require Import Registry Spec ModelUseClasses.

Section Cpp.
  (* [is_base b c]: std::is_base_of_v<b, c>. *)
  Context (is_base : N -> N -> bool).

  (* C++ inheritance. *)
  Record cpp_hierarchy : Prop := {
    ch_refl : forall c, is_base c c = true;
    ch_trans : forall a b c, is_base a b = true -> is_base b c = true -> is_base a c = true;
    ch_antisym : forall a b, is_base a b = true -> is_base b a = true -> a = b
  }.

  (* One use_classes<...>: the translation unit it is in, the classes it lists, and
     the records it adds to the registry, in the order it adds them. *)
  Record listing := Listing {
    li_unit : nat;
    li_classes : list N;
    li_records : list class_record
  }.

  (* The classes of the registry come from these use_classes.  Each one registers
     its classes in some order. *)
  Definition registers (abstract : N -> bool) (vptr_of : N -> nat)
      (static_type : nat -> N -> N) (ls : list listing) (R : registrations) : Prop :=
    reg_classes R = flat_map li_records ls /\
    forall l, l ∈ ls ->
      li_records l ≡ₚ use_classes is_base abstract vptr_of static_type (li_unit l) (li_classes l).

  (* Type ids identify classes across translation units; [key c] is what
     type_index yields for all the type ids of [c]. *)
  Definition identifies (ti : N -> N) (static_type : nat -> N -> N) (key : N -> N) : Prop :=
    (forall u c, ti (static_type u c) = key c) /\
    (forall c d, key c = key d -> c = d).

  Section Lists.
    Context (ls : list listing).

    Definition listed (c : N) : Prop := exists l, l ∈ ls /\ c ∈ li_classes l.

    Definition listed_together (c b : N) : Prop :=
      exists l, l ∈ ls /\ c ∈ li_classes l /\ b ∈ li_classes l.

    (* [b] is a base of [c], and no other listed class is between them. *)
    Definition next_base (c b : N) : Prop :=
      listed c /\ listed b /\ c <> b /\ is_base b c = true /\
      forall d, listed d -> is_base b d = true -> is_base d c = true -> d = b \/ d = c.

    (* "A class and its direct bases must be listed together in one or more
       instantiations of use_classes" (core.hpp:399-402). *)
    Definition documented : Prop := forall c b, next_base c b -> listed_together c b.

    (* Each use_classes that lists a class lists all the bases of that class that
       the program lists anywhere. *)
    Definition complete : Prop :=
      forall l c b, l ∈ ls -> c ∈ li_classes l -> listed b -> is_base b c = true ->
        b ∈ li_classes l.
  End Lists.

  (* The documented selection rule (core.hpp:2092-2109) in terms of C++
     inheritance.  [ovs] are the parameter classes of the overriders. *)
  Section Rule.
    Context (ovs : list (list N)) (args : list N).

    Definition accepts (i : nat) : Prop :=
      exists ps, ovs !! i = Some ps /\ Forall2 (fun a p => is_base p a = true) args ps.

    Definition proper_in_some (a b : list N) : Prop :=
      exists i x y, a !! i = Some x /\ b !! i = Some y /\ is_base y x = true /\ x <> y.

    Definition better (i j : nat) : Prop :=
      exists a b, ovs !! i = Some a /\ ovs !! j = Some b /\
        proper_in_some a b /\ ~ proper_in_some b a.

    Definition best (i : nat) : Prop := accepts i /\ forall j, accepts j -> ~ better j i.

    Definition rule (s : selection) : Prop :=
      match s with
      | SNone => forall i, ~ accepts i
      | SOverrider i => best i /\ forall j, best j -> j = i
      | SAmbiguous => (exists i, accepts i) /\ ~ exists i, best i /\ forall j, best j -> j = i
      end.

    Definition better_is_transitive : Prop :=
      forall i j k, accepts i -> accepts j -> accepts k -> better i j -> better j k -> better i k.

    (* Whatever is not best is beaten by something that is.  Implied by
       [better_is_transitive]. *)
    Definition better_is_settled : Prop :=
      forall i j, accepts i -> accepts j -> better j i -> exists k, best k /\ better k i.
  End Rule.

  (* The overriders of a method take these classes. *)
  Definition takes (ti key : N -> N) (m : method_record) (ovs : list (list N)) : Prop :=
    Forall2 (fun o ps => map ti (or_vp o) = map key ps) (mr_overriders m) ovs.
End Cpp.
