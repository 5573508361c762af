(* Specification of the class relation and of overrider selection, written from
   the documentation (core.hpp:2088-2135, 394-413) and in terms of the registered
   data only.  This file does not import any model file. *)
From stdpp Require Import base list relations numbers.
From Verif Require Import Registry.

Section Classes.
  (* [type_index] identifies a class; several type ids may map to one class. *)
  Context (ti : N -> N) (R : registrations).

  Definition registered (c : N) : Prop :=
    exists cr, cr ∈ reg_classes R /\ ti (cr_type cr) = c.

  (* The first registration of a class. *)
  Definition first_record (c : N) : option class_record :=
    head (filter (fun cr => ti (cr_type cr) = c) (reg_classes R)).

  (* [b] was listed as a base of [c] by some registration. *)
  Definition base_pair (c b : N) : Prop :=
    exists cr t, cr ∈ reg_classes R /\ t ∈ cr_bases cr /\
      ti (cr_type cr) = c /\ ti t = b.

  (* [c] is [b], or inherits from it directly or not. *)
  Definition derives : N -> N -> Prop := rtc base_pair.

  (* [c] is more specialized than [b]. *)
  Definition strictly (c b : N) : Prop := derives c b /\ c <> b.

  (* C++ inheritance has no cycles (a class is listed as its own base, because
     std::is_base_of is reflexive). *)
  Definition acyclic : Prop :=
    exists rank : N -> nat, forall c b, base_pair c b -> c <> b -> rank b < rank c.

  (* Every listed base is itself registered. *)
  Definition bases_registered : Prop :=
    forall cr t, cr ∈ reg_classes R -> t ∈ cr_bases cr -> registered (ti t).

  (* The (class, base) pairs in registration order. *)
  Definition pairs : list (N * N) :=
    flat_map (fun cr => map (fun t => (ti (cr_type cr), ti t)) (cr_bases cr))
      (reg_classes R).

  (* Guard on the order of registrations: if [a] is registered as a base of [c]
     and [b] as a base of [a], then either [b] is also registered as a base of
     [c], or some registration of (c, a) comes after all those of (a, b).
     It holds when classes are registered after their bases, and when each
     hierarchy is listed in a single use_classes. *)
  Definition bases_first : Prop :=
    forall c a b, (c, a) ∈ pairs -> c <> a -> (a, b) ∈ pairs -> a <> b ->
      (c, b) ∈ pairs \/
      exists l1 l2, pairs = l1 ++ (c, a) :: l2 /\ (a, b) ∉ l2.

  (* An overrider can be called with arguments of these dynamic classes. *)
  Definition applicable (args : list N) (o : overrider_record) : Prop :=
    Forall2 (fun a v => derives a (ti v)) args (or_vp o).

  Definition some_more_specialized (a b : list N) : Prop :=
    exists i x y, a !! i = Some x /\ b !! i = Some y /\ strictly (ti x) (ti y).

  (* core.hpp:2098-2101 *)
  Definition dominates (a b : overrider_record) : Prop :=
    some_more_specialized (or_vp a) (or_vp b) /\
    ~ some_more_specialized (or_vp b) (or_vp a).

  Inductive selection :=
    | SNone
    | SAmbiguous
    | SOverrider (i : nat).

  (* The documented rule (core.hpp:2092-2109), for a set of candidates. *)
  Section Select.
    Context (ovs : list overrider_record) (cand : nat -> Prop).

    Definition dominated (i : nat) : Prop :=
      exists j oi oj, ovs !! i = Some oi /\ ovs !! j = Some oj /\
        cand j /\ dominates oj oi.

    Definition undominated (i : nat) : Prop := cand i /\ ~ dominated i.

    Definition selects_from (s : selection) : Prop :=
      match s with
      | SNone => forall i, ~ cand i
      | SOverrider i => undominated i /\ forall j, undominated j -> j = i
      | SAmbiguous =>
          (exists i, cand i) /\ ~ exists i, undominated i /\
            forall j, undominated j -> j = i
      end.

    (* Dominance is transitive among the candidates. *)
    Definition transitive_dominance : Prop :=
      forall i j k a b c,
        ovs !! i = Some a -> ovs !! j = Some b -> ovs !! k = Some c ->
        cand i -> cand j -> cand k ->
        dominates a b -> dominates b c -> dominates a c.

    (* Each dominated candidate is dominated by an undominated one.  Implied by
       [transitive_dominance]. *)
    Definition settled : Prop :=
      forall i oi, ovs !! i = Some oi -> cand i -> dominated i ->
        exists j oj, ovs !! j = Some oj /\ undominated j /\ dominates oj oi.

    (* Any two candidates have comparable classes in each position. *)
    Definition comparable : Prop :=
      forall i j a b, ovs !! i = Some a -> ovs !! j = Some b -> cand i -> cand j ->
        forall p x y, or_vp a !! p = Some x -> or_vp b !! p = Some y ->
          derives (ti x) (ti y) \/ derives (ti y) (ti x).
    (* An overrider that dominates another one has parameters of the same or more
       specialized classes in all positions. *)
    Definition pointwise : Prop :=
      forall i j a b, ovs !! i = Some a -> ovs !! j = Some b -> cand i -> cand j ->
        dominates a b ->
        Forall2 (fun x y => derives (ti x) (ti y)) (or_vp a) (or_vp b).
  End Select.

  (* No other overrider has parameters of the same classes. *)
  Definition unique_signature (ovs : list overrider_record) (i : nat) : Prop :=
    forall j a b, ovs !! i = Some a -> ovs !! j = Some b ->
      map ti (or_vp a) = map ti (or_vp b) -> j = i.

  (* The overriders that can be called with these arguments. *)
  Definition candidate (ovs : list overrider_record) (args : list N) (i : nat) : Prop :=
    exists o, ovs !! i = Some o /\ applicable args o.

  (* The overrider called by a method. *)
  Definition selects (ovs : list overrider_record) (args : list N) : selection -> Prop :=
    selects_from ovs (candidate ovs args).

  (* The other overriders that can be called with the arguments of overrider [i]
     (BOOST_OPENMETHOD_OVERRIDE.adoc:41-45). *)
  Definition next_candidate (ovs : list overrider_record) (i j : nat) : Prop :=
    j <> i /\ exists o, ovs !! i = Some o /\ candidate ovs (map ti (or_vp o)) j.

  Definition selects_next (ovs : list overrider_record) (i : nat) : selection -> Prop :=
    selects_from ovs (next_candidate ovs i).

  (* The function a selection stands for. *)
  Definition selected_fn (m : method_record) (s : selection) : option fptr :=
    match s with
    | SNone => Some (mr_not_implemented m)
    | SAmbiguous => Some (mr_ambiguous m)
    | SOverrider i => or_pf <$> (mr_overriders m !! i)
    end.

  (* The same overriders of [m] accept an [a] and a [b] in position [d]. *)
  Definition same_row (m : method_record) (d : nat) (a b : N) : Prop :=
    forall o v, o ∈ mr_overriders m -> or_vp o !! d = Some v ->
      derives a (ti v) <-> derives b (ti v).

  (* One class for each set of overriders found in position [d] of method [m]. *)
  Record row_representatives (m : method_record) (d : nat) (v : N) (reps : list N) : Prop := {
    rr_valid : forall a, a ∈ reps -> registered a /\ derives a (ti v);
    rr_all : forall a, registered a -> derives a (ti v) -> exists r, r ∈ reps /\ same_row m d a r;
    rr_distinct : forall i j a b, reps !! i = Some a -> reps !! j = Some b ->
      same_row m d a b -> i = j
  }.

  (* Arguments accepted by the compiler for a method: their classes are
     registered and derive from the parameter classes. *)
  Definition valid_args (m : method_record) (args : list N) : Prop :=
    Forall2 (fun a v => registered a /\ derives a (ti v)) args (mr_vp m).
End Classes.

(* What initialize() must reject. *)
Section Errors.
  Context (ti : N -> N) (void : N) (R : registrations).

  (* The return type of the method is a registered class. *)
  Definition covariant (m : method_record) : Prop :=
    ti (mr_return m) <> ti void /\ registered ti R (ti (mr_return m)).

  (* The classes named by the registrations: bases, virtual parameters of methods
     and of overriders, and the return types of the overriders of a method with a
     covariant return type. *)
  Definition named (t : N) : Prop :=
    (exists cr, cr ∈ reg_classes R /\ t ∈ cr_bases cr) \/
    exists m, m ∈ reg_methods R /\
      (t ∈ mr_vp m \/
       exists o, o ∈ mr_overriders m /\ (t ∈ or_vp o \/ (covariant m /\ t = or_return o))).

  Definition all_named_registered : Prop := forall t, named t -> registered ti R (ti t).

  (* Overrider [o] of [m] takes [w] where the method takes [v], and [w] is not
     known to derive from [v]. *)
  Definition misfit (m : method_record) (o : overrider_record) (v w : N) : Prop :=
    m ∈ reg_methods R /\ o ∈ mr_overriders m /\
    exists p, mr_vp m !! p = Some v /\ or_vp o !! p = Some w /\ ~ derives ti R (ti w) (ti v).
End Errors.

(* What C++ and the platform guarantee about the registrations. *)
Section Program.
  Context (ti : N -> N) (R : registrations).

  (* Overriders have the arity of their method, which is not 0
     (core.hpp:2270-2278, 2350, 2379-2403). *)
  Definition arity_ok : Prop :=
    forall m, m ∈ reg_methods R ->
      mr_vp m <> [] /\
      forall o, o ∈ mr_overriders m -> length (or_vp o) = length (mr_vp m).

  (* Type ids are 64-bit words; the policies reserve the largest. *)
  Definition ids_ok : Prop :=
    forall cr, cr ∈ reg_classes R -> (cr_type cr < 2 ^ 64 - 1)%N.

  (* Distinct classes, methods and overriders have distinct variables. *)
  Record addresses_ok : Prop := {
    ad_static : forall cr1 cr2, cr1 ∈ reg_classes R -> cr2 ∈ reg_classes R ->
      cr_static_vptr cr1 = cr_static_vptr cr2 -> ti (cr_type cr1) = ti (cr_type cr2);
    ad_slots : NoDup (map mr_slots_strides (reg_methods R));
    ad_next : NoDup (flat_map (fun m => map or_next (mr_overriders m)) (reg_methods R))
  }.

  (* Distinct functions have distinct addresses: the overriders of a method and
     its two error stubs. *)
  Definition functions_ok (m : method_record) : Prop :=
    mr_not_implemented m <> mr_ambiguous m /\
    forall o, o ∈ mr_overriders m ->
      or_pf o <> mr_not_implemented m /\ or_pf o <> mr_ambiguous m.
End Program.

(* The number of classes up to which the hash policy computes [1 << M] within the
   range of int. *)
Definition max_classes : N := 2 ^ 26.
