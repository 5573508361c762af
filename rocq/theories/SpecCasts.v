(* The subobjects of an object, and conversions to a base class. *)
From stdpp Require Import base list numbers relations.
From Verif Require Import ModelCasts.

Section Hierarchy.
  Context (H : hierarchy).

  (* [b] is a direct base of [c]; [v]: a virtual one. *)
  Definition direct (v : bool) (c b : N) : Prop := exists bs, (c, bs) ∈ H /\ (b, v) ∈ bs.

  Definition inherits : N -> N -> Prop := rtc (fun c b => exists v, direct v c b).

  (* A class is defined once, and after its bases. *)
  Definition hierarchy_ok : Prop :=
    NoDup (map fst H) /\
    forall H1 c bs H2 b v, H = H1 ++ (c, bs) :: H2 -> (b, v) ∈ bs -> b ∈ map fst H2.

  (* A way through non-virtual bases. *)
  Inductive stem : N -> subobject -> Prop :=
    | stem_whole c : stem c [c]
    | stem_base c b p : direct false c b -> stem b p -> stem c (c :: p).

  Definition virtual_base (c v : N) : Prop := exists x, inherits c x /\ direct true x v.

  (* [s] is a subobject of the objects of class [c]. *)
  Definition contains (c : N) (s : subobject) : Prop :=
    stem c s \/ exists v, virtual_base c v /\ stem v s.

  (* The objects of class [c] have one subobject of class [d], [s]. *)
  Definition only_part (c d : N) (s : subobject) : Prop :=
    (contains c s /\ list.last s = Some d) /\ forall s', contains c s' -> list.last s' = Some d -> s' = s.

  (* In an object where [sd] is a subobject of class [d], its own subobject [t] is [s]. *)
  Inductive embeds (d : N) (sd : subobject) : subobject -> subobject -> Prop :=
    | embeds_stem p : list.last sd = Some d -> stem d (d :: p) -> embeds d sd (d :: p) (sd ++ p)
    | embeds_virtual v t : list.last sd = Some d -> virtual_base d v -> stem v t -> embeds d sd t t.

  (* [d] is an unambiguous base of [c], or it is [c]. *)
  Definition unambiguous (c d : N) : Prop := exists s, only_part c d s.
End Hierarchy.
