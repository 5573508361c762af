(* What should be registered: the live objects, in the order of their construction. *)
From stdpp Require Import base list numbers.
From Verif Require Import Base Registry ModelRegistrars.

Global Instance registrar_eq_dec : EqDecision registrar.
Proof. solve_decision. Defined.

(* The live objects. *)
Definition live_after (l : list registrar) (ev : revent) : list registrar :=
  match ev with
  | Construct _ o => l ++ [o]
  | Destroy o => filter (fun o' => o' <> o) l
  | Attempt _ _ => l
  end.
Definition live (evs : list revent) : list registrar := foldl live_after [] evs.

Definition constructed (evs : list revent) (o : registrar) : Prop := exists st, Construct st o ∈ evs.

(* An object with static storage is constructed at most once, and destroyed at most
   once, after its construction.  Objects of a shared library that is loaded again
   are other objects. *)
Definition lifetimes (evs : list revent) : Prop :=
  forall before ev after, evs = before ++ ev :: after ->
    match ev with
    | Construct _ o => ~ constructed before o
    | Destroy o => o ∈ live before
    | Attempt _ _ => True
    end.

(* Objects that share the array of bases are of the same type. *)
Definition source_ok (S : source) : Prop :=
  forall i j, so_bases S i = so_bases S j -> cr_bases (so_class S i) = cr_bases (so_class S j).

(* [st] gives the type ids: always, or during initialize() if they are deferred. *)
Definition gives_ids (deferred : bool) (evs : list revent) (st : N -> N) : Prop :=
  deferred = true \/ forall st' o x, Construct st' o ∈ evs -> st' x = st x.

(* What is registered by a set of objects. *)
Section Registered.
  Context (S : source) (st : N -> N).

  Definition class_with (c : class_record) : class_record :=
    ClassRecord (st (cr_type c)) (st <$> cr_bases c) (cr_abstract c) (cr_static_vptr c).
  Definition overrider_with (o : overrider_record) : overrider_record :=
    OverriderRecord (st <$> or_vp o) (st (or_return o)) (or_pf o) (or_next o).
  Definition method_with (m : method_record) (os : list overrider_record) : method_record :=
    MethodRecord (st <$> mr_vp m) (st (mr_return m)) os (mr_not_implemented m) (mr_ambiguous m)
      (mr_slots_strides m).

  Definition classes_of (l : list registrar) : list class_record :=
    omap (fun o => match o with RClass k => Some (class_with (so_class S k)) | _ => None end) l.
  Definition overriders_of (m : nat) (l : list registrar) : list overrider_record :=
    omap (fun o =>
      match o with
      | ROverrider k =>
          if decide (fst (so_overrider S k) = m) then Some (overrider_with (snd (so_overrider S k)))
          else None
      | _ => None
      end) l.
  Definition methods_of (l : list registrar) : list method_record :=
    omap (fun o =>
      match o with
      | RMethod k => Some (method_with (so_method S k) (overriders_of k l))
      | _ => None
      end) l.

  Definition registers (l : list registrar) : registrations :=
    Registrations (classes_of l) (methods_of l).
End Registered.

(* The same program, in which type ids are known from the start. *)
Definition early_ids (st : N -> N) (evs : list revent) : list revent :=
  map (fun ev => match ev with Construct _ o => Construct st o | ev => ev end) evs.
