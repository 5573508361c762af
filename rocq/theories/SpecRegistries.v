(* Several registries: what is assumed of a program, and runs of a program. *)
From stdpp Require Import base list numbers.
From Verif Require Import Base Registry Spec ModelClasses ModelHash ModelWorld ModelCall SpecCall
  ModelLife ModelRegistries.

(* Where the variables of each registry are: static_vptr<Class>, slots_strides and
   next<Fn> are static members of templates that depend on the registry, so two
   registries have no variable in common. *)
Record places := Places {
  pl_static : list N -> nat -> Prop;
  pl_ss : list N -> nat -> Prop;
  pl_next : list N -> nat -> Prop
}.

Record separate (P : places) : Prop := {
  se_static : forall r r' a, pl_static P r a -> pl_static P r' a -> r = r';
  se_ss : forall r r' a, pl_ss P r a -> pl_ss P r' a -> r = r';
  se_next : forall r r' a, pl_next P r a -> pl_next P r' a -> r = r'
}.

Record placed (P : places) (r : list N) (R : registrations) : Prop := {
  pl_classes : forall cr, cr ∈ reg_classes R -> pl_static P r (cr_static_vptr cr);
  pl_methods : forall m, m ∈ reg_methods R -> pl_ss P r (mr_slots_strides m);
  pl_overriders : forall m o, m ∈ reg_methods R -> o ∈ mr_overriders m -> pl_next P r (or_next o)
}.

Section Runs.
  Context (cfs : list N -> config) (P : places).

  Definition allowed (r : list N) (ev : event) (p : program) : Prop :=
    match ev with
    | Registers R => placed P r R
    | Initializes X _ => program_ok (cfs r) (r_env X) (regs p r)
    | Finalizes => True
    end.

  (* From [p], these events happened, with these results. *)
  Inductive runs : program -> list (list N * event * result) -> program -> Prop :=
    | runs_nil p : runs p [] p
    | runs_snoc p h p1 r ev p2 res :
        runs p h p1 -> allowed r ev p1 -> step_in cfs r ev p1 = Ok (p2, res) ->
        runs p (h ++ [(r, ev, res)]) p2.
End Runs.

(* Nothing happened in registry [r]. *)
Definition idle (r : list N) (h : list (list N * event * result)) : Prop :=
  forall x, x ∈ h -> fst (fst x) <> r.

(* What happened in registry [r]. *)
Definition events_of (r : list N) (h : list (list N * event * result)) : list (event * result) :=
  omap (fun x => if decide (fst (fst x) = r) then Some (snd (fst x), snd x) else None) h.

(* An argument of a call in registry [r]: an object, a virtual_ptr made with the
   v-table pointer of a class of [r], or something else. *)
Inductive arg_of (P : places) (r : list N) (p : program) : arg -> Prop :=
  | arg_object t : arg_of P r p (AObject t)
  | arg_ptr a t : pl_static P r a -> arg_of P r p (APtr (pg_static p a) t)
  | arg_other t : arg_of P r p (AOther t).
