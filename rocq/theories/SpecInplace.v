(* Vocabulary about objects with an embedded v-table pointer. *)
From stdpp Require Import base list numbers.
From Verif Require Import Base ModelWorld ModelVirtualPtr ModelInplace.

(* Subobject [q], of class [b], is a base of subobject [p], of class [c], or [p]
   itself; [path] says which base is taken at each step. *)
Inductive within : loc -> class -> list nat -> loc -> class -> Prop :=
  | within_self p c : within p c [] p c
  | within_base p c i b path q d :
      cbases c !! i = Some b -> within (base_at p b) b path q d ->
      within p c (i :: path) q d.

(* No subobject is reached in two ways: no virtual base is inherited by two
   different bases. *)
Definition unshared (o : nat) (c : class) : Prop :=
  forall path path' q b b',
    within (complete_at o c) c path q b -> within (complete_at o c) c path' q b' -> path = path'.

(* Calls on the object at [p], through a reference to the object or to any of its
   bases, use the v-table of class [n]. *)
Definition dispatches_as (cf : config) (w : world) (addr : N -> nat) (m : memory)
    (p : loc) (c : class) (n : N) : Prop :=
  forall path q b, within p c path q b -> vptr_fn cf w m q b = Ok (w_static w (addr n)).

(* A program with objects: the state of the registry, the memory, and the complete
   objects that exist. *)
Record objects := Objects { os_world : world; os_memory : memory; os_live : list (nat * class) }.

Inductive object_step (cf : config) (addr : N -> nat) : objects -> objects -> Prop :=
  | step_new w m l o c :
      o ∉ map fst l ->
      object_step cf addr (Objects w m l)
        (Objects w (fst (construct cf w addr o c (m, []))) ((o, c) :: l))
  | step_delete w m l o c :
      (o, c) ∈ l ->
      object_step cf addr (Objects w m l)
        (Objects w (fst (destroy cf w addr o c (m, []))) (filter (fun x => fst x <> o) l))
  (* T x = y; both of class [c] *)
  | step_copy w m l o o' c :
      o ∉ map fst l -> (o', c) ∈ l ->
      object_step cf addr (Objects w m l)
        (Objects w (copy (complete_at o c) (complete_at o' c) c m) ((o, c) :: l))
  (* x = y; *)
  | step_assign w m l o o' c :
      (o, c) ∈ l -> (o', c) ∈ l ->
      object_step cf addr (Objects w m l)
        (Objects w (copy (complete_at o c) (complete_at o' c) c m) l)
  (* initialize(), finalize(): with indirect_vptr at any time, otherwise when there
     are no objects *)
  | step_world w w' m l :
      cf_indirect cf = true \/ l = [] ->
      object_step cf addr (Objects w m l) (Objects w' m l).
