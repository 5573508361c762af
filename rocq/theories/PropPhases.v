(* C66: virtual_ptrs to objects under construction and destruction. *)
From stdpp Require Import base list numbers.
From Verif Require Import Base Registry Spec ModelClasses ModelHash ModelWorld ModelCall SpecCall
  ExamplesModel ExamplesDispatch ModelVirtualPtr SpecVirtualPtr ExamplesVirtualPtr
  SpecPhases ProofPhases ExamplesPhases.

(* If there is no virtual_ptr to an object yet when its construction ends, those made after are right
   until its destruction begins, whatever happens to other objects meanwhile. *)
Theorem C66_complete_partial :
  forall (cf : config) (X : run) (n2216 : bool) (R : registrations) (w : world),
    program_ok cf (r_env X) R -> initialized_by cf X n2216 R w ->
    forall (t : N) (objs0 : nat -> object) (s0 : vstate) (objs : nat -> object) (s : vstate)
           (x o : nat) (b : box),
      unseen o s0 ->
      goes cf (e_ti (r_env X)) R w
        (fun objs => objects_ok (e_ti (r_env X)) R w objs /\ ob_type (objs o) = t) (objs0, s0) (objs, s) ->
      vs_vars s x = VVar (Some o) b ->
      exists v, var_arg w objs s x = Ok (APtr v t) /\
        passes cf (e_ti (r_env X)) R w (APtr v t) (e_ti (r_env X) t).
Proof. exact phases_right. Qed.
Print Assumptions C66_complete_partial.

Example C66_complete_example : exists b,
  unseen 0 vstate0 /\ goes cf0 id R0 w0 dog_and (a_dog, vstate0) (dog_cat, seen_dog) /\
  vs_vars seen_dog 0 = VVar (Some 0) b /\
  map (calls cf0 w0 dog_cat seen_dog 1 poke) [[0]] = [Ok (Calls 12)]%N.
Proof. exact right_example. Qed.

(* At any time, a call through virtual_ptrs enters the function that it enters with objects of classes
   that theirs had at some time since the beginning.  [Q]: anything that always holds. *)
Theorem C66_calls :
  forall (cf : config) (X : run) (n2216 : bool) (R : registrations) (w : world)
         (Q : (nat -> object) -> Prop) (objs0 : nat -> object) (s0 : vstate) (objs : nat -> object)
         (s : vstate) (xs os : list nat),
    program_ok cf (r_env X) R -> initialized_by cf X n2216 R w -> cf_vptr cf <> VptrNone ->
    (forall objs, Q objs -> objects_ok (e_ti (r_env X)) R w objs) ->
    no_vars s0 -> goes cf (e_ti (r_env X)) R w Q (objs0, s0) (objs, s) ->
    Forall2 (fun x o => exists b, vs_vars s x = VVar (Some o) b) xs os ->
    exists args ts,
      Forall2 (fun x a => var_arg w objs s x = Ok a) xs args /\
      Forall2 (fun o t => exists objs', Q objs' /\ t = ob_type (objs' o)) os ts /\
      forall mid m f, call cf w mid m args = Ok (Calls f) <-> call cf w mid m (map AObject ts) = Ok (Calls f).
Proof. exact phases_call. Qed.
Print Assumptions C66_calls.

Example C66_calls_example : exists b,
  program_ok cf0 env0 R0 /\ initialized_by cf0 run0 false R0 w0 /\
  (forall objs, animal_or_dog objs -> objects_ok id R0 w0 objs) /\ no_vars vstate0 /\
  goes cf0 id R0 w0 animal_or_dog (an_animal, vstate0) (a_dog, seen) /\
  vs_vars seen 0 = VVar (Some 0) b.
Proof. exact phases_example. Qed.

(* A virtual_ptr made in the constructor of a base class: when the object is complete, calls through it
   do not do what calls on the object do. *)
Theorem C66_constructor_refuted :
  exists (cf : config) (X : run) (R : registrations) (w : world) (objs0 objs : nat -> object) (o : nat)
         (mid : N) (m : method_record) (f g : fptr),
    stale cf X R w objs0 objs o mid m f g /\
    derives (e_ti (r_env X)) R (e_ti (r_env X) (ob_type (objs o))) (e_ti (r_env X) (ob_type (objs0 o))).
Proof.
  exact (ex_intro _ cf0 (ex_intro _ run0 (ex_intro _ R0 (ex_intro _ w0 (ex_intro _ an_animal (ex_intro _ a_dog
    (ex_intro _ 0 (ex_intro _ 1%N (ex_intro _ poke (ex_intro _ 11%N (ex_intro _ 12%N
    (conj constructor_stale dog_derives)))))))))))).
Qed.
Print Assumptions C66_constructor_refuted.

(* A virtual_ptr made of the complete object, in the destructor of a base class: calls through it enter
   the overrider for the class whose destructor has run. *)
Theorem C66_destructor_refuted :
  exists (cf : config) (X : run) (R : registrations) (w : world) (objs0 objs : nat -> object) (o : nat)
         (mid : N) (m : method_record) (f g : fptr),
    stale cf X R w objs0 objs o mid m f g /\
    derives (e_ti (r_env X)) R (e_ti (r_env X) (ob_type (objs0 o))) (e_ti (r_env X) (ob_type (objs o))).
Proof.
  exact (ex_intro _ cf0 (ex_intro _ run0 (ex_intro _ R0 (ex_intro _ w0 (ex_intro _ a_dog (ex_intro _ an_animal
    (ex_intro _ 0 (ex_intro _ 1%N (ex_intro _ poke (ex_intro _ 12%N (ex_intro _ 11%N
    (conj destructor_stale dog_derives)))))))))))).
Qed.
Print Assumptions C66_destructor_refuted.
