(* A Dog: its base Animal is constructed first and destroyed last. *)
From stdpp Require Import base list numbers.
From Verif Require Import Base Registry Spec ModelClasses ModelHash ModelWorld ModelCall SpecCall
  ExamplesModel ExamplesDispatch ModelVirtualPtr SpecVirtualPtr ExamplesVptr ExamplesVirtualPtr SpecPhases Decide.

Definition an_animal (n : nat) : object := Object 1 None.
Definition a_dog (n : nat) : object := Object 2 None.
Definition animal_or_dog (objs : nat -> object) : Prop := objs = an_animal \/ objs = a_dog.

Lemma animal_ok : objects_ok id R0 w0 an_animal.
Proof. split; [intros o; unfold known; by_decide|]. intros o b _ [=]. Qed.
Lemma dog_ok : objects_ok id R0 w0 a_dog.
Proof. split; [intros o; unfold known; by_decide|]. intros o b _ [=]. Qed.
Lemma animal_or_dog_ok objs : animal_or_dog objs -> objects_ok id R0 w0 objs.
Proof. intros [->| ->]; [apply animal_ok|apply dog_ok]. Qed.

Definition seen : vstate := fst (vstep cf0 w0 an_animal (PlainFromRef 0 0 false) vstate0).
Definition seen_dog : vstate := fst (vstep cf0 w0 a_dog (PlainFromRef 0 0 false) vstate0).
Lemma plain_ok objs op : op_ok cf0 id R0 objs (PlainFromRef 0 op false) (Ok tt).
Proof. split; [by left|done|done|done]. Qed.

Lemma made objs s : snd (vstep cf0 w0 objs (PlainFromRef 0 0 false) s) = Ok tt ->
  vstep cf0 w0 objs (PlainFromRef 0 0 false) s = (fst (vstep cf0 w0 objs (PlainFromRef 0 0 false) s), Ok tt).
Proof. intros <-. by destruct (vstep cf0 w0 objs (PlainFromRef 0 0 false) s). Qed.

(* Made in the constructor of Animal; then the Dog is complete. *)
Lemma seen_goes : goes cf0 id R0 w0 animal_or_dog (an_animal, vstate0) (a_dog, seen).
Proof.
  apply goes_change with an_animal; [|by right].
  apply goes_op with vstate0 (PlainFromRef 0 0 false) (Ok tt); [constructor; by left| |apply plain_ok].
  apply made. by_compute.
Qed.

Lemma seen_var : exists b, vs_vars seen 0 = VVar (Some 0) b.
Proof.
  enough (H : match vs_vars seen 0 with VVar (Some 0) _ => true | _ => false end = true).
  { destruct (vs_vars seen 0) as [|[[|o]|] b]; try discriminate H. by exists b. }
  by_compute.
Qed.

Lemma phases_example : exists b,
  program_ok cf0 env0 R0 /\ initialized_by cf0 run0 false R0 w0 /\
  (forall objs, animal_or_dog objs -> objects_ok id R0 w0 objs) /\ no_vars vstate0 /\
  goes cf0 id R0 w0 animal_or_dog (an_animal, vstate0) (a_dog, seen) /\
  vs_vars seen 0 = VVar (Some 0) b.
Proof.
  destruct seen_var as (b & Hb). exists b.
  split; [exact R0_program|]. split; [exact R0_initialized|]. split; [exact animal_or_dog_ok|].
  split; [exact vstate0_no_vars|]. split; [exact seen_goes|exact Hb].
Qed.

(* Made of the complete Dog; then others change. *)
Definition dog_and (objs : nat -> object) : Prop := objects_ok id R0 w0 objs /\ ob_type (objs 0) = 2%N.
Definition dog_cat (n : nat) : object := Object (match n with O => 2 | _ => 3 end)%N None.
Lemma dog_cat_ok : dog_and dog_cat.
Proof.
  split; [|reflexivity]. split; [|intros o b _ [=]].
  intros [|o]; unfold known; by_decide.
Qed.
Lemma right_example : exists b,
  unseen 0 vstate0 /\ goes cf0 id R0 w0 dog_and (a_dog, vstate0) (dog_cat, seen_dog) /\
  vs_vars seen_dog 0 = VVar (Some 0) b /\
  map (calls cf0 w0 dog_cat seen_dog 1 poke) [[0]] = [Ok (Calls 12)]%N.
Proof.
  assert (H : exists b, vs_vars seen_dog 0 = VVar (Some 0) b).
  { enough (H : match vs_vars seen_dog 0 with VVar (Some 0) _ => true | _ => false end = true).
    { destruct (vs_vars seen_dog 0) as [|[[|o]|] b]; try discriminate H. by exists b. }
    by_compute. }
  destruct H as (b & Hb). exists b. split; [intros x b'; by rewrite vstate0_no_vars|].
  split; [|split; [exact Hb|by_compute]].
  apply goes_change with a_dog; [|exact dog_cat_ok].
  apply goes_op with vstate0 (PlainFromRef 0 0 false) (Ok tt);
    [constructor; split; [exact dog_ok|reflexivity]| |apply plain_ok].
  apply made. by_compute.
Qed.

Lemma calls_one cf w objs s mid m x r : calls cf w objs s mid m [x] = Ok r ->
  exists a, var_arg w objs s x = Ok a /\ call cf w mid m [a] = Ok r.
Proof.
  unfold calls. simpl. destruct (var_arg w objs s x) as [a| | |]; simpl; intros H; try discriminate H. by exists a.
Qed.

Lemma stale_check objs0 objs f g :
  objects_ok id R0 w0 objs0 -> objects_ok id R0 w0 objs -> f <> g ->
  call cf0 w0 1 poke [AObject (ob_type (objs0 0))] = Ok (Calls f) ->
  call cf0 w0 1 poke [AObject (ob_type (objs 0))] = Ok (Calls g) ->
  snd (vstep cf0 w0 objs0 (PlainFromRef 0 0 false) vstate0) = Ok tt ->
  calls cf0 w0 objs (fst (vstep cf0 w0 objs0 (PlainFromRef 0 0 false) vstate0)) 1 poke [0] = Ok (Calls f) ->
  stale cf0 run0 R0 w0 objs0 objs 0 1 poke f g.
Proof.
  intros H1 H2 H3 H4 H5 H6 H7.
  split; [exact R0_program|]. split; [exact R0_initialized|]. split; [exact H1|]. split; [exact H2|].
  split; [exact H4|]. split; [exact H5|]. split; [exact H3|].
  destruct (calls_one _ _ _ _ _ _ _ _ H7) as (a & Ha & Hc).
  exists vstate0, (fst (vstep cf0 w0 objs0 (PlainFromRef 0 0 false) vstate0)), a.
  split; [exact vstate0_no_vars|]. split; [by apply made|]. split; [exact Ha|exact Hc].
Qed.

(* A virtual_ptr made in the constructor of Animal, and used when the Dog is complete. *)
Lemma constructor_stale : stale cf0 run0 R0 w0 an_animal a_dog 0 1 poke 11%N 12%N.
Proof. apply stale_check; [exact animal_ok|exact dog_ok|discriminate|by_compute..]. Qed.
(* One made of the complete Dog, and used in the destructor of Animal. *)
Lemma destructor_stale : stale cf0 run0 R0 w0 a_dog an_animal 0 1 poke 12%N 11%N.
Proof. apply stale_check; [exact dog_ok|exact animal_ok|discriminate|by_compute..]. Qed.

Lemma dog_derives : derives id R0 2 1.
Proof. apply (derivesb_spec id R0 4); by_compute. Qed.
