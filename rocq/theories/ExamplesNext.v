(* Programs for the theorems about next. *)
From stdpp Require Import base list numbers list_numbers relations.
From Verif Require Import Base Registry Spec ModelClasses ModelMethods ModelSlots
  ModelTables ModelHash ModelWorld ModelCall SpecCall Decide ExamplesModel ExamplesDispatch
  ExamplesVptr.

Definition pointwiseb (ti : N -> N) (R : registrations) (n : nat) (ovs : list overrider_record) : bool :=
  forallb (fun a => forallb (fun b =>
    negb (dominatesb ti R n a b) || applicableb ti R n (map ti (or_vp a)) b) ovs) ovs.

Lemma pointwiseb_spec ti R n ovs cand :
  closure_ok ti R n = true -> pointwiseb ti R n ovs = true -> pointwise ti R ovs cand.
Proof.
  intros Hc H i j a b Ha Hb _ _ D. unfold pointwiseb in H. rewrite forallb_forall in H.
  specialize (H a). rewrite <- elem_of_list_In in H. specialize (H (elem_of_list_lookup_2 _ _ _ Ha)).
  rewrite forallb_forall in H. specialize (H b). rewrite <- elem_of_list_In in H.
  specialize (H (elem_of_list_lookup_2 _ _ _ Hb)).
  apply (dominatesb_spec ti R n Hc) in D. rewrite D in H. simpl in H.
  apply (applicableb_spec ti R n Hc) in H. unfold applicable in H. rewrite Forall2_fmap_l in H. exact H.
Qed.

Definition signatures_uniqueb (ti : N -> N) (ovs : list overrider_record) : bool :=
  bool_decide (NoDup (map (fun o => map ti (or_vp o)) ovs)).

Lemma signatures_uniqueb_spec ti ovs i :
  signatures_uniqueb ti ovs = true -> unique_signature ti ovs i.
Proof.
  unfold signatures_uniqueb. rewrite bool_decide_eq_true. intros H j a b Ha Hb He.
  eapply NoDup_lookup; [exact H| |].
  - rewrite list_lookup_fmap, Hb. simpl. reflexivity.
  - rewrite list_lookup_fmap, Ha. simpl. rewrite He. reflexivity.
Qed.

Lemma selects_next_check ti R n ovs i s :
  closure_ok ti R n = true -> selectb ti R n ovs (next_cands ti R n ovs i) = s ->
  selects_next ti R ovs i s.
Proof. intros Hc <-. apply selects_next_compute. exact Hc. Qed.

(* Animal 1, Dog 2, Cat 3, Chimera 4: (Animal, Animal), (Dog, Animal), (Dog, Dog),
   (Chimera, Chimera). *)
Definition greet : method_record :=
  (mth 2 [1; 1] [ovr [1; 1] 21; ovr [2; 1] 22; ovr [2; 2] 23; ovr [4; 4] 24])%N.
Definition R_greet := Registrations diamond [greet; poke].
Definition w_greet : world := state cf0 false R_greet.

Lemma greet_example :
  program_ok cf0 env0 R_greet /\ initialized_by cf0 run0 false R_greet w_greet /\
  greet ∈ reg_methods R_greet /\ mr_overriders greet !! 3 = Some (ovr [4; 4] 24)%N /\
  unique_signature id (mr_overriders greet) 3 /\ functions_ok greet /\
  (forall args, valid_args id R_greet greet args ->
     pointwise id R_greet (mr_overriders greet) (candidate id R_greet (mr_overriders greet) args)) /\
  selects_next id R_greet (mr_overriders greet) 3 (SOverrider 2) /\
  map (w_next w_greet) [24; 23; 22; 21] = [Some 23; Some 22; Some 21; Some 1002]%N.
Proof.
  split; [apply program_check; by_compute|]. split; [apply state_initialized; by_compute|].
  split; [left|]. split; [reflexivity|]. split; [apply signatures_uniqueb_spec; by_compute|].
  split; [apply functions_check; by_compute|].
  split; [intros args _; apply (pointwiseb_spec id R_greet 4); by_compute|].
  split; [apply (selects_next_check id R_greet 4); by_compute|]. by_compute.
Qed.

Lemma poke_next_example :
  program_ok cf0 env0 R0 /\ initialized_by cf0 run0 false R0 w0 /\
  poke ∈ reg_methods R0 /\ mr_overriders poke !! 2 = Some (ovr [3] 13)%N /\
  unique_signature id (mr_overriders poke) 2 /\ functions_ok poke /\ length (mr_vp poke) = 1 /\
  selects_next id R0 (mr_overriders poke) 2 (SOverrider 0) /\
  selects_next id R0 (mr_overriders poke) 0 SNone.
Proof.
  split; [apply R0_program|]. split; [apply R0_initialized|]. split; [left|]. split; [reflexivity|].
  split; [apply signatures_uniqueb_spec; by_compute|]. split; [apply poke_functions|].
  split; [reflexivity|]. split; apply (selects_next_check id R0 4); by_compute.
Qed.

(* A 1; B 2 : A; C 3 : B; P 4; Q 5 : P; S 6 : P; T 7 : S, Q.  Overriders (B, Q) and
   (C, S): the second dominates the first and is called for (C, S) and (C, T). *)
Definition skew_classes : list class_record :=
  [cls 1 [1]; cls 2 [2; 1]; cls 3 [3; 2; 1]; cls 4 [4]; cls 5 [5; 4]; cls 6 [6; 4]; cls 7 [7; 6; 5; 4]]%N.
Definition o_bq := (ovr [2; 5] 31)%N.
Definition o_cs := (ovr [3; 6] 32)%N.
Definition skew := (mth 1 [1; 4] [o_bq; o_cs])%N.
Definition R_skew := Registrations skew_classes [skew].
Definition w_skew : world := state cf0 false R_skew.

Lemma next_inapplicable :
  exists (cf : config) (X : run) (R : registrations) (w : world)
         (mid : N) (m : method_record) (all : list arg) (args : list N) i o j oj,
    program_ok cf (r_env X) R /\ bases_first (e_ti (r_env X)) R /\
    initialized_by cf X false R w /\
    call_ok cf (e_ti (r_env X)) R w m all args /\ functions_ok m /\ together all /\
    unique_signature (e_ti (r_env X)) (mr_overriders m) i /\
    transitive_dominance (e_ti (r_env X)) R (mr_overriders m)
      (candidate (e_ti (r_env X)) R (mr_overriders m) args) /\
    mr_overriders m !! i = Some o /\ mr_overriders m !! j = Some oj /\
    call cf w mid m all = Ok (Calls (or_pf o)) /\
    w_next w (or_next o) = Some (or_pf oj) /\
    ~ applicable (e_ti (r_env X)) R args oj /\
    selects_next (e_ti (r_env X)) R (mr_overriders m) i SNone.
Proof.
  exists cf0, run0, R_skew, w_skew, 1%N, skew, (map AObject [3; 6]%N), [3; 6]%N, 1, o_cs, 0, o_bq.
  split; [apply program_check; by_compute|]. split; [apply bases_firstb_spec; by_compute|].
  split; [apply state_initialized; by_compute|].
  split; [apply (call_check cf0 R_skew w_skew skew _ 4); try discriminate; [left|by_compute..]|].
  split; [apply functions_check; by_compute|]. split; [apply objects_together|].
  split; [apply signatures_uniqueb_spec; by_compute|].
  split; [apply (transitive_compute id R_skew 4); by_compute|].
  split; [reflexivity|]. split; [reflexivity|]. split; [by_compute|]. split; [by_compute|].
  split; [|apply (selects_next_check id R_skew 4); by_compute].
  intros H. apply (applicableb_spec id R_skew 4) in H; [|by_compute]. vm_compute in H. discriminate.
Qed.

(* Two overriders with the same parameters. *)
Definition twice := (mth 1 [1] [ovr [1] 11; ovr [2] 12; ovr [2] 13])%N.
Definition R_twice := Registrations diamond [twice].
Definition w_twice : world := state cf0 false R_twice.

Lemma has_next_unset :
  exists (cf : config) (X : run) (R : registrations) (w : world) (m : method_record) i o,
    program_ok cf (r_env X) R /\ bases_first (e_ti (r_env X)) R /\
    initialized_by cf X false R w /\ m ∈ reg_methods R /\ functions_ok m /\
    length (mr_vp m) = 1 /\ mr_overriders m !! i = Some o /\
    has_next w m (or_next o) = true /\ w_next w (or_next o) = None.
Proof.
  exists cf0, run0, R_twice, w_twice, twice, 1, (ovr [2] 12)%N.
  split; [apply program_check; by_compute|]. split; [apply bases_firstb_spec; by_compute|].
  split; [apply state_initialized; by_compute|]. split; [left|].
  split; [apply functions_check; by_compute|]. split; [reflexivity|]. split; [reflexivity|].
  split; by_compute.
Qed.

Lemma greet_down_example :
  program_ok cf0 env0 R_greet /\ initialized_by cf0 run0 false R_greet w_greet /\
  greet ∈ reg_methods R_greet /\ mr_overriders greet !! 3 = Some (ovr [4; 4] 24)%N /\
  unique_signature id (mr_overriders greet) 3 /\ functions_ok greet /\
  NoDup (map or_pf (mr_overriders greet)) /\
  (forall args, valid_args id R_greet greet args ->
     pointwise id R_greet (mr_overriders greet) (candidate id R_greet (mr_overriders greet) args)) /\
  mr_overriders greet !! 2 = Some (ovr [2; 2] 23)%N /\ w_next w_greet 24 = Some 23%N.
Proof.
  destruct greet_example as (H1 & H2 & H3 & H4 & H5 & H6 & H7 & _ & _).
  do 6 (split; [assumption|]). split; [by_decide|]. split; [exact H7|]. split; [reflexivity|by_compute].
Qed.
