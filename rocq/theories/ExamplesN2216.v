(* Programs meeting the hypotheses of the theorems about n2216. *)
From stdpp Require Import base list numbers list_numbers relations.
From Verif Require Import Base Registry Spec SpecN2216 ModelClasses ModelMethods ModelSlots
  ModelTables ModelHash ModelWorld ModelCall ModelErrors SpecCall Decide ExamplesModel ExamplesDispatch ProofDispatch ProofNext ExamplesVptr.

Definition ovr_r (vp : list N) (ret pf : N) : overrider_record :=
  OverriderRecord vp ret pf (N.to_nat pf).
Definition mth_r (id : N) (vp : list N) (ret : N) (ovs : list overrider_record) : method_record :=
  MethodRecord vp ret ovs (1000 + id)%N (2000 + id)%N (N.to_nat id).

(* ---- deciding the guard, whatever the arguments ---- *)
Section Untangled.
  Context (R : registrations) (n : nat) (Hn : closure_ok id R n = true).

  Definition unrelatedb (a b : overrider_record) : bool :=
    negb (dominatesb id R n a b) && negb (dominatesb id R n b a).

  Fixpoint triples {A} (P : A -> A -> A -> bool) (l : list A) : bool :=
    match l with
    | [] => true
    | a :: l => (fix pairs l := match l with
                 | [] => true
                 | b :: l => forallb (P a b) l && pairs l
                 end) l && triples P l
    end.

  Lemma triples_spec {A} (P : A -> A -> A -> bool) l i j k a b c :
    triples P l = true -> i < j -> j < k -> l !! i = Some a -> l !! j = Some b -> l !! k = Some c ->
    P a b c = true.
  Proof.
    revert i j k. induction l as [|x l IH]; intros i j k H Hij Hjk Ha Hb Hc; [discriminate|].
    simpl in H. apply andb_true_iff in H as [H1 H2].
    destruct j as [|j]; [lia|]. destruct k as [|k]; [lia|]. simpl in Hb, Hc.
    destruct i as [|i]; [|apply (IH i j k); auto; lia]. injection Ha as <-.
    clear IH H2 Hij. revert j k Hjk Hb Hc.
    induction l as [|y l IH]; intros j k Hjk Hb Hc; [discriminate|].
    simpl in H1. apply andb_true_iff in H1 as [H1 H2].
    destruct k as [|k]; [lia|]. simpl in Hc. destruct j as [|j].
    - injection Hb as <-. rewrite forallb_forall in H1. apply H1, elem_of_list_In.
      eapply elem_of_list_lookup_2; eauto.
    - apply (IH H2 j k); auto. lia.
  Qed.

  Definition untangledb : bool :=
    forallb (fun m => triples (fun a b c =>
      negb (unrelatedb a b && unrelatedb a c && unrelatedb b c &&
            derivesb id R n (or_return b) (or_return a))) (mr_overriders m)) (reg_methods R).

  Lemma unrelatedb_spec a b : unrelated id R a b -> unrelatedb a b = true.
  Proof.
    unfold unrelated, unrelatedb. intros [H1 H2]. apply andb_true_iff.
    split; apply negb_true_iff, not_true_iff_false; rewrite (dominatesb_spec id R n Hn); assumption.
  Qed.

  Lemma untangledb_spec void : untangledb = true -> untangled id void R.
  Proof.
    unfold untangledb. rewrite forallb_forall. intros H m args i j k a b c Hm _ _ Hij Hjk Ha Hb Hc
      _ _ _ U1 U2 U3 Hr.
    specialize (H m ltac:(apply elem_of_list_In; exact Hm)).
    pose proof (triples_spec _ _ i j k a b c H Hij Hjk Ha Hb Hc) as Ht. cbv beta in Ht.
    apply negb_true_iff in Ht.
    rewrite (unrelatedb_spec a b U1), (unrelatedb_spec a c U2), (unrelatedb_spec b c U3) in Ht.
    assert (Hd : derivesb id R n (or_return b) (or_return a) = true)
      by (apply (derivesb_spec id R n Hn); exact Hr).
    rewrite Hd in Ht. discriminate.
  Qed.
End Untangled.

(* ---- a method with a covariant return type ---- *)
(* Animal 1, Dog 2, Cat 3, Chimera 4 : Dog, Cat.  clone: Animal -> Animal,
   Dog -> Animal, Cat -> Cat.  A Chimera is ambiguous, Cat is returned by the more
   specialized one. *)
Definition clone : method_record :=
  (mth_r 5 [1] 1 [ovr_r [1] 1 51; ovr_r [2] 1 52; ovr_r [3] 3 53])%N.
Definition R_clone := Registrations diamond [poke; meet; clone].
Definition w_clone : world := state cf0 false R_clone.
Definition w_clone_n : world := state cf0 true R_clone.

Lemma R_clone_program cf : program_ok cf env0 R_clone.
Proof. apply program_check. by_compute. Qed.
Lemma R_clone_bases_first : bases_first id R_clone.
Proof. apply bases_firstb_spec. by_compute. Qed.
Lemma R_clone_initialized b : initialized_by cf0 run0 b R_clone (state cf0 b R_clone).
Proof. apply state_initialized. destruct b; by_compute. Qed.
Lemma clone_call w t : In t [1;2;3;4]%N -> call_ok cf0 id R_clone w clone (map AObject [t]) [t].
Proof.
  intros Ht. apply (call_check cf0 R_clone w clone [t] 4); try discriminate.
  - right. right. left.
  - simpl in *. destruct Ht as [<-|[<-|[<-|[<-|[]]]]]; by_compute.
  - by_compute.
  - simpl in *. destruct Ht as [<-|[<-|[<-|[<-|[]]]]]; by_compute.
Qed.
Lemma clone_covariant : covariant id 0%N R_clone clone.
Proof. split; [discriminate|]. exists (cls 1 [1])%N. split; [left|reflexivity]. Qed.
Lemma clone_settled :
  settled id R_clone (mr_overriders clone)
    (candidate id R_clone (mr_overriders clone) [4]%N).
Proof. apply candidates_settled, (transitive_compute id R_clone 4); by_compute. Qed.
Lemma clone_undominated i :
  undominated id R_clone (mr_overriders clone) (candidate id R_clone (mr_overriders clone) [4]%N) i <->
  i = 1 \/ i = 2.
Proof.
  rewrite <- (undoms_spec id R_clone 4 ltac:(by_compute) (mr_overriders clone) _
    (cands id R_clone 4 (mr_overriders clone) [4]%N)).
  - change (undoms id R_clone 4 _ _) with
      (undoms id R_clone 4 (mr_overriders clone) (cands id R_clone 4 (mr_overriders clone) [4]%N)).
    replace (undoms _ _ _ _ _) with [1; 2] by (symmetry; by_compute). set_solver.
  - intros k. apply cands_spec. by_compute.
Qed.
Lemma clone_most_specialized :
  most_specialized id R_clone (mr_overriders clone)
    (undominated id R_clone (mr_overriders clone)
      (candidate id R_clone (mr_overriders clone) [4]%N)) 2.
Proof.
  split; [apply clone_undominated; auto|]. exists (ovr_r [3] 3 53)%N. split; [reflexivity|].
  intros j o Ho Hj Hne. apply clone_undominated in Hj as [->| ->]; [|contradiction].
  injection Ho as <-. unfold return_derives.
  rewrite <- !(derivesb_spec id R_clone 4 ltac:(by_compute)). split; [by_compute|].
  apply not_true_iff_false. by_compute.
Qed.

Lemma clone_example :
  program_ok cf0 env0 R_clone /\ bases_first id R_clone /\
  initialized_by cf0 run0 true R_clone w_clone_n /\
  call_ok cf0 id R_clone w_clone_n clone (map AObject [4]%N) [4]%N /\ functions_ok clone /\
  length (mr_vp clone) = 1 /\ covariant id 0%N R_clone clone /\
  settled id R_clone (mr_overriders clone)
    (candidate id R_clone (mr_overriders clone) [4]%N) /\
  most_specialized id R_clone (mr_overriders clone)
    (undominated id R_clone (mr_overriders clone)
      (candidate id R_clone (mr_overriders clone) [4]%N)) 2 /\
  call cf0 w_clone 5 clone (map AObject [4]%N) = Err (EAmbiguousCall 5 1 (types_of [4%N])) /\
  call cf0 w_clone_n 5 clone (map AObject [4]%N) = Ok (Calls 53%N).
Proof.
  split; [apply R_clone_program|]. split; [apply R_clone_bases_first|].
  split; [apply (R_clone_initialized true)|]. split; [apply clone_call; simpl; auto|].
  split; [apply functions_check; by_compute|]. split; [reflexivity|].
  split; [apply clone_covariant|]. split; [apply clone_settled|].
  split; [apply clone_most_specialized|]. split; by_compute.
Qed.

Lemma clone_both :
  program_ok cf0 env0 R_clone /\ bases_first id R_clone /\
  initialized_by cf0 run0 false R_clone w_clone /\ initialized_by cf0 run0 true R_clone w_clone_n /\
  call_ok cf0 id R_clone w_clone meet (map AObject [2; 4]%N) [2; 4]%N /\
  call_ok cf0 id R_clone w_clone_n meet (map AObject [2; 4]%N) [2; 4]%N /\
  functions_ok meet /\ together (map AObject [2; 4]%N) /\
  call cf0 w_clone 2 meet (map AObject [2; 4]%N) = Ok (Calls 24%N).
Proof.
  split; [apply R_clone_program|]. split; [apply R_clone_bases_first|].
  split; [apply (R_clone_initialized false)|]. split; [apply (R_clone_initialized true)|].
  split; [apply (call_check cf0 R_clone w_clone meet _ 4); try discriminate;
    [right; left|by_compute|by_compute|by_compute]|].
  split; [apply (call_check cf0 R_clone w_clone_n meet _ 4); try discriminate;
    [right; left|by_compute|by_compute|by_compute]|].
  split; [apply meet_functions|]. split; [apply objects_together|by_compute].
Qed.

(* clone(Cat) is selected for a Chimera, and then clone(Dog) is the next one.  It is
   entered from clone(Cat) with a plain Cat too. *)
Lemma clone_next :
  exists (cf : config) (X : run) (R : registrations) (w : world) (mid : N) (m : method_record)
         (all : list arg) (args : list N) i oi j oj,
    program_ok cf (r_env X) R /\ bases_first (e_ti (r_env X)) R /\
    untangled (e_ti (r_env X)) (e_void (r_env X)) R /\ initialized_by cf X true R w /\
    call_ok cf (e_ti (r_env X)) R w m all args /\ functions_ok m /\ length (mr_vp m) = 1 /\
    mr_overriders m !! i = Some oi /\ mr_overriders m !! j = Some oj /\
    unique_signature (e_ti (r_env X)) (mr_overriders m) i /\
    call cf w mid m all = Ok (Calls (or_pf oi)) /\
    call_next w mid m (or_next oi) all = Ok (Calls (or_pf oj)) /\
    ~ applicable (e_ti (r_env X)) R args oj.
Proof.
  exists cf0, run0, R_clone, w_clone_n, 5%N, clone, (map AObject [3]%N), [3]%N, 2, (ovr_r [3] 3 53)%N,
    1, (ovr_r [2] 1 52)%N.
  split; [apply R_clone_program|]. split; [apply R_clone_bases_first|].
  split; [apply (untangledb_spec R_clone 4); by_compute|].
  split; [apply (R_clone_initialized true)|]. split; [apply clone_call; simpl; auto|].
  split; [apply functions_check; by_compute|]. split; [reflexivity|].
  split; [reflexivity|]. split; [reflexivity|]. split.
  { intros k a b Ha Hb Heq. injection Ha as <-. destruct k as [|[|[|k]]]; simpl in Hb;
      [injection Hb as <-; discriminate..|reflexivity|discriminate]. }
  split; [by_compute|]. split; [by_compute|].
  change (e_ti (r_env run0)) with (@id N). rewrite <- (applicableb_spec id R_clone 4 ltac:(by_compute)).
  apply not_true_iff_false. by_compute.
Qed.

(* copy: Animal -> Animal, Dog -> Animal, Cat -> Cat, Chimera -> Chimera.  The next of
   copy(Chimera) is copy(Cat). *)
Definition copy : method_record :=
  (mth_r 6 [1] 1 [ovr_r [1] 1 61; ovr_r [2] 1 62; ovr_r [3] 3 63; ovr_r [4] 4 64])%N.
Definition R_copy := Registrations diamond [copy].
Definition w_copy : world := state cf0 true R_copy.

Lemma copy_next :
  program_ok cf0 env0 R_copy /\ initialized_by cf0 run0 true R_copy w_copy /\
  copy ∈ reg_methods R_copy /\ mr_overriders copy !! 3 = Some (ovr_r [4] 4 64)%N /\
  unique_signature id (mr_overriders copy) 3 /\
  (forall args, valid_args id R_copy copy args ->
     pointwise id R_copy (mr_overriders copy) (candidate id R_copy (mr_overriders copy) args)) /\
  (forall args j, valid_args id R_copy copy args ->
     undominated id R_copy (mr_overriders copy) (candidate id R_copy (mr_overriders copy) args) 3 ->
     undominated id R_copy (mr_overriders copy) (candidate id R_copy (mr_overriders copy) args) j -> j = 3) /\
  functions_ok copy /\ covariant id 0%N R_copy copy /\
  call_next w_copy 6 copy 64 [AObject 4]%N = Ok (Calls 63%N).
Proof.
  assert (HP : program_ok cf0 env0 R_copy) by (apply program_check; by_compute).
  split; [exact HP|]. split; [apply state_initialized; by_compute|].
  split; [left|]. split; [reflexivity|]. split.
  { intros k a b Ha Hb Heq. injection Ha as <-. destruct k as [|[|[|[|k]]]]; simpl in Hb;
      [injection Hb as <-; discriminate..|reflexivity|discriminate]. }
  split.
  { intros args _. apply uni_pointwise; [apply HP|left|reflexivity]. }
  split.
  { intros args j _ [H3 _] [Hj Hno]. destruct j as [|[|[|[|j]]]]; [..|reflexivity|];
      [exfalso; apply Hno; eexists 3, _, _; split; [reflexivity|]; split; [reflexivity|];
       split; [exact H3|]; apply (dominatesb_spec id R_copy 4 ltac:(by_compute)); by_compute..|].
    destruct Hj as (o & Ho & _). discriminate Ho. }
  split; [apply functions_check; by_compute|]. split; [|by_compute].
  split; [discriminate|]. exists (cls 1 [1])%N. split; [left|reflexivity].
Qed.

(* ---- another run: other type ids, addresses and vptr policy ---- *)
Definition move (t : N) : N := (7 * t)%N.
Definition cls_m (c : class_record) : class_record :=
  ClassRecord (move (cr_type c)) (map move (cr_bases c)) (cr_abstract c) (3 * cr_static_vptr c).
Definition ovr_m (o : overrider_record) : overrider_record :=
  OverriderRecord (map move (or_vp o)) (move (or_return o)) (or_pf o + 100)%N (or_next o + 100).
Definition mth_m (m : method_record) : method_record :=
  MethodRecord (map move (mr_vp m)) (move (mr_return m)) (map ovr_m (mr_overriders m))
    (mr_not_implemented m + 50)%N (mr_ambiguous m + 50)%N (mr_slots_strides m + 20).
Definition R_moved :=
  Registrations (map cls_m (reg_classes R_clone)) (map mth_m (reg_methods R_clone)).
Definition w_moved : world := state cf_map true R_moved.

Lemma moved_same : same_program id id 0%N 0%N move R_clone R_moved.
Proof.
  split.
  - intros x y. unfold move, id. lia.
  - reflexivity.
  - apply Forall2_fmap_r. apply Forall_Forall2_diag. rewrite Forall_forall. intros c _. split; reflexivity.
  - apply Forall2_fmap_r. apply Forall_Forall2_diag. rewrite Forall_forall. intros m _.
    split; [reflexivity|]. split; [reflexivity|]. simpl.
    apply Forall2_fmap_r, Forall_Forall2_diag. rewrite Forall_forall. intros o _. split; reflexivity.
Qed.

Lemma moved_example :
  same_program id id 0%N 0%N move R_clone R_moved /\
  program_ok cf0 env0 R_clone /\ program_ok cf_map env0 R_moved /\
  bases_first id R_clone /\ bases_first id R_moved /\
  initialized_by cf0 run0 true R_clone w_clone_n /\ initialized_by cf_map run0 true R_moved w_moved /\
  reg_methods R_clone !! 2 = Some clone /\ reg_methods R_moved !! 2 = Some (mth_m clone) /\
  call_ok cf0 id R_clone w_clone_n clone (map AObject [4]%N) (map id [4]%N) /\
  call_ok cf_map id R_moved w_moved (mth_m clone) (map AObject [28]%N) (map (fun x => id (move x)) [4]%N) /\
  functions_ok clone /\ functions_ok (mth_m clone) /\ length (mr_vp clone) = 1 /\
  call cf0 w_clone_n 5 clone (map AObject [4]%N) = Ok (Calls 53%N) /\
  call cf_map w_moved 5 (mth_m clone) (map AObject [28]%N) = Ok (Calls 153%N).
Proof.
  split; [apply moved_same|]. split; [apply R_clone_program|].
  split; [apply program_check; by_compute|]. split; [apply R_clone_bases_first|].
  split; [apply bases_firstb_spec; by_compute|]. split; [apply (R_clone_initialized true)|].
  split; [apply state_initialized; by_compute|]. split; [reflexivity|]. split; [reflexivity|].
  split; [apply clone_call; simpl; auto|].
  split; [apply (call_check cf_map R_moved w_moved (mth_m clone) [28]%N 4); try discriminate;
    [right; right; left|by_compute|by_compute|by_compute]|].
  split; [apply functions_check; by_compute|]. split; [apply functions_check; by_compute|].
  split; [reflexivity|]. split; by_compute.
Qed.

(* ---- three survivors ---- *)
(* Part 1, Red 2, Green 3, Blue 4, White 5 : Red, Green, Blue.  mix returns Red,
   Green and Part; blend always returns Part. *)
Definition colours : list class_record :=
  [cls 1 [1]; cls 2 [2; 1]; cls 3 [3; 1]; cls 4 [4; 1]; cls 5 [5; 2; 3; 4; 1]]%N.
Definition mix : method_record :=
  (mth_r 6 [1] 1 [ovr_r [2] 2 61; ovr_r [3] 3 62; ovr_r [4] 1 63])%N.
Definition blend : method_record :=
  (mth_r 7 [1] 1 [ovr_r [2] 1 71; ovr_r [3] 1 72; ovr_r [4] 1 73])%N.
Definition R_mix := Registrations colours [mix].
Definition R_blend := Registrations colours [blend].

Lemma mix_example :
  program_ok cf0 env0 R_mix /\ world_ok world0 /\ untangled id 0%N R_mix /\
  (exists w' rep, initialize cf0 run0 false R_mix world0 = (w', Ok rep)) /\
  call cf0 (state cf0 true R_mix) 6 mix [AObject 5%N] = Ok (Calls 62%N).
Proof.
  split; [apply program_check; by_compute|]. split; [apply world0_start|].
  split; [apply (untangledb_spec R_mix 4); by_compute|]. split; [|by_compute].
  destruct (initialize cf0 run0 false R_mix world0) as [w' [rep| | |]] eqn:Hi; [eauto|..];
    exfalso; apply (f_equal snd) in Hi; vm_compute in Hi; discriminate Hi.
Qed.

Lemma blend_undefined :
  exists (cf : config) (X : run) (R : registrations),
    program_ok cf (r_env X) R /\ bases_first (e_ti (r_env X)) R /\
    (exists w rep, initialize cf X false R world0 = (w, Ok rep)) /\
    snd (initialize cf X true R world0) = Undef.
Proof.
  exists cf0, run0, R_blend. split; [apply program_check; by_compute|].
  split; [apply bases_firstb_spec; by_compute|]. split; [|by_compute].
  destruct (initialize cf0 run0 false R_blend world0) as [w' [rep| | |]] eqn:Hi; [eauto|..];
    exfalso; apply (f_equal snd) in Hi; vm_compute in Hi; discriminate Hi.
Qed.

(* An overrider for a class that is not registered. *)
Definition R_stray := Registrations colours [mix; mth_r 8 [1] 0 [ovr_r [9] 0 81]]%N.

Lemma stray_example :
  program_ok cf0 env0 R_stray /\ world_ok world0 /\ untangled id 0%N R_stray /\
  (exists w', initialize cf0 run0 false R_stray world0 = (w', Err (EMissingClass 9%N))).
Proof.
  split; [apply program_check; by_compute|]. split; [apply world0_start|].
  split; [apply (untangledb_spec R_stray 4); by_compute|].
  destruct (initialize cf0 run0 false R_stray world0) as [w' o] eqn:Hi. exists w'.
  apply (f_equal snd) in Hi. vm_compute in Hi. rewrite <- Hi. reflexivity.
Qed.
