(* Examples meeting the hypotheses of the dispatch theorems, and witnesses of the
   refuted statements, assembled from ExamplesDispatch.v. *)
From stdpp Require Import base list numbers list_numbers relations.
From Verif Require Import Base Registry Spec ModelClasses ModelMethods ModelSlots
  ModelTables ModelHash ModelWorld ModelCall SpecCall Decide ExamplesModel ExamplesDispatch
  ProofDispatch ProofInvariance.

Lemma poke_example :
  program_ok cf0 env0 R0 /\ bases_first id R0 /\ initialized_by cf0 run0 false R0 w0 /\
  call_ok cf0 id R0 w0 poke [AObject 4] [4%N] /\ functions_ok poke /\ length (mr_vp poke) = 1.
Proof.
  split; [apply R0_program|]. split; [apply R0_bases_first|]. split; [apply R0_initialized|].
  split; [apply poke_call; auto|]. split; [apply poke_functions|reflexivity].
Qed.

Lemma meet_example :
  program_ok cf0 env0 R0 /\ bases_first id R0 /\ initialized_by cf0 run0 false R0 w0 /\
  call_ok cf0 id R0 w0 meet (map AObject [2; 4]%N) [2; 4]%N /\ functions_ok meet /\
  together (map AObject [2; 4]%N) /\
  settled id R0 (mr_overriders meet) (candidate id R0 (mr_overriders meet) [2; 4]%N).
Proof.
  split; [apply R0_program|]. split; [apply R0_bases_first|]. split; [apply R0_initialized|].
  split; [apply meet_call; simpl; auto|]. split; [apply meet_functions|].
  split; [apply objects_together|]. apply candidates_settled, meet_transitive; simpl; auto.
Qed.

Lemma meet_comparable :
  call_ok cf0 id R0 w0 meet (map AObject [3; 3]%N) [3; 3]%N /\
  comparable id R0 (mr_overriders meet) (candidate id R0 (mr_overriders meet) [3; 3]%N).
Proof.
  split; [apply meet_call; simpl; auto|].
  intros i j a b Ha Hb Hi Hj p x y Hx Hy.
  rewrite <- (derivesb_spec id R0 4), <- (derivesb_spec id R0 4) by by_compute.
  assert (G : forall i o, mr_overriders meet !! i = Some o ->
            candidate id R0 (mr_overriders meet) [3; 3]%N i ->
            o = ovr [1; 1]%N 21 \/ o = ovr [1; 3]%N 23).
  { intros k o Ho Hk. apply (cands_spec id R0 4) in Hk; [|by_compute].
    vm_compute in Hk. repeat (apply elem_of_cons in Hk as [->|Hk]);
      [..|inversion Hk]; injection Ho as <-; auto. }
  destruct (G i a Ha Hi) as [-> | ->], (G j b Hb Hj) as [-> | ->];
    (destruct p as [|[|p]]; simpl in *; try discriminate);
    injection Hx as <-; injection Hy as <-; vm_compute; auto.
Qed.

Lemma meet_best :
  mr_overriders meet !! 3 = Some (ovr [2; 2] 24)%N /\
  applicable id R0 [2; 4]%N (ovr [2; 2] 24)%N /\
  (forall j o', mr_overriders meet !! j = Some o' -> j <> 3 ->
     applicable id R0 [2; 4]%N o' -> dominates id R0 (ovr [2; 2] 24)%N o').
Proof.
  split; [reflexivity|]. split.
  - apply (applicableb_spec id R0 4); by_compute.
  - intros j o' Ho Hj _. apply (dominatesb_spec id R0 4); [by_compute|].
    destruct j as [|[|[|[|j]]]]; simpl in Ho; try discriminate; [..|contradiction];
      injection Ho as <-; by_compute.
Qed.

Lemma purr_example :
  program_ok cf0 env0 R1 /\ bases_first id R1 /\ initialized_by cf0 run0 false R1 w1 /\
  call_ok cf0 id R1 w1 purr (map AObject [2]%N) [2]%N /\ functions_ok purr /\
  length (mr_vp purr) = 1 /\
  call cf0 w1 3 purr (map AObject [2]%N) = Err (ENoOverrider 3 1 (types_of [2%N])) /\
  call cf0 w1 3 purr (map AObject [4]%N) = Ok (Calls 31%N).
Proof.
  split; [apply R1_program|]. split; [apply R1_bases_first|]. split; [apply R1_initialized|].
  split; [apply purr_call; simpl; auto|]. split; [apply functions_check; by_compute|].
  split; [reflexivity|]. split; by_compute.
Qed.

Definition w0n : world := state cf0 true R0.
Lemma poke_example_n2216 :
  program_ok cf0 env0 R0 /\ bases_first id R0 /\ initialized_by cf0 run0 true R0 w0n /\
  call_ok cf0 id R0 w0n poke (map AObject [4]%N) [4]%N /\ functions_ok poke /\
  length (mr_vp poke) = 1.
Proof.
  split; [apply R0_program|]. split; [apply R0_bases_first|].
  split; [apply state_initialized; by_compute|].
  split; [|split; [apply poke_functions|reflexivity]].
  apply (call_check cf0 R0 w0n poke [4]%N 4); try discriminate; [left|by_compute|by_compute|by_compute].
Qed.

Lemma not_transitive :
  exists (cf : config) (X : run) (R : registrations) (w : world)
         (mid : N) (m : method_record) (all : list arg) (args : list N) i n ts,
    program_ok cf (r_env X) R /\ bases_first (e_ti (r_env X)) R /\
    initialized_by cf X false R w /\
    call_ok cf (e_ti (r_env X)) R w m all args /\ functions_ok m /\ together all /\
    selects (e_ti (r_env X)) R (mr_overriders m) args (SOverrider i) /\
    call cf w mid m all = Err (EAmbiguousCall mid n ts).
Proof.
  exists cf0, run0, R2, w2, 1%N, clash1, (map AObject [5; 5]%N), [5; 5]%N, 0, 2, (types_of [5; 5]%N).
  split; [apply R2_program|]. split; [apply R2_bases_first|]. split; [apply R2_initialized|].
  split; [apply clash_call|]. split; [apply clash_functions|]. split; [apply objects_together|].
  split; [apply clash_selects|by_compute].
Qed.

(* The same overriders and one that dominates the three others. *)
Definition clash3 := (mth 1 [1; 1] [o_yz; o_xy; o_zx; ovr [5; 5] 34])%N.
Definition R_clash3 := Registrations lattice [clash3].
Definition w_clash3 : world := state cf0 false R_clash3.
Lemma settled_not_transitive :
  program_ok cf0 env0 R_clash3 /\ bases_first id R_clash3 /\
  initialized_by cf0 run0 false R_clash3 w_clash3 /\
  call_ok cf0 id R_clash3 w_clash3 clash3 (map AObject [5; 5]%N) [5; 5]%N /\ functions_ok clash3 /\
  together (map AObject [5; 5]%N) /\
  settled id R_clash3 (mr_overriders clash3) (candidate id R_clash3 (mr_overriders clash3) [5; 5]%N) /\
  ~ transitive_dominance id R_clash3 (mr_overriders clash3)
      (candidate id R_clash3 (mr_overriders clash3) [5; 5]%N).
Proof.
  split; [apply program_check; by_compute|]. split; [apply bases_firstb_spec; by_compute|].
  split; [apply state_initialized; by_compute|].
  split; [apply (call_check cf0 R_clash3 w_clash3 clash3 _ 4); try discriminate; [left|by_compute..]|].
  split; [apply functions_check; by_compute|]. split; [apply objects_together|].
  split.
  - apply best_settled with 3 (ovr [5; 5] 34)%N; [reflexivity| |].
    + exists (ovr [5; 5] 34)%N. split; [reflexivity|].
      apply (applicableb_spec id R_clash3 4); by_compute.
    + intros j oj Hoj _ Hj. apply (dominatesb_spec id R_clash3 4); [by_compute|].
      destruct j as [|[|[|[|j]]]]; simpl in Hoj; try discriminate; [..|contradiction];
        injection Hoj as <-; by_compute.
  - intros H. apply (transitive_compute id R_clash3 4) in H; [|by_compute]. vm_compute in H. discriminate.
Qed.

Lemma wrong_method :
  exists (cf : config) (X : run) (R : registrations) (w : world)
         (mid : N) (m : method_record) (all : list arg) (args : list N) (f : fptr),
    program_ok cf (r_env X) R /\ initialized_by cf X false R w /\
    call_ok cf (e_ti (r_env X)) R w m all args /\ functions_ok m /\ length (mr_vp m) = 1 /\
    call cf w mid m all = Ok (Calls f) /\
    forall o, o ∈ mr_overriders m -> or_pf o <> f.
Proof.
  exists cf0, run0, R_late, w_late, 4%N, mA, (map AObject [4]%N), [4]%N, 51%N.
  split; [apply R_late_program|]. split; [apply R_late_initialized|].
  split; [apply late_call|]. split; [apply mA_functions|]. split; [reflexivity|].
  split; [by_compute|]. intros o Ho. apply elem_of_list_singleton in Ho as ->. discriminate.
Qed.

(* The overriders of [meet] in another order. *)
Definition meet_r : method_record :=
  (mth 2 [1; 1] [ovr [2; 2] 24; ovr [1; 3] 23; ovr [1; 1] 21; ovr [2; 1] 22])%N.
Definition R0r := Registrations diamond [poke; meet_r].
Definition w0r : world := state cf0 false R0r.
Lemma meet_reordered :
  program_ok cf0 env0 R0r /\ reg_classes R0r = reg_classes R0 /\
  initialized_by cf0 run0 false R0r w0r /\ meet_r ∈ reg_methods R0r /\
  Forall2 (passes cf0 id R0r w0r) (virtual_args (map AObject [2; 4]%N)) [2; 4]%N /\
  same_method meet meet_r.
Proof.
  split; [apply program_check; by_compute|]. split; [reflexivity|].
  split; [apply state_initialized; by_compute|]. split; [right; left|].
  split; [rewrite objects_virtual; apply objects_pass; [discriminate|by_compute]|].
  split; [reflexivity|]. split; [reflexivity|]. split; [reflexivity|]. simpl. solve_Permutation.
Qed.

Lemma order_matters :
  exists (cf : config) (X : run) (R R' : registrations) (w w' : world)
         (m m' : method_record) (all : list arg) (args : list N) f f',
    program_ok cf (r_env X) R /\ bases_first (e_ti (r_env X)) R /\
    program_ok cf (r_env X) R' /\ reg_classes R' = reg_classes R /\
    initialized_by cf X false R w /\ initialized_by cf X false R' w' /\
    call_ok cf (e_ti (r_env X)) R w m all args /\
    call_ok cf (e_ti (r_env X)) R' w' m' all args /\
    same_method m m' /\ together all /\
    resolve cf w m all = Ok f /\ resolve cf w' m' all = Ok f' /\ f <> f'.
Proof.
  exists cf0, run0, R2, R3, w2, w3, clash1, clash2, (map AObject [5; 5]%N), [5; 5]%N,
    (mr_ambiguous clash1), 31%N.
  split; [apply R2_program|]. split; [apply R2_bases_first|]. split; [apply R3_program|].
  split; [reflexivity|]. split; [apply R2_initialized|]. split; [apply R3_initialized|].
  split; [apply clash_call|]. split; [apply clash_call2|].
  split; [|split; [apply objects_together|split; [apply clash1_result|split; [apply clash2_result|discriminate]]]].
  split; [reflexivity|]. split; [reflexivity|]. split; [reflexivity|]. simpl. solve_Permutation.
Qed.

(* Z after all its bases, B after A. *)
Definition R_mixed :=
  Registrations [cls 1 [1]; cls 2 [2]; cls 3 [3; 2]; cls 4 [4; 1; 3; 2]]%N [mB; mA].
Definition w_mixed : world := state cf0 false R_mixed.
Lemma mixed_derives c b : derives id R_early c b <-> derives id R_mixed c b.
Proof.
  assert (G1 : forall c b, base_pair id R_early c b -> derives id R_mixed c b).
  { intros x y H. apply rtc_once. apply pairs_spec in H. apply pairs_spec. vm_compute in H. vm_compute.
    repeat (apply elem_of_cons in H as [H|H]; [rewrite H; set_solver|]). inversion H. }
  assert (G2 : forall c b, base_pair id R_mixed c b -> derives id R_early c b).
  { intros x y H. apply pairs_spec in H. apply (derivesb_spec id R_early 4); [by_compute|].
    vm_compute in H.
    repeat (apply elem_of_cons in H as [H|H]; [injection H as -> ->; by_compute|]). inversion H. }
  split; intros H; induction H as [|x y z Hxy _ IH]; try constructor.
  - etransitivity; [apply G1; exact Hxy|exact IH].
  - etransitivity; [apply G2; exact Hxy|exact IH].
Qed.
Lemma mixed_registered c : registered id R_early c <-> registered id R_mixed c.
Proof.
  unfold registered. split; intros (cr & H & <-); simpl in H; unfold early in H; simpl.
  all: repeat (apply elem_of_cons in H as [->|H]); [..|inversion H].
  all: unfold early; simpl; first
    [ exists (cls 1%N [1%N]); split; [set_solver|reflexivity]
    | exists (cls 2%N [2%N]); split; [set_solver|reflexivity]
    | exists (cls 3%N [3%N; 2%N]); split; [set_solver|reflexivity]
    | exists (cls 4%N [4%N; 1%N; 3%N]); split; [set_solver|reflexivity]
    | exists (cls 4%N [4%N; 1%N; 3%N; 2%N]); split; [set_solver|reflexivity] ].
Qed.

Lemma mixed_example :
  program_ok cf0 env0 R_early /\ bases_first id R_early /\
  program_ok cf0 env0 R_mixed /\ bases_first id R_mixed /\
  (forall c, registered id R_early c <-> registered id R_mixed c) /\
  (forall c b, derives id R_early c b <-> derives id R_mixed c b) /\
  initialized_by cf0 run0 false R_early w_early /\
  initialized_by cf0 run0 false R_mixed w_mixed /\
  call_ok cf0 id R_early w_early mA (map AObject [4]%N) [4]%N /\ mA ∈ reg_methods R_mixed /\
  Forall2 (passes cf0 id R_mixed w_mixed) (virtual_args (map AObject [4]%N)) [4]%N.
Proof.
  split; [apply R_early_program|]. split; [apply R_early_bases_first|].
  split; [apply program_check; by_compute|]. split; [apply bases_firstb_spec; by_compute|].
  split; [apply mixed_registered|]. split; [apply mixed_derives|].
  split; [apply R_early_initialized|]. split; [apply state_initialized; by_compute|].
  split; [apply early_call|]. split; [right; left|].
  rewrite objects_virtual. apply objects_pass; [discriminate|by_compute].
Qed.

Lemma class_order_matters :
  exists (cf : config) (X : run) (R R' : registrations) (w w' : world)
         (m : method_record) (all : list arg) (args : list N) f f',
    program_ok cf (r_env X) R /\ bases_first (e_ti (r_env X)) R /\
    program_ok cf (r_env X) R' /\
    (forall c, registered (e_ti (r_env X)) R c <-> registered (e_ti (r_env X)) R' c) /\
    (forall c b, base_pair (e_ti (r_env X)) R c b <-> base_pair (e_ti (r_env X)) R' c b) /\
    initialized_by cf X false R w /\ initialized_by cf X false R' w' /\
    call_ok cf (e_ti (r_env X)) R w m all args /\
    call_ok cf (e_ti (r_env X)) R' w' m all args /\
    length (mr_vp m) = 1 /\
    resolve cf w m all = Ok f /\ resolve cf w' m all = Ok f' /\ f <> f'.
Proof.
  exists cf0, run0, R_early, R_late, w_early, w_late, mA, (map AObject [4]%N), [4]%N, 41%N, 51%N.
  split; [apply R_early_program|]. split; [apply R_early_bases_first|].
  split; [apply R_late_program|]. split; [intros c; symmetry; apply late_registered|].
  split; [intros c b; symmetry; apply late_pairs|]. split; [apply R_early_initialized|].
  split; [apply R_late_initialized|]. split; [apply early_call|]. split; [apply late_call|].
  split; [reflexivity|]. split; [apply early_result|]. split; [apply late_result|discriminate].
Qed.

Lemma slots_example :
  program_ok cf0 env0 R_early /\ bases_first id R_early /\
  initialized_by cf0 run0 false R_early w_early /\
  mA ∈ reg_methods R_early /\ mB ∈ reg_methods R_early /\
  registered id R_early 4%N /\ derives id R_early 4%N 1%N /\ derives id R_early 4%N 2%N.
Proof.
  split; [apply R_early_program|]. split; [apply R_early_bases_first|].
  split; [apply R_early_initialized|]. split; [left|]. split; [right; left|].
  split; [apply registeredb_spec; by_compute|].
  split; apply (derivesb_spec id R_early 4); by_compute.
Qed.

Lemma slots_shared :
  exists (cf : config) (X : run) (R : registrations) (w : world) z m1 m2 v1 v2 s,
    program_ok cf (r_env X) R /\ initialized_by cf X false R w /\
    m1 ∈ reg_methods R /\ m2 ∈ reg_methods R /\ m1 <> m2 /\
    mr_vp m1 !! 0 = Some v1 /\ mr_vp m2 !! 0 = Some v2 /\
    registered (e_ti (r_env X)) R z /\
    derives (e_ti (r_env X)) R z (e_ti (r_env X) v1) /\
    derives (e_ti (r_env X)) R z (e_ti (r_env X) v2) /\
    w_ss w (mr_slots_strides m1) !! 0 = Some s /\
    w_ss w (mr_slots_strides m2) !! 0 = Some s.
Proof.
  exists cf0, run0, R_late, w_late, 4%N, mA, mB, 1%N, 2%N, 0.
  split; [apply R_late_program|]. split; [apply R_late_initialized|].
  split; [left|]. split; [right; left|]. split; [discriminate|]. split; [reflexivity|].
  split; [reflexivity|]. split; [apply (registeredb_spec id); by_compute|].
  split; [apply (derivesb_spec id R_late 4); by_compute|].
  split; [apply (derivesb_spec id R_late 4); by_compute|]. split; by_compute.
Qed.
