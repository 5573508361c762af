(* Concrete programs: they satisfy the hypotheses of the dispatch theorems, and
   some of them are the witnesses of the refuted statements. *)
From stdpp Require Import base list numbers list_numbers relations.
From Verif Require Import Base Registry Spec ModelClasses ModelMethods ModelSlots
  ModelTables ModelHash ModelWorld ModelCall SpecCall Decide ExamplesModel.

(* ---- the environment of the examples ---- *)
Lemma insert_desc_perm key x l : insert_desc key x l ≡ₚ x :: l.
Proof.
  induction l as [|y l IH]; simpl; [reflexivity|]. destruct (decide (key y < key x)); [reflexivity|].
  rewrite IH. apply Permutation_swap.
Qed.

Lemma sort_desc_perm key l : sort_desc key l ≡ₚ l.
Proof.
  unfold sort_desc. enough (H : forall acc, foldl (fun acc x => insert_desc key x acc) acc l ≡ₚ l ++ acc).
  { rewrite H. rewrite app_nil_r. reflexivity. }
  induction l as [|x l IH]; intros acc; simpl; [reflexivity|]. rewrite IH, insert_desc_perm.
  symmetry. apply Permutation_middle.
Qed.

Fixpoint desc (key : nat -> nat) (l : list nat) : Prop :=
  match l with [] => True | x :: l => (forall y, y ∈ l -> key y <= key x) /\ desc key l end.

Lemma insert_desc_desc key x l : desc key l -> desc key (insert_desc key x l).
Proof.
  induction l as [|y l IH]; simpl; [intros _; split; [set_solver|exact I]|]. intros [H1 H2].
  destruct (decide (key y < key x)) as [Hlt|Hge]; simpl.
  - split; [|auto]. intros z [->|Hz]%elem_of_cons; [lia|]. specialize (H1 z Hz). lia.
  - split; [|auto]. intros z Hz. rewrite (insert_desc_perm key x l) in Hz.
    apply elem_of_cons in Hz as [->|Hz]; [lia|auto].
Qed.

Lemma desc_sorted key l : desc key l -> sorted_desc key l.
Proof.
  induction l as [|x l IH]; simpl; intros H i j a b Hij Ha Hb; [discriminate|].
  destruct H as [H1 H2]. destruct i as [|i], j as [|j]; simpl in *; try lia.
  - injection Ha as <-. apply H1. eapply elem_of_list_lookup_2; eauto.
  - apply (IH H2 i j); auto. lia.
Qed.

Lemma env0_ok : env_ok env0.
Proof.
  split; [reflexivity|]. intros key l. split; [apply sort_desc_perm|].
  apply desc_sorted. simpl. unfold sort_desc.
  enough (H : forall acc, desc key acc -> desc key (foldl (fun acc x => insert_desc key x acc) acc l))
    by (apply H; exact I).
  induction l as [|x l IH]; intros acc H; simpl; [exact H|]. apply IH, insert_desc_desc, H.
Qed.

(* ---- checking the hypotheses by computation ---- *)
Definition programb (R : registrations) : bool :=
  rankb id R N.to_nat && arityb R && idsb R && addressesb id R &&
  (N.of_nat (length (reg_classes R)) <=? max_classes)%N.

Lemma program_check cf R : programb R = true -> program_ok cf env0 R.
Proof.
  unfold programb. rewrite !andb_true_iff. intros [[[[H1 H2] H3] H4] H5]. split.
  - exact env0_ok.
  - eapply rankb_spec; exact H1.
  - apply arityb_spec; exact H2.
  - apply idsb_spec; exact H3.
  - intros _. apply N.leb_le. exact H5.
  - apply addressesb_spec; exact H4.
Qed.

Lemma world0_start : world_ok world0.
Proof. split; simpl; [discriminate|reflexivity]. Qed.

Definition state (cf : config) (n2216 : bool) (R : registrations) : world :=
  fst (initialize cf run0 n2216 R world0).

Definition succeedsb (cf : config) (n2216 : bool) (R : registrations) : bool :=
  match snd (initialize cf run0 n2216 R world0) with Ok _ => true | _ => false end.

Lemma state_initialized cf n2216 R :
  succeedsb cf n2216 R = true -> initialized_by cf run0 n2216 R (state cf n2216 R).
Proof.
  unfold succeedsb, state, initialized_by. intros H.
  destruct (initialize cf run0 n2216 R world0) as [w [rep| | |]] eqn:Hi; try discriminate.
  exists world0, rep. split; [apply world0_start|exact Hi].
Qed.

Definition objectsb (R : registrations) (ts : list N) : bool :=
  forallb (fun t => bool_decide (t ∈ map cr_type (reg_classes R))) ts.

Lemma objects_pass cf R w ts :
  cf_vptr cf <> VptrNone -> objectsb R ts = true ->
  Forall2 (passes cf id R w) (map AObject ts) ts.
Proof.
  intros Hcf. unfold objectsb. induction ts as [|t ts IH]; simpl; [constructor|].
  rewrite andb_true_iff, bool_decide_eq_true. intros [H1 H2]. constructor; [|auto].
  change t with (id t) at 2. constructor; assumption.
Qed.

Lemma objects_virtual ts : virtual_args (map AObject ts) = map AObject ts.
Proof. induction ts as [|t ts IH]; [reflexivity|]. unfold virtual_args in *. simpl. rewrite filter_cons. simpl. rewrite IH. reflexivity. Qed.

Lemma objects_together ts : together (map AObject ts).
Proof. exists [], []. rewrite objects_virtual, app_nil_r. repeat constructor. Qed.

Lemma call_check cf R w m ts n :
  cf_vptr cf <> VptrNone -> m ∈ reg_methods R -> objectsb R ts = true ->
  closure_ok id R n = true -> validb id R n m ts = true ->
  call_ok cf id R w m (map AObject ts) ts.
Proof.
  intros Hcf Hm Ho Hc Hv. split; [exact Hm| |].
  - rewrite objects_virtual. apply objects_pass; assumption.
  - eapply validb_spec; eauto.
Qed.

Definition functionsb (m : method_record) : bool :=
  negb (bool_decide (mr_not_implemented m = mr_ambiguous m)) &&
  forallb (fun o => negb (bool_decide (or_pf o = mr_not_implemented m)) &&
                    negb (bool_decide (or_pf o = mr_ambiguous m))) (mr_overriders m).

Lemma functions_check m : functionsb m = true -> functions_ok m.
Proof.
  unfold functionsb, functions_ok. rewrite andb_true_iff, negb_true_iff, bool_decide_eq_false, forallb_forall.
  intros [H1 H2]. split; [exact H1|]. intros o Ho. apply elem_of_list_In in Ho. specialize (H2 o Ho).
  rewrite andb_true_iff, !negb_true_iff, !bool_decide_eq_false in H2. exact H2.
Qed.

Ltac by_compute := vm_compute; reflexivity.

(* ---- the diamond: Animal 1, Dog 2, Cat 3, Chimera 4 ---- *)
Example R0_program : program_ok cf0 env0 R0.
Proof. apply program_check. by_compute. Qed.
Example R0_bases_first : bases_first id R0.
Proof. apply bases_firstb_spec. by_compute. Qed.
Definition w0 : world := state cf0 false R0.
Example R0_initialized : initialized_by cf0 run0 false R0 w0.
Proof. apply state_initialized. by_compute. Qed.

Example poke_call t : (t = 1 \/ t = 2 \/ t = 3 \/ t = 4)%N ->
  call_ok cf0 id R0 w0 poke [AObject t] [t].
Proof.
  intros Ht. apply (call_check cf0 R0 w0 poke [t] 4); try discriminate.
  - left.
  - destruct Ht as [->|[->|[->| ->]]]; by_compute.
  - by_compute.
  - destruct Ht as [->|[->|[->| ->]]]; by_compute.
Qed.
Example poke_functions : functions_ok poke.
Proof. apply functions_check. by_compute. Qed.

(* What the specification and the model say about them. *)
Example poke_results :
  map (fun t => selectb id R0 4 (mr_overriders poke) (cands id R0 4 (mr_overriders poke) [t])) [1;2;3;4]%N
    = [SOverrider 0; SOverrider 1; SOverrider 2; SAmbiguous] /\
  map (fun t => call cf0 w0 1 poke [AObject t]) [1;2;3;4]%N
    = [Ok (Calls 11); Ok (Calls 12); Ok (Calls 13); Err (EAmbiguousCall 1 1 (types_of [4]))]%N.
Proof. split; by_compute. Qed.

(* For (2, 4), (Dog, Dog) dominates (Animal, Cat): Dog and Cat are unrelated. *)
Example meet_call a b : In a [1;2;3;4]%N -> In b [1;2;3;4]%N ->
  call_ok cf0 id R0 w0 meet (map AObject [a; b]) [a; b].
Proof.
  intros Ha Hb. apply (call_check cf0 R0 w0 meet [a; b] 4); try discriminate.
  - right. left.
  - simpl in *. destruct Ha as [<-|[<-|[<-|[<-|[]]]]], Hb as [<-|[<-|[<-|[<-|[]]]]]; by_compute.
  - by_compute.
  - simpl in *. destruct Ha as [<-|[<-|[<-|[<-|[]]]]], Hb as [<-|[<-|[<-|[<-|[]]]]]; by_compute.
Qed.
Example meet_functions : functions_ok meet.
Proof. apply functions_check. by_compute. Qed.
Example meet_transitive a b : In a [1;2;3;4]%N -> In b [1;2;3;4]%N ->
  transitive_dominance id R0 (mr_overriders meet) (candidate id R0 (mr_overriders meet) [a; b]).
Proof.
  intros Ha Hb. apply (transitive_compute id R0 4); [by_compute|].
  simpl in *. destruct Ha as [<-|[<-|[<-|[<-|[]]]]], Hb as [<-|[<-|[<-|[<-|[]]]]]; by_compute.
Qed.
Example meet_results :
  map (fun ab => call cf0 w0 2 meet (map AObject ab)) [[1;1];[2;1];[1;4];[2;4];[3;2]]%N
  = [Ok (Calls 21); Ok (Calls 22); Ok (Calls 23); Ok (Calls 24); Ok (Calls 21)]%N.
Proof. by_compute. Qed.

(* A method without applicable overrider for some classes. *)
Definition purr : method_record := (mth 3 [1] [ovr [3] 31])%N.
Definition R1 := Registrations diamond [poke; purr].
Definition w1 : world := state cf0 false R1.
Example purr_results :
  map (fun t => call cf0 w1 3 purr [AObject t]) [1;2;3;4]%N
  = [Err (ENoOverrider 3 1 (types_of [1])); Err (ENoOverrider 3 1 (types_of [2])); Ok (Calls 31); Ok (Calls 31)]%N.
Proof. by_compute. Qed.
Example purr_call t : In t [1;2;3;4]%N -> call_ok cf0 id R1 w1 purr (map AObject [t]) [t].
Proof.
  intros Ht. apply (call_check cf0 R1 w1 purr [t] 4); try discriminate.
  - right. left.
  - simpl in *. destruct Ht as [<-|[<-|[<-|[<-|[]]]]]; by_compute.
  - by_compute.
  - simpl in *. destruct Ht as [<-|[<-|[<-|[<-|[]]]]]; by_compute.
Qed.
Example R1_program : program_ok cf0 env0 R1.
Proof. apply program_check. by_compute. Qed.
Example R1_bases_first : bases_first id R1.
Proof. apply bases_firstb_spec. by_compute. Qed.
Example R1_initialized : initialized_by cf0 run0 false R1 w1.
Proof. apply state_initialized. by_compute. Qed.

(* ---- multiple inheritance: dominance is not transitive ---- *)
(* P 1, X 2 : P, Y 3 : X, Z 4 : P, D 5 : Y, Z *)
Definition lattice : list class_record :=
  [cls 1 [1]; cls 2 [2; 1]; cls 3 [3; 2; 1]; cls 4 [4; 1]; cls 5 [5; 3; 4; 2; 1]]%N.
Definition o_yz := (ovr [3; 4] 31)%N.
Definition o_xy := (ovr [2; 3] 32)%N.
Definition o_zx := (ovr [4; 2] 33)%N.
Definition clash1 := (mth 1 [1; 1] [o_yz; o_xy; o_zx])%N.
Definition clash2 := (mth 1 [1; 1] [o_xy; o_zx; o_yz])%N.
Definition R2 := Registrations lattice [clash1].
Definition R3 := Registrations lattice [clash2].
Definition w2 : world := state cf0 false R2.
Definition w3 : world := state cf0 false R3.

Lemma R2_program : program_ok cf0 env0 R2.
Proof. apply program_check. by_compute. Qed.
Lemma R2_bases_first : bases_first id R2.
Proof. apply bases_firstb_spec. by_compute. Qed.
Lemma R2_initialized : initialized_by cf0 run0 false R2 w2.
Proof. apply state_initialized. by_compute. Qed.
Lemma R3_program : program_ok cf0 env0 R3.
Proof. apply program_check. by_compute. Qed.
Lemma R3_initialized : initialized_by cf0 run0 false R3 w3.
Proof. apply state_initialized. by_compute. Qed.
Lemma clash_call : call_ok cf0 id R2 w2 clash1 (map AObject [5; 5]%N) [5; 5]%N.
Proof. apply (call_check cf0 R2 w2 clash1 _ 4); try discriminate; [left|by_compute|by_compute|by_compute]. Qed.
Lemma clash_call2 : call_ok cf0 id R3 w3 clash2 (map AObject [5; 5]%N) [5; 5]%N.
Proof. apply (call_check cf0 R3 w3 clash2 _ 4); try discriminate; [left|by_compute|by_compute|by_compute]. Qed.
Lemma clash_functions : functions_ok clash1.
Proof. apply functions_check. by_compute. Qed.
Lemma clash_selects : selects id R2 (mr_overriders clash1) [5; 5]%N (SOverrider 0).
Proof.
  replace (SOverrider 0) with
    (selectb id R2 4 (mr_overriders clash1) (cands id R2 4 (mr_overriders clash1) [5; 5]%N)) by by_compute.
  apply selects_compute. by_compute.
Qed.
Lemma clash1_result : resolve cf0 w2 clash1 (map AObject [5; 5]%N) = Ok (mr_ambiguous clash1).
Proof. by_compute. Qed.
Lemma clash2_result : resolve cf0 w3 clash2 (map AObject [5; 5]%N) = Ok 31%N.
Proof. by_compute. Qed.

(* ---- registration order ---- *)
(* A 1, B 2, C 3 : B, Z 4 : A, C.  [late]: use_classes<A, C, Z>, then
   use_classes<B, C>; [early]: the other way round. *)
Definition late : list class_record :=
  [cls 1 [1]; cls 3 [3]; cls 4 [4; 1; 3]; cls 2 [2]; cls 3 [3; 2]]%N.
Definition early : list class_record :=
  [cls 2 [2]; cls 3 [3; 2]; cls 1 [1]; cls 3 [3]; cls 4 [4; 1; 3]]%N.
Definition mA := (mth 4 [1] [ovr [1] 41])%N.
Definition mB := (mth 5 [2] [ovr [2] 51])%N.
Definition R_late := Registrations late [mA; mB].
Definition R_early := Registrations early [mA; mB].
Definition w_late : world := state cf0 false R_late.
Definition w_early : world := state cf0 false R_early.

(* ranks: 4 > 3 > 2, 4 > 1 *)
Lemma R_late_program : program_ok cf0 env0 R_late.
Proof. apply program_check. by_compute. Qed.
Lemma R_early_program : program_ok cf0 env0 R_early.
Proof. apply program_check. by_compute. Qed.
Lemma R_early_bases_first : bases_first id R_early.
Proof. apply bases_firstb_spec. by_compute. Qed.
Lemma R_late_initialized : initialized_by cf0 run0 false R_late w_late.
Proof. apply state_initialized. by_compute. Qed.
Lemma R_early_initialized : initialized_by cf0 run0 false R_early w_early.
Proof. apply state_initialized. by_compute. Qed.
Lemma late_call : call_ok cf0 id R_late w_late mA (map AObject [4]%N) [4]%N.
Proof. apply (call_check cf0 R_late w_late mA _ 4); try discriminate; [left|by_compute|by_compute|by_compute]. Qed.
Lemma early_call : call_ok cf0 id R_early w_early mA (map AObject [4]%N) [4]%N.
Proof. apply (call_check cf0 R_early w_early mA _ 4); try discriminate; [left|by_compute|by_compute|by_compute]. Qed.
Lemma mA_functions : functions_ok mA.
Proof. apply functions_check. by_compute. Qed.
Lemma late_pairs c b : base_pair id R_late c b <-> base_pair id R_early c b.
Proof.
  rewrite <- !pairs_spec. split; intros H;
    vm_compute in H; vm_compute; repeat (apply elem_of_cons in H as [H|H]; [rewrite H; set_solver|]);
    inversion H.
Qed.
Lemma late_derives c b : derives id R_late c b <-> derives id R_early c b.
Proof.
  unfold derives. split; intros H; induction H as [|x y z Hxy _ IH]; try constructor;
    (eapply rtc_l; [apply late_pairs; exact Hxy|exact IH]).
Qed.
Lemma late_registered c : registered id R_late c <-> registered id R_early c.
Proof.
  unfold registered. split; intros (cr & H & <-);
    change (reg_classes R_late) with late in *; change (reg_classes R_early) with early in *.
  all: unfold late, early in *; repeat (apply elem_of_cons in H as [->|H]); [..|inversion H].
  all: simpl; first
    [ exists (cls 1%N [1%N]); split; [set_solver|reflexivity]
    | exists (cls 2%N [2%N]); split; [set_solver|reflexivity]
    | exists (cls 3%N [3%N]); split; [set_solver|reflexivity]
    | exists (cls 4%N [4%N; 1%N; 3%N]); split; [set_solver|reflexivity] ].
Qed.
(* The method of A called on a Z enters the overrider of the method of B. *)
Lemma late_result : resolve cf0 w_late mA (map AObject [4]%N) = Ok 51%N.
Proof. by_compute. Qed.
Lemma early_result : resolve cf0 w_early mA (map AObject [4]%N) = Ok 41%N.
Proof. by_compute. Qed.
