(* Programs whose initialization is traced. *)
From stdpp Require Import base list numbers list_numbers strings relations.
From Verif Require Import Base Registry Spec ModelClasses ModelMethods ModelSlots ModelTables
  ModelHash ModelWorld ModelCall SpecCall Decide ExamplesModel ExamplesDispatch ExamplesVptr ExamplesNext ModelTrace SpecTrace
  ProofErrors ProofDispatch.

#[local] Instance piece_dec : EqDecision piece.
Proof. solve_decision. Defined.
#[local] Instance verdict_dec : EqDecision verdict.
Proof. solve_decision. Defined.
#[local] Instance reading_dec : EqDecision reading.
Proof. solve_decision. Defined.

Lemma id_of R : programb R = true -> env_ok env0 /\ acyclic (e_ti env0) R /\ arity_ok R.
Proof. intros H. destruct (program_check cf0 R H). auto. Qed.

Lemma compile_some R : (match compile env0 false R with Ok _ => true | _ => false end) = true ->
  exists cp, compile env0 false R = Ok cp.
Proof. destruct (compile env0 false R) as [cp|e| |]; intros H; try discriminate. exists cp. reflexivity. Qed.

(* The trace of the program of poke and meet: 248 lines, 12 of which tell what calls do. *)
Lemma trace0_hypotheses : env_ok env0 /\ acyclic (e_ti env0) R0 /\ arity_ok R0 /\
  (exists cp, compile env0 false R0 = Ok cp) /\ reg_methods R0 !! 1 = Some meet /\
  valid_args (e_ti env0) R0 meet [2; 3]%N /\
  settled (e_ti env0) R0 (mr_overriders meet) (candidate (e_ti env0) R0 (mr_overriders meet) [2; 3]%N).
Proof.
  destruct (id_of R0) as (H1 & H2 & H3); [by_compute|]. split; [exact H1|]. split; [exact H2|].
  split; [exact H3|]. split; [apply compile_some; by_compute|]. split; [reflexivity|].
  split; [apply (validb_spec id R0 4); by_compute|].
  apply candidates_settled, (transitive_compute id R0 4); by_compute.
Qed.

Lemma trace0_lines : length (fst (trace_compile env0 false R0)) = 248 /\
  length (readings (fst (trace_compile env0 false R0))) = 12 /\
  Reading 1 [[2; 4]; [3]]%N SaysAmbiguous None ∈ readings (fst (trace_compile env0 false R0)) /\
  Reading 1 [[1; 3]; [4]]%N (SaysOverrider 2 23%N) (Some (SaysOverrider 0 21%N)) ∈ readings (fst (trace_compile env0 false R0)).
Proof. split; [by_compute|]. split; [by_compute|]. split; by_decide. Qed.

(* A call of meet, as in C02. *)
Lemma trace0_call : program_ok cf0 env0 R0 /\ bases_first id R0 /\ initialized_by cf0 run0 false R0 w0 /\
  call_ok cf0 id R0 w0 meet (map AObject [2; 3]%N) [2; 3]%N /\ functions_ok meet /\
  together (map AObject [2; 3]%N).
Proof.
  split; [exact R0_program|]. split; [apply bases_firstb_spec; by_compute|].
  split; [exact R0_initialized|]. split; [|split; [apply functions_check; by_compute|apply objects_together]].
  apply (call_check cf0 R0 w0 meet [2; 3]%N 4); [discriminate|right; left|by_compute|by_compute|by_compute].
Qed.

(* ---- missing classes ---- *)

Lemma bases_some R : (match augment_classes env0 (reg_classes R) with Ok _ => true | _ => false end) = true ->
  env_ok env0 -> acyclic (e_ti env0) R -> bases_registered (e_ti env0) R.
Proof.
  intros H HE Hac. destruct (augment_classes env0 (reg_classes R)) as [g|e| |] eqn:Hg; try discriminate.
  apply (ProofErrors.augment_classes_inv env0 R HE Hac g Hg).
Qed.

Lemma not_registered9 : ~ registered (e_ti env0) (Registrations diamond []) 9%N.
Proof. intros (cr & Hcr & Ht). apply elem_of_list_In in Hcr. cbn in Hcr. cbn in Ht. naive_solver. Qed.

(* The second parameter of the method is of a class that is not registered. *)
Definition R_far : registrations := Registrations diamond [poke; mth 3 [1; 9] [ovr [1; 2] 31]]%N.
(* The second parameter of its second overrider. *)
Definition R_stranger : registrations := Registrations diamond [poke; mth 3 [1; 1] [ovr [1; 2] 31; ovr [2; 9] 32]]%N.

Lemma far_hypotheses : env_ok env0 /\ acyclic (e_ti env0) R_far /\ arity_ok R_far /\
  bases_registered (e_ti env0) R_far /\ compile env0 false R_far = Err (EMissingClass 9%N).
Proof.
  destruct (id_of R_far) as (H1 & H2 & H3); [by_compute|]. split; [exact H1|]. split; [exact H2|].
  split; [exact H3|]. split; [apply bases_some; [by_compute|exact H1|exact H2]|by_compute].
Qed.

Lemma stranger_hypotheses : env_ok env0 /\ acyclic (e_ti env0) R_stranger /\ arity_ok R_stranger /\
  bases_registered (e_ti env0) R_stranger /\ compile env0 false R_stranger = Err (EMissingClass 9%N).
Proof.
  destruct (id_of R_stranger) as (H1 & H2 & H3); [by_compute|]. split; [exact H1|]. split; [exact H2|].
  split; [exact H3|]. split; [apply bases_some; [by_compute|exact H1|exact H2]|by_compute].
Qed.

Lemma far_place p : missing_at (e_ti env0) R_far 1 p 9%N -> p = InMethod 1.
Proof.
  intros (_ & m & Hm & Hp). cbn in Hm. injection Hm as <-. destruct p as [j|i j|i]; cbn in Hp.
  - destruct j as [|[|j]]; [discriminate|reflexivity|discriminate].
  - destruct Hp as (o & Ho & Hv). destruct i as [|i]; [|discriminate]. injection Ho as <-.
    destruct j as [|[|j]]; discriminate.
  - destruct Hp as (o & Ho & Hv). destruct i as [|i]; [|discriminate]. injection Ho as <-. discriminate.
Qed.

Lemma far_wrong : exists E R t mi j,
  env_ok E /\ acyclic (e_ti E) R /\ arity_ok R /\ bases_registered (e_ti E) R /\
  compile E false R = Err (EMissingClass t) /\
  missing_at (e_ti E) R mi (InMethod j) t /\
  (forall p, missing_at (e_ti E) R mi p t -> p = InMethod j) /\
  ~ says_parameter (fst (trace_compile E false R)) j.
Proof.
  destruct far_hypotheses as (H1 & H2 & H3 & H4 & H5).
  exists env0, R_far, 9%N, 1, 1. split; [exact H1|]. split; [exact H2|]. split; [exact H3|].
  split; [exact H4|]. split; [exact H5|]. split; [|split; [apply far_place|]].
  - split; [exact not_registered9|]. eexists. split; reflexivity.
  - intros (l & Hl & Hn). vm_compute in Hl. injection Hl as <-. discriminate.
Qed.

Lemma stranger_unnamed : exists E R t mi i j,
  env_ok E /\ acyclic (e_ti E) R /\ arity_ok R /\ bases_registered (e_ti E) R /\
  compile E false R = Err (EMissingClass t) /\
  missing_at (e_ti E) R mi (InOverrider i j) t /\
  ~ says_parameter (fst (trace_compile E false R)) j /\
  forall l, l ∈ fst (trace_compile E false R) -> PName t ∉ l /\ PAddress t ∉ l.
Proof.
  destruct stranger_hypotheses as (H1 & H2 & H3 & H4 & H5).
  exists env0, R_stranger, 9%N, 1, 1, 1. split; [exact H1|]. split; [exact H2|]. split; [exact H3|].
  split; [exact H4|]. split; [exact H5|]. split; [|split].
  - split; [exact not_registered9|]. eexists. split; [reflexivity|]. eexists. split; reflexivity.
  - intros (l & Hl & Hn). vm_compute in Hl. injection Hl as <-. discriminate.
  - apply Forall_forall. by_decide.
Qed.

(* ---- the numbers of the groups ---- *)

(* A class 5 below the one for which the call is ambiguous. *)
Definition R_five : registrations :=
  Registrations (diamond ++ [cls 5 [4]])%N [mth 1 [1] [ovr [1] 11; ovr [2] 12; ovr [3] 13; ovr [5] 15]]%N.

Lemma five_numbers : exists E R,
  env_ok E /\ acyclic (e_ti E) R /\ arity_ok R /\ (exists cp, compile E false R = Ok cp) /\
  exists x, x ∈ nb_used (numbers (fst (trace_compile E false R))) /\
    x ∉ nb_announced (numbers (fst (trace_compile E false R))).
Proof.
  destruct (id_of R_five) as (H1 & H2 & H3); [by_compute|].
  exists env0, R_five. split; [exact H1|]. split; [exact H2|]. split; [exact H3|].
  split; [apply compile_some; by_compute|]. exists (0, 3, [5%N]).
  split; by_decide.
Qed.

(* Without such a class the numbers agree. *)
Lemma zero_numbers : forall x, x ∈ nb_used (numbers (fst (trace_compile env0 false R0))) ->
  x ∈ nb_announced (numbers (fst (trace_compile env0 false R0))).
Proof. apply Forall_forall. by_decide. Qed.

(* ---- next ---- *)

Lemma skew_last :
  program_ok cf0 env0 R_skew /\ initialized_by cf0 run0 false R_skew w_skew /\
  reg_methods R_skew !! 0 = Some skew /\ mr_overriders skew !! 1 = Some o_cs /\
  last (filter (fun r => tells_of 0 1 r = true) (readings (fst (trace_compile env0 false R_skew)))) =
    Some (Reading 0 [[3]; [7]]%N (SaysOverrider 1 32%N) (Some (SaysOverrider 0 31%N))) /\
  w_next w_skew (or_next o_cs) = Some 31%N.
Proof.
  split; [apply program_check; by_compute|]. split; [apply state_initialized; by_compute|].
  split; [reflexivity|]. split; [reflexivity|]. split; by_compute.
Qed.

Lemma greet_told :
  program_ok cf0 env0 R_greet /\ initialized_by cf0 run0 false R_greet w_greet /\
  reg_methods R_greet !! 0 = Some greet /\ mr_overriders greet !! 3 = Some (ovr [4; 4] 24)%N /\
  unique_signature id (mr_overriders greet) 3 /\
  (forall args, valid_args id R_greet greet args ->
     pointwise id R_greet (mr_overriders greet) (candidate id R_greet (mr_overriders greet) args)) /\
  selects_next id R_greet (mr_overriders greet) 3 (SOverrider 2).
Proof.
  destruct greet_example as (H1 & H2 & _ & H4 & H5 & _ & H7 & H8 & _).
  exact (conj H1 (conj H2 (conj eq_refl (conj H4 (conj H5 (conj H7 H8)))))).
Qed.

(* For arguments (C, S) the trace says that there is no next; but the overrider calls another. *)
Lemma skew_untrue : exists cf X R w mid m all args mi i o r f,
  program_ok cf (r_env X) R /\ bases_first (e_ti (r_env X)) R /\
  initialized_by cf X false R w /\ call_ok cf (e_ti (r_env X)) R w m all args /\ functions_ok m /\
  together all /\ reg_methods R !! mi = Some m /\ mr_overriders m !! i = Some o /\
  call cf w mid m all = Ok (Calls (or_pf o)) /\
  r ∈ readings (fst (trace_compile (r_env X) false R)) /\ is_about (e_ti (r_env X)) mi args r /\
  tells_of mi i r = true /\ rg_next r = Some SaysNone /\
  w_next w (or_next o) = Some f /\ f <> mr_not_implemented m.
Proof.
  exists cf0, run0, R_skew, w_skew, 1%N, skew, (map AObject [3; 6]%N), [3; 6]%N, 0, 1, o_cs,
    (Reading 0 [[3]; [6]]%N (SaysOverrider 1 32%N) (Some SaysNone)), 31%N.
  split; [apply program_check; by_compute|]. split; [apply bases_firstb_spec; by_compute|].
  split; [apply state_initialized; by_compute|].
  split; [apply (call_check cf0 R_skew w_skew skew _ 4); try discriminate; [left|by_compute..]|].
  split; [apply functions_check; by_compute|]. split; [apply objects_together|].
  split; [reflexivity|]. split; [reflexivity|]. split; [by_compute|].
  split; [by_decide|]. split.
  { split; [reflexivity|]. repeat constructor; eexists; (split; [left|reflexivity]). }
  split; [reflexivity|]. split; [reflexivity|]. split; [by_compute|discriminate].
Qed.
