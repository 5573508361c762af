(* Concrete states for the properties of the hash and of the vptr policies. *)
From stdpp Require Import base list numbers relations.
From Verif Require Import Base Registry Spec SpecCall ModelClasses ModelMethods ModelTables ModelHash
  ModelWorld ProofHash ProofVptr ExamplesModel Decide ExamplesDispatch.

Ltac by_decide := refine (bool_decide_eq_true_1 _ _); by_compute.

Definition ids3 : list N := [8; 16; 24]%N.
Definition h3 : hash_state := Eval vm_compute in
  match hash_initialize (r_rnd run0) true 3 ids3 hash_state0 with Ok (h, _) => h | _ => hash_state0 end.

Lemma hash_example :
  uintptr_max ∉ ids3 /\ (0 < 3 <= max_classes)%N /\
  hash_initialize (r_rnd run0) true 3 ids3 hash_state0 = Ok (h3, None) /\
  map (hash_type true h3) [8; 16; 24; 32]%N = [Ok 3; Ok 2; Ok 1; Err (EMissingClass 32)]%N.
Proof.
  split; [|split; [|split]].
  - by_decide.
  - unfold max_classes. split; [reflexivity|]. apply N.leb_le. by_compute.
  - by_compute.
  - by_compute.
Qed.

(* The largest word is taken for a registered id. *)
Definition h_sentinel : hash_state := Eval vm_compute in
  match hash_initialize (fun _ => 2 ^ 63)%N true 2 [4; 2 ^ 63]%N hash_state0 with
  | Ok (h, _) => h | _ => hash_state0 end.
Lemma sentinel_accepted : exists rnd n types h' i,
  uintptr_max ∉ types /\ NoDup types /\ (n <= max_classes)%N /\
  hash_initialize rnd true n types hash_state0 = Ok (h', None) /\
  hash_type true h' uintptr_max = Ok i.
Proof.
  exists (fun _ => 2 ^ 63)%N, 2%N, [4; 2 ^ 63]%N, h_sentinel, 1%N.
  split; [by_decide|].
  split; [by_decide|]. split; [apply N.leb_le; by_compute|].
  split; by_compute.
Qed.

(* A class with 17 type ids: the search cannot succeed. *)
Definition ids17 : list N := map N.of_nat (seq 1 17).

Lemma search_example rnd : uintptr_max ∉ ids17 /\ (1 <= max_classes)%N /\
  exists h' e, hash_initialize rnd true 1 ids17 hash_state0 = Ok (h', Some e).
Proof.
  assert (H1 : uintptr_max ∉ ids17) by (by_decide).
  assert (H2 : (1 <= max_classes)%N) by (apply N.leb_le; by_compute).
  split; [exact H1|]. split; [exact H2|].
  destruct (hash_overflow rnd 1 ids17 hash_state0 H1 H2 true) as [h' Hh].
  - by_decide.
  - by_compute.
  - eauto.
Qed.

Lemma buckets_wrong : exists rnd n types h' attempts buckets,
  uintptr_max ∉ types /\ NoDup types /\ (n <= max_classes)%N /\
  hash_initialize rnd true n types hash_state0 = Ok (h', Some (ESearch attempts buckets)) /\
  buckets <> N.of_nat (length (h_control h')).
Proof.
  exists (fun _ => 0%N), 1%N, ids17.
  destruct (search_example (fun _ => 0%N)) as (H1 & H2 & h' & e & Hh).
  destruct (hash_error _ _ _ _ H1 H2 _ _ _ Hh) as (b & -> & Hb). specialize (Hb eq_refl).
  exists h', 400000%N, b. split; [exact H1|]. split; [by_decide|].
  split; [exact H2|]. split; [exact Hh|].
  destruct (hash_failure _ _ _ _ H1 H2 _ _ _ Hh) as [_ Hl]. specialize (Hl eq_refl). intros Heq.
  rewrite Hl in *. vm_compute in Heq, Hb. congruence.
Qed.

(* ---- a class known by two type ids: 3 and 13 (type_index is modulo 10) ---- *)
Definition env2 : env := Env (fun t => t mod 10)%N 0 (fun _ l => l) sort_desc.
Definition run2 : run := Run env2 (r_rnd run0).
Definition R_ids : registrations :=
  Registrations [cls 1 [1]; cls 3 [3; 1]; ClassRecord 13 [13; 1]%N false 3]%N
    [mth 1 [1] [ovr [1] 11; ovr [3] 13]]%N.

Lemma env2_ok : env_ok env2.
Proof. destruct env0_ok as [H1 H2]. split; assumption. Qed.

Lemma R_ids_program cf : program_ok cf env2 R_ids.
Proof.
  split.
  - exact env2_ok.
  - eapply (rankb_spec _ _ N.to_nat). by_compute.
  - apply arityb_spec. by_compute.
  - apply idsb_spec. by_compute.
  - intros _. apply N.leb_le. by_compute.
  - apply addressesb_spec. by_compute.
Qed.

Definition state2 (cf : config) (R : registrations) : world := fst (initialize cf run2 false R world0).

Lemma state2_initialized cf R :
  (match snd (initialize cf run2 false R world0) with Ok _ => true | _ => false end) = true ->
  initialized_by cf run2 false R (state2 cf R).
Proof.
  unfold state2, initialized_by. intros H.
  destruct (initialize cf run2 false R world0) as [w [rep| | |]] eqn:Hi; try discriminate.
  exists world0, rep. split; [apply world0_start|exact Hi].
Qed.

Definition cf_ihash := Config VptrVector true true true.
Definition cf_map := Config VptrMap false false true.
Definition cf_vector := Config VptrVector false false true.

Lemma ids_example cf : cf = cf_ihash \/ cf = cf0 \/ cf = cf_map \/ cf = cf_vector ->
  program_ok cf env2 R_ids /\ initialized_by cf run2 false R_ids (state2 cf R_ids) /\
  cf_vptr cf <> VptrNone /\
  ClassRecord 13 [13; 1]%N false 3 ∈ reg_classes R_ids /\
  first_record (e_ti env2) R_ids 3 = Some (cls 3 [3; 1])%N /\ 23%N ∉ map cr_type (reg_classes R_ids).
Proof.
  intros Hcf. split; [apply R_ids_program|]. split.
  { apply state2_initialized. destruct Hcf as [->|[->|[->| ->]]]; by_compute. }
  split; [destruct Hcf as [->|[->|[->| ->]]]; discriminate|].
  split; [right; right; left|]. split; [reflexivity|]. by_decide.
Qed.

(* Without a hash, an unregistered id between two registered ones yields a null
   pointer. *)
Lemma vector_unregistered : exists cf X R w t r,
  program_ok cf (r_env X) R /\ initialized_by cf X false R w /\ cf_checks cf = true /\
  cf_vptr cf = VptrVector /\ t <> uintptr_max /\ t ∉ map cr_type (reg_classes R) /\
  acquire_vptr cf w t = Ok r /\ vref_value w r = VNull.
Proof.
  exists cf_vector, run2, R_ids, (state2 cf_vector R_ids), 5%N, (RElem VNull).
  split; [apply R_ids_program|]. split; [apply state2_initialized; by_compute|].
  do 2 (split; [reflexivity|]). split; [discriminate|].
  split; [by_decide|]. split; by_compute.
Qed.

Lemma beyond_example :
  program_ok cf_vector env2 R_ids /\ initialized_by cf_vector run2 false R_ids (state2 cf_vector R_ids) /\
  forall t', t' ∈ map cr_type (reg_classes R_ids) -> (t' < 23)%N.
Proof.
  split; [apply R_ids_program|]. split; [apply state2_initialized; by_compute|].
  apply Forall_forall. repeat constructor.
Qed.
