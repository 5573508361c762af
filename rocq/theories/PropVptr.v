(* Properties C16-C19 and C31: the perfect hash and the vptr policies. *)
From stdpp Require Import base list numbers.
From Verif Require Import Base Registry Spec SpecCall ModelClasses ModelHash ModelWorld
  ProofVptr ExamplesModel ExamplesVptr.

(* C16.  Different registered ids have different hashes, in the returned range,
   below the number of buckets, itself between 1.25 and 20 times the number of
   classes. *)
Theorem C16_perfect_hash :
  forall rnd n types h, uintptr_max ∉ types -> (n <= max_classes)%N ->
  forall checks h', hash_initialize rnd checks n types h = Ok (h', None) ->
  (forall t, t ∈ types ->
     exists i, hash_type checks h' t = Ok i /\ (h_min h' <= i <= h_max h')%N) /\
  (forall t1 t2 i, t1 ∈ types -> t2 ∈ types ->
     hash_type checks h' t1 = Ok i -> hash_type checks h' t2 = Ok i -> t1 = t2) /\
  ((0 < n)%N -> exists M, (n * 5 / 4 < 2 ^ M <= 16 * (n * 5 / 4))%N /\ (h_max h' < 2 ^ M)%N /\
     (checks = true -> N.of_nat (length (h_control h')) = 2 ^ M)%N).
Proof. exact hash_perfect. Qed.
Print Assumptions C16_perfect_hash.

Example C16_example :
  uintptr_max ∉ ids3 /\ (0 < 3 <= max_classes)%N /\
  hash_initialize (r_rnd run0) true 3 ids3 hash_state0 = Ok (h3, None) /\
  map (hash_type true h3) [8; 16; 24; 32]%N = [Ok 3; Ok 2; Ok 1; Err (EMissingClass 32)]%N.
Proof. exact hash_example. Qed.

(* C17.  With runtime_checks exactly the registered ids are accepted, among those
   different from the largest 64-bit value. *)
Theorem C17_hash_check :
  forall rnd n types h, uintptr_max ∉ types -> (n <= max_classes)%N ->
  forall h' t, hash_initialize rnd true n types h = Ok (h', None) -> t <> uintptr_max ->
  ((exists i, hash_type true h' t = Ok i) <-> t ∈ types) /\
  (t ∉ types -> hash_type true h' t = Err (EMissingClass t)).
Proof. exact hash_accepts. Qed.
Print Assumptions C17_hash_check.

Example C17_example :
  uintptr_max ∉ ids3 /\ (0 < 3 <= max_classes)%N /\
  hash_initialize (r_rnd run0) true 3 ids3 hash_state0 = Ok (h3, None) /\
  map (hash_type true h3) [8; 16; 24; 32]%N = [Ok 3; Ok 2; Ok 1; Err (EMissingClass 32)]%N.
Proof. exact hash_example. Qed.

(* Without the guard: the value that marks an empty bucket is accepted. *)
Theorem C17_hash_check_refuted : exists rnd n types h' i,
  uintptr_max ∉ types /\ NoDup types /\ (n <= max_classes)%N /\
  hash_initialize rnd true n types hash_state0 = Ok (h', None) /\
  hash_type true h' uintptr_max = Ok i.
Proof. exact sentinel_accepted. Qed.
Print Assumptions C17_hash_check_refuted.

(* C18.  For an object of a registered type, any of the type ids of its class, the
   v-table pointer of its class is acquired; with indirect_vptr it is acquired by
   reference. *)
Theorem C18_acquire_registered :
  forall cf X n2216 R w, program_ok cf (r_env X) R -> initialized_by cf X n2216 R w ->
  forall cr, cf_vptr cf <> VptrNone -> cr ∈ reg_classes R ->
  exists first r, first_record (e_ti (r_env X)) R (e_ti (r_env X) (cr_type cr)) = Some first /\
    acquire_vptr cf w (cr_type cr) = Ok r /\
    vref_value w r = w_static w (cr_static_vptr first) /\
    (cf_indirect cf = true -> r = RStatic (cr_static_vptr first)).
Proof. exact acquire_registered. Qed.
Print Assumptions C18_acquire_registered.

(* A class with two type ids, under four registries. *)
Example C18_example : forall cf, cf = cf_ihash \/ cf = cf0 \/ cf = cf_map \/ cf = cf_vector ->
  program_ok cf env2 R_ids /\ initialized_by cf run2 false R_ids (state2 cf R_ids) /\
  cf_vptr cf <> VptrNone /\
  ClassRecord 13 [13; 1]%N false 3 ∈ reg_classes R_ids /\
  first_record (e_ti env2) R_ids 3 = Some (cls 3 [3; 1])%N /\ 23%N ∉ map cr_type (reg_classes R_ids).
Proof. exact ids_example. Qed.

(* C19.  With runtime_checks, for an object of an unregistered type missing_class is
   signaled: with vptr_map, with a hashed vptr_vector... *)
Theorem C19_acquire_unregistered :
  forall cf X n2216 R w, program_ok cf (r_env X) R -> initialized_by cf X n2216 R w ->
  forall t, cf_checks cf = true ->
  cf_vptr cf = VptrMap \/ (cf_vptr cf = VptrVector /\ cf_hash cf = true) ->
  t <> uintptr_max -> t ∉ map cr_type (reg_classes R) ->
  acquire_vptr cf w t = Err (EMissingClass t).
Proof. exact acquire_unregistered. Qed.
Print Assumptions C19_acquire_unregistered.

Example C19_example : forall cf, cf = cf_ihash \/ cf = cf0 \/ cf = cf_map \/ cf = cf_vector ->
  program_ok cf env2 R_ids /\ initialized_by cf run2 false R_ids (state2 cf R_ids) /\
  cf_vptr cf <> VptrNone /\
  ClassRecord 13 [13; 1]%N false 3 ∈ reg_classes R_ids /\
  first_record (e_ti env2) R_ids 3 = Some (cls 3 [3; 1])%N /\ 23%N ∉ map cr_type (reg_classes R_ids).
Proof. exact ids_example. Qed.

(* ... and with an unhashed vptr_vector if the id is larger than all the registered
   ones. *)
Theorem C19_acquire_beyond :
  forall cf X n2216 R w, program_ok cf (r_env X) R -> initialized_by cf X n2216 R w ->
  forall t, cf_checks cf = true -> cf_vptr cf = VptrVector -> cf_hash cf = false ->
  (0 < t)%N -> (forall t', t' ∈ map cr_type (reg_classes R) -> (t' < t)%N) ->
  acquire_vptr cf w t = Err (EMissingClass t).
Proof. exact acquire_beyond. Qed.
Print Assumptions C19_acquire_beyond.

Example C19_beyond_example :
  program_ok cf_vector env2 R_ids /\ initialized_by cf_vector run2 false R_ids (state2 cf_vector R_ids) /\
  forall t', t' ∈ map cr_type (reg_classes R_ids) -> (t' < 23)%N.
Proof. exact beyond_example. Qed.

(* With an unhashed vptr_vector, other unregistered ids yield a null pointer. *)
Theorem C19_acquire_unregistered_refuted : exists cf X R w t r,
  program_ok cf (r_env X) R /\ initialized_by cf X false R w /\ cf_checks cf = true /\
  cf_vptr cf = VptrVector /\ t <> uintptr_max /\ t ∉ map cr_type (reg_classes R) /\
  acquire_vptr cf w t = Ok r /\ vref_value w r = VNull.
Proof. exact vector_unregistered. Qed.
Print Assumptions C19_acquire_unregistered_refuted.

(* C31.  The search always ends; when it fails the error has the number of attempts
   (random multipliers drawn) and the number of buckets of the last attempts.
   Partial: the number of buckets is twice that. *)
Theorem C31_search_ends :
  forall rnd n types h, uintptr_max ∉ types -> (n <= max_classes)%N -> forall checks,
  (exists h', hash_initialize rnd checks n types h = Ok (h', None)) \/
  exists h' e, hash_initialize rnd checks n types h = Ok (h', Some e).
Proof. exact hash_total. Qed.
Print Assumptions C31_search_ends.

Example C31_ends_example : uintptr_max ∉ ids3 /\ (0 < 3 <= max_classes)%N /\
  hash_initialize (r_rnd run0) true 3 ids3 hash_state0 = Ok (h3, None) /\
  map (hash_type true h3) [8; 16; 24; 32]%N = [Ok 3; Ok 2; Ok 1; Err (EMissingClass 32)]%N.
Proof. exact hash_example. Qed.

Theorem C31_search_error_partial :
  forall rnd n types h, uintptr_max ∉ types -> (n <= max_classes)%N ->
  forall checks h' e, hash_initialize rnd checks n types h = Ok (h', Some e) ->
  exists buckets, e = ESearch 400000 buckets /\
    (checks = true -> buckets = 2 * N.of_nat (length (h_control h')))%N.
Proof. exact hash_error. Qed.
Print Assumptions C31_search_error_partial.

(* One class with 17 type ids: the search fails for all random sequences. *)
Example C31_example : forall rnd, uintptr_max ∉ ids17 /\ (1 <= max_classes)%N /\
  exists h' e, hash_initialize rnd true 1 ids17 hash_state0 = Ok (h', Some e).
Proof. exact search_example. Qed.

Theorem C31_search_error_refuted : exists rnd n types h' attempts buckets,
  uintptr_max ∉ types /\ NoDup types /\ (n <= max_classes)%N /\
  hash_initialize rnd true n types hash_state0 = Ok (h', Some (ESearch attempts buckets)) /\
  buckets <> N.of_nat (length (h_control h')).
Proof. exact buckets_wrong. Qed.
Print Assumptions C31_search_error_refuted.
