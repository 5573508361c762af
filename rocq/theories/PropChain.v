(* Properties C47 and C48: chains of calls through next. *)
From stdpp Require Import base list numbers relations sorting.
From Verif Require Import Base Registry Spec ModelClasses ModelTables ModelHash ModelWorld ModelCall SpecCall
  SpecChain ProofChain ExamplesModel ExamplesDispatch ExamplesNext ExamplesChain.

(* C47.  In full: whatever calls each overrider makes through next, no overrider is
   entered twice, so the calls end.  Proved if "more specialized" does not run in
   circles among the overriders of the method. *)
Theorem C47_chain_partial :
  forall cf X R w, program_ok cf (r_env X) R -> initialized_by cf X false R w ->
  forall m, m ∈ reg_methods R -> functions_ok m -> NoDup (map or_pf (mr_overriders m)) ->
  (forall i, unique_signature (e_ti (r_env X)) (mr_overriders m) i) ->
  forall l, no_circle (e_ti (r_env X)) R m -> chain w m l ->
  NoDup l /\ length l <= length (mr_overriders m).
Proof. exact chain_finite. Qed.
Print Assumptions C47_chain_partial.

Example C47_chain_partial_example :
  program_ok cf0 env0 R_skew /\ initialized_by cf0 run0 false R_skew w_skew /\
  skew ∈ reg_methods R_skew /\ functions_ok skew /\ NoDup (map or_pf (mr_overriders skew)) /\
  (forall i, unique_signature id (mr_overriders skew) i) /\ no_circle id R_skew skew /\
  chain w_skew skew [1; 0].
Proof. exact skew_chain_example. Qed.

(* A method with one virtual parameter meets that condition. *)
Theorem C47_chain_uni :
  forall cf X R w, program_ok cf (r_env X) R -> initialized_by cf X false R w ->
  forall m, m ∈ reg_methods R -> functions_ok m -> NoDup (map or_pf (mr_overriders m)) ->
  (forall i, unique_signature (e_ti (r_env X)) (mr_overriders m) i) ->
  length (mr_vp m) = 1 ->
  forall l, chain w m l -> NoDup l /\ length l <= length (mr_overriders m).
Proof. exact chain_finite_uni. Qed.
Print Assumptions C47_chain_uni.

Example C47_chain_uni_example :
  program_ok cf0 env0 R0 /\ initialized_by cf0 run0 false R0 w0 /\
  poke ∈ reg_methods R0 /\ functions_ok poke /\ NoDup (map or_pf (mr_overriders poke)) /\
  (forall i, unique_signature id (mr_overriders poke) i) /\ length (mr_vp poke) = 1 /\
  chain w0 poke [2; 0].
Proof. exact poke_chain_example. Qed.

(* So does a method whose arguments have comparable base classes, as with single
   inheritance. *)
Theorem C47_chain_comparable :
  forall cf X R w, program_ok cf (r_env X) R -> initialized_by cf X false R w ->
  forall m, m ∈ reg_methods R -> functions_ok m -> NoDup (map or_pf (mr_overriders m)) ->
  (forall i, unique_signature (e_ti (r_env X)) (mr_overriders m) i) ->
  (forall args, valid_args (e_ti (r_env X)) R m args ->
     comparable (e_ti (r_env X)) R (mr_overriders m)
       (candidate (e_ti (r_env X)) R (mr_overriders m) args)) ->
  forall l, chain w m l -> NoDup l /\ length l <= length (mr_overriders m).
Proof. exact chain_finite_comparable. Qed.
Print Assumptions C47_chain_comparable.

Example C47_chain_comparable_example :
  program_ok cf0 env0 R_pets /\ initialized_by cf0 run0 false R_pets w_pets /\
  fight ∈ reg_methods R_pets /\ functions_ok fight /\ NoDup (map or_pf (mr_overriders fight)) /\
  (forall i, unique_signature id (mr_overriders fight) i) /\
  (forall args, valid_args id R_pets fight args ->
     comparable id R_pets (mr_overriders fight) (candidate id R_pets (mr_overriders fight) args)) /\
  chain w_pets fight [3; 0; 2; 1].
Proof. exact fight_chain_example. Qed.

(* Without the condition, a call may lead to overriders that all accept its arguments
   and go round for ever. *)
Theorem C47_chain_refuted :
  exists (cf : config) (X : run) (R : registrations) (w : world)
         (mid : N) (m : method_record) (all : list arg) (args : list N) i o,
    program_ok cf (r_env X) R /\ bases_first (e_ti (r_env X)) R /\
    initialized_by cf X false R w /\
    call_ok cf (e_ti (r_env X)) R w m all args /\ functions_ok m /\ together all /\
    NoDup (map or_pf (mr_overriders m)) /\
    (forall k, unique_signature (e_ti (r_env X)) (mr_overriders m) k) /\
    mr_overriders m !! i = Some o /\ call cf w mid m all = Ok (Calls (or_pf o)) /\
    forall n, exists l, length l = n /\ chain w m (i :: l) /\
      forall j, j ∈ i :: l -> candidate (e_ti (r_env X)) R (mr_overriders m) args j.
Proof. exact chain_endless. Qed.
Print Assumptions C47_chain_refuted.

(* With n2216, so may a call with one virtual argument. *)
Theorem C47_n2216_refuted :
  exists (cf : config) (X : run) (R : registrations) (w : world)
         (mid : N) (m : method_record) (all : list arg) (args : list N) i o,
    program_ok cf (r_env X) R /\ bases_first (e_ti (r_env X)) R /\
    initialized_by cf X true R w /\
    call_ok cf (e_ti (r_env X)) R w m all args /\ functions_ok m /\ length (mr_vp m) = 1 /\
    NoDup (map or_pf (mr_overriders m)) /\
    (forall k, unique_signature (e_ti (r_env X)) (mr_overriders m) k) /\
    mr_overriders m !! i = Some o /\ call cf w mid m all = Ok (Calls (or_pf o)) /\
    forall n, exists l, length l = n /\ chain w m (i :: l) /\
      forall j, j ∈ i :: l -> candidate (e_ti (r_env X)) R (mr_overriders m) args j.
Proof. exact chain_endless_n2216. Qed.
Print Assumptions C47_n2216_refuted.

(* C48.  If any two of the overriders that accept the arguments of a call are
   ordered, the call and then next run each of them once, from the most to the least
   specialized, and has_next is false exactly in the last. *)
Theorem C48_all :
  forall cf X R w, program_ok cf (r_env X) R -> initialized_by cf X false R w ->
  forall m, m ∈ reg_methods R ->
  (forall args, valid_args (e_ti (r_env X)) R m args ->
     pointwise (e_ti (r_env X)) R (mr_overriders m)
       (candidate (e_ti (r_env X)) R (mr_overriders m) args)) ->
  forall args, valid_args (e_ti (r_env X)) R m args ->
  total_dominance (e_ti (r_env X)) R m args ->
  bases_first (e_ti (r_env X)) R -> forall mid all,
  call_ok cf (e_ti (r_env X)) R w m all args -> functions_ok m ->
  (length (mr_vp m) = 1 \/ together all) ->
  (exists i, candidate (e_ti (r_env X)) R (mr_overriders m) args i) ->
  exists i oi l z oz, mr_overriders m !! i = Some oi /\ call cf w mid m all = Ok (Calls (or_pf oi)) /\
    chain w m (i :: l) /\ StronglySorted (outranks (e_ti (r_env X)) R m) (i :: l) /\
    (forall j, j ∈ i :: l <-> candidate (e_ti (r_env X)) R (mr_overriders m) args j) /\
    last (i :: l) = Some z /\ mr_overriders m !! z = Some oz /\
    w_next w (or_next oz) = Some (mr_not_implemented m) /\
    forall j oj, j ∈ i :: l -> mr_overriders m !! j = Some oj ->
      has_next w m (or_next oj) = true <-> j <> z.
Proof. exact chain_all. Qed.
Print Assumptions C48_all.

Example C48_all_example :
  program_ok cf0 env0 R_pets /\ initialized_by cf0 run0 false R_pets w_pets /\
  fight ∈ reg_methods R_pets /\
  (forall args, valid_args id R_pets fight args ->
     pointwise id R_pets (mr_overriders fight) (candidate id R_pets (mr_overriders fight) args)) /\
  valid_args id R_pets fight [3; 4]%N /\ total_dominance id R_pets fight [3; 4]%N /\
  bases_first id R_pets /\ call_ok cf0 id R_pets w_pets fight (map AObject [3; 4]%N) [3; 4]%N /\
  functions_ok fight /\ together (map AObject [3; 4]%N) /\
  candidate id R_pets (mr_overriders fight) [3; 4]%N 0.
Proof. exact fight_all_example. Qed.

(* One virtual parameter, single inheritance, one overrider per class. *)
Theorem C48_all_uni :
  forall cf X R w, program_ok cf (r_env X) R -> initialized_by cf X false R w ->
  forall m args, bases_first (e_ti (r_env X)) R -> forall mid all,
  call_ok cf (e_ti (r_env X)) R w m all args -> functions_ok m -> length (mr_vp m) = 1 ->
  comparable (e_ti (r_env X)) R (mr_overriders m) (candidate (e_ti (r_env X)) R (mr_overriders m) args) ->
  (forall i, unique_signature (e_ti (r_env X)) (mr_overriders m) i) ->
  (exists i, candidate (e_ti (r_env X)) R (mr_overriders m) args i) ->
  exists i oi l z oz, mr_overriders m !! i = Some oi /\ call cf w mid m all = Ok (Calls (or_pf oi)) /\
    chain w m (i :: l) /\ StronglySorted (outranks (e_ti (r_env X)) R m) (i :: l) /\
    (forall j, j ∈ i :: l <-> candidate (e_ti (r_env X)) R (mr_overriders m) args j) /\
    last (i :: l) = Some z /\ mr_overriders m !! z = Some oz /\
    w_next w (or_next oz) = Some (mr_not_implemented m) /\
    forall j oj, j ∈ i :: l -> mr_overriders m !! j = Some oj ->
      has_next w m (or_next oj) = true <-> j <> z.
Proof. exact chain_all_uni. Qed.
Print Assumptions C48_all_uni.

Example C48_all_uni_example :
  program_ok cf0 env0 R_pets /\ initialized_by cf0 run0 false R_pets w_pets /\
  bases_first id R_pets /\ call_ok cf0 id R_pets w_pets speak (map AObject [3]%N) [3]%N /\
  functions_ok speak /\ length (mr_vp speak) = 1 /\
  comparable id R_pets (mr_overriders speak) (candidate id R_pets (mr_overriders speak) [3]%N) /\
  (forall i, unique_signature id (mr_overriders speak) i) /\
  candidate id R_pets (mr_overriders speak) [3]%N 0 /\
  chain w_pets speak [3; 0; 2].
Proof. exact speak_all_example. Qed.
