(* Property C29: the n2216 option. *)
From stdpp Require Import base list numbers.
From Verif Require Import Base Registry Spec SpecCall SpecN2216 ModelClasses ModelHash ModelWorld ModelCall ModelErrors
  ProofN2216 ProofN2216Next ExamplesModel ExamplesDispatch ExamplesVptr ExamplesN2216.

(* C29.  With the option, a call for which there are applicable overriders is
   never ambiguous.  One of them is entered.  None of the others dominates it.  If
   the return type is covariant and one of the candidates returns a more
   specialized class than the others, that one is entered.  If one dominates all
   the others, that one is entered. *)
Theorem C29_one_runs :
  forall cf X R w, program_ok cf (r_env X) R -> bases_first (e_ti (r_env X)) R ->
  forall mid m all args,
  initialized_by cf X true R w -> call_ok cf (e_ti (r_env X)) R w m all args -> functions_ok m ->
  (length (mr_vp m) = 1 \/ together all) ->
  let ovs := mr_overriders m in
  let cand := candidate (e_ti (r_env X)) R ovs args in
  (exists id n ts, call cf w mid m all = Err (ENoOverrider id n ts) /\ forall i, ~ cand i) \/
  exists i o, ovs !! i = Some o /\ cand i /\ call cf w mid m all = Ok (Calls (or_pf o)) /\
    (settled (e_ti (r_env X)) R ovs cand ->
       undominated (e_ti (r_env X)) R ovs cand i /\
       (covariant (e_ti (r_env X)) (e_void (r_env X)) R m ->
        forall b, most_specialized (e_ti (r_env X)) R ovs
          (undominated (e_ti (r_env X)) R ovs cand) b -> i = b)) /\
    ((exists b ob, ovs !! b = Some ob /\ cand b /\
       forall j oj, ovs !! j = Some oj -> cand j -> j <> b -> dominates (e_ti (r_env X)) R ob oj) ->
     forall j oj, ovs !! j = Some oj -> cand j -> j <> i -> dominates (e_ti (r_env X)) R o oj).
Proof. exact call_chooses. Qed.
Print Assumptions C29_one_runs.

Example C29_one_runs_example :
  program_ok cf0 env0 R_clone /\ bases_first id R_clone /\
  initialized_by cf0 run0 true R_clone w_clone_n /\
  call_ok cf0 id R_clone w_clone_n clone (map AObject [4]%N) [4]%N /\ functions_ok clone /\
  length (mr_vp clone) = 1 /\ covariant id 0%N R_clone clone /\
  settled id R_clone (mr_overriders clone)
    (candidate id R_clone (mr_overriders clone) [4]%N) /\
  most_specialized id R_clone (mr_overriders clone)
    (undominated id R_clone (mr_overriders clone)
      (candidate id R_clone (mr_overriders clone) [4]%N)) 2 /\
  call cf0 w_clone 5 clone (map AObject [4]%N) = Err (EAmbiguousCall 5 1 (types_of [4%N])) /\
  call cf0 w_clone_n 5 clone (map AObject [4]%N) = Ok (Calls 53%N).
Proof. exact clone_example. Qed.

(* The option only matters for ambiguous calls. *)
Theorem C29_unambiguous_same :
  forall cf X R w w' mid m all all' args,
  program_ok cf (r_env X) R -> bases_first (e_ti (r_env X)) R ->
  initialized_by cf X false R w -> initialized_by cf X true R w' ->
  call_ok cf (e_ti (r_env X)) R w m all args -> call_ok cf (e_ti (r_env X)) R w' m all' args ->
  functions_ok m -> (length (mr_vp m) = 1 \/ (together all /\ together all')) ->
  (forall f, call cf w mid m all = Ok (Calls f) -> call cf w' mid m all' = Ok (Calls f)) /\
  ((exists id n ts, call cf w mid m all = Err (ENoOverrider id n ts)) ->
   exists id n ts, call cf w' mid m all' = Err (ENoOverrider id n ts)).
Proof. exact unambiguous_same. Qed.
Print Assumptions C29_unambiguous_same.

Example C29_unambiguous_same_example :
  program_ok cf0 env0 R_clone /\ bases_first id R_clone /\
  initialized_by cf0 run0 false R_clone w_clone /\ initialized_by cf0 run0 true R_clone w_clone_n /\
  call_ok cf0 id R_clone w_clone meet (map AObject [2; 4]%N) [2; 4]%N /\
  call_ok cf0 id R_clone w_clone_n meet (map AObject [2; 4]%N) [2; 4]%N /\
  functions_ok meet /\ together (map AObject [2; 4]%N) /\
  call cf0 w_clone 2 meet (map AObject [2; 4]%N) = Ok (Calls 24%N).
Proof. exact clone_both. Qed.

(* The choice is the same throughout a program and in all its runs: it does not
   depend on type ids, addresses, hash factors, the order of unordered containers,
   the vptr policy or the way in which the arguments are passed. *)
Theorem C29_stable :
  forall cf cf' X X' rho R R' w w' n2216 k m m' mid mid' all all' xs,
  same_program (e_ti (r_env X)) (e_ti (r_env X')) (e_void (r_env X)) (e_void (r_env X')) rho R R' ->
  program_ok cf (r_env X) R -> program_ok cf' (r_env X') R' ->
  bases_first (e_ti (r_env X)) R -> bases_first (e_ti (r_env X')) R' ->
  initialized_by cf X n2216 R w -> initialized_by cf' X' n2216 R' w' ->
  reg_methods R !! k = Some m -> reg_methods R' !! k = Some m' ->
  call_ok cf (e_ti (r_env X)) R w m all (map (e_ti (r_env X)) xs) ->
  call_ok cf' (e_ti (r_env X')) R' w' m' all' (map (fun x => e_ti (r_env X') (rho x)) xs) ->
  functions_ok m -> functions_ok m' ->
  (length (mr_vp m) = 1 \/ (together all /\ together all')) ->
  exists sel, behaves m sel (call cf w mid m all) /\ behaves m' sel (call cf' w' mid' m' all').
Proof. exact runs_agree. Qed.
Print Assumptions C29_stable.

Example C29_stable_example :
  same_program id id 0%N 0%N move R_clone R_moved /\
  program_ok cf0 env0 R_clone /\ program_ok cf_map env0 R_moved /\
  bases_first id R_clone /\ bases_first id R_moved /\
  initialized_by cf0 run0 true R_clone w_clone_n /\ initialized_by cf_map run0 true R_moved w_moved /\
  reg_methods R_clone !! 2 = Some clone /\ reg_methods R_moved !! 2 = Some (mth_m clone) /\
  call_ok cf0 id R_clone w_clone_n clone (map AObject [4]%N) (map id [4]%N) /\
  call_ok cf_map id R_moved w_moved (mth_m clone) (map AObject [28]%N) (map (fun x => id (move x)) [4]%N) /\
  functions_ok clone /\ functions_ok (mth_m clone) /\ length (mr_vp clone) = 1 /\
  call cf0 w_clone_n 5 clone (map AObject [4]%N) = Ok (Calls 53%N) /\
  call cf_map w_moved 5 (mth_m clone) (map AObject [28]%N) = Ok (Calls 153%N).
Proof. exact moved_example. Qed.

(* initialize() succeeds, and fails, as it does without the option, provided that
   no three overriders are tangled. *)
Theorem C29_initialize :
  forall cf X R w, program_ok cf (r_env X) R -> world_ok w ->
  untangled (e_ti (r_env X)) (e_void (r_env X)) R ->
  (exists w' rep, initialize cf X true R w = (w', Ok rep)) <->
  (exists w' rep, initialize cf X false R w = (w', Ok rep)).
Proof. exact initialize_n2216. Qed.
Print Assumptions C29_initialize.

Example C29_initialize_example :
  program_ok cf0 env0 R_mix /\ world_ok world0 /\ untangled id 0%N R_mix /\
  (exists w' rep, initialize cf0 run0 false R_mix world0 = (w', Ok rep)) /\
  call cf0 (state cf0 true R_mix) 6 mix [AObject 5%N] = Ok (Calls 62%N).
Proof. exact mix_example. Qed.

Theorem C29_initialize_errors :
  forall cf X R w e, program_ok cf (r_env X) R -> world_ok w ->
  untangled (e_ti (r_env X)) (e_void (r_env X)) R ->
  (exists w', initialize cf X true R w = (w', Err e)) <->
  (exists w', initialize cf X false R w = (w', Err e)).
Proof. exact initialize_n2216_errors. Qed.
Print Assumptions C29_initialize_errors.

Example C29_initialize_errors_example :
  program_ok cf0 env0 R_stray /\ world_ok world0 /\ untangled id 0%N R_stray /\
  (exists w', initialize cf0 run0 false R_stray world0 = (w', Err (EMissingClass 9%N))).
Proof. exact stray_example. Qed.

(* Without the proviso, initialize() can dereference a null pointer. *)
Theorem C29_initialize_refuted :
  exists (cf : config) (X : run) (R : registrations),
    program_ok cf (r_env X) R /\ bases_first (e_ti (r_env X)) R /\
    (exists w rep, initialize cf X false R world0 = (w, Ok rep)) /\
    snd (initialize cf X true R world0) = Undef.
Proof. exact blend_undefined. Qed.
Print Assumptions C29_initialize_refuted.

(* A call through next, from an overrider that is never a party to an ambiguity: it
   enters one of the overriders that accept the arguments of the current one and are not
   dominated by another one of those; the one with the most specialized return type, if
   there is one.  It fails if there is no such overrider. *)
Theorem C29_next :
  forall cf X R w, program_ok cf (r_env X) R -> initialized_by cf X true R w ->
  forall m i o, m ∈ reg_methods R -> mr_overriders m !! i = Some o ->
  unique_signature (e_ti (r_env X)) (mr_overriders m) i ->
  (forall args, valid_args (e_ti (r_env X)) R m args ->
     pointwise (e_ti (r_env X)) R (mr_overriders m) (candidate (e_ti (r_env X)) R (mr_overriders m) args)) ->
  (forall args j, valid_args (e_ti (r_env X)) R m args ->
     undominated (e_ti (r_env X)) R (mr_overriders m) (candidate (e_ti (r_env X)) R (mr_overriders m) args) i ->
     undominated (e_ti (r_env X)) R (mr_overriders m) (candidate (e_ti (r_env X)) R (mr_overriders m) args) j ->
     j = i) ->
  functions_ok m ->
  let nexts := next_candidate (e_ti (r_env X)) R (mr_overriders m) i in
  forall mid all,
  ((forall j, ~ nexts j) /\
   exists n ts, call_next w mid m (or_next o) all = Err (ENoOverrider mid n ts)) \/
  exists j oj, mr_overriders m !! j = Some oj /\
    undominated (e_ti (r_env X)) R (mr_overriders m) nexts j /\
    call_next w mid m (or_next o) all = Ok (Calls (or_pf oj)) /\
    (forall args, applicable (e_ti (r_env X)) R args o -> applicable (e_ti (r_env X)) R args oj) /\
    (covariant (e_ti (r_env X)) (e_void (r_env X)) R m -> forall b,
       most_specialized (e_ti (r_env X)) R (mr_overriders m)
         (undominated (e_ti (r_env X)) R (mr_overriders m) nexts) b -> j = b).
Proof. exact next_n2216_call. Qed.
Print Assumptions C29_next.

Example C29_next_example :
  program_ok cf0 env0 R_copy /\ initialized_by cf0 run0 true R_copy w_copy /\
  copy ∈ reg_methods R_copy /\ mr_overriders copy !! 3 = Some (ovr_r [4] 4 64)%N /\
  unique_signature id (mr_overriders copy) 3 /\
  (forall args, valid_args id R_copy copy args ->
     pointwise id R_copy (mr_overriders copy) (candidate id R_copy (mr_overriders copy) args)) /\
  (forall args j, valid_args id R_copy copy args ->
     undominated id R_copy (mr_overriders copy) (candidate id R_copy (mr_overriders copy) args) 3 ->
     undominated id R_copy (mr_overriders copy) (candidate id R_copy (mr_overriders copy) args) j -> j = 3) /\
  functions_ok copy /\ covariant id 0%N R_copy copy /\
  call_next w_copy 6 copy 64 [AObject 4]%N = Ok (Calls 63%N).
Proof. exact copy_next. Qed.

(* With the option, a call through next may enter an overrider that does not accept the
   arguments: next is set for all the calls by the cell of an ambiguous call, resolved
   by the return types. *)
Theorem C29_next_refuted :
  exists (cf : config) (X : run) (R : registrations) (w : world) (mid : N) (m : method_record)
         (all : list arg) (args : list N) i oi j oj,
    program_ok cf (r_env X) R /\ bases_first (e_ti (r_env X)) R /\
    untangled (e_ti (r_env X)) (e_void (r_env X)) R /\ initialized_by cf X true R w /\
    call_ok cf (e_ti (r_env X)) R w m all args /\ functions_ok m /\ length (mr_vp m) = 1 /\
    mr_overriders m !! i = Some oi /\ mr_overriders m !! j = Some oj /\
    unique_signature (e_ti (r_env X)) (mr_overriders m) i /\
    call cf w mid m all = Ok (Calls (or_pf oi)) /\
    call_next w mid m (or_next oi) all = Ok (Calls (or_pf oj)) /\
    ~ applicable (e_ti (r_env X)) R args oj.
Proof. exact clone_next. Qed.
Print Assumptions C29_next_refuted.
