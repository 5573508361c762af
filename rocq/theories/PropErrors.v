(* C08 - C11, C15: class relation, errors of initialize(), position of the virtual
   arguments, absence of undefined behaviour. *)
From stdpp Require Import base list numbers.
From Verif Require Import Base Registry Spec ModelClasses ModelHash ModelWorld ModelCall SpecCall
  ExamplesModel ExamplesDispatch ProofInvariance ProofBehaviour ProofFindings ProofSafety.

(* C08.  [g_map] maps a class to its node, [g_td] lists the nodes of the classes
   considered derived from a node. *)
Theorem C08_derived_sets :
  forall (E : env) (R : registrations) g,
    env_ok E -> acyclic (e_ti E) R -> augment_classes E (reg_classes R) = Ok g ->
    (forall a, is_Some (g_map g a) <-> registered (e_ti E) R a) /\
    (forall a b i, g_map g a = Some i -> g_map g b = Some i -> a = b) /\
    forall a b i j, g_map g a = Some i -> g_map g b = Some j ->
      NoDup (g_td g j) /\ (i ∈ g_td g j <-> derives (e_ti E) R a b).
Proof. exact derived_sets. Qed.
Print Assumptions C08_derived_sets.

Theorem C08_classes_accepted :
  forall (E : env) (R : registrations),
    env_ok E -> acyclic (e_ti E) R ->
    ((exists g, augment_classes E (reg_classes R) = Ok g) <-> bases_registered (e_ti E) R).
Proof. exact classes_read. Qed.
Print Assumptions C08_classes_accepted.

(* The same, observed by a call. *)
Theorem C08_acceptance :
  forall (cf : config) (X : run) (R : registrations) (w : world)
         (mid : N) (m : method_record) (o : overrider_record) (v : N) (all : list arg) (a : N),
    program_ok cf (r_env X) R -> bases_first (e_ti (r_env X)) R ->
    initialized_by cf X false R w ->
    call_ok cf (e_ti (r_env X)) R w m all [a] -> functions_ok m ->
    mr_overriders m = [o] -> or_vp o = [v] ->
    (call cf w mid m all = Ok (Calls (or_pf o)) <->
     derives (e_ti (r_env X)) R a (e_ti (r_env X) v)).
Proof. exact acceptance. Qed.
Print Assumptions C08_acceptance.

Example C08_example :
  program_ok cf0 env0 R1 /\ bases_first id R1 /\ initialized_by cf0 run0 false R1 w1 /\
  call_ok cf0 id R1 w1 purr (map AObject [4]%N) [4]%N /\ functions_ok purr /\
  mr_overriders purr = [ovr [3]%N 31] /\ derives id R1 4%N 3%N.
Proof. exact purr_acceptance. Qed.

(* C09. *)
Theorem C09_missing_class_iff :
  forall (cf : config) (X : run) (R : registrations) (w : world),
    program_ok cf (r_env X) R -> world_ok w ->
    ((exists t w', initialize cf X false R w = (w', Err (EMissingClass t))) <->
     ~ all_named_registered (e_ti (r_env X)) (e_void (r_env X)) R) /\
    forall t w', initialize cf X false R w = (w', Err (EMissingClass t)) ->
      w' = w /\ named (e_ti (r_env X)) (e_void (r_env X)) R t /\
      ~ registered (e_ti (r_env X)) R (e_ti (r_env X) t).
Proof. exact missing_class_iff. Qed.
Print Assumptions C09_missing_class_iff.

Example C09_example :
  program_ok cf0 env0 R_nobase /\ named id 0 R_nobase 1 /\ ~ registered id R_nobase 1%N /\
  initialize cf0 run0 false R_nobase world0 = (world0, Err (EMissingClass 1)).
Proof. exact nobase_example. Qed.

(* C10, partial: initialize() signals missing_base exactly when it must, and the
   two members of the error are the two classes of one offending parameter; but
   [base] is the overrider's class and [derived] the method's, where the full
   statement has them the other way round. *)
Theorem C10_missing_base_partial :
  forall (cf : config) (X : run) (R : registrations) (w : world),
    program_ok cf (r_env X) R -> world_ok w ->
    all_named_registered (e_ti (r_env X)) (e_void (r_env X)) R ->
    ((exists b d w', initialize cf X false R w = (w', Err (EMissingBase b d))) <->
     exists m o v x, misfit (e_ti (r_env X)) R m o v x) /\
    forall b d w', initialize cf X false R w = (w', Err (EMissingBase b d)) ->
      w' = w /\ exists m o v x cv cx, misfit (e_ti (r_env X)) R m o v x /\
        first_record (e_ti (r_env X)) R (e_ti (r_env X) x) = Some cx /\ b = cr_type cx /\
        first_record (e_ti (r_env X)) R (e_ti (r_env X) v) = Some cv /\ d = cr_type cv.
Proof. exact missing_base_iff. Qed.
Print Assumptions C10_missing_base_partial.

Example C10_example :
  program_ok cf0 env0 R_misfit /\ all_named_registered id 0 R_misfit /\
  misfit id R_misfit m_misfit (ovr [3]%N 11) 2 3 /\
  initialize cf0 run0 false R_misfit world0 = (world0, Err (EMissingBase 3 2)).
Proof. exact misfit_example. Qed.

(* One method on [v], one overrider on [x]: the error does not say base [v],
   derived [x]. *)
Theorem C10_missing_base_refuted :
  exists cf X R w m o v x b d w',
    program_ok cf (r_env X) R /\ world_ok w /\
    all_named_registered (e_ti (r_env X)) (e_void (r_env X)) R /\
    reg_methods R = [m] /\ mr_overriders m = [o] /\ mr_vp m = [v] /\ or_vp o = [x] /\
    initialize cf X false R w = (w', Err (EMissingBase b d)) /\
    ~ (b = v /\ d = x).
Proof. exact missing_base_swapped. Qed.
Print Assumptions C10_missing_base_refuted.

(* C11: what stands around the virtual arguments does not matter, in any state. *)
Theorem C11_virtual_position_uni :
  forall (cf : config) (w : world) (m : method_record) (all : list arg),
    length (mr_vp m) = 1 -> virtual_args all <> [] ->
    resolve cf w m all = resolve cf w m (virtual_args all).
Proof. exact resolve_virtual_uni. Qed.
Print Assumptions C11_virtual_position_uni.

Theorem C11_virtual_position_multi :
  forall (cf : config) (w : world) (m : method_record) (all : list arg),
    length (mr_vp m) = length (virtual_args all) -> 1 < length (mr_vp m) -> together all ->
    resolve cf w m all = resolve cf w m (virtual_args all).
Proof. exact resolve_virtual_multi. Qed.
Print Assumptions C11_virtual_position_multi.

Example C11_example :
  let all := [AOther 7; AObject 2; AObject 2; AOther 9]%N in
  together all /\ length (mr_vp meet) = length (virtual_args all) /\
  resolve cf0 w0 meet all = Ok 24%N.
Proof. exact around_example. Qed.

(* A non-virtual argument between two virtual ones changes the result ... *)
Theorem C11_virtual_position_refuted :
  exists cf X R w m all args f,
    program_ok cf (r_env X) R /\ bases_first (e_ti (r_env X)) R /\
    initialized_by cf X false R w /\ call_ok cf (e_ti (r_env X)) R w m all args /\
    length (mr_vp m) = length (virtual_args all) /\
    resolve cf w m (virtual_args all) = Ok f /\ resolve cf w m all <> Ok f.
Proof. exact other_between. Qed.
Print Assumptions C11_virtual_position_refuted.

(* ... because the last virtual argument is ignored. *)
Example C11_refuted_detail :
  resolve cf0 w0 meet [AObject 2; AOther 9; AObject 1]%N =
    resolve cf0 w0 meet [AObject 2; AOther 9; AObject 2]%N /\
  selects id R0 (mr_overriders meet) [2; 1]%N (SOverrider 1) /\
  selects id R0 (mr_overriders meet) [2; 2]%N (SOverrider 3).
Proof. exact last_ignored. Qed.

(* C15: [Undef] stands for an access outside the dispatch data, to freed data, or
   to a word written as another member; it never is the outcome. *)
Theorem C15_initialize_defined :
  forall (cf : config) (X : run) (R : registrations) (w : world),
    program_ok cf (r_env X) R -> world_ok w ->
    exists w' r, initialize cf X false R w = (w', r) /\
      ((exists rep, r = Ok rep) \/ exists e, r = Err e).
Proof. exact initialize_defined. Qed.
Print Assumptions C15_initialize_defined.

Theorem C15_call_defined :
  forall (cf : config) (X : run) (R : registrations) (w : world) (n2216 : bool)
         (mid : N) (m : method_record) (all : list arg) (args : list N),
    program_ok cf (r_env X) R -> bases_first (e_ti (r_env X)) R ->
    initialized_by cf X n2216 R w ->
    call_ok cf (e_ti (r_env X)) R w m all args ->
    length (mr_vp m) = 1 \/ together all ->
    (exists f, resolve cf w m all = Ok f /\
       (f = mr_not_implemented m \/ f = mr_ambiguous m \/ f ∈ map or_pf (mr_overriders m))) /\
    ((exists r, call cf w mid m all = Ok r) \/ exists e, call cf w mid m all = Err e).
Proof. exact call_defined. Qed.
Print Assumptions C15_call_defined.

Example C15_example :
  program_ok cf0 env0 R0 /\ bases_first id R0 /\ initialized_by cf0 run0 true R0 w0n /\
  call_ok cf0 id R0 w0n poke (map AObject [4]%N) [4]%N /\ functions_ok poke /\
  length (mr_vp poke) = 1.
Proof. exact poke_example_n2216. Qed.
