(* C34: what use_classes registers.
   Each theorem is followed by an example that meets its hypotheses. *)
From stdpp Require Import base list numbers.
From Verif Require Import Base Registry Spec ModelClasses ModelHash ModelWorld ModelCall SpecCall
  ExamplesModel ExamplesDispatch ModelUseClasses SpecUseClasses ProofUseClasses ExamplesUseClasses.

(* The registered relation is C++ inheritance, when each class is listed together
   with its direct bases. *)
Theorem C34_relation :
  forall is_base abstract vptr_of static_type ti key (ls : list listing) (R : registrations),
    cpp_hierarchy is_base -> identifies ti static_type key ->
    registers is_base abstract vptr_of static_type ls R ->
    documented is_base ls ->
    (forall k, registered ti R k <-> exists c, listed ls c /\ k = key c) /\
    (forall c b, listed ls c -> listed ls b ->
       derives ti R (key c) (key b) <-> is_base b c = true).
Proof.
  exact (fun is_base abstract vptr_of static_type ti key ls R HC HI HR HD =>
    conj (registered_listed is_base abstract vptr_of static_type ti key ls R HI HR)
         (fun c b => relation is_base abstract vptr_of static_type ti key ls R HC HI HR c b HD)).
Qed.
Print Assumptions C34_relation.

(* Chimera derives from Animal, although no use_classes lists both; each class has
   two type ids. *)
Example C34_relation_example :
  cpp_hierarchy pets /\ identifies (fun t => t / 10)%N unit_type id /\
  registers pets no_abstract N.to_nat unit_type split_lists R_split /\ documented pets split_lists /\
  listed split_lists 4 /\ listed split_lists 1 /\ pets 1 4 = true /\
  ~ base_pair (fun t => t / 10)%N R_split 4 1.
Proof. exact split_example. Qed.

(* What each use_classes contributes, and what the other properties assume of the
   registrations: no cycles, no missing base, one static_vptr per class. *)
Theorem C34_registrations :
  forall is_base abstract vptr_of static_type ti key (ls : list listing) (R : registrations),
    cpp_hierarchy is_base -> identifies ti static_type key ->
    registers is_base abstract vptr_of static_type ls R ->
    (forall c b, base_pair ti R (key c) (key b) <->
       listed_together ls c b /\ is_base b c = true) /\
    acyclic ti R /\ bases_registered ti R /\
    ((forall c d, vptr_of c = vptr_of d -> c = d) ->
     forall cr1 cr2, cr1 ∈ reg_classes R -> cr2 ∈ reg_classes R ->
       cr_static_vptr cr1 = cr_static_vptr cr2 -> ti (cr_type cr1) = ti (cr_type cr2)).
Proof.
  exact (fun is_base abstract vptr_of static_type ti key ls R HC HI HR =>
    conj (pair_key is_base abstract vptr_of static_type ti key ls R HI HR)
    (conj (use_classes_acyclic is_base abstract vptr_of static_type ti key ls R HC HI HR)
    (conj (use_classes_bases is_base abstract vptr_of static_type ti key ls R HI HR)
          (use_classes_statics is_base abstract vptr_of static_type ti key ls R HI HR)))).
Qed.
Print Assumptions C34_registrations.

(* The guard on the order of registrations holds in every order when each
   use_classes is complete. *)
Theorem C34_any_order :
  forall is_base abstract vptr_of static_type ti key (ls : list listing) (R : registrations),
    cpp_hierarchy is_base -> identifies ti static_type key ->
    registers is_base abstract vptr_of static_type ls R ->
    complete is_base ls ->
    documented is_base ls /\ bases_first ti R.
Proof.
  exact (fun is_base abstract vptr_of static_type ti key ls R HC HI HR HK =>
    conj (complete_documented is_base ls HK)
         (complete_bases_first is_base abstract vptr_of static_type ti key ls R HC HI HR HK)).
Qed.
Print Assumptions C34_any_order.

(* From classes to calls: the rule in terms of C++ inheritance decides what a call
   does. *)
Theorem C34_calls :
  forall is_base abstract vptr_of static_type key (ls : list listing)
         (cf : config) (X : run) (R : registrations) (w : world),
    cpp_hierarchy is_base -> identifies (e_ti (r_env X)) static_type key ->
    registers is_base abstract vptr_of static_type ls R ->
    complete is_base ls ->
    env_ok (r_env X) -> arity_ok R -> ids_ok R -> hash_size_ok cf (length (reg_classes R)) ->
    addresses_ok (e_ti (r_env X)) R ->
    initialized_by cf X false R w ->
    forall (mid : N) (m : method_record) (ovs : list (list N)) (all : list arg) (args : list N),
      call_ok cf (e_ti (r_env X)) R w m all (map key args) -> functions_ok m ->
      takes (e_ti (r_env X)) key m ovs ->
      length (mr_vp m) = 1 \/ (together all /\ better_is_settled is_base ovs args) ->
      exists sel,
        rule is_base ovs args sel /\
        (forall sel', rule is_base ovs args sel' -> sel' = sel) /\
        behaves m sel (call cf w mid m all).
Proof. exact use_classes_calls. Qed.
Print Assumptions C34_calls.

Theorem C34_calls_ordered :
  forall is_base abstract vptr_of static_type key (ls : list listing)
         (cf : config) (X : run) (R : registrations) (w : world),
    cpp_hierarchy is_base -> identifies (e_ti (r_env X)) static_type key ->
    registers is_base abstract vptr_of static_type ls R ->
    documented is_base ls -> bases_first (e_ti (r_env X)) R ->
    env_ok (r_env X) -> arity_ok R -> ids_ok R -> hash_size_ok cf (length (reg_classes R)) ->
    addresses_ok (e_ti (r_env X)) R ->
    initialized_by cf X false R w ->
    forall (mid : N) (m : method_record) (ovs : list (list N)) (all : list arg) (args : list N),
      call_ok cf (e_ti (r_env X)) R w m all (map key args) -> functions_ok m ->
      takes (e_ti (r_env X)) key m ovs ->
      length (mr_vp m) = 1 \/ (together all /\ better_is_settled is_base ovs args) ->
      exists sel,
        rule is_base ovs args sel /\
        (forall sel', rule is_base ovs args sel' -> sel' = sel) /\
        behaves m sel (call cf w mid m all).
Proof. exact use_classes_calls_ordered. Qed.
Print Assumptions C34_calls_ordered.

Example C34_calls_example :
  cpp_hierarchy pets /\ identifies id plain_type id /\
  registers pets no_abstract N.to_nat plain_type pets_lists R_pets /\ complete pets pets_lists /\
  program_ok cf0 env0 R_pets /\ initialized_by cf0 run0 false R_pets w_pets /\
  call_ok cf0 id R_pets w_pets meet (map AObject [2; 4]%N) (map id [2; 4]%N) /\ functions_ok meet /\
  takes id id meet [[1; 1]; [2; 1]; [1; 3]; [2; 2]]%N /\ together (map AObject [2; 4]%N) /\
  better_is_settled pets [[1; 1]; [2; 1]; [1; 3]; [2; 2]]%N [2; 4]%N.
Proof. exact pets_example. Qed.

(* The documented requirement alone is not enough: a call enters an overrider of
   another method. *)
Theorem C34_documented_refuted :
  exists is_base abstract vptr_of static_type key ls cf X R w,
    cpp_hierarchy is_base /\ identifies (e_ti (r_env X)) static_type key /\
    registers is_base abstract vptr_of static_type ls R /\ documented is_base ls /\
    program_ok cf (r_env X) R /\ initialized_by cf X false R w /\
    exists mid m m' ovs all args i o f,
      call_ok cf (e_ti (r_env X)) R w m all (map key args) /\ functions_ok m /\
      takes (e_ti (r_env X)) key m ovs /\ length (mr_vp m) = 1 /\
      rule is_base ovs args (SOverrider i) /\ mr_overriders m !! i = Some o /\
      call cf w mid m all = Ok (Calls f) /\ f <> or_pf o /\
      m' ∈ reg_methods R /\ m' <> m /\ exists o', o' ∈ mr_overriders m' /\ f = or_pf o'.
Proof. exact zoo_refuted. Qed.
Print Assumptions C34_documented_refuted.

(* Not even when no class has more than one direct base. *)
Theorem C34_single_inheritance_refuted :
  exists is_base abstract vptr_of static_type key ls cf X R w,
    cpp_hierarchy is_base /\
    (forall a b c, is_base a c = true -> is_base b c = true -> is_base a b = true \/ is_base b a = true) /\
    identifies (e_ti (r_env X)) static_type key /\
    registers is_base abstract vptr_of static_type ls R /\ documented is_base ls /\
    program_ok cf (r_env X) R /\ initialized_by cf X false R w /\
    exists mid m m' ovs all args i o f,
      call_ok cf (e_ti (r_env X)) R w m all (map key args) /\ functions_ok m /\
      takes (e_ti (r_env X)) key m ovs /\ length (mr_vp m) = 1 /\
      rule is_base ovs args (SOverrider i) /\ mr_overriders m !! i = Some o /\
      call cf w mid m all = Ok (Calls f) /\ f <> or_pf o /\
      m' ∈ reg_methods R /\ m' <> m /\ exists o', o' ∈ mr_overriders m' /\ f = or_pf o'.
Proof. exact chain_refuted. Qed.
Print Assumptions C34_single_inheritance_refuted.
