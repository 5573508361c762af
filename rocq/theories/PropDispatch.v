(* C01 - C07: which function a method call enters.
   Each theorem is followed by an example that meets its hypotheses. *)
From stdpp Require Import base list numbers.
From Verif Require Import Base Registry Spec ModelClasses ModelHash ModelWorld ModelCall SpecCall
  ExamplesModel ExamplesDispatch ProofDispatch ProofInvariance ProofBehaviour ProofFindings.

(* C01. *)
Theorem C01_uni_dispatch :
  forall (cf : config) (X : run) (R : registrations) (w : world)
         (mid : N) (m : method_record) (all : list arg) (args : list N),
    program_ok cf (r_env X) R -> bases_first (e_ti (r_env X)) R ->
    initialized_by cf X false R w ->
    call_ok cf (e_ti (r_env X)) R w m all args -> functions_ok m ->
    length (mr_vp m) = 1 ->
    exists sel,
      selects (e_ti (r_env X)) R (mr_overriders m) args sel /\
      (forall sel', selects (e_ti (r_env X)) R (mr_overriders m) args sel' -> sel' = sel) /\
      behaves m sel (call cf w mid m all).
Proof. exact (fun cf X R w mid m all args HP HB => call_selects_uni cf X R w HP HB mid m all args). Qed.
Print Assumptions C01_uni_dispatch.

Example C01_example :
  program_ok cf0 env0 R0 /\ bases_first id R0 /\ initialized_by cf0 run0 false R0 w0 /\
  call_ok cf0 id R0 w0 poke [AObject 4] [4%N] /\ functions_ok poke /\ length (mr_vp poke) = 1.
Proof. exact poke_example. Qed.

(* C02.  [comparable], [settled] and [transitive_dominance] restrict the applicable
   overriders only. *)
Theorem C02_multi_dispatch :
  forall (cf : config) (X : run) (R : registrations) (w : world)
         (mid : N) (m : method_record) (all : list arg) (args : list N),
    program_ok cf (r_env X) R -> bases_first (e_ti (r_env X)) R ->
    initialized_by cf X false R w ->
    call_ok cf (e_ti (r_env X)) R w m all args -> functions_ok m ->
    length (mr_vp m) = 1 \/ together all ->
    settled (e_ti (r_env X)) R (mr_overriders m)
      (candidate (e_ti (r_env X)) R (mr_overriders m) args) ->
    exists sel,
      selects (e_ti (r_env X)) R (mr_overriders m) args sel /\
      (forall sel', selects (e_ti (r_env X)) R (mr_overriders m) args sel' -> sel' = sel) /\
      behaves m sel (call cf w mid m all).
Proof. exact (fun cf X R w mid m all args HP HB => call_selects cf X R w HP HB mid m all args). Qed.
Print Assumptions C02_multi_dispatch.

Example C02_example :
  program_ok cf0 env0 R0 /\ bases_first id R0 /\ initialized_by cf0 run0 false R0 w0 /\
  call_ok cf0 id R0 w0 meet (map AObject [2; 4]%N) [2; 4]%N /\ functions_ok meet /\
  together (map AObject [2; 4]%N) /\
  settled id R0 (mr_overriders meet) (candidate id R0 (mr_overriders meet) [2; 4]%N).
Proof. exact meet_example. Qed.

(* The guard is weaker than transitivity. *)
Theorem C02_settled :
  forall (ti : N -> N) (R : registrations) (ovs : list overrider_record) (args : list N),
    transitive_dominance ti R ovs (candidate ti R ovs args) ->
    settled ti R ovs (candidate ti R ovs args).
Proof. exact candidates_settled. Qed.
Print Assumptions C02_settled.

Example C02_settled_example :
  program_ok cf0 env0 R_clash3 /\ bases_first id R_clash3 /\
  initialized_by cf0 run0 false R_clash3 w_clash3 /\
  call_ok cf0 id R_clash3 w_clash3 clash3 (map AObject [5; 5]%N) [5; 5]%N /\ functions_ok clash3 /\
  together (map AObject [5; 5]%N) /\
  settled id R_clash3 (mr_overriders clash3) (candidate id R_clash3 (mr_overriders clash3) [5; 5]%N) /\
  ~ transitive_dominance id R_clash3 (mr_overriders clash3)
      (candidate id R_clash3 (mr_overriders clash3) [5; 5]%N).
Proof. exact settled_not_transitive. Qed.

(* The guard holds when the applicable overriders have comparable classes. *)
Theorem C02_multi_dispatch_comparable :
  forall (cf : config) (X : run) (R : registrations) (w : world)
         (mid : N) (m : method_record) (all : list arg) (args : list N),
    program_ok cf (r_env X) R -> bases_first (e_ti (r_env X)) R ->
    initialized_by cf X false R w ->
    call_ok cf (e_ti (r_env X)) R w m all args -> functions_ok m -> together all ->
    comparable (e_ti (r_env X)) R (mr_overriders m)
      (candidate (e_ti (r_env X)) R (mr_overriders m) args) ->
    exists sel,
      selects (e_ti (r_env X)) R (mr_overriders m) args sel /\
      (forall sel', selects (e_ti (r_env X)) R (mr_overriders m) args sel' -> sel' = sel) /\
      behaves m sel (call cf w mid m all).
Proof.
  exact (fun cf X R w mid m all args HP HB => call_selects_comparable cf X R w HP HB mid m all args).
Qed.
Print Assumptions C02_multi_dispatch_comparable.

Example C02_comparable_example :
  call_ok cf0 id R0 w0 meet (map AObject [3; 3]%N) [3; 3]%N /\
  comparable id R0 (mr_overriders meet) (candidate id R0 (mr_overriders meet) [3; 3]%N).
Proof. exact meet_comparable. Qed.

(* Without a guard: an overrider that dominates all the other applicable ones is
   called. *)
Theorem C02_best_overrider :
  forall (cf : config) (X : run) (R : registrations) (w : world)
         (mid : N) (m : method_record) (all : list arg) (args : list N) i o,
    program_ok cf (r_env X) R -> bases_first (e_ti (r_env X)) R ->
    initialized_by cf X false R w ->
    call_ok cf (e_ti (r_env X)) R w m all args -> functions_ok m ->
    length (mr_vp m) = 1 \/ together all ->
    mr_overriders m !! i = Some o -> applicable (e_ti (r_env X)) R args o ->
    (forall j o', mr_overriders m !! j = Some o' -> j <> i ->
       applicable (e_ti (r_env X)) R args o' -> dominates (e_ti (r_env X)) R o o') ->
    call cf w mid m all = Ok (Calls (or_pf o)).
Proof.
  exact (fun cf X R w mid m all args i o HP HB => call_best cf X R w HP HB mid m all args i o).
Qed.
Print Assumptions C02_best_overrider.

Example C02_best_example :
  mr_overriders meet !! 3 = Some (ovr [2; 2] 24)%N /\
  applicable id R0 [2; 4]%N (ovr [2; 2] 24)%N /\
  (forall j o', mr_overriders meet !! j = Some o' -> j <> 3 ->
     applicable id R0 [2; 4]%N o' -> dominates id R0 (ovr [2; 2] 24)%N o').
Proof. exact meet_best. Qed.

(* Without the guard the rule and the code disagree: exactly one overrider is
   undominated, yet the call is reported ambiguous. *)
Theorem C02_multi_dispatch_refuted :
  exists (cf : config) (X : run) (R : registrations) (w : world)
         (mid : N) (m : method_record) (all : list arg) (args : list N) i n ts,
    program_ok cf (r_env X) R /\ bases_first (e_ti (r_env X)) R /\
    initialized_by cf X false R w /\
    call_ok cf (e_ti (r_env X)) R w m all args /\ functions_ok m /\ together all /\
    selects (e_ti (r_env X)) R (mr_overriders m) args (SOverrider i) /\
    call cf w mid m all = Err (EAmbiguousCall mid n ts).
Proof. exact not_transitive. Qed.
Print Assumptions C02_multi_dispatch_refuted.

(* C03: no guard on dominance. *)
Theorem C03_no_overrider_iff :
  forall (cf : config) (X : run) (R : registrations) (w : world)
         (mid : N) (m : method_record) (all : list arg) (args : list N),
    program_ok cf (r_env X) R -> bases_first (e_ti (r_env X)) R ->
    initialized_by cf X false R w ->
    call_ok cf (e_ti (r_env X)) R w m all args -> functions_ok m ->
    length (mr_vp m) = 1 \/ together all ->
    (exists id n ts, call cf w mid m all = Err (ENoOverrider id n ts)) <->
    (forall o, o ∈ mr_overriders m -> ~ applicable (e_ti (r_env X)) R args o).
Proof. exact (fun cf X R w mid m all args HP HB => call_no_overrider cf X R w HP HB mid m all args). Qed.
Print Assumptions C03_no_overrider_iff.

Example C03_example :
  program_ok cf0 env0 R1 /\ bases_first id R1 /\ initialized_by cf0 run0 false R1 w1 /\
  call_ok cf0 id R1 w1 purr (map AObject [2]%N) [2]%N /\ functions_ok purr /\
  length (mr_vp purr) = 1 /\
  call cf0 w1 3 purr (map AObject [2]%N) = Err (ENoOverrider 3 1 (types_of [2%N])) /\
  call cf0 w1 3 purr (map AObject [4]%N) = Ok (Calls 31%N).
Proof. exact purr_example. Qed.

(* C04: with or without n2216. *)
Theorem C04_only_applicable :
  forall (cf : config) (X : run) (R : registrations) (w : world) (n2216 : bool)
         (mid : N) (m : method_record) (all : list arg) (args : list N),
    program_ok cf (r_env X) R -> bases_first (e_ti (r_env X)) R ->
    initialized_by cf X n2216 R w ->
    call_ok cf (e_ti (r_env X)) R w m all args -> functions_ok m ->
    length (mr_vp m) = 1 \/ together all ->
    (exists id n ts, call cf w mid m all = Err (ENoOverrider id n ts)) \/
    (exists id n ts, call cf w mid m all = Err (EAmbiguousCall id n ts)) \/
    (exists o, o ∈ mr_overriders m /\ applicable (e_ti (r_env X)) R args o /\
       call cf w mid m all = Ok (Calls (or_pf o))).
Proof.
  exact (fun cf X R w n2216 mid m all args HP HB => call_applicable cf X R w HP HB n2216 mid m all args).
Qed.
Print Assumptions C04_only_applicable.

Example C04_example :
  program_ok cf0 env0 R0 /\ bases_first id R0 /\ initialized_by cf0 run0 true R0 w0n /\
  call_ok cf0 id R0 w0n poke (map AObject [4]%N) [4]%N /\ functions_ok poke /\
  length (mr_vp poke) = 1.
Proof. exact poke_example_n2216. Qed.

(* Without [bases_first]: a call enters an overrider of another method. *)
Theorem C04_only_applicable_refuted :
  exists (cf : config) (X : run) (R : registrations) (w : world)
         (mid : N) (m : method_record) (all : list arg) (args : list N) (f : fptr),
    program_ok cf (r_env X) R /\ initialized_by cf X false R w /\
    call_ok cf (e_ti (r_env X)) R w m all args /\ functions_ok m /\ length (mr_vp m) = 1 /\
    call cf w mid m all = Ok (Calls f) /\
    forall o, o ∈ mr_overriders m -> or_pf o <> f.
Proof. exact wrong_method. Qed.
Print Assumptions C04_only_applicable_refuted.

(* C05. *)
Theorem C05_overrider_order :
  forall (cf : config) (X : run) (R R' : registrations) (w w' : world)
         (m m' : method_record) (all all' : list arg) (args : list N),
    program_ok cf (r_env X) R -> bases_first (e_ti (r_env X)) R ->
    program_ok cf (r_env X) R' -> reg_classes R' = reg_classes R ->
    initialized_by cf X false R w -> initialized_by cf X false R' w' ->
    call_ok cf (e_ti (r_env X)) R w m all args ->
    m' ∈ reg_methods R' ->
    Forall2 (passes cf (e_ti (r_env X)) R' w') (virtual_args all') args ->
    same_method m m' -> length (mr_vp m) = 1 \/ (together all /\ together all') ->
    settled (e_ti (r_env X)) R (mr_overriders m)
      (candidate (e_ti (r_env X)) R (mr_overriders m) args) ->
    exists f, resolve cf w m all = Ok f /\ resolve cf w' m' all' = Ok f.
Proof. exact overrider_order. Qed.
Print Assumptions C05_overrider_order.

Example C05_example :
  program_ok cf0 env0 R0r /\ reg_classes R0r = reg_classes R0 /\
  initialized_by cf0 run0 false R0r w0r /\ meet_r ∈ reg_methods R0r /\
  Forall2 (passes cf0 id R0r w0r) (virtual_args (map AObject [2; 4]%N)) [2; 4]%N /\
  same_method meet meet_r.
Proof. exact meet_reordered. Qed.

Theorem C05_overrider_order_refuted :
  exists (cf : config) (X : run) (R R' : registrations) (w w' : world)
         (m m' : method_record) (all : list arg) (args : list N) f f',
    program_ok cf (r_env X) R /\ bases_first (e_ti (r_env X)) R /\
    program_ok cf (r_env X) R' /\ reg_classes R' = reg_classes R /\
    initialized_by cf X false R w /\ initialized_by cf X false R' w' /\
    call_ok cf (e_ti (r_env X)) R w m all args /\
    call_ok cf (e_ti (r_env X)) R' w' m' all args /\
    same_method m m' /\ together all /\
    resolve cf w m all = Ok f /\ resolve cf w' m' all = Ok f' /\ f <> f'.
Proof. exact order_matters. Qed.
Print Assumptions C05_overrider_order_refuted.

(* C06. *)
Theorem C06_class_order :
  forall (cf : config) (X : run) (R R' : registrations) (w w' : world)
         (m : method_record) (all all' : list arg) (args : list N),
    program_ok cf (r_env X) R -> bases_first (e_ti (r_env X)) R ->
    program_ok cf (r_env X) R' -> bases_first (e_ti (r_env X)) R' ->
    (forall c, registered (e_ti (r_env X)) R c <-> registered (e_ti (r_env X)) R' c) ->
    (forall c b, derives (e_ti (r_env X)) R c b <-> derives (e_ti (r_env X)) R' c b) ->
    initialized_by cf X false R w -> initialized_by cf X false R' w' ->
    call_ok cf (e_ti (r_env X)) R w m all args ->
    m ∈ reg_methods R' ->
    Forall2 (passes cf (e_ti (r_env X)) R' w') (virtual_args all') args ->
    length (mr_vp m) = 1 \/ (together all /\ together all') ->
    settled (e_ti (r_env X)) R (mr_overriders m)
      (candidate (e_ti (r_env X)) R (mr_overriders m) args) ->
    exists f, resolve cf w m all = Ok f /\ resolve cf w' m all' = Ok f.
Proof. exact class_order. Qed.
Print Assumptions C06_class_order.

Example C06_example :
  program_ok cf0 env0 R_early /\ bases_first id R_early /\
  program_ok cf0 env0 R_mixed /\ bases_first id R_mixed /\
  (forall c, registered id R_early c <-> registered id R_mixed c) /\
  (forall c b, derives id R_early c b <-> derives id R_mixed c b) /\
  initialized_by cf0 run0 false R_early w_early /\
  initialized_by cf0 run0 false R_mixed w_mixed /\
  call_ok cf0 id R_early w_early mA (map AObject [4]%N) [4]%N /\ mA ∈ reg_methods R_mixed /\
  Forall2 (passes cf0 id R_mixed w_mixed) (virtual_args (map AObject [4]%N)) [4]%N.
Proof. exact mixed_example. Qed.

(* Without [bases_first] on one side. *)
Theorem C06_class_order_refuted :
  exists (cf : config) (X : run) (R R' : registrations) (w w' : world)
         (m : method_record) (all : list arg) (args : list N) f f',
    program_ok cf (r_env X) R /\ bases_first (e_ti (r_env X)) R /\
    program_ok cf (r_env X) R' /\
    (forall c, registered (e_ti (r_env X)) R c <-> registered (e_ti (r_env X)) R' c) /\
    (forall c b, base_pair (e_ti (r_env X)) R c b <-> base_pair (e_ti (r_env X)) R' c b) /\
    initialized_by cf X false R w /\ initialized_by cf X false R' w' /\
    call_ok cf (e_ti (r_env X)) R w m all args /\
    call_ok cf (e_ti (r_env X)) R' w' m all args /\
    length (mr_vp m) = 1 /\
    resolve cf w m all = Ok f /\ resolve cf w' m all = Ok f' /\ f <> f'.
Proof. exact class_order_matters. Qed.
Print Assumptions C06_class_order_refuted.

(* C07.  [w_ss w (mr_slots_strides m)] is the method's array of slots. *)
Theorem C07_slots_separate :
  forall (cf : config) (X : run) (R : registrations) (w w' : world) rep n2216,
    program_ok cf (r_env X) R -> bases_first (e_ti (r_env X)) R -> world_ok w ->
    initialize cf X n2216 R w = (w', Ok rep) ->
    forall z m1 m2 d1 d2 v1 v2,
      m1 ∈ reg_methods R -> m2 ∈ reg_methods R ->
      mr_vp m1 !! d1 = Some v1 -> mr_vp m2 !! d2 = Some v2 ->
      registered (e_ti (r_env X)) R z ->
      derives (e_ti (r_env X)) R z (e_ti (r_env X) v1) ->
      derives (e_ti (r_env X)) R z (e_ti (r_env X) v2) ->
      m1 <> m2 \/ d1 <> d2 ->
      exists s1 s2, w_ss w' (mr_slots_strides m1) !! d1 = Some s1 /\
        w_ss w' (mr_slots_strides m2) !! d2 = Some s2 /\ s1 <> s2.
Proof. exact slots_separate. Qed.
Print Assumptions C07_slots_separate.

Example C07_example :
  program_ok cf0 env0 R_early /\ bases_first id R_early /\
  initialized_by cf0 run0 false R_early w_early /\
  mA ∈ reg_methods R_early /\ mB ∈ reg_methods R_early /\
  registered id R_early 4%N /\ derives id R_early 4%N 1%N /\ derives id R_early 4%N 2%N.
Proof. exact slots_example. Qed.

Theorem C07_slots_separate_refuted :
  exists (cf : config) (X : run) (R : registrations) (w : world) z m1 m2 v1 v2 s,
    program_ok cf (r_env X) R /\ initialized_by cf X false R w /\
    m1 ∈ reg_methods R /\ m2 ∈ reg_methods R /\ m1 <> m2 /\
    mr_vp m1 !! 0 = Some v1 /\ mr_vp m2 !! 0 = Some v2 /\
    registered (e_ti (r_env X)) R z /\
    derives (e_ti (r_env X)) R z (e_ti (r_env X) v1) /\
    derives (e_ti (r_env X)) R z (e_ti (r_env X) v2) /\
    w_ss w (mr_slots_strides m1) !! 0 = Some s /\
    w_ss w (mr_slots_strides m2) !! 0 = Some s.
Proof. exact slots_shared. Qed.
Print Assumptions C07_slots_separate_refuted.
