(* Properties C12 and C13: next and has_next. *)
From stdpp Require Import base list numbers.
From Verif Require Import Base Registry Spec SpecCall ModelClasses ModelTables ModelHash ModelWorld ModelCall
  ProofNext ExamplesModel ExamplesDispatch ExamplesNext.

(* C12.  After initialize(), next of an overrider is the function that the rule of
   C02 selects among the other overriders, for the arguments it names itself. *)
Theorem C12_next :
  forall cf X R w, program_ok cf (r_env X) R -> initialized_by cf X false R w ->
  forall m i o, m ∈ reg_methods R -> mr_overriders m !! i = Some o ->
  unique_signature (e_ti (r_env X)) (mr_overriders m) i ->
  (forall args, valid_args (e_ti (r_env X)) R m args ->
     pointwise (e_ti (r_env X)) R (mr_overriders m)
       (candidate (e_ti (r_env X)) R (mr_overriders m) args)) ->
  exists sel f, selects_next (e_ti (r_env X)) R (mr_overriders m) i sel /\
    (forall sel', selects_next (e_ti (r_env X)) R (mr_overriders m) i sel' -> sel' = sel) /\
    selected_fn m sel = Some f /\ w_next w (or_next o) = Some f.
Proof. exact next_selects. Qed.
Print Assumptions C12_next.

Example C12_next_example :
  program_ok cf0 env0 R_greet /\ initialized_by cf0 run0 false R_greet w_greet /\
  greet ∈ reg_methods R_greet /\ mr_overriders greet !! 3 = Some (ovr [4; 4] 24)%N /\
  unique_signature id (mr_overriders greet) 3 /\ functions_ok greet /\
  (forall args, valid_args id R_greet greet args ->
     pointwise id R_greet (mr_overriders greet) (candidate id R_greet (mr_overriders greet) args)) /\
  selects_next id R_greet (mr_overriders greet) 3 (SOverrider 2) /\
  map (w_next w_greet) [24; 23; 22; 21] = [Some 23; Some 22; Some 21; Some 1002]%N.
Proof. exact greet_example. Qed.

(* For a method with one virtual parameter there is no condition on dominance. *)
Theorem C12_next_uni :
  forall cf X R w, program_ok cf (r_env X) R -> initialized_by cf X false R w ->
  forall m i o, m ∈ reg_methods R -> mr_overriders m !! i = Some o ->
  unique_signature (e_ti (r_env X)) (mr_overriders m) i -> length (mr_vp m) = 1 ->
  exists sel f, selects_next (e_ti (r_env X)) R (mr_overriders m) i sel /\
    (forall sel', selects_next (e_ti (r_env X)) R (mr_overriders m) i sel' -> sel' = sel) /\
    selected_fn m sel = Some f /\ w_next w (or_next o) = Some f.
Proof. exact next_selects_uni. Qed.
Print Assumptions C12_next_uni.

Example C12_next_uni_example :
  program_ok cf0 env0 R0 /\ initialized_by cf0 run0 false R0 w0 /\
  poke ∈ reg_methods R0 /\ mr_overriders poke !! 2 = Some (ovr [3] 13)%N /\
  unique_signature id (mr_overriders poke) 2 /\ functions_ok poke /\ length (mr_vp poke) = 1 /\
  selects_next id R0 (mr_overriders poke) 2 (SOverrider 0) /\
  selects_next id R0 (mr_overriders poke) 0 SNone.
Proof. exact poke_next_example. Qed.

(* An overrider entered through next accepts all the arguments that the current one
   accepts, and is dominated by it: chains of next calls are finite. *)
Theorem C12_next_down :
  forall cf X R w, program_ok cf (r_env X) R -> initialized_by cf X false R w ->
  forall m i o, m ∈ reg_methods R -> mr_overriders m !! i = Some o ->
  unique_signature (e_ti (r_env X)) (mr_overriders m) i ->
  forall j oj,
  (forall args, valid_args (e_ti (r_env X)) R m args ->
     pointwise (e_ti (r_env X)) R (mr_overriders m)
       (candidate (e_ti (r_env X)) R (mr_overriders m) args)) ->
  functions_ok m -> NoDup (map or_pf (mr_overriders m)) ->
  mr_overriders m !! j = Some oj -> w_next w (or_next o) = Some (or_pf oj) ->
  dominates (e_ti (r_env X)) R o oj /\
  forall args, applicable (e_ti (r_env X)) R args o -> applicable (e_ti (r_env X)) R args oj.
Proof. exact next_down. Qed.
Print Assumptions C12_next_down.

Example C12_next_down_example :
  program_ok cf0 env0 R_greet /\ initialized_by cf0 run0 false R_greet w_greet /\
  greet ∈ reg_methods R_greet /\ mr_overriders greet !! 3 = Some (ovr [4; 4] 24)%N /\
  unique_signature id (mr_overriders greet) 3 /\ functions_ok greet /\
  NoDup (map or_pf (mr_overriders greet)) /\
  (forall args, valid_args id R_greet greet args ->
     pointwise id R_greet (mr_overriders greet) (candidate id R_greet (mr_overriders greet) args)) /\
  mr_overriders greet !! 2 = Some (ovr [2; 2] 23)%N /\ w_next w_greet 24 = Some 23%N.
Proof. exact greet_down_example. Qed.

(* Without the condition on dominance, next may designate an overrider that does not
   accept the arguments of the current call. *)
Theorem C12_next_refuted :
  exists (cf : config) (X : run) (R : registrations) (w : world)
         (mid : N) (m : method_record) (all : list arg) (args : list N) i o j oj,
    program_ok cf (r_env X) R /\ bases_first (e_ti (r_env X)) R /\
    initialized_by cf X false R w /\
    call_ok cf (e_ti (r_env X)) R w m all args /\ functions_ok m /\ together all /\
    unique_signature (e_ti (r_env X)) (mr_overriders m) i /\
    transitive_dominance (e_ti (r_env X)) R (mr_overriders m)
      (candidate (e_ti (r_env X)) R (mr_overriders m) args) /\
    mr_overriders m !! i = Some o /\ mr_overriders m !! j = Some oj /\
    call cf w mid m all = Ok (Calls (or_pf o)) /\
    w_next w (or_next o) = Some (or_pf oj) /\
    ~ applicable (e_ti (r_env X)) R args oj /\
    selects_next (e_ti (r_env X)) R (mr_overriders m) i SNone.
Proof. exact next_inapplicable. Qed.
Print Assumptions C12_next_refuted.

(* C13.  has_next is true exactly when the rule selects another overrider. *)
Theorem C13_has_next :
  forall cf X R w, program_ok cf (r_env X) R -> initialized_by cf X false R w ->
  forall m i o, m ∈ reg_methods R -> mr_overriders m !! i = Some o ->
  unique_signature (e_ti (r_env X)) (mr_overriders m) i ->
  (forall args, valid_args (e_ti (r_env X)) R m args ->
     pointwise (e_ti (r_env X)) R (mr_overriders m)
       (candidate (e_ti (r_env X)) R (mr_overriders m) args)) ->
  functions_ok m ->
  has_next w m (or_next o) = true <->
  exists j, selects_next (e_ti (r_env X)) R (mr_overriders m) i (SOverrider j).
Proof. exact has_next_selects. Qed.
Print Assumptions C13_has_next.

Example C13_example :
  program_ok cf0 env0 R_greet /\ initialized_by cf0 run0 false R_greet w_greet /\
  greet ∈ reg_methods R_greet /\ mr_overriders greet !! 3 = Some (ovr [4; 4] 24)%N /\
  unique_signature id (mr_overriders greet) 3 /\ functions_ok greet /\
  (forall args, valid_args id R_greet greet args ->
     pointwise id R_greet (mr_overriders greet) (candidate id R_greet (mr_overriders greet) args)) /\
  selects_next id R_greet (mr_overriders greet) 3 (SOverrider 2) /\
  map (w_next w_greet) [24; 23; 22; 21] = [Some 23; Some 22; Some 21; Some 1002]%N.
Proof. exact greet_example. Qed.

(* With two overriders that have the same parameters, has_next is true although
   next is null. *)
Theorem C13_has_next_refuted :
  exists (cf : config) (X : run) (R : registrations) (w : world) (m : method_record) i o,
    program_ok cf (r_env X) R /\ bases_first (e_ti (r_env X)) R /\
    initialized_by cf X false R w /\ m ∈ reg_methods R /\ functions_ok m /\
    length (mr_vp m) = 1 /\ mr_overriders m !! i = Some o /\
    has_next w m (or_next o) = true /\ w_next w (or_next o) = None.
Proof. exact has_next_unset. Qed.
Print Assumptions C13_has_next_refuted.
