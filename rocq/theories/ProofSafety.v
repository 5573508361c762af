(* Lemmas behind C08, C10, C11 and C15, with their examples and witnesses. *)
From stdpp Require Import base list numbers list_numbers relations.
From Verif Require Import Base Registry Spec ModelClasses ModelMethods ModelSlots ModelTables
  ModelHash ModelWorld ModelCall SpecCall Decide ExamplesModel ExamplesDispatch
  ProofBase ProofErrors ProofDispatch ProofInvariance ProofBehaviour ProofFindings.

(* C08 seen from outside: a method with a single overrider accepts an object
   exactly when its class derives from the overrider's parameter. *)
Lemma acceptance cf X R w mid m o v all a :
  program_ok cf (r_env X) R -> bases_first (e_ti (r_env X)) R ->
  initialized_by cf X false R w ->
  call_ok cf (e_ti (r_env X)) R w m all [a] -> functions_ok m ->
  mr_overriders m = [o] -> or_vp o = [v] ->
  (call cf w mid m all = Ok (Calls (or_pf o)) <->
   derives (e_ti (r_env X)) R a (e_ti (r_env X) v)).
Proof.
  intros HP HB Hi Hc Hf Ho Hv.
  assert (H1 : length (mr_vp m) = 1).
  { rewrite <- (Forall2_length _ _ _ (ca_valid _ _ _ _ _ _ _ Hc)). reflexivity. }
  assert (Happ : applicable (e_ti (r_env X)) R [a] o <-> derives (e_ti (r_env X)) R a (e_ti (r_env X) v)).
  { unfold applicable. rewrite Hv. split.
    - intros H. inversion H; subst. assumption.
    - intros H. repeat constructor. exact H. }
  rewrite <- Happ. split.
  - intros Hcall. destruct (call_applicable cf X R w HP HB false mid m all [a] Hi Hc Hf (or_introl H1))
      as [(? & ? & ? & H)|[(? & ? & ? & H)|(o' & Ho' & Ha & _)]]; try congruence.
    rewrite Ho in Ho'. apply elem_of_list_singleton in Ho' as ->. exact Ha.
  - intros Ha. apply (call_best cf X R w HP HB mid m all [a] 0 o); auto.
    + rewrite Ho. reflexivity.
    + intros [|j] o'; rewrite Ho; simpl; [intros _ []; reflexivity|discriminate].
Qed.

Lemma classes_read E R :
  env_ok E -> acyclic (e_ti E) R ->
  ((exists g, augment_classes E (reg_classes R) = Ok g) <-> bases_registered (e_ti E) R).
Proof.
  intros HE Hac. split.
  - intros (g & Hg). apply (augment_classes_inv E R HE Hac g Hg).
  - intros Hb. destruct (augment_classes_cases E R HE Hac) as [(_ & g & Hg & _)|(Hn & _)]; [eauto|].
    contradiction.
Qed.

(* C15 *)
Lemma initialize_defined cf X R w :
  program_ok cf (r_env X) R -> world_ok w ->
  exists w' r, initialize cf X false R w = (w', r) /\
    ((exists rep, r = Ok rep) \/ exists e, r = Err e).
Proof.
  intros [HE Hac Har Hids Hn HA] Hw.
  destruct (initialize_errors cf X R w HE Hac Har Hids Hn Hw)
    as [(w' & rep & Hi & _)|[(t & Hi & _)|[(b & d & Hi & _)|(w' & a & n & Hi & _)]]];
    rewrite Hi; eauto 10.
Qed.

Lemma call_defined cf X R w n2216 mid m all args :
  program_ok cf (r_env X) R -> bases_first (e_ti (r_env X)) R ->
  initialized_by cf X n2216 R w ->
  call_ok cf (e_ti (r_env X)) R w m all args ->
  (length (mr_vp m) = 1 \/ together all) ->
  (exists f, resolve cf w m all = Ok f /\
     (f = mr_not_implemented m \/ f = mr_ambiguous m \/ f ∈ map or_pf (mr_overriders m))) /\
  ((exists r, call cf w mid m all = Ok r) \/ exists e, call cf w mid m all = Err e).
Proof.
  intros HP HB (w0 & rep & Hw & Hinit) [Hm Hvs Hva] Htog.
  destruct (dispatch_any cf X R w0 w rep n2216 HP HB Hw Hinit m all args Hm Hvs Hva)
    as (sel & f & Hr & Hs & Hc); [intros; destruct Htog; [contradiction|assumption]|].
  split.
  - exists f. split; [exact Hr|]. destruct sel as [| |i]; simpl in Hs.
    + left. congruence.
    + right. left. congruence.
    + right. right. destruct (mr_overriders m !! i) as [o|] eqn:Ho; [|discriminate].
      injection Hs as <-. change (map ?f ?l) with (f <$> l). apply elem_of_list_fmap.
      exists o. split; [reflexivity|]. eapply elem_of_list_lookup_2; eauto.
  - unfold call. rewrite Hr. simpl.
    destruct (decide _); [eauto|]. destruct (decide _); eauto.
Qed.

(* ---- examples ---- *)
Lemma purr_acceptance :
  program_ok cf0 env0 R1 /\ bases_first id R1 /\ initialized_by cf0 run0 false R1 w1 /\
  call_ok cf0 id R1 w1 purr (map AObject [4]%N) [4]%N /\ functions_ok purr /\
  mr_overriders purr = [ovr [3]%N 31] /\ derives id R1 4%N 3%N.
Proof.
  split; [apply R1_program|]. split; [apply R1_bases_first|]. split; [apply R1_initialized|].
  split; [apply purr_call; simpl; auto|]. split; [apply functions_check; by_compute|].
  split; [reflexivity|]. apply (derivesb_spec id R1 4); by_compute.
Qed.

(* An unregistered base; an unregistered parameter; an overrider of an unrelated
   class. *)
Definition R_nobase := Registrations [cls 2 [2; 1]]%N [].
Definition R_noparam := Registrations [cls 1 [1]; cls 2 [2; 1]]%N [mth 1 [1] [ovr [3] 11]]%N.
Definition m_misfit := (mth 1 [2] [ovr [3] 11])%N.
Definition R_misfit := Registrations diamond [m_misfit].

Lemma nobase_example :
  program_ok cf0 env0 R_nobase /\ named id 0 R_nobase 1 /\ ~ registered id R_nobase 1%N /\
  initialize cf0 run0 false R_nobase world0 = (world0, Err (EMissingClass 1)).
Proof.
  split; [apply program_check; by_compute|]. split; [|split; [|by_compute]].
  - left. exists (cls 2%N [2%N; 1%N]). split; [left|]. right. left.
  - intros H. apply (registeredb_spec id) in H. vm_compute in H. discriminate.
Qed.

Lemma misfit_example :
  program_ok cf0 env0 R_misfit /\ all_named_registered id 0 R_misfit /\
  misfit id R_misfit m_misfit (ovr [3]%N 11) 2 3 /\
  initialize cf0 run0 false R_misfit world0 = (world0, Err (EMissingBase 3 2)).
Proof.
  split; [apply program_check; by_compute|]. split; [|split; [|by_compute]].
  - intros t [(cr & Hcr & Ht)|(m & Hm & Ht)]; apply (registeredb_spec id).
    + simpl in Hcr. unfold diamond in Hcr.
      repeat (apply elem_of_cons in Hcr as [->|Hcr]); [..|inversion Hcr]; simpl in Ht;
        repeat (apply elem_of_cons in Ht as [->|Ht]); try (inversion Ht); by_compute.
    + apply elem_of_list_singleton in Hm as ->.
      destruct Ht as [Ht|(o & Ho & [Ht|[[Hc _] ->]])].
      * apply elem_of_list_singleton in Ht as ->. by_compute.
      * apply elem_of_list_singleton in Ho as ->. apply elem_of_list_singleton in Ht as ->. by_compute.
      * destruct Hc. reflexivity.
  - split; [left|]. split; [left|]. exists 0. split; [reflexivity|]. split; [reflexivity|].
    intros H. apply (derivesb_spec id R_misfit 4) in H; [|by_compute]. vm_compute in H. discriminate.
Qed.

(* The members of the error are exchanged. *)
Lemma missing_base_swapped :
  exists cf X R w m o v x b d w',
    program_ok cf (r_env X) R /\ world_ok w /\
    all_named_registered (e_ti (r_env X)) (e_void (r_env X)) R /\
    reg_methods R = [m] /\ mr_overriders m = [o] /\ mr_vp m = [v] /\ or_vp o = [x] /\
    initialize cf X false R w = (w', Err (EMissingBase b d)) /\
    ~ (b = v /\ d = x).
Proof.
  destruct misfit_example as (H1 & H2 & _ & H4).
  exists cf0, run0, R_misfit, world0, m_misfit, (ovr [3]%N 11), 2%N, 3%N, 3%N, 2%N, world0.
  split; [exact H1|]. split; [apply world0_start|]. split; [exact H2|].
  do 4 (split; [reflexivity|]). split; [exact H4|]. intros [[=] _].
Qed.

(* C11: (virtual, other, virtual). *)
Lemma other_between :
  exists cf X R w m all args f,
    program_ok cf (r_env X) R /\ bases_first (e_ti (r_env X)) R /\
    initialized_by cf X false R w /\ call_ok cf (e_ti (r_env X)) R w m all args /\
    length (mr_vp m) = length (virtual_args all) /\
    resolve cf w m (virtual_args all) = Ok f /\ resolve cf w m all <> Ok f.
Proof.
  exists cf0, run0, R0, w0, meet, [AObject 2; AOther 9; AObject 2]%N, [2; 2]%N, 24%N.
  split; [apply R0_program|]. split; [apply R0_bases_first|]. split; [apply R0_initialized|].
  split.
  { destruct (meet_call 2%N 2%N) as [H1 H2 H3]; [simpl; auto|simpl; auto|].
    split; [exact H1|exact H2|exact H3]. }
  split; [reflexivity|]. split; [by_compute|]. vm_compute. discriminate.
Qed.

(* Two such calls that differ in the last argument only enter the same function,
   although the rule selects different overriders. *)
Lemma last_ignored :
  resolve cf0 w0 meet [AObject 2; AOther 9; AObject 1]%N = resolve cf0 w0 meet [AObject 2; AOther 9; AObject 2]%N /\
  selects id R0 (mr_overriders meet) [2; 1]%N (SOverrider 1) /\
  selects id R0 (mr_overriders meet) [2; 2]%N (SOverrider 3).
Proof.
  split; [by_compute|]. split.
  - replace (SOverrider 1) with
      (selectb id R0 4 (mr_overriders meet) (cands id R0 4 (mr_overriders meet) [2; 1]%N)) by by_compute.
    apply selects_compute. by_compute.
  - replace (SOverrider 3) with
      (selectb id R0 4 (mr_overriders meet) (cands id R0 4 (mr_overriders meet) [2; 2]%N)) by by_compute.
    apply selects_compute. by_compute.
Qed.

Lemma around_example :
  let all := [AOther 7; AObject 2; AObject 2; AOther 9]%N in
  together all /\ length (mr_vp meet) = length (virtual_args all) /\
  resolve cf0 w0 meet all = Ok 24%N.
Proof.
  split; [|split; [reflexivity|by_compute]].
  exists [AOther 7], [AOther 9]. split; [reflexivity|]. split; repeat constructor.
Qed.
