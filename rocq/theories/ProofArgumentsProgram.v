(* Calls of an initialized program. *)
From stdpp Require Import base list numbers.
From Verif Require Import Base Registry Spec SpecCall ModelClasses ModelHash ModelWorld ModelCall ModelErrors
  ModelVirtualPtr ModelArguments SpecArguments ProofBase ProofArguments ProofArgumentsPhases ProofArgumentsCall
  ProofInvariance ProofBehaviour ProofNext ProofHandlers.

Theorem arguments_reach cf X n2216 R w objs isa dyn cxx20 mid m ts ots es s all args :
  program_ok cf (r_env X) R -> bases_first (e_ti (r_env X)) R ->
  initialized_by cf X n2216 R w -> call_ok cf (e_ti (r_env X)) R w m all args -> functions_ok m ->
  (length (mr_vp m) = 1 \/ together all) ->
  casts_ok (e_ti (r_env X)) R objs isa m ts ots -> args_ok w objs dyn s ts es all ->
  (exists e s', in_stub e = true /\ call cf w mid m all = Err e /\
     operator_call cf w objs isa dyn cxx20 mid m ts ots es s = Ok (Throws e s') /\ over s es s') \/
  (exists o ps l s', o ∈ mr_overriders m /\ call cf w mid m all = Ok (Calls (or_pf o)) /\
     operator_call cf w objs isa dyn cxx20 mid m ts ots es s = Ok (Enters (or_pf o) ps l s') /\
     entry s ts es s' ps l /\ sole (given_away cxx20) s ts es s' ps).
Proof.
  intros HP HB HI HC HF HT [Hisa Hty] [A1 A2 A3 A4].
  destruct (call_applicable cf X R w HP HB n2216 mid m all args HI HC HF HT)
    as [(i & n & tys & Hc)|[(i & n & tys & Hc)|(o & Ho & Hap & Hc)]].
  - left. destruct (operator_throws cf w objs isa dyn cxx20 s ts es all A1 A2 A3 A4 mid m ots _ Hc) as (s' & E & Ho).
    eexists _, s'. split; [|split; [exact Hc|split; [exact E|exact Ho]]]. reflexivity.
  - left. destruct (operator_throws cf w objs isa dyn cxx20 s ts es all A1 A2 A3 A4 mid m ots _ Hc) as (s' & E & Ho).
    eexists _, s'. split; [|split; [exact Hc|split; [exact E|exact Ho]]]. reflexivity.
  - right. destruct (operator_enters cf w objs isa dyn cxx20 s ts es all A1 A2 A3 A4 mid m ots (or_pf o) Hc)
      as (ps & l & s' & E & Hen & Hso).
    + eapply fits; [exact Hisa|exact A4|exact (ca_passes _ _ _ _ _ _ _ HC)|exact Hap|auto].
    + exists o, ps, l, s'. auto.
Qed.

Lemma entered_entry cf X n2216 R w objs isa dyn cxx20 mid m ts ots es s all args f ps l s' :
  program_ok cf (r_env X) R -> bases_first (e_ti (r_env X)) R ->
  initialized_by cf X n2216 R w -> call_ok cf (e_ti (r_env X)) R w m all args -> functions_ok m ->
  (length (mr_vp m) = 1 \/ together all) ->
  casts_ok (e_ti (r_env X)) R objs isa m ts ots -> args_ok w objs dyn s ts es all ->
  operator_call cf w objs isa dyn cxx20 mid m ts ots es s = Ok (Enters f ps l s') ->
  entry s ts es s' ps l.
Proof.
  intros H1 H2 H3 H4 H5 H6 H7 H8 E.
  destruct (arguments_reach cf X n2216 R w objs isa dyn cxx20 mid m ts ots es s all args H1 H2 H3 H4 H5 H6 H7 H8)
    as [(e & s2 & _ & _ & E2 & _)|(o & ps2 & l2 & s2 & _ & _ & E2 & He & _)]; rewrite E in E2; [discriminate|].
  injection E2 as _ <- <- <-. exact He.
Qed.

Theorem next_reach cf X R w objs isa dyn cxx20 mid m i oi ts ots es s all args :
  program_ok cf (r_env X) R -> initialized_by cf X false R w ->
  m ∈ reg_methods R -> mr_overriders m !! i = Some oi ->
  unique_signature (e_ti (r_env X)) (mr_overriders m) i ->
  (forall args, valid_args (e_ti (r_env X)) R m args ->
     pointwise (e_ti (r_env X)) R (mr_overriders m)
       (candidate (e_ti (r_env X)) R (mr_overriders m) args)) ->
  functions_ok m -> NoDup (map or_pf (mr_overriders m)) ->
  Forall2 (passes cf (e_ti (r_env X)) R w) (virtual_args all) args ->
  applicable (e_ti (r_env X)) R args oi ->
  casts_ok (e_ti (r_env X)) R objs isa m ts ots -> args_ok w objs dyn s ts es all ->
  (exists e s', in_stub e = true /\ call_next w mid m (or_next oi) all = Err e /\
     next_call cf w objs isa dyn cxx20 mid m (or_next oi) ts ots es s = Ok (Throws e s') /\ over s es s') \/
  (exists o ps l s', o ∈ mr_overriders m /\ call_next w mid m (or_next oi) all = Ok (Calls (or_pf o)) /\
     next_call cf w objs isa dyn cxx20 mid m (or_next oi) ts ots es s = Ok (Enters (or_pf o) ps l s') /\
     entry s ts es s' ps l /\ sole (given_away cxx20) s ts es s' ps).
Proof.
  intros HP HI Hm Hoi Hu Hpw HF Hnd Hpass Hap [Hisa Hty] [A1 A2 A3 A4].
  destruct (next_behaves cf X R w mid m i oi all HP HI Hm Hoi Hu Hpw HF) as (sel & _ & _ & Hb).
  remember (call_next w mid m (or_next oi) all) as r eqn:Hc in Hb. symmetry in Hc.
  destruct Hb as [id n tys|id n tys|j oj Hoj].
  - left. destruct (next_throws cf w objs isa dyn cxx20 s ts es all A1 A2 A3 A4 mid m (or_next oi) ots _ Hc) as (s' & E & Ho).
    eexists _, s'. split; [|split; [exact Hc|split; [exact E|exact Ho]]]. reflexivity.
  - left. destruct (next_throws cf w objs isa dyn cxx20 s ts es all A1 A2 A3 A4 mid m (or_next oi) ots _ Hc) as (s' & E & Ho).
    eexists _, s'. split; [|split; [exact Hc|split; [exact E|exact Ho]]]. reflexivity.
  - right.
    assert (Hn : w_next w (or_next oi) = Some (or_pf oj)).
    { unfold call_next in Hc. destruct (w_next w (or_next oi)) as [f|]; [|discriminate]. simpl in Hc.
      destruct (decide (f = mr_not_implemented m)); [discriminate|].
      destruct (decide (f = mr_ambiguous m)); [discriminate|]. congruence. }
    destruct (next_down cf X R w HP HI m i oi Hm Hoi Hu j oj Hpw HF Hnd Hoj Hn) as [_ Hdown].
    assert (Hin : oj ∈ mr_overriders m) by (eapply elem_of_list_lookup_2; exact Hoj).
    destruct (next_enters cf w objs isa dyn cxx20 s ts es all A1 A2 A3 A4 mid m (or_next oi) ots (or_pf oj) Hc)
      as (ps & l & s' & E & Hen & Hso).
    + eapply fits; [exact Hisa|exact A4|exact Hpass|exact (Hdown _ Hap)|auto].
    + exists oj, ps, l, s'. auto.
Qed.

Theorem return_frees s ts es s1 ps l s2 :
  entry s ts es s1 ps l -> healthy s2 -> (forall x, x ∈ l -> look s2 x <> None) ->
  exists s3, leave l s2 = Ok s3 /\ returned s2 l s3.
Proof. intros He Hh Hl. apply leave_returned; auto. apply (en_locals _ _ _ _ _ _ He). Qed.

Theorem inert_body s ts es s1 ps l :
  entry s ts es s1 ps l -> exists s2, leave l s1 = Ok s2 /\ over s es s2.
Proof.
  intros He. destruct (return_frees s ts es s1 ps l s1 He) as (s2 & E & R).
  - exact (en_healthy _ _ _ _ _ _ He).
  - intros x Hx. apply (proj2 (en_locals _ _ _ _ _ _ He) x Hx).
  - exists s2. split; [exact E|]. eapply entry_returned_over; eauto.
Qed.
