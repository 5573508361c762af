(* A program and a library that adds to it. *)
From stdpp Require Import base list numbers list_numbers relations.
From Verif Require Import Base Registry Spec ModelClasses ModelHash ModelWorld ModelCall SpecCall SpecModules
  Decide ExamplesModel ExamplesDispatch ProofDispatch ProofBehaviour ProofFindings ProofModules.

(* The library: class 5 derived from 2, method [purr], two more overriders of [meet]. *)
Definition meet_p : method_record :=
  (mth 2 [1; 1] [ovr [5; 1] 27; ovr [1; 1] 21; ovr [2; 1] 22; ovr [2; 3] 26; ovr [1; 3] 23; ovr [2; 2] 24])%N.
Definition R_plug := Registrations (cls 5 [5; 2; 1] :: diamond)%N [purr; poke; meet_p].
Definition w_plug : world := state cf0 false R_plug.
Definition news0 : list overrider_record := [ovr [5; 1] 27; ovr [2; 3] 26]%N.

Lemma plug_extends : extends id R0 R_plug.
Proof.
  split.
  - intros c (cr & Hcr & Hc). exists cr. split; [right; exact Hcr|exact Hc].
  - intros c b (cr & t & Hcr & H). apply rtc_once. exists cr, t. split; [right; exact Hcr|exact H].
  - intros c b Hc (cr & t & Hcr & Ht & H1 & H2). apply rtc_once. exists cr, t. split; [|auto].
    apply elem_of_cons in Hcr as [->|Hcr]; [|exact Hcr]. exfalso. simpl in H1. subst c.
    destruct Hc as (cr & Hcr & Hc). simpl in Hcr.
    repeat (apply elem_of_cons in Hcr as [->|Hcr]; [discriminate|]). inversion Hcr.
Qed.

Lemma overriders_distinct (l : list overrider_record) :
  bool_decide (NoDup (map or_pf l)) = true -> NoDup l.
Proof. intros H. apply bool_decide_eq_true_1 in H. eapply NoDup_fmap_1. exact H. Qed.

Lemma plug_adds : adds news0 meet meet_p.
Proof.
  split; [reflexivity|]. apply NoDup_Permutation; [apply overriders_distinct; by_compute..|].
  intros o. unfold news0. simpl. rewrite !elem_of_cons. rewrite elem_of_nil. tauto.
Qed.

Lemma plug_call a b : In (a, b) [(2, 2); (2, 3)]%N ->
  call_ok cf0 id R0 w0 meet (map AObject [a; b]) [a; b] /\
  call_ok cf0 id R_plug w_plug meet_p (map AObject [a; b]) [a; b] /\
  settled id R0 (mr_overriders meet) (candidate id R0 (mr_overriders meet) [a; b]) /\
  settled id R_plug (mr_overriders meet_p) (candidate id R_plug (mr_overriders meet_p) [a; b]).
Proof.
  intros H. assert (Hm : meet_p ∈ reg_methods R_plug) by (right; right; left).
  assert (Hm0 : meet ∈ reg_methods R0) by (right; left).
  simpl in H. destruct H as [[= <- <-]|[[= <- <-]|[]]].
  - split; [apply (call_check cf0 R0 w0 meet [2; 2]%N 4); try discriminate; [exact Hm0|by_compute..]|].
    split; [apply (call_check cf0 R_plug w_plug meet_p [2; 2]%N 4); try discriminate; [exact Hm|by_compute..]|].
    split; apply candidates_settled.
    + apply (transitive_compute id R0 4); by_compute.
    + apply (transitive_compute id R_plug 4); by_compute.
  - split; [apply (call_check cf0 R0 w0 meet [2; 3]%N 4); try discriminate; [exact Hm0|by_compute..]|].
    split; [apply (call_check cf0 R_plug w_plug meet_p [2; 3]%N 4); try discriminate; [exact Hm|by_compute..]|].
    split; apply candidates_settled.
    + apply (transitive_compute id R0 4); by_compute.
    + apply (transitive_compute id R_plug 4); by_compute.
Qed.

Lemma plug_example : 
  program_ok cf0 env0 R0 /\ bases_first id R0 /\ initialized_by cf0 run0 false R0 w0 /\
  program_ok cf0 env0 R_plug /\ bases_first id R_plug /\ initialized_by cf0 run0 false R_plug w_plug /\
  extends id R0 R_plug /\ functions_ok meet /\ functions_ok meet_p /\ adds news0 meet meet_p.
Proof.
  split; [apply R0_program|]. split; [apply R0_bases_first|]. split; [apply R0_initialized|].
  split; [apply program_check; by_compute|]. split; [apply bases_firstb_spec; by_compute|].
  split; [apply state_initialized; by_compute|]. split; [apply plug_extends|].
  split; [apply meet_functions|]. split; [apply functions_check; by_compute|apply plug_adds].
Qed.

Lemma plug_unrelated o : o ∈ news0 -> ~ applicable id R_plug [2; 2]%N o.
Proof.
  intros H Ha. apply (applicableb_spec id R_plug 4) in Ha; [|by_compute].
  apply elem_of_cons in H as [->|H]; [vm_compute in Ha; discriminate|].
  apply elem_of_list_singleton in H as ->. vm_compute in Ha. discriminate.
Qed.

Lemma plug_results :
  call cf0 w0 2 meet (map AObject [2; 2]%N) = Ok (Calls 24%N) /\
  call cf0 w_plug 2 meet_p (map AObject [2; 2]%N) = Ok (Calls 24%N) /\
  call cf0 w0 2 meet (map AObject [2; 3]%N) = Err (EAmbiguousCall 2 2 (types_of [2; 3]%N)) /\
  call cf0 w_plug 2 meet_p (map AObject [2; 3]%N) = Ok (Calls 26%N).
Proof. split; [by_compute|]. split; [by_compute|]. split; by_compute. Qed.

(* Three overriders each of which dominates the next one in a circle.  Without the
   third, the first is called; with it, the second. *)
Definition o_a := (ovr [3; 4; 2] 41)%N.
Definition o_b := (ovr [2; 3; 4] 42)%N.
Definition o_c := (ovr [4; 2; 3] 43)%N.
Definition circle2 := (mth 1 [1; 1; 1] [o_a; o_b])%N.
Definition circle3 := (mth 1 [1; 1; 1] [o_c; o_a; o_b])%N.
Definition R_circle2 := Registrations lattice [circle2].
Definition R_circle3 := Registrations lattice [circle3].
Definition w_circle2 : world := state cf0 false R_circle2.
Definition w_circle3 : world := state cf0 false R_circle3.

Lemma circle_wrong :
  exists cf X R R' w w' mid m m' news all args f f',
    program_ok cf (r_env X) R /\ bases_first (e_ti (r_env X)) R /\ initialized_by cf X false R w /\
    program_ok cf (r_env X) R' /\ bases_first (e_ti (r_env X)) R' /\ initialized_by cf X false R' w' /\
    extends (e_ti (r_env X)) R R' /\
    call_ok cf (e_ti (r_env X)) R w m all args /\ call_ok cf (e_ti (r_env X)) R' w' m' all args /\
    functions_ok m /\ functions_ok m' /\ adds news m m' /\ together all /\
    settled (e_ti (r_env X)) R (mr_overriders m) (candidate (e_ti (r_env X)) R (mr_overriders m) args) /\
    call cf w mid m all = Ok (Calls f) /\ call cf w' mid m' all = Ok (Calls f') /\
    f' <> f /\ forall o, o ∈ news -> or_pf o <> f'.
Proof.
  exists cf0, run0, R_circle2, R_circle3, w_circle2, w_circle3, 1%N, circle2, circle3, [o_c],
    (map AObject [5; 5; 5]%N), [5; 5; 5]%N, 41%N, 42%N.
  split; [apply program_check; by_compute|]. split; [apply bases_firstb_spec; by_compute|].
  split; [apply state_initialized; by_compute|].
  split; [apply program_check; by_compute|]. split; [apply bases_firstb_spec; by_compute|].
  split; [apply state_initialized; by_compute|].
  split; [split; intros; try apply rtc_once; assumption|].
  split; [apply (call_check cf0 R_circle2 w_circle2 circle2 _ 4); try discriminate; [left|by_compute..]|].
  split; [apply (call_check cf0 R_circle3 w_circle3 circle3 _ 4); try discriminate; [left|by_compute..]|].
  split; [apply functions_check; by_compute|]. split; [apply functions_check; by_compute|].
  split; [split; [reflexivity|apply (Permutation_app_comm [o_c] [o_a; o_b])]|].
  split; [apply objects_together|].
  split; [apply candidates_settled, (transitive_compute id R_circle2 4); by_compute|].
  split; [by_compute|]. split; [by_compute|]. split; [discriminate|].
  intros o Ho. apply elem_of_list_singleton in Ho as ->. discriminate.
Qed.
