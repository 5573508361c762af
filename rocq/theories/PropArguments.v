(* Property C40: arguments reach the overrider, ownership is conserved. *)
From stdpp Require Import base list numbers.
From Verif Require Import Base Registry Spec SpecCall ModelClasses ModelHash ModelWorld ModelCall ModelErrors
  ModelVirtualPtr ModelArguments SpecArguments ProofArgumentsProgram ExamplesModel ExamplesDispatch ExamplesNext
  ExamplesArguments.

(* C40.  A call either enters the selected overrider, each parameter of which is the
   corresponding argument, or throws, leaving the caller's variables in order. *)
Theorem C40_arguments : forall cf X n2216 R w objs isa dyn cxx20 mid m ts ots es s all args,
  program_ok cf (r_env X) R -> bases_first (e_ti (r_env X)) R ->
  initialized_by cf X n2216 R w -> call_ok cf (e_ti (r_env X)) R w m all args -> functions_ok m ->
  (length (mr_vp m) = 1 \/ together all) ->
  casts_ok (e_ti (r_env X)) R objs isa m ts ots -> args_ok w objs dyn s ts es all ->
  (exists e s', in_stub e = true /\ call cf w mid m all = Err e /\
     operator_call cf w objs isa dyn cxx20 mid m ts ots es s = Ok (Throws e s') /\ over s es s') \/
  (exists o ps l s', o ∈ mr_overriders m /\ call cf w mid m all = Ok (Calls (or_pf o)) /\
     operator_call cf w objs isa dyn cxx20 mid m ts ots es s = Ok (Enters (or_pf o) ps l s') /\
     entry s ts es s' ps l /\ sole (given_away cxx20) s ts es s' ps).
Proof. exact arguments_reach. Qed.
Print Assumptions C40_arguments.

Example C40_arguments_example :
  program_ok cf0 env0 R0 /\ bases_first id R0 /\ initialized_by cf0 run0 false R0 w0 /\ functions_ok meet /\
  casts_ok id R0 objs0 isa0 meet ts0 (ots_of meet) /\
  forall o, In o [1; 2; 3] ->
    call_ok cf0 id R0 w0 meet (all_of w0 o) [2%N; objs0 o] /\ together (all_of w0 o) /\
    args_ok w0 objs0 dyn0 (heap_of w0 o) ts0 es0 (all_of w0 o).
Proof. exact arguments_example. Qed.

Example C40_arguments_results :
  (exists s', start 1 true = Ok (Enters 24%N [PVar 10; PVar 11; PVar 13] [3; 4; 5; 6; 7; 8; 10; 11; 13] s')) /\
  (exists s', start 2 true = Ok (Throws (EAmbiguousCall 2%N 3 (types_of [77; 2; 3]%N)) s')).
Proof. exact arguments_results. Qed.

(* The same through next, from an overrider that accepts the arguments. *)
Theorem C40_next : forall cf X R w objs isa dyn cxx20 mid m i oi ts ots es s all args,
  program_ok cf (r_env X) R -> initialized_by cf X false R w ->
  m ∈ reg_methods R -> mr_overriders m !! i = Some oi ->
  unique_signature (e_ti (r_env X)) (mr_overriders m) i ->
  (forall args, valid_args (e_ti (r_env X)) R m args ->
     pointwise (e_ti (r_env X)) R (mr_overriders m)
       (candidate (e_ti (r_env X)) R (mr_overriders m) args)) ->
  functions_ok m -> NoDup (map or_pf (mr_overriders m)) ->
  Forall2 (passes cf (e_ti (r_env X)) R w) (virtual_args all) args ->
  applicable (e_ti (r_env X)) R args oi ->
  casts_ok (e_ti (r_env X)) R objs isa m ts ots -> args_ok w objs dyn s ts es all ->
  (exists e s', in_stub e = true /\ call_next w mid m (or_next oi) all = Err e /\
     next_call cf w objs isa dyn cxx20 mid m (or_next oi) ts ots es s = Ok (Throws e s') /\ over s es s') \/
  (exists o ps l s', o ∈ mr_overriders m /\ call_next w mid m (or_next oi) all = Ok (Calls (or_pf o)) /\
     next_call cf w objs isa dyn cxx20 mid m (or_next oi) ts ots es s = Ok (Enters (or_pf o) ps l s') /\
     entry s ts es s' ps l /\ sole (given_away cxx20) s ts es s' ps).
Proof. exact next_reach. Qed.
Print Assumptions C40_next.

Example C40_next_example :
  program_ok cf0 env0 R_greet /\ initialized_by cf0 run0 false R_greet w_greet /\
  greet ∈ reg_methods R_greet /\ mr_overriders greet !! 2 = Some (ovr [2; 2] 23)%N /\
  unique_signature id (mr_overriders greet) 2 /\
  (forall args, valid_args id R_greet greet args ->
     pointwise id R_greet (mr_overriders greet) (candidate id R_greet (mr_overriders greet) args)) /\
  functions_ok greet /\ NoDup (map or_pf (mr_overriders greet)) /\
  Forall2 (passes cf0 id R_greet w_greet) (virtual_args (all_of w_greet 1)) [2; 2]%N /\
  applicable id R_greet [2; 2]%N (ovr [2; 2] 23)%N /\
  casts_ok id R_greet objs0 isa0 greet ts0 (ots_of greet) /\
  args_ok w_greet objs0 dyn0 (heap_of w_greet 1) ts0 es0 (all_of w_greet 1).
Proof. exact next_example. Qed.

Example C40_next_result : exists s',
  next_call cf0 w_greet objs0 isa0 dyn0 true 2 greet (or_next (ovr [2; 2] 23)%N) ts0 (ots_of greet) es0
    (heap_of w_greet 1)
  = Ok (Enters 22%N [PVar 7; PVar 8; PVar 10] [3; 4; 5; 7; 8; 10] s').
Proof. exact next_result. Qed.

(* When the overrider returns, whatever its body did with its parameters as long as the
   ownership rules hold, exactly the objects without another owner are destroyed. *)
Theorem C40_return : forall s ts es s1 ps l s2,
  entry s ts es s1 ps l -> healthy s2 -> (forall x, x ∈ l -> look s2 x <> None) ->
  exists s3, leave l s2 = Ok s3 /\ returned s2 l s3.
Proof. exact return_frees. Qed.
Print Assumptions C40_return.

Example C40_return_example : exists ps l s',
  start 1 true = Ok (Enters 24%N ps l s') /\ entry (heap_of w0 1) ts0 es0 s' ps l.
Proof. exact return_example. Qed.

(* If the body leaves its parameters alone, the call as a whole destroys what the caller
   gave away, and nothing else. *)
Theorem C40_over : forall s ts es s1 ps l,
  entry s ts es s1 ps l -> exists s2, leave l s1 = Ok s2 /\ over s es s2.
Proof. exact inert_body. Qed.
Print Assumptions C40_over.

Example C40_over_example : exists ps l s',
  start 1 true = Ok (Enters 24%N ps l s') /\ entry (heap_of w0 1) ts0 es0 s' ps l.
Proof. exact return_example. Qed.

(* In C++17 a moved shared_ptr does not give the overrider sole ownership. *)
Theorem C40_sole_owner_refuted :
  exists cf X R w objs isa dyn mid m ts ots es s all args o ps l s',
    program_ok cf (r_env X) R /\ bases_first (e_ti (r_env X)) R /\ initialized_by cf X false R w /\
    call_ok cf (e_ti (r_env X)) R w m all args /\ functions_ok m /\ together all /\
    casts_ok (e_ti (r_env X)) R objs isa m ts ots /\ args_ok w objs dyn s ts es all /\
    o ∈ mr_overriders m /\
    operator_call cf w objs isa dyn false mid m ts ots es s = Ok (Enters (or_pf o) ps l s') /\
    ~ sole (fun k => k = Shared) s ts es s' ps.
Proof. exact sole_owner_wrong. Qed.
Print Assumptions C40_sole_owner_refuted.
