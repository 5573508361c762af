(* Specification vocabulary about the handling of errors. *)
From stdpp Require Import base list numbers.
From Verif Require Import Base Registry Spec ModelClasses ModelHash ModelWorld ModelCall SpecCall
  ModelLife ModelVirtualPtr ModelErrors.

(* The handler in place after [t]: the last one set. *)
Inductive handler_in_place : list deed -> handler -> Prop :=
  | in_place_start : handler_in_place [] HDefault
  | in_place_set t h es en : handler_in_place (t ++ [Deed (SetsHandler h) es en]) h
  | in_place_other t st h :
      (forall h', st_action st <> SetsHandler h') -> handler_in_place t h ->
      handler_in_place (t ++ [st]) h.

(* What the documentation promises when the error [e] is detected, while [h] is in
   place: what the handlers do, and how the operation ends. *)
Inductive handled (S : setup) (h : handler) (e : error) : list entry -> ending value -> Prop :=
  | handled_no_policy : su_policy S = PolicyNone -> handled S h e [] Aborts
  | handled_throw : su_policy S = PolicyThrow -> handled S h e [] (Throws (ThrownError e))
  | handled_default : su_policy S = PolicyDefault -> h = HDefault ->
      handled S h e (if su_output S then [Written e] else []) Aborts
  | handled_user_returns k : su_policy S = PolicyDefault -> h = HUser k ->
      su_users S k e = None -> handled S h e [Entered k e] Aborts
  | handled_user_throws k x : su_policy S = PolicyDefault -> h = HUser k ->
      su_users S k e = Some x -> handled S h e [Entered k e] (Throws (ThrownUser x))
  | handled_empty : su_policy S = PolicyDefault -> h = HEmpty ->
      handled S h e [] (Throws ThrownBadFunction).

(* An initialize() returned, and finalize() was not called since. *)
Definition initialized_in (t : list deed) : Prop :=
  exists before X n2216 es v after,
    t = before ++ Deed (Lives (Initializes X n2216)) es (Returns v) :: after /\
    forall st, st ∈ after -> st_action st <> Lives Finalizes.

(* What the argument number i of a call is, for an error. *)
Inductive has_type : arg -> N -> Prop :=
  | has_type_object t : has_type (AObject t) t
  | has_type_ptr v t : has_type (APtr v t) t
  | has_type_other t : has_type (AOther t) t.

(* [ts] lists the types of the arguments. *)
Definition lists_types (ts : list (option N)) (args : list arg) : Prop :=
  forall i a t, args !! i = Some a -> has_type a t -> ts !! i = Some (Some t).

(* The mistakes the library detects, and the error each must give. *)
Inductive mistake (S : setup) (t : list deed) (pg : program) : action -> error -> Prop :=
  | mistake_not_initialized_call mid m args :
      cf_checks (su_config S) = true -> ~ initialized_in t ->
      mistake S t pg (CallsMethod mid m args) ENotInitialized
  | mistake_not_initialized_ptr d o :
      cf_checks (su_config S) = true -> ~ initialized_in t ->
      mistake S t pg (Points (PlainFromRef d o false)) ENotInitialized
  | mistake_no_overrider X mid m all args ts :
      program_ok (su_config S) (r_env X) (pr_regs (pg_process pg)) ->
      bases_first (e_ti (r_env X)) (pr_regs (pg_process pg)) ->
      initialized_by (su_config S) X false (pr_regs (pg_process pg)) (pr_world (pg_process pg)) ->
      call_ok (su_config S) (e_ti (r_env X)) (pr_regs (pg_process pg)) (pr_world (pg_process pg))
        m all args -> functions_ok m ->
      length (mr_vp m) = 1 \/ together all -> length all <= 16 ->
      (forall o, o ∈ mr_overriders m ->
         ~ applicable (e_ti (r_env X)) (pr_regs (pg_process pg)) args o) ->
      lists_types ts all -> length ts = 16 ->
      (forall i, length all <= i < 16 -> ts !! i = Some None) ->
      mistake S t pg (CallsMethod mid m all) (ENoOverrider mid (length all) ts)
  | mistake_ambiguous X mid m all args ts :
      program_ok (su_config S) (r_env X) (pr_regs (pg_process pg)) ->
      bases_first (e_ti (r_env X)) (pr_regs (pg_process pg)) ->
      initialized_by (su_config S) X false (pr_regs (pg_process pg)) (pr_world (pg_process pg)) ->
      call_ok (su_config S) (e_ti (r_env X)) (pr_regs (pg_process pg)) (pr_world (pg_process pg))
        m all args -> functions_ok m ->
      length (mr_vp m) = 1 \/ together all -> length all <= 16 ->
      settled (e_ti (r_env X)) (pr_regs (pg_process pg)) (mr_overriders m)
        (candidate (e_ti (r_env X)) (pr_regs (pg_process pg)) (mr_overriders m) args) ->
      selects (e_ti (r_env X)) (pr_regs (pg_process pg)) (mr_overriders m) args SAmbiguous ->
      lists_types ts all -> length ts = 16 ->
      (forall i, length all <= i < 16 -> ts !! i = Some None) ->
      mistake S t pg (CallsMethod mid m all) (EAmbiguousCall mid (length all) ts)
  | mistake_no_next X mid m i o all ts :
      program_ok (su_config S) (r_env X) (pr_regs (pg_process pg)) ->
      initialized_by (su_config S) X false (pr_regs (pg_process pg)) (pr_world (pg_process pg)) ->
      m ∈ reg_methods (pr_regs (pg_process pg)) -> mr_overriders m !! i = Some o ->
      unique_signature (e_ti (r_env X)) (mr_overriders m) i ->
      (forall args, valid_args (e_ti (r_env X)) (pr_regs (pg_process pg)) m args ->
         pointwise (e_ti (r_env X)) (pr_regs (pg_process pg)) (mr_overriders m)
           (candidate (e_ti (r_env X)) (pr_regs (pg_process pg)) (mr_overriders m) args)) ->
      functions_ok m -> length all <= 16 ->
      selects_next (e_ti (r_env X)) (pr_regs (pg_process pg)) (mr_overriders m) i SNone ->
      lists_types ts all -> length ts = 16 ->
      (forall k, length all <= k < 16 -> ts !! k = Some None) ->
      mistake S t pg (CallsNext mid m (or_next o) all) (ENoOverrider mid (length all) ts)
  | mistake_ambiguous_next X mid m i o all ts :
      program_ok (su_config S) (r_env X) (pr_regs (pg_process pg)) ->
      initialized_by (su_config S) X false (pr_regs (pg_process pg)) (pr_world (pg_process pg)) ->
      m ∈ reg_methods (pr_regs (pg_process pg)) -> mr_overriders m !! i = Some o ->
      unique_signature (e_ti (r_env X)) (mr_overriders m) i ->
      (forall args, valid_args (e_ti (r_env X)) (pr_regs (pg_process pg)) m args ->
         pointwise (e_ti (r_env X)) (pr_regs (pg_process pg)) (mr_overriders m)
           (candidate (e_ti (r_env X)) (pr_regs (pg_process pg)) (mr_overriders m) args)) ->
      functions_ok m -> length all <= 16 ->
      selects_next (e_ti (r_env X)) (pr_regs (pg_process pg)) (mr_overriders m) i SAmbiguous ->
      lists_types ts all -> length ts = 16 ->
      (forall k, length all <= k < 16 -> ts !! k = Some None) ->
      mistake S t pg (CallsNext mid m (or_next o) all) (EAmbiguousCall mid (length all) ts)
  | mistake_unknown_object X n2216 mid m pre ty rest :
      program_ok (su_config S) (r_env X) (pr_regs (pg_process pg)) ->
      initialized_by (su_config S) X n2216 (pr_regs (pg_process pg)) (pr_world (pg_process pg)) ->
      cf_checks (su_config S) = true ->
      cf_vptr (su_config S) = VptrMap \/
        (cf_vptr (su_config S) = VptrVector /\ cf_hash (su_config S) = true) ->
      ty <> uintptr_max -> ty ∉ map cr_type (reg_classes (pr_regs (pg_process pg))) ->
      non_virtual pre ->
      mistake S t pg (CallsMethod mid m (pre ++ AObject ty :: rest)) (EMissingClass ty)
  | mistake_final X n2216 d o ty loc :
      initialized_by (su_config S) X n2216 (pr_regs (pg_process pg)) (pr_world (pg_process pg)) ->
      cf_checks (su_config S) = true -> ob_type (su_objs S o) <> ty ->
      mistake S t pg (Points (Final d (Some o) ty loc true)) (EFinal ty (ob_type (su_objs S o)))
  | mistake_unregistered X ty :
      program_ok (su_config S) (r_env X) (pr_regs (pg_process pg)) ->
      su_odr S <= 1 ->
      named (e_ti (r_env X)) (e_void (r_env X)) (pr_regs (pg_process pg)) ty ->
      ~ registered (e_ti (r_env X)) (pr_regs (pg_process pg)) (e_ti (r_env X) ty) ->
      (forall ty', named (e_ti (r_env X)) (e_void (r_env X)) (pr_regs (pg_process pg)) ty' ->
         ~ registered (e_ti (r_env X)) (pr_regs (pg_process pg)) (e_ti (r_env X) ty') -> ty' = ty) ->
      mistake S t pg (Lives (Initializes X false)) (EMissingClass ty)
  | mistake_odr X n2216 :
      1 < su_odr S -> mistake S t pg (Lives (Initializes X n2216)) EOdrViolation.

(* Calls that are not mistakes, and the function that each must enter. *)
Inductive proper (S : setup) (pg : program) : action -> fptr -> Prop :=
  | proper_call X mid m all args i o :
      program_ok (su_config S) (r_env X) (pr_regs (pg_process pg)) ->
      bases_first (e_ti (r_env X)) (pr_regs (pg_process pg)) ->
      initialized_by (su_config S) X false (pr_regs (pg_process pg)) (pr_world (pg_process pg)) ->
      call_ok (su_config S) (e_ti (r_env X)) (pr_regs (pg_process pg)) (pr_world (pg_process pg))
        m all args -> functions_ok m ->
      length (mr_vp m) = 1 \/ together all ->
      settled (e_ti (r_env X)) (pr_regs (pg_process pg)) (mr_overriders m)
        (candidate (e_ti (r_env X)) (pr_regs (pg_process pg)) (mr_overriders m) args) ->
      selects (e_ti (r_env X)) (pr_regs (pg_process pg)) (mr_overriders m) args (SOverrider i) ->
      mr_overriders m !! i = Some o ->
      proper S pg (CallsMethod mid m all) (or_pf o)
  | proper_next X mid m i o all j o' :
      program_ok (su_config S) (r_env X) (pr_regs (pg_process pg)) ->
      initialized_by (su_config S) X false (pr_regs (pg_process pg)) (pr_world (pg_process pg)) ->
      m ∈ reg_methods (pr_regs (pg_process pg)) -> mr_overriders m !! i = Some o ->
      unique_signature (e_ti (r_env X)) (mr_overriders m) i ->
      (forall args, valid_args (e_ti (r_env X)) (pr_regs (pg_process pg)) m args ->
         pointwise (e_ti (r_env X)) (pr_regs (pg_process pg)) (mr_overriders m)
           (candidate (e_ti (r_env X)) (pr_regs (pg_process pg)) (mr_overriders m) args)) ->
      functions_ok m ->
      selects_next (e_ti (r_env X)) (pr_regs (pg_process pg)) (mr_overriders m) i (SOverrider j) ->
      mr_overriders m !! j = Some o' ->
      proper S pg (CallsNext mid m (or_next o) all) (or_pf o').
