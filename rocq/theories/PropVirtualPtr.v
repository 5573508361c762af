(* Properties of virtual_ptr. *)
From stdpp Require Import base list numbers relations.
From Verif Require Import Base Registry Spec ModelClasses ModelHash ModelWorld ModelCall SpecCall
  ModelLife ModelVirtualPtr SpecVirtualPtr ProofVirtualPtr ExamplesModel ExamplesDispatch
  ExamplesVptr ExamplesVirtualPtr.

(* C21: in every state reached by operations on virtual_ptrs, a virtual_ptr to an
   object of a registered class carries the v-table pointer of that class.  [op_ok]
   excludes undefined behaviour, assignments of references, raw pointers or smart
   pointer lvalues that throw, and embedded v-table pointers with indirect_vptr. *)
Theorem C21_virtual_ptr_right : forall cf X n2216 R w objs P s x o b,
  program_ok cf (r_env X) R -> initialized_by cf X n2216 R w ->
  inplace_ok (e_ti (r_env X)) R w objs ->
  reaches cf (e_ti (r_env X)) R w objs P s -> vs_vars s x = VVar (Some o) b ->
  known R (ob_type (objs o)) ->
  exists v, var_arg w objs s x = Ok (APtr v (ob_type (objs o))) /\
    passes cf (e_ti (r_env X)) R w (APtr v (ob_type (objs o))) (e_ti (r_env X) (ob_type (objs o))).
Proof.
  exact (fun cf X n2216 R w objs P s x o b HP HW HO =>
    virtual_ptr_right cf X n2216 R w objs HP HW HO P s x o b).
Qed.
Print Assumptions C21_virtual_ptr_right.

Example C21_example :
  program_ok cf0 env0 R0 /\ initialized_by cf0 run0 false R0 w0 /\ inplace_ok id R0 w0 objs0 /\
  reaches cf0 id R0 w0 objs0 (fun op => casts_away op = false) s0 /\
  map (target s0) [0; 1; 2; 3; 4; 5; 6; 7; 8; 9; 10; 11] =
    [Some (Some 0); Some (Some 1); Some (Some 2); Some None; Some (Some 1); Some None; Some None;
     Some None; Some (Some 0); Some (Some 2); None; Some (Some 2)] /\
  map (fun t => bool_decide (t ∈ map cr_type (reg_classes R0))) [4; 2; 3; 99]%N =
    [true; true; true; false] /\
  map (calls cf0 w0 objs0 s0 2 meet) [[0; 4]; [11; 1]; [2; 2]] =
    [Ok (Calls 24); Ok (Calls 21); Ok (Calls 23)]%N.
Proof. exact virtual_ptr_example. Qed.

(* C21: a null one has a null v-table pointer, unless a cast or final_virtual_ptr
   made it. *)
Theorem C21_null : forall cf X n2216 R w objs s x b,
  program_ok cf (r_env X) R -> initialized_by cf X n2216 R w ->
  reaches cf (e_ti (r_env X)) R w objs (fun op => casts_away op = false) s ->
  vs_vars s x = VVar None b -> unbox_vptr w b = Ok VNull.
Proof. exact (fun cf X n2216 R w objs s x b _ _ => virtual_ptr_null cf X R w objs s x b). Qed.
Print Assumptions C21_null.

Example C21_null_example :
  program_ok cf0 env0 R0 /\ initialized_by cf0 run0 false R0 w0 /\
  reaches cf0 id R0 w0 objs0 (fun op => casts_away op = false) s0 /\ target s0 3 = Some None.
Proof. exact null_example. Qed.

(* C21: a call through virtual_ptrs does what the call on the objects does, errors
   included. *)
Theorem C21_call_through : forall cf X n2216 R w mid m args objects,
  program_ok cf (r_env X) R -> initialized_by cf X n2216 R w -> cf_vptr cf <> VptrNone ->
  Forall2 (through cf (e_ti (r_env X)) R w) args objects ->
  call cf w mid m args = call cf w mid m objects.
Proof. exact call_through. Qed.
Print Assumptions C21_call_through.

Example C21_call_through_example : exists v1 v2,
  var_arg w0 objs0 s0 0 = Ok (APtr v1 4) /\ var_arg w0 objs0 s0 11 = Ok (APtr v2 3) /\
  Forall2 (through cf0 id R0 w0) [APtr v1 4; APtr v2 3; AObject 1]%N [AObject 4; AObject 3; AObject 1]%N.
Proof. exact through_example. Qed.

(* C21: a moving cast leaves a null virtual_ptr with a v-table pointer. *)
Theorem C21_null_refuted : exists cf X R w objs s x b v,
  program_ok cf (r_env X) R /\ initialized_by cf X false R w /\ inplace_ok (e_ti (r_env X)) R w objs /\
  reaches cf (e_ti (r_env X)) R w objs (fun _ => True) s /\
  vs_vars s x = VVar None b /\ unbox_vptr w b = Ok v /\ v <> VNull.
Proof. exact null_stale. Qed.
Print Assumptions C21_null_refuted.

(* C21: an assignment that throws leaves the new object with the old v-table. *)
Theorem C21_throw_refuted : exists cf X R w w' objs s1 s2 e a,
  program_ok cf (r_env X) R /\ initialized_by cf X false R w /\
  vstep cf w objs (PlainFromRef 0 0 false) vstate0 = (s1, Ok tt) /\
  vstep cf (finalize cf w) objs (PlainAssignRef 0 1 false) s1 = (s2, Err e) /\
  w' = fst (initialize cf X false R (finalize cf w)) /\ initialized_by cf X false R w' /\
  (exists b, vs_vars s2 0 = VVar (Some 1) b) /\ known R (ob_type (objs 1)) /\
  var_arg w' objs s2 0 = Ok a /\ ~ passes cf (e_ti (r_env X)) R w' a (e_ti (r_env X) (ob_type (objs 1))).
Proof. exact throw_stale. Qed.
Print Assumptions C21_throw_refuted.

(* C21: with indirect_vptr and an embedded v-table pointer, using the virtual_ptr is
   undefined. *)
Theorem C21_inplace_refuted : exists cf X R w objs s op s',
  program_ok cf (r_env X) R /\ initialized_by cf X false R w /\ inplace_ok (e_ti (r_env X)) R w objs /\
  no_vars s /\ op = PlainFromRef 0 0 true /\ known R (ob_type (objs 0)) /\
  vstep cf w objs op s = (s', Ok tt) /\ var_arg w objs s' 0 = Undef.
Proof. exact inplace_stale. Qed.
Print Assumptions C21_inplace_refuted.

(* C22, partial: the full statement has no [assigns_lvalue op = false] and no
   condition on embedded v-table pointers. *)
Theorem C22_null_smart_pointer_partial : forall cf w objs s op d,
  stores s op d None -> assigns_lvalue op = false ->
  (reads_inplace op = true -> cf_indirect cf = false) ->
  exists s', vstep cf w objs op s = (s', Ok tt) /\ is_null w s' d.
Proof. exact stores_null. Qed.
Print Assumptions C22_null_smart_pointer_partial.

Example C22_example :
  stores s0 (SmartFrom 0 0 false) 0 (Some 1) /\ stores s0 (SmartFromMove 0 1 false) 0 None /\
  stores s0 (SmartAssignFromMove 4 1 true) 4 None /\ target s0 4 = Some (Some 1) /\
  moves_to (SmartAssignMove 9 0) 9 0 /\ target s0 0 = Some (Some 0).
Proof. exact stores_null_example. Qed.

(* C22: moving from a smart virtual_ptr transfers it and leaves it null. *)
Theorem C22_moved_from : forall cf w objs s op d x obj b,
  moves_to op d x -> vs_vars s x = VVar obj b ->
  exists s', vstep cf w objs op s = (s', Ok tt) /\ vs_vars s' d = VVar obj b /\ is_null w s' x.
Proof. exact moved_from. Qed.
Print Assumptions C22_moved_from.

(* C22: assigning a null smart pointer lvalue dereferences it. *)
Theorem C22_lvalue_refuted : exists cf X R w objs s op d,
  program_ok cf (r_env X) R /\ initialized_by cf X false R w /\
  reaches cf (e_ti (r_env X)) R w objs (fun _ => True) s /\
  stores s op d None /\ snd (vstep cf w objs op s) = Undef.
Proof. exact lvalue_null_example. Qed.
Print Assumptions C22_lvalue_refuted.

(* C23: with indirect_vptr, whatever was registered, initialized and finalized since
   it was made, a virtual_ptr to an object of a class registered now carries the
   present v-table pointer of that class. *)
Theorem C23_indirect_survives : forall cf ti addr objs p s x o b,
  cf_indirect cf = true -> vlife cf ti addr objs p s -> vs_vars s x = VVar (Some o) b ->
  registered ti (pr_regs p) (ti (ob_type (objs o))) ->
  exists v, var_arg (pr_world p) objs s x = Ok (APtr v (ob_type (objs o))) /\
    passes cf ti (pr_regs p) (pr_world p) (APtr v (ob_type (objs o))) (ti (ob_type (objs o))).
Proof. exact survives. Qed.
Print Assumptions C23_indirect_survives.

Example C23_example :
  cf_indirect cf_ihash = true /\ vlife cf_ihash id N.to_nat objs0 p_i s_i /\ pr_regs p_i = R0 /\
  coherent cf_ihash id p_i /\
  map (target s_i) [0; 1; 2; 3; 4] =
    [Some (Some 0); Some (Some 1); Some (Some 1); Some (Some 2); Some (Some 2)] /\
  map (calls cf_ihash (pr_world p_i) objs0 s_i 2 meet) [[0; 1]; [1; 2]; [2; 4]; [3; 1]; [3; 4]] =
  map (fun ts => call cf_ihash (pr_world p_i) 2 meet (map AObject ts)) [[4; 2]; [2; 2]; [2; 3]; [3; 2]; [3; 3]]%N /\
  map (calls cf_ihash (pr_world p_i) objs0 s_i 2 meet) [[0; 1]; [1; 2]; [3; 1]; [3; 4]] =
    [Ok (Calls 24); Ok (Calls 24); Ok (Calls 21); Ok (Calls 23)]%N.
Proof. exact survives_example. Qed.

(* C23: so calls through them dispatch according to the present registrations. *)
Theorem C23_indirect_call : forall cf X addr objs p s xs os mid m,
  cf_indirect cf = true -> vlife cf (e_ti (r_env X)) addr objs p s ->
  program_ok cf (r_env X) (pr_regs p) -> bases_first (e_ti (r_env X)) (pr_regs p) ->
  initialized_by cf X false (pr_regs p) (pr_world p) ->
  m ∈ reg_methods (pr_regs p) -> functions_ok m ->
  Forall2 (fun x o => exists b, vs_vars s x = VVar (Some o) b) xs os ->
  let args := map (fun o => e_ti (r_env X) (ob_type (objs o))) os in
  valid_args (e_ti (r_env X)) (pr_regs p) m args ->
  Forall (registered (e_ti (r_env X)) (pr_regs p)) args ->
  settled (e_ti (r_env X)) (pr_regs p) (mr_overriders m)
    (candidate (e_ti (r_env X)) (pr_regs p) (mr_overriders m) args) ->
  exists all sel, mapM (var_arg (pr_world p) objs s) xs = Ok all /\
    selects (e_ti (r_env X)) (pr_regs p) (mr_overriders m) args sel /\
    behaves m sel (call cf (pr_world p) mid m all).
Proof. exact survive_call. Qed.
Print Assumptions C23_indirect_call.

Example C23_call_example :
  cf_indirect cf_ihash = true /\ vlife cf_ihash id N.to_nat objs0 p_i s_i /\
  program_ok cf_ihash env0 (pr_regs p_i) /\ bases_first id (pr_regs p_i) /\
  initialized_by cf_ihash run0 false (pr_regs p_i) (pr_world p_i) /\
  meet ∈ reg_methods (pr_regs p_i) /\ functions_ok meet /\
  Forall2 (fun x o => exists b, vs_vars s_i x = VVar (Some o) b) [1; 0] [1; 0] /\
  map (fun o => ob_type (objs0 o)) [1; 0] = [2; 4]%N /\
  valid_args id (pr_regs p_i) meet [2; 4]%N /\ Forall (registered id (pr_regs p_i)) [2; 4]%N /\
  settled id (pr_regs p_i) (mr_overriders meet)
    (candidate id (pr_regs p_i) (mr_overriders meet) [2; 4]%N).
Proof. exact survive_call_example. Qed.

(* C23: without indirect_vptr, a call through an old virtual_ptr is undefined. *)
Theorem C23_direct_refuted : exists cf addr objs p s x o b a m mid,
  vlife cf id addr objs p s /\ coherent cf id p /\ cf_indirect cf = false /\
  vs_vars s x = VVar (Some o) b /\ known (pr_regs p) (ob_type (objs o)) /\
  m ∈ reg_methods (pr_regs p) /\ var_arg (pr_world p) objs s x = Ok a /\
  call cf (pr_world p) mid m [a] = Undef.
Proof. exact direct_stale. Qed.
Print Assumptions C23_direct_refuted.

(* C35: with runtime_checks, final_virtual_ptr of a polymorphic object throws exactly
   when the type ids differ. *)
Theorem C35_final_error_iff : forall cf X n2216 R w objs s d o t loc,
  initialized_by cf X n2216 R w -> cf_checks cf = true ->
  (exists s' e, vstep cf w objs (Final d (Some o) t loc true) s = (s', Err e)) <->
  ob_type (objs o) <> t.
Proof.
  exact (fun cf X n2216 R w objs s d o t loc HW => final_error_iff cf X n2216 R w objs HW s d o t loc).
Qed.
Print Assumptions C35_final_error_iff.

(* C35: the error gives the two types, and nothing was changed. *)
Theorem C35_final_error_is : forall cf X n2216 R w objs s s' d o t loc poly e,
  initialized_by cf X n2216 R w ->
  vstep cf w objs (Final d (Some o) t loc poly) s = (s', Err e) ->
  e = EFinal t (ob_type (objs o)) /\ s' = s /\ cf_checks cf = true /\ poly = true.
Proof.
  exact (fun cf X n2216 R w objs s s' d o t loc poly e HW =>
    final_error_is cf X n2216 R w objs HW s s' d o t loc poly e).
Qed.
Print Assumptions C35_final_error_is.

(* C35: otherwise the result carries the v-table pointer of the object's class. *)
Theorem C35_final_right : forall cf X n2216 R w objs s s' d o t loc poly,
  initialized_by cf X n2216 R w ->
  final_ok cf (e_ti (r_env X)) R objs (Final d (Some o) t loc poly) ->
  vstep cf w objs (Final d (Some o) t loc poly) s = (s', Ok tt) ->
  exists v b, vs_vars s' d = VVar (Some o) b /\
    var_arg w objs s' d = Ok (APtr v (ob_type (objs o))) /\
    passes cf (e_ti (r_env X)) R w (APtr v (ob_type (objs o))) (e_ti (r_env X) (ob_type (objs o))).
Proof.
  exact (fun cf X n2216 R w objs s s' d o t loc poly _ => final_right cf X R w objs s s' d o t loc poly).
Qed.
Print Assumptions C35_final_right.

Example C35_example :
  final_ok cf0 id R0 objs0 (Final 0 (Some 2) 3 3 true) /\
  snd (vstep cf0 w0 objs0 (Final 0 (Some 2) 3 3 true) vstate0) = Ok tt /\
  final_ok cf0 id R0 objs0 (Final 0 (Some 0) 3 3 true) /\
  snd (vstep cf0 w0 objs0 (Final 0 (Some 0) 3 3 true) vstate0) = Err (EFinal 3 4).
Proof. exact final_example. Qed.

(* C35: an object of the right class is rejected when the class has two type ids. *)
Theorem C35_type_ids_refuted : exists cf X R w objs s o t loc e,
  program_ok cf (r_env X) R /\ initialized_by cf X false R w /\
  e_ti (r_env X) (ob_type (objs o)) = e_ti (r_env X) t /\ known R (ob_type (objs o)) /\
  final_ok cf (e_ti (r_env X)) R objs (Final 0 (Some o) t loc true) /\
  snd (vstep cf w objs (Final 0 (Some o) t loc true) s) = Err e.
Proof. exact final_ids. Qed.
Print Assumptions C35_type_ids_refuted.
