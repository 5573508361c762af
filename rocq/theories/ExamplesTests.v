(* The tests of the project, run on the model: what /repo/test expects of the code, the
   model does.  These are tests of the model, not proofs about the code. *)
From stdpp Require Import base list numbers.
From Verif Require Import Base Registry ModelClasses ModelMethods ModelSlots ModelTables ModelHash
  ModelWorld ModelCall ModelUseClasses ModelStaticList ModelPolicies ModelSignature ModelCasts ModelVirtualPtr
  ModelInplace ExamplesModel.

Global Instance arg_eq_dec : EqDecision arg.
Proof. solve_decision. Defined.
Global Instance error_eq_dec : EqDecision error.
Proof. solve_decision. Defined.

(* A program: each class with its direct bases, the lists given to use_classes, the methods.
   [rev]: the elements of std::tuple are constructed from the last to the first, as libstdc++
   does. *)
Section Program.
  Context (direct : list (N * list N)).
  Fixpoint is_base (fuel : nat) (b c : N) : bool :=
    match fuel with
    | 0 => false
    | S fuel =>
        if decide (b = c) then true
        else existsb (fun e => if decide (fst e = c) then existsb (is_base fuel b) (snd e) else false) direct
    end.
  Definition classes_of (backwards : bool) (lists : list (list N)) : list class_record :=
    flat_map (fun cs =>
      let crs := use_classes (is_base 9) (fun _ => false) N.to_nat (fun _ c => c) 0 cs in
      if backwards then reverse crs else crs) lists.
End Program.

Definition same (l l' : list N) : bool :=
  bool_decide (length l = length l') && forallb (fun x => bool_decide (x ∈ l')) l
    && forallb (fun x => bool_decide (x ∈ l)) l'.
Definition types_at (g : graph) (l : list nat) : list N :=
  flat_map (fun i => match g_classes g !! i with Some e => take 1 (ce_type_ids e) | None => [] end) l.
(* Class, direct_bases, direct_derived, transitive_derived. *)
Definition lattice_is (direct : list (N * list N)) (lists : list (list N))
    (expected : list (N * list N * list N * list N)) : bool :=
  forallb (fun backwards =>
    match augment_classes env0 (classes_of direct backwards lists) with
    | Ok g => forallb (fun '(c, db, dd, td) =>
        match g_map g c with
        | Some i => same (types_at g (g_db g i)) db && same (types_at g (g_dd g i)) dd
                      && same (types_at g (g_td g i)) td
        | None => false
        end) expected
    | _ => false
    end) [false; true].

(* test_compiler.cpp:97-144: Base 1, D1 2, D2 3, D3 4, D4 5, D5 6. *)
Example test_use_classes_linear :
  lattice_is [(2, [1]); (3, [2]); (4, [3]); (5, [4]); (6, [5])]%N
    [[1; 2; 3; 4]; [3; 4]; [4; 5]; [5; 6; 4]]%N
    [(1, [], [2], [1; 2; 3; 4; 5; 6]); (2, [1], [3], [2; 3; 4; 5; 6]); (3, [2], [4], [3; 4; 5; 6]);
     (4, [3], [5], [4; 5; 6])]%N = true.
Proof. vm_compute. reflexivity. Qed.
Example test_use_classes_linear_d4 :
  lattice_is [(2, [1]); (3, [2]); (4, [3]); (5, [4]); (6, [5])]%N
    [[1; 2; 3; 4]; [3; 4]; [4; 5]; [5; 6; 4]]%N [(5, [4], [6], [5; 6])]%N = true.
Proof. vm_compute. reflexivity. Qed.

(* test_compiler.cpp:146-204: A 1, B 2, AB 3, C 4, D 5, E 6. *)
Example test_use_classes_diamond :
  lattice_is [(3, [1; 2]); (4, [3]); (5, [2]); (6, [5])]%N [[1; 2; 3; 4; 5; 6]]%N
    [(1, [], [3], [1; 3; 4]); (2, [], [3; 5], [2; 3; 4; 5; 6]); (3, [1; 2], [4], [3; 4]);
     (4, [3], [], [4]); (5, [2], [6], [5; 6]); (6, [5], [], [6])]%N = true.
Proof. vm_compute. reflexivity. Qed.

(* One method per class in [ms]; the slots of the methods; class, first_slot if it is tested,
   and the size of its v-table. *)
Definition slots_are (direct : list (N * list N)) (lists : list (list N)) (ms : list N)
    (slots : list (list nat)) (sizes : list (N * option nat * nat)) : bool :=
  forallb (fun backwards =>
    let R := Registrations (classes_of direct backwards lists)
               (imap (fun i c => mth (N.of_nat i) [c] []) ms) in
    match compile env0 false R with
    | Ok cp =>
        bool_decide (imap (fun i m => method_slots (cp_slots cp) i m) (cp_methods cp) = slots) &&
        forallb (fun '(c, first, size) =>
          match g_map (cp_graph cp) c with
          | Some i => bool_decide (length (s_vtbl (cp_slots cp) i) = size) &&
              match first with Some f => bool_decide (s_first (cp_slots cp) i = f) | None => true end
          | None => false
          end) sizes
    | _ => false
    end) [false; true].

(* test_compiler.cpp:223-250 *)
Example test_assign_slots_a_b1_c :
  slots_are [(2, [1]); (3, [1])]%N [[1]; [1; 2]; [1; 3]]%N [2]%N [[0]]
    [(1%N, None, 0); (2%N, None, 1); (3%N, None, 0)] = true.
Proof. vm_compute. reflexivity. Qed.
(* test_compiler.cpp:252-286 *)
Example test_assign_slots_a1_b1_c1 :
  slots_are [(2, [1]); (3, [1])]%N [[1]; [1; 2]; [1; 3]]%N [1; 2; 3]%N [[0]; [1]; [1]]
    [(1%N, None, 1); (2%N, None, 2); (3%N, None, 2)] = true.
Proof. vm_compute. reflexivity. Qed.
(* test_compiler.cpp:288-332 *)
Example test_assign_slots_a1_b1_d1_c1_d1 :
  slots_are [(2, [1]); (3, [1]); (4, [2; 3])]%N [[1]; [1; 2]; [1; 3]; [4; 2; 3]]%N [1; 2; 3; 4]%N
    [[0]; [1]; [3]; [2]] [(1%N, None, 1); (2%N, None, 2); (3%N, None, 4); (4%N, None, 4)] = true.
Proof. vm_compute. reflexivity. Qed.
(* test_compiler.cpp:334-394: E is 5. *)
Example test_assign_slots_a1_b1_d1_c1_d1_e2 :
  slots_are [(2, [1]); (3, [1]); (5, [3]); (4, [2; 3])]%N [[1]; [1; 2]; [1; 3]; [3; 5]; [4; 2; 3]]%N
    [1; 2; 3; 4; 5; 5; 5]%N [[0]; [1]; [3]; [2]; [1]; [2]; [4]]
    [(1%N, None, 1); (2%N, None, 2); (3%N, None, 4); (4%N, None, 4); (5%N, None, 5)] = true.
Proof. vm_compute. reflexivity. Qed.
(* test_compiler.cpp:396-432 *)
Example test_assign_slots_a1_c1_b1 :
  slots_are [(3, [1; 2])]%N [[1]; [2]; [1; 2; 3]]%N [1; 2; 3]%N [[0]; [2]; [1]]
    [(1%N, None, 1); (3%N, None, 3); (2%N, Some 2, 1)] = true.
Proof. vm_compute. reflexivity. Qed.

(* A program that is initialized, in both orders of the tuples. *)
Definition initialized (n2216 : bool) (direct : list (N * list N)) (lists : list (list N))
    (ms : list method_record) (cf : config) (backwards : bool) : world * outcome method_report :=
  initialize cf run0 n2216 (Registrations (classes_of direct backwards lists) ms) world0.
(* [test] holds of the state and the report in either order, with fast_perfect_hash and with
   vptr_map. *)
Definition always (n2216 : bool) (direct : list (N * list N)) (lists : list (list N))
    (ms : list method_record) (test : config -> world -> method_report -> bool) : bool :=
  forallb (fun cf => forallb (fun backwards =>
    match initialized n2216 direct lists ms cf backwards with
    | (w, Ok r) => test cf w r
    | _ => false
    end) [false; true]) [Config VptrVector true false true; Config VptrMap false false true].
Definition calls (cf : config) (w : world) (m : method_record) (args : list arg) (f : N) : bool :=
  match call cf w 0 m args with Ok (Calls g) => bool_decide (f = g) | _ => false end.
Definition throws (cf : config) (w : world) (m : method_record) (args : list arg) (e : error -> bool) : bool :=
  match call cf w 0 m args with Err x => e x | _ => false end.
Definition fails (n2216 : bool) (direct : list (N * list N)) (lists : list (list N))
    (ms : list method_record) (e : error -> bool) : bool :=
  forallb (fun backwards =>
    match initialized n2216 direct lists ms cf0 backwards with (_, Err x) => e x | _ => false end) [false; true].

(* test_dispatch.cpp:60-86: Animal 1, Dog 2, Cat 3. *)
Definition pets : list (N * list N) := [(2, [1]); (3, [1])]%N.
Definition name : method_record := mth 1 [1]%N [ovr [3] 11; ovr [2] 12]%N.
Example cast_args_lvalue_refs :
  always false pets [[1; 2; 3]]%N [name] (fun cf w _ =>
    calls cf w name [AObject 2] 12 && calls cf w name [AObject 3] 11)%N = true.
Proof. vm_compute. reflexivity. Qed.

(* test_dispatch.cpp:275-351: matrix 1, dense_matrix 2, diagonal_matrix 3, double 90. *)
Definition matrices : list (N * list N) := [(2, [1]); (3, [1])]%N.
Definition times : method_record := mth 1 [1; 1]%N [ovr [1; 1] 11; ovr [3; 3] 12]%N.
Definition times_left : method_record := mth 2 [1]%N [ovr [1] 21; ovr [3] 22]%N.
Definition times_right : method_record := mth 3 [1]%N [ovr [3] 31; ovr [1] 32]%N.
Example simple :
  always false matrices [[1; 2; 3]]%N [times; times_left; times_right] (fun cf w r =>
    bool_decide (rp_ni r = 0 /\ rp_amb r = 0)%nat &&
    calls cf w times [AObject 2; AObject 2] 11 && calls cf w times [AObject 3; AObject 3] 12 &&
    calls cf w times [AObject 3; AObject 2] 11 &&
    calls cf w times_left [AOther 90; AObject 2] 21 && calls cf w times_right [AObject 2; AOther 90] 32 &&
    calls cf w times_right [AObject 3; AOther 90] 31 &&
    (* the second member of the pairs, [next] *)
    forallb (fun '(i, f) => bool_decide (w_next w (N.to_nat i) = Some f))
      [(11, 1001); (12, 11); (21, 1002); (22, 21); (31, 32); (32, 1003)])%N = true.
Proof. vm_compute. reflexivity. Qed.
(* finalize() empties the vector (335-346). *)
Example simple_finalize :
  forallb (fun backwards =>
    match initialized false matrices [[1; 2; 3]]%N [times; times_left; times_right] cf0 backwards with
    | (w, Ok _) => bool_decide (w_vec w <> []) && bool_decide (w_vec (finalize cf0 w) = [])
    | _ => false
    end) [false; true] = true.
Proof. vm_compute. reflexivity. Qed.

(* test_dispatch.cpp:353-391: Animal 1, Dog 2, Bulldog 3. *)
Definition dogs : list (N * list N) := [(2, [1]); (3, [2])]%N.
Definition bark : method_record := mth 1 [1]%N [ovr [2] 11; ovr [3] 12]%N.
Example test_next_fn :
  always false dogs [[1; 2; 3]]%N [bark] (fun cf w _ =>
    calls cf w bark [AObject 2] 11 && calls cf w bark [AObject 3] 12 &&
    bool_decide (w_next w 12%nat = Some 11))%N = true.
Proof. vm_compute. reflexivity. Qed.

(* test_n2216.cpp:25-62: the overriders return dense_matrix and matrix. *)
Definition covariant : method_record :=
  MethodRecord [1; 1]%N 1%N [OverriderRecord [2; 1]%N 2%N 11%N 11; OverriderRecord [1; 2]%N 1%N 12%N 12] 1001%N 2001%N 1.
Example covariant_return_type :
  always true [(2, [1])]%N [[1; 2]]%N [covariant] (fun cf w r =>
    bool_decide (rp_amb r = 0)%nat && calls cf w covariant [AObject 2; AObject 2] 11)%N = true.
Proof. vm_compute. reflexivity. Qed.
(* test_n2216.cpp:64-101: the return types are not classes. *)
Definition any : method_record := mth 1 [1; 1]%N [ovr [1; 1] 11; ovr [2; 1] 12; ovr [1; 2] 13]%N.
Example pick_any_ambiguous :
  always true [(2, [1])]%N [[1; 2]]%N [any] (fun cf w r =>
    bool_decide (rp_amb r = 1)%nat && calls cf w any [AObject 2; AObject 2] 13 &&
    bool_decide (w_next w 13%nat = Some 11%N))%N = true.
Proof. vm_compute. reflexivity. Qed.

(* test_runtime_errors.cpp:58-274 *)
Example no_initialization :
  acquire_vptr cf0 world0 3 = Err ENotInitialized /\
  resolve cf0 world0 (mth 1 [1]%N [ovr [3] 11]%N) [APtr VNull 3] = Err ENotInitialized /\
  require_initialized (Config VptrVector true false false) world0 = Ok tt.
Proof. vm_compute. auto. Qed.
(* 98-118: no class is registered. *)
Example initialize_unknown_class :
  fails false [] [] [mth 1 [1]%N [ovr [1] 11]%N]
    (fun e => bool_decide (e = EMissingClass 1)) = true.
Proof. vm_compute. reflexivity. Qed.
(* 123-146: dense_matrix is not registered. *)
Definition transpose : method_record := mth 1 [1]%N [ovr [1] 11]%N.
Example call_unknown_class :
  always false matrices [[1; 3]]%N [transpose] (fun cf w _ =>
    throws cf w transpose [AObject 2] (fun e => bool_decide (e = EMissingClass 2))) = true.
Proof. vm_compute. reflexivity. Qed.
(* 151-207 *)
Definition partly : method_record := mth 1 [1; 1]%N [ovr [1; 3] 11; ovr [3; 1] 12]%N.
Example bad_call :
  always false matrices [[1; 2; 3]]%N [partly] (fun cf w r =>
    bool_decide (rp_ni r = 1 /\ rp_amb r = 1)%nat &&
    throws cf w partly [AObject 1; AObject 1]
      (fun e => match e with ENoOverrider _ _ _ => true | _ => false end) &&
    throws cf w partly [AObject 3; AObject 3]
      (fun e => bool_decide (e = EAmbiguousCall 0 2 (types_of [3; 3]%N)))) = true.
Proof. vm_compute. reflexivity. Qed.
(* 215-243: virtual_ptrs, and no overrider. *)
Definition bare : method_record := mth 1 [1; 1]%N [].
Example bad_call_type_ids_smart_ptr :
  always false matrices [[1; 2; 3]]%N [bare] (fun cf w _ =>
    let p := APtr (w_static w 3) 3 in
    throws cf w bare [p; p] (fun e => bool_decide (e = ENoOverrider 0 2 (types_of [3; 3]%N)))) = true.
Proof. vm_compute. reflexivity. Qed.

(* test_class_registration.cpp:25-83: Animal 1, Dog 2, Bulldog 3. *)
Definition pat : method_record := mth 1 [1]%N [ovr [2] 11]%N.
Example unknown_class_overrider :
  fails false dogs [[1]]%N [pat] (fun e => bool_decide (e = EMissingClass 2)) = true.
Proof. vm_compute. reflexivity. Qed.
Example missing_base_class :
  fails false dogs [[1]; [2]]%N [pat] (fun e => match e with EMissingBase _ _ => true | _ => false end) = true.
Proof. vm_compute. reflexivity. Qed.
Example unknown_class_call :
  always false dogs [[1; 2]]%N [pat] (fun cf w _ =>
    throws cf w pat [AObject 3] (fun e => bool_decide (e = EMissingClass 3))) = true.
Proof. vm_compute. reflexivity. Qed.

(* test_rolex.cpp (which only initializes): Role 1, Employee 2, Manager 3, Founder 4,
   Expense 5, Public 6, Bus 7, Metro 8, Taxi 9, PrivateJet 10. *)
Definition rolex : list (N * list N) :=
  [(2, [1]); (3, [2]); (4, [1]); (6, [5]); (7, [6]); (8, [6]); (9, [5]); (10, [5])]%N.
Definition pay : method_record := mth 1 [2]%N [ovr [2] 11; ovr [3] 12]%N.
Definition approve : method_record :=
  mth 2 [1; 5]%N [ovr [1; 5] 21; ovr [2; 6] 22; ovr [3; 9] 23; ovr [4; 5] 24]%N.
Example approvals :
  always false rolex [[1; 2; 3; 4; 5; 6; 7; 8; 9; 10]]%N [pay; approve] (fun cf w r =>
    bool_decide (rp_ni r = 0 /\ rp_amb r = 0)%nat &&
    calls cf w pay [AObject 2] 11 && calls cf w pay [AObject 3] 12 &&
    bool_decide (w_next w 12%nat = Some 11%N) &&
    forallb (fun '(a, b, f) => calls cf w approve [AObject a; AObject b; AOther 90] f)
      [(2, 7, 22); (2, 9, 21); (3, 9, 23); (3, 8, 22); (4, 10, 24); (3, 10, 21); (1, 6, 21)])%N = true.
Proof. vm_compute. reflexivity. Qed.

(* test_virtual_ptr_dispatch.cpp:210-294: Player 1, Warrior 2, Object 3, Axe 4, Bear 5. *)
Definition growl : method_record := mth 1 [1]%N [ovr [1] 11]%N.
Definition kill_bear : method_record := mth 2 [1; 3; 1]%N [ovr [1; 3; 1] 21]%N.
Example test_virtual_ptr_dispatch :
  always false [(2, [1]); (4, [3]); (5, [1])]%N [[1; 2; 3; 4; 5]]%N [growl; kill_bear] (fun cf w _ =>
    let p t := match acquire_vptr cf w t with
               | Ok r => [APtr (vref_value w r) t] | _ => [] end in
    calls cf w growl (p 5) 11 && calls cf w kill_bear (p 2 ++ p 4 ++ p 5) 21 &&
    (* virtual_ptr(bear).vptr() == static_vptr<Bear> *)
    bool_decide (p 5 = [APtr (w_static w 5%nat) 5]))%N = true.
Proof. vm_compute. reflexivity. Qed.

(* test_static_list.cpp:18-101: a 1, b 2, c 3, d 4. *)
Definition list_is (ops : list list_op) (l : list nat) : bool :=
  match list_run 9 ops links0 with
  | Ok s => match elements 9 0 s with Ok l' => bool_decide (l = l') | _ => false end
  | _ => false
  end.
Example test_list :
  let ops := [LPush 0 1; LPush 0 2; LPush 0 3; LRemove 0 3; LPush 0 3; LPush 0 4; LRemove 0 1;
              LRemove 0 2; LRemove 0 3; LRemove 0 4] in
  forallb (fun '(n, l) => list_is (take n ops) l)
    [(0, []); (1, [1]); (2, [1; 2]); (3, [1; 2; 3]); (4, [1; 2]); (5, [1; 2; 3]); (6, [1; 2; 3; 4]);
     (7, [2; 3; 4]); (8, [3; 4]); (9, [4]); (10, [])] = true.
Proof. vm_compute. reflexivity. Qed.

(* test_policies.cpp:41-63: categories foo 10, bar 20; foo1 11, foo2 12, bar1 21, bar2 22. *)
Definition category (p : N) : N := (p / 10 * 10)%N.
Definition is_base_policy (b p : N) : bool := bool_decide (b = p \/ b = category p).
Example test_policies :
  with_ is_base_policy category [] [11]%N = [11]%N /\
  with_ is_base_policy category [11]%N [12]%N = [12]%N /\
  with_ is_base_policy category [11; 21]%N [12; 22]%N = [12; 22]%N /\
  with_ is_base_policy category [11; 21]%N [22; 12]%N = [12; 22]%N /\
  without is_base_policy category [11; 21]%N [20]%N = [11]%N.
Proof. vm_compute. auto. Qed.

(* test_core.cpp:241-257: inheritance_map; Animal 1, Dog 2, Bulldog 3, Cat 4, Dolphin 5. *)
Example test_inheritance_map :
  inheritance_map (is_base [(2, [1]); (3, [2]); (4, [1]); (5, [1])]%N 9) [1; 2; 3; 4; 5]%N =
    [(1, [1]); (2, [1; 2]); (3, [1; 2; 3]); (4, [1; 4]); (5, [1; 5])]%N.
Proof. vm_compute. reflexivity. Qed.

(* Parameter types.  Animal, base or a: 1; Cat, Dog, d: 2; f 3; c 4; b 5; e 6; an Animal that
   is not polymorphic: 7.  The default registry is 0. *)
Definition polymorphic (t : ty) : bool := bool_decide (t <> TyName 7).
Definition base_of (b d : ty) : bool := bool_decide (b = d \/ (b = TyName 1 /\ d = TyName 2)).
(* virtual_ptr<D> converts to virtual_ptr<B>. *)
Definition convertible (p q : ty) : bool :=
  match p, q with
  | TyVptr c r, TyVptr b r' => bool_decide (r = r') && base_of (element_type b) (element_type c)
  | _, _ => false
  end.
Definition refused (ps qs : list ty) : bool := negb (overrider_compiles 0 base_of convertible ps qs).
Definition method_refused (r : N) (ps : list ty) : bool := negb (method_compiles r polymorphic ps).
Notation A := (TyName 1).
Notation D := (TyName 2).
Definition vptr_to (t : ty) : ty := TyVptr t 0.
Definition cref (t : ty) : ty := TyLRef (TyConst t).
Definition os : ty := TyLRef (TyName 90).

Example compile_fail :
  (* compile_fail_non_polymorphic_virtual_parameter.cpp *)
  method_refused 0 [TyVirtual (TyLRef (TyName 7))] &&
  (* compile_fail_virtual_parameter_to_value.cpp *)
  method_refused 0 [TyVirtual A] &&
  (* compile_fail_virtual_ptr_different_registries.cpp *)
  method_refused 5 [vptr_to A] &&
  (* compile_fail_virtual_ptr_shared_not_const.cpp *)
  method_refused 0 [TyLRef (vptr_to (TyShared A))] &&
  (* compile_fail_virtual_ptr_other.cpp *)
  refused [vptr_to A] [TyLRef D] &&
  (* compile_fail_virtual_ptr_ref_to_value.cpp *)
  refused [cref (vptr_to A)] [vptr_to D] &&
  (* compile_fail_virtual_ptr_value_to_ref.cpp *)
  refused [vptr_to A] [cref (vptr_to D)] = true.
Proof. vm_compute. reflexivity. Qed.
(* compile_fail_virtual_parameter_private_base_core.cpp: virtual_ptr<Cat> does not convert to
   virtual_ptr<Animal>. *)
Example compile_fail_private_base :
  overrider_compiles 0 base_of (fun _ _ => false) [vptr_to A] [vptr_to D] = false.
Proof. vm_compute. reflexivity. Qed.

(* The methods and overriders of test_dispatch.cpp, test_virtual_ptr_dispatch.cpp,
   test_runtime_errors.cpp and test_rolex.cpp, which compile. *)
Example compile :
  forallb (fun '(ps, qs) => method_compiles 0 polymorphic ps && negb (refused ps qs))
    [([TyVirtual (cref A)], [cref D]);
     ([TyVirtual (TyRRef A)], [TyRRef D]);
     ([TyVirtual (TyPtr (TyConst A))], [TyPtr (TyConst D)]);
     ([TyVirtual (TyShared (TyConst A))], [TyShared (TyConst D)]);
     ([TyVirtual (cref (TyShared (TyConst A)))], [cref (TyShared (TyConst D))]);
     ([TyVirtual (TyUnique A)], [TyUnique D]);
     ([TyVirtual (cref A); TyVirtual (cref A)], [cref A; cref A]);
     ([TyName 90; TyVirtual (cref A)], [TyName 90; cref D]);
     ([TyVirtual (TyLRef A)], [TyLRef D]);
     ([cref (vptr_to A); os], [cref (vptr_to D); os]);
     ([vptr_to A; os], [vptr_to D; os]);
     ([cref (vptr_to (TyShared A)); os], [cref (vptr_to (TyShared D)); os]);
     ([vptr_to (TyUnique A); os], [vptr_to (TyUnique D); os]);
     ([vptr_to A], [vptr_to A]);
     ([vptr_to (TyShared A)], [vptr_to (TyShared A)])] = true.
Proof. vm_compute. reflexivity. Qed.

(* test_core.cpp:24-140 *)
Example test_virtual_types :
  virtual_type 0 (TyLRef A) = Some A /\ virtual_type 0 (cref A) = Some A /\
  virtual_type 0 (TyRRef A) = Some A /\
  filter (fun t => is_virtual t = true) [TyVirtual (TyLRef A); TyName 5; TyVirtual (TyLRef (TyName 4))] =
    [TyVirtual (TyLRef A); TyVirtual (TyLRef (TyName 4))] /\
  remove_virtual (TyVirtual (TyLRef A)) = TyLRef A /\
  virtual_type 0 (TyShared A) = Some A /\ virtual_type 0 (vptr_to A) = Some A /\
  select_overrider_virtual_type 0 (vptr_to A) (vptr_to D) = Some D /\
  overrider_virtual_types 0 [TyVirtual (TyLRef A); TyName 5; TyVirtual (TyLRef (TyName 4))]
    [TyLRef D; TyName 6; TyLRef (TyName 3)] = [D; TyName 3] /\
  overrider_virtual_types 0 [vptr_to A; TyName 5; vptr_to (TyName 4)]
    [vptr_to D; TyName 6; vptr_to (TyName 3)] = [D; TyName 3] /\
  overrider_virtual_types 0 [cref (vptr_to A); TyName 5; cref (vptr_to A)]
    [cref (vptr_to D); TyName 6; cref (vptr_to (TyName 3))] = [D; TyName 3] /\
  overrider_virtual_types 0 [TyVirtual (TyShared A); TyName 5; TyVirtual (TyShared (TyName 4))]
    [TyShared D; TyName 6; TyShared (TyName 3)] = [D; TyName 3] /\
  virtual_type 0 (TyUnique A) = Some A.
Proof. vm_compute. repeat split. Qed.
(* test_core.cpp:148-154 *)
Example test_init_type_ids :
  method_ids 0 (fun t => match t with TyName n => n | _ => 99%N end) 98
    [TyVirtual (TyLRef A); TyVirtual (TyLRef (TyName 5))] = Ok [1; 5]%N.
Proof. vm_compute. reflexivity. Qed.

(* ---- virtual_ptr: test_virtual_ptr_value_semantics.cpp, test_smart_virtual_ptr_value_semantics.cpp,
   test_shared_virtual_ptr_value_semantics.cpp, test_unique_virtual_ptr_value_semantics.cpp.
   Animal 1, Cat 2, Dog 3; in the four registries of test_virtual_ptr_value_semantics.hpp:62-73. ---- *)
Definition test_registries : list config :=
  [Config VptrVector true false true; Config VptrVector true true true;
   Config VptrMap false false true; Config VptrMap false true true].
Definition anything : method_record := mth 1 [1]%N [].
Definition in_registries (test : config -> world -> bool) : bool :=
  forallb (fun cf => forallb (fun backwards =>
    match initialized false pets [[1; 2; 3]]%N [anything] cf backwards with
    | (w, Ok _) => test cf w
    | _ => false
    end) [false; true]) test_registries.
(* Objects 0 snoopy and 1 hector, which are Dogs; 2 felix, a Cat. *)
Definition things (o : nat) : object := Object (if decide (o = 2) then 2%N else 3%N) None.
Definition nothing : vstate := VState (fun _ => VUninit) (fun _ => None).
Fixpoint perform (cf : config) (w : world) (ops : list vop) (s : vstate) : option vstate :=
  match ops with
  | [] => Some s
  | op :: ops =>
      match vstep cf w things op s with (s', Ok _) => perform cf w ops s' | _ => None end
  end.
(* After the operations: get() and vptr() of the variables. *)
Definition gives (cf : config) (w : world) (ops : list vop) (expected : list (nat * option nat)) : bool :=
  match perform cf w ops nothing with
  | Some s => forallb (fun '(x, p) =>
      match read_var s x with
      | Ok (obj, vp) =>
          bool_decide (obj = p) &&
          match unbox_vptr w vp with
          | Ok v => bool_decide (v = match p with
                                     | Some o => w_static w (N.to_nat (ob_type (things o)))
                                     | None => VNull end)
          | _ => false
          end
      | _ => false
      end) expected
  | None => false
  end.
Definition all_give (ops : list vop) (expected : list (nat * option nat)) : bool :=
  in_registries (fun cf w => gives cf w ops expected).

(* test_virtual_ptr_value_semantics.cpp:33-255 *)
Example virtual_ptr_value_semantics :
  forallb (fun '(ops, e) => all_give ops e)
    [([PlainNull 0], [(0, None)]);
     ([PlainFromRef 0 0 false], [(0, Some 0)]);
     ([PlainFromRef 0 0 false; PlainAssignRef 0 1 false], [(0, Some 1)]);
     ([PlainFromRef 0 0 false; PlainAssignRef 0 2 false], [(0, Some 2)]);
     ([PlainFromPtr 0 (Some 0) false], [(0, Some 0)]);
     ([PlainFromPtr 0 (Some 0) false; PlainAssignPtr 0 (Some 1) false], [(0, Some 1)]);
     ([PlainFromPtr 0 (Some 0) false; PlainAssignPtr 0 (Some 2) false], [(0, Some 2)]);
     ([Final 0 (Some 0) 3 3 true], [(0, Some 0)]);
     (* a plain virtual_ptr has no move constructor *)
     ([PlainFromRef 0 0 false; PlainCopy 1 0], [(1, Some 0); (0, Some 0)]);
     ([PlainDefault 0; PlainAssignRef 0 0 false], [(0, Some 0)]);
     ([PlainDefault 0; PlainAssignPtr 0 (Some 0) false], [(0, Some 0)]);
     ([PlainFromRef 0 0 false; PlainAssignNull 0], [(0, None)])] = true.
Proof. vm_compute. reflexivity. Qed.

(* test_smart_virtual_ptr_value_semantics.cpp:121-348, with shared_ptr and intrusive_ptr;
   test_shared_virtual_ptr_value_semantics.cpp.  Smart pointers 0 snoopy, 1 hector, 2 felix,
   3 null. *)
Definition owners : list vop :=
  [SmartPtrSet 0 (Some 0); SmartPtrSet 1 (Some 1); SmartPtrSet 2 (Some 2); SmartPtrSet 3 None].
Example smart_pointer_value_semantics :
  forallb (fun '(ops, e) => all_give (owners ++ ops) e)
    [([SmartNull 0], [(0, None)]);
     ([SmartFrom 0 0 false], [(0, Some 0)]);
     ([SmartFrom 0 0 false; SmartAssign 0 0], [(0, Some 0)]);
     ([SmartFrom 0 0 false; SmartAssign 0 0; SmartAssignFrom 0 1 false], [(0, Some 1)]);
     ([SmartFrom 0 0 false; SmartAssignFrom 0 2 false], [(0, Some 2)]);
     ([SmartFrom 0 0 false; SmartCopy 1 0], [(1, Some 0); (0, Some 0)]);
     ([SmartFrom 0 0 false; SmartMove 1 0], [(1, Some 0); (0, None)]);
     ([SmartFromMove 0 3 false], [(0, None)]);
     ([SmartNull 0; SmartAssignFrom 0 0 false], [(0, Some 0)]);
     ([SmartFromMove 0 0 false; SmartAssignNull 0], [(0, None)]);
     ([SmartFromMove 0 0 false; SmartAssignFromMove 0 3 false], [(0, None)]);
     (* casts, 361-440 *)
     ([SmartFrom 0 0 false; SmartCast 1 0 CStatic true], [(1, Some 0); (0, Some 0)]);
     ([SmartFrom 0 2 false; SmartCast 1 0 CDynamic true], [(1, Some 2); (0, Some 2)])] = true.
Proof. vm_compute. reflexivity. Qed.
Definition sptr_after (ops : list vop) (q : nat) (p : option nat) : bool :=
  in_registries (fun cf w =>
    match perform cf w (owners ++ ops) nothing with
    | Some s => bool_decide (vs_sptrs s q = p)
    | None => false
    end).
(* test_unique_virtual_ptr_value_semantics.cpp:34-153, 247-260.  Dog 3 is cast by reference,
   Cat 2 (a virtual base) dynamically. *)
Example unique_virtual_ptr_value_semantics :
  forallb (fun '(ops, e) => all_give (owners ++ ops) e)
    [([SmartNull 0], [(0, None)]);
     ([SmartFromMove 0 0 false], [(0, Some 0)]);
     ([SmartNull 0; SmartAssignFromMove 0 0 false], [(0, Some 0)]);
     ([SmartFromMove 0 0 false; SmartMove 1 0], [(1, Some 0); (0, None)]);
     ([SmartFromMove 0 3 false], [(0, None)]);
     ([SmartFromMove 0 0 false; SmartAssignNull 0], [(0, None)]);
     ([SmartFromMove 0 0 false; SmartAssignFromMove 0 3 false], [(0, None)]);
     ([SmartFromMove 0 0 false; SmartCastMove 1 0 CReference true true], [(1, Some 0)]);
     ([SmartFromMove 0 2 false; SmartCastMove 1 0 CReference true true], [(1, Some 2)])] = true /\
  sptr_after [SmartFrom 0 0 false] 0 (Some 0) = true /\
  sptr_after [SmartFromMove 0 0 false] 0 None = true /\
  (* base.get() == nullptr after the cast *)
  in_registries (fun cf w =>
    match perform cf w (owners ++ [SmartFromMove 0 0 false; SmartCastMove 1 0 CReference true true]) nothing with
    | Some s => match read_var s 0 with Ok (None, _) => true | _ => false end
    | None => false
    end) = true.
Proof. vm_compute. auto. Qed.

(* test_virtual_ptr_value_semantics.cpp:262-296: initialize() again, with one more class. *)
Example indirect_virtual_ptr :
  in_registries (fun cf w =>
    match perform cf w [PlainFromRef 0 0 false] nothing,
          initialize cf run0 false
            (Registrations (classes_of ((4, [1]) :: pets)%N false [[1; 2; 3]; [1; 4]]%N) [anything]) w with
    | Some s, (w', Ok _) =>
        match read_var s 0 with
        | Ok (_, vp) =>
            match unbox_vptr w' vp with
            | Ok v => bool_decide ((v = w_static w' 3) <-> cf_indirect cf = true)
            | _ => false
            end
        | _ => false
        end
    | _, _ => false
    end) = true.
Proof. vm_compute. reflexivity. Qed.

(* test_virtual_ptr_value_semantics.cpp:298-331: virtual_ptr<Animal>::final(dog). *)
Example virtual_ptr_final_error :
  in_registries (fun cf w =>
    match snd (vstep cf w things (Final 0 (Some 0) 1 1 true) nothing) with
    | Err e => bool_decide (e = EFinal 1 3)
    | _ => false
    end) = true.
Proof. vm_compute. reflexivity. Qed.

(* test_core.cpp:297-300: boost_openmethod_vptr of the program. *)
Example vptr_from_function :
  forallb (fun cf =>
    match initialized false [] [] [] cf false with
    | (w, Ok _) =>
        match acquire cf w true (Object 1 (Some (BValue (VPtr 77 0)))) with
        | Ok (FromTemp v) => bool_decide (v = VPtr 77 0)
        | _ => false
        end
    | _ => false
    end) test_registries = true.
Proof. vm_compute. reflexivity. Qed.

(* test_core.cpp:170-235: Animal 1, Mammal 2, Carnivore 3, Dog 4; the casts of a Dog. *)
Definition zoo : hierarchy := [(4, [(2, false); (3, false)]); (3, [(1, true)]); (2, [(1, true)]); (1, [])]%N.
Example casts :
  forallb (fun '(b, s, d, s') =>
      match cast_part ByReference zoo 4 b d s with Ok (Some x) => bool_decide (x = s') | _ => false end)
    [(1, [1], 2, [4; 2]); (1, [1], 3, [4; 3]); (1, [1], 4, [4]); (2, [4; 2], 4, [4]); (3, [4; 3], 4, [4])]%N
  = true.
Proof. vm_compute. reflexivity. Qed.

(* test_inplace_vptr.cpp: Animal 1, Cat 2, Pet 3, DomesticCat 4; overriders of speak 11 (Animal)
   and 12 (Cat), of describe 21 (Pet) and 22 (DomesticCat), of cat_influencer 31.  What the
   bodies of the constructors and destructors call. *)
Definition felix : class := Class 4 false [Class 2 false [Class 1 false []]; Class 3 false []].
Definition cats : list (N * list N) := [(2, [1]); (4, [2; 3])]%N.
Definition speak : method_record := mth 1 [1]%N [ovr [1] 11; ovr [2] 12]%N.
Definition describe : method_record := mth 2 [3]%N [ovr [3] 21; ovr [4] 22]%N.
Definition influencer : method_record := mth 3 [4]%N [ovr [4] 31]%N.
Definition called (cf : config) (w : world) (m : memory) (p : loc) (c : class) (mr : method_record) : N :=
  match vptr_fn cf w m p c with
  | Ok v => match call cf w 0 mr [APtr v (cname c)] with Ok (Calls f) => f | _ => 0 end
  | _ => 0
  end%N.
Definition said (cf : config) (w : world) (e : event) : N :=
  let mr := if decide (cname (ev_class e) ∈ [1; 2]%N) then speak else describe in
  (* describe takes a Pet: the second base of a DomesticCat *)
  if decide (cname (ev_class e) = 4%N)
  then called cf w (ev_memory e) (base_at (ev_at e) (Class 3 false [])) (Class 3 false []) mr
  else called cf w (ev_memory e) (ev_at e) (ev_class e) mr.
Example intrusive_mode :
  forallb (fun indirect => forallb (fun backwards =>
    let cf := Config VptrNone false indirect true in
    match initialized false cats [[1]; [3]; [1; 2]; [2; 3; 4]]%N [speak; describe; influencer] cf backwards with
    | (w, Ok _) =>
        let '(m, up) := construct cf w N.to_nat 0 felix (fun _ => None, []) in
        let '(_, down) := destroy cf w N.to_nat 0 felix (m, []) in
        bool_decide (map (said cf w) up = [11; 12; 21; 22] /\
                     called cf w m (base_at (complete_at 0 felix) (Class 3 false [])) (Class 3 false []) describe = 22 /\
                     called cf w m (complete_at 0 felix) felix influencer = 31 /\
                     map (said cf w) down = [22; 21; 12; 11])%N
    | _ => false
    end) [false; true]) [false; true] = true.
Proof. vm_compute. reflexivity. Qed.
(* test_inplace_vptr.cpp:195-203: static_vptr is set to null. *)
Example core_intrusive_vptr :
  let cf := Config VptrNone false true true in
  match initialized false [] [[1]]%N [mth 1 [1]%N [ovr [1] 11]%N] cf false with
  | (w, Ok _) =>
      let '(m, _) := construct cf w N.to_nat 0 (Class 1 false []) (fun _ => None, []) in
      let v w := vptr_fn cf w m (complete_at 0 (Class 1 false [])) (Class 1 false []) in
      match v w, v (World (w_heap w) (w_fresh w) (w_data w) (upd (w_static w) 1 VNull) (w_ss w) (w_next w)
                     (w_vec w) (w_ivec w) (w_map w) (w_hash w) (w_initialized w)) with
      | Ok v, Ok v' => bool_decide (v = w_static w 1 /\ v <> VNull /\ v' = VNull)
      | _, _ => false
      end
  | _ => false
  end = true.
Proof. vm_compute. reflexivity. Qed.

(* test_custom_rtti.cpp: type ids 0, 1, 2 and no type_hash; the type ids of `type_hash` are the
   addresses of strings, and deferred_type_id's are 1, 2, 3 once they are resolved. *)
Example custom_rtti_simple :
  forallb (fun '(cf, a, d, c) =>
    let m := mth 1 [a]%N [ovr [d] 11; ovr [c] 12]%N in
    match initialized false [(d, [a]); (c, [a])] [[a; d; c]] [m] cf false with
    | (w, Ok _) => calls cf w m [AObject d; AOther 90] 11 && calls cf w m [AObject c; AOther 90] 12
    | _ => false
    end)
    [(Config VptrVector false false true, 0, 1, 2); (Config VptrVector false false true, 1, 2, 3);
     (Config VptrVector true false true, 4096, 4112, 4104)]%N = true.
Proof. vm_compute. reflexivity. Qed.
