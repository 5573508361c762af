(* Concrete programs that use virtual_ptrs. *)
From stdpp Require Import base list numbers relations.
From Verif Require Import Base Registry Spec ModelClasses ModelMethods ModelTables ModelHash
  ModelWorld ModelCall SpecCall ModelLife ModelVirtualPtr SpecVirtualPtr ProofBase ProofWorld ProofLife
  ProofVptr ProofReinit ProofVirtualPtr Decide ExamplesModel ExamplesDispatch ProofFindings ExamplesVptr.

Definition isok {A} (o : outcome A) : bool := match o with Ok _ => true | _ => false end.
Definition endsb (o : outcome unit) : bool := match o with Ok _ | Err _ => true | _ => false end.

Definition final_okb (cf : config) (ti : N -> N) (R : registrations) (objs : nat -> object)
    (op : vop) : bool :=
  match op with
  | Final _ p t loc poly =>
      match first_record ti R (ti t) with
      | Some cr => bool_decide (cr_static_vptr cr = loc)
      | None => false
      end &&
      (cf_checks cf && poly ||
       match p with Some o => bool_decide (ti (ob_type (objs o)) = ti t) | None => true end)
  | _ => true
  end.

Definition op_okb (cf : config) (ti : N -> N) (R : registrations) (objs : nat -> object)
    (op : vop) (o : outcome unit) : bool :=
  endsb o && final_okb cf ti R objs op && (negb (reads_inplace op) || negb (cf_indirect cf)) &&
  (negb (assigns_lvalue op) || isok o).

Lemma op_okb_spec cf ti R objs op o : op_okb cf ti R objs op o = true -> op_ok cf ti R objs op o.
Proof.
  unfold op_okb. rewrite !andb_true_iff. intros [[[H1 H2] H3] H4]. split.
  - destruct o as [[]|e| |]; try discriminate; [left; reflexivity|right; eauto].
  - destruct op; try exact I. simpl in *. apply andb_true_iff in H2 as [Ha Hb]. split.
    + destruct (first_record ti R (ti t)) as [cr|]; [|discriminate].
      apply bool_decide_eq_true in Ha. eauto.
    + intros Hc o' ->. rewrite Hc in Hb. simpl in Hb. apply bool_decide_eq_true in Hb. exact Hb.
  - intros H. rewrite H in H3. destruct (cf_indirect cf); [discriminate|reflexivity].
  - intros H. rewrite H in H4. destruct o as [[]| | |]; try discriminate. reflexivity.
Qed.

(* ---- operations in one state ---- *)
Section Ops.
  Context (cf : config) (ti : N -> N) (R : registrations) (w : world) (objs : nat -> object)
    (Pb : vop -> bool).

  Fixpoint ops_play (ops : list vop) (s : vstate) : option vstate :=
    match ops with
    | [] => Some s
    | op :: ops =>
        let '(s', o) := vstep cf w objs op s in
        if op_okb cf ti R objs op o && Pb op then ops_play ops s' else None
    end.

  Lemma ops_play_reaches (P : vop -> Prop) ops : (forall op, Pb op = true -> P op) -> forall s s',
    reaches cf ti R w objs P s -> ops_play ops s = Some s' -> reaches cf ti R w objs P s'.
  Proof.
    intros HP. induction ops as [|op ops IH]; intros s s' Hs H; simpl in H.
    - injection H as <-. exact Hs.
    - destruct (vstep cf w objs op s) as [s1 o] eqn:Hst.
      destruct (op_okb cf ti R objs op o) eqn:Ho; [|discriminate].
      destruct (Pb op) eqn:Hp; [|discriminate]. simpl in H.
      apply (IH s1); [|exact H]. eapply reaches_step; eauto. apply op_okb_spec. exact Ho.
  Qed.
End Ops.

Definition vstate0 : vstate := VState (fun _ => VUninit) (fun _ => None).
Lemma vstate0_no_vars : no_vars vstate0.
Proof. intros x. reflexivity. Qed.

Definition ops_state (cf : config) (ti : N -> N) (R : registrations) (w : world)
    (objs : nat -> object) (Pb : vop -> bool) (ops : list vop) : vstate :=
  match ops_play cf ti R w objs Pb ops vstate0 with Some s => s | None => vstate0 end.

Lemma ops_state_reaches cf ti R w objs Pb (P : vop -> Prop) ops :
  (forall op, Pb op = true -> P op) ->
  match ops_play cf ti R w objs Pb ops vstate0 with Some _ => true | None => false end = true ->
  reaches cf ti R w objs P (ops_state cf ti R w objs Pb ops).
Proof.
  intros HP H. unfold ops_state.
  destruct (ops_play cf ti R w objs Pb ops vstate0) as [s|] eqn:E; [|discriminate].
  eapply ops_play_reaches; [exact HP|apply reaches_start, vstate0_no_vars|exact E].
Qed.

(* Objects: a chimera, a dog, a cat, and something not registered. *)
Definition objs0 (n : nat) : object :=
  match n with
  | 0 => Object 4 None | 1 => Object 2 None | 2 => Object 3 None | _ => Object 99 None
  end.

Definition ops0 : list vop :=
  [PlainFromRef 0 0 false; PlainFromPtr 1 (Some 1) false; PlainCopy 2 0; PlainAssignPtr 2 (Some 2) false;
   PlainFromRef 3 3 false (* throws *); SmartPtrSet 0 (Some 0); SmartFrom 3 0 false; SmartMove 4 3;
   SmartFromMove 5 0 false; SmartFrom 6 0 false; SmartPtrSet 0 (Some 1); SmartAssignFrom 5 0 false;
   SmartCast 7 5 CStatic true; PlainCast 8 0 true; SmartAssignMove 4 5; Final 9 (Some 2) 3 3 true;
   Final 10 (Some 2) 2 2 true (* throws *); PlainNull 11; PlainAssign 11 9; SmartAssignNull 7].

Definition s0 : vstate := ops_state cf0 id R0 w0 objs0 (fun op => negb (casts_away op)) ops0.

Lemma s0_reaches : reaches cf0 id R0 w0 objs0 (fun op => casts_away op = false) s0.
Proof.
  apply ops_state_reaches; [|by_compute]. intros op H. destruct (casts_away op); [discriminate|reflexivity].
Qed.

Definition target (s : vstate) (x : nat) : option (option nat) :=
  match vs_vars s x with VVar obj _ => Some obj | VUninit => None end.

Lemma objs0_inplace R : inplace_ok id R w0 objs0.
Proof. intros o b _ H. destruct o as [|[|[|o]]]; discriminate. Qed.

Definition calls (cf : config) (w : world) (objs : nat -> object) (s : vstate) (mid : N)
    (m : method_record) (xs : list nat) : outcome call_result :=
  let* args := mapM (var_arg w objs s) xs in call cf w mid m args.

Lemma virtual_ptr_example :
  program_ok cf0 env0 R0 /\ initialized_by cf0 run0 false R0 w0 /\ inplace_ok id R0 w0 objs0 /\
  reaches cf0 id R0 w0 objs0 (fun op => casts_away op = false) s0 /\
  map (target s0) [0; 1; 2; 3; 4; 5; 6; 7; 8; 9; 10; 11] =
    [Some (Some 0); Some (Some 1); Some (Some 2); Some None; Some (Some 1); Some None; Some None;
     Some None; Some (Some 0); Some (Some 2); None; Some (Some 2)] /\
  map (fun t => bool_decide (t ∈ map cr_type (reg_classes R0))) [4; 2; 3; 99]%N =
    [true; true; true; false] /\
  map (calls cf0 w0 objs0 s0 2 meet) [[0; 4]; [11; 1]; [2; 2]] =
    [Ok (Calls 24); Ok (Calls 21); Ok (Calls 23)]%N.
Proof.
  split; [apply R0_program|]. split; [apply R0_initialized|]. split; [apply objs0_inplace|].
  split; [apply s0_reaches|]. split; [by_compute|]. split; by_compute.
Qed.

Lemma null_example :
  program_ok cf0 env0 R0 /\ initialized_by cf0 run0 false R0 w0 /\
  reaches cf0 id R0 w0 objs0 (fun op => casts_away op = false) s0 /\ target s0 3 = Some None.
Proof.
  split; [apply R0_program|]. split; [apply R0_initialized|]. split; [apply s0_reaches|by_compute].
Qed.

Lemma through_var cf X R w objs P s x o t :
  program_ok cf (r_env X) R -> initialized_by cf X false R w -> inplace_ok (e_ti (r_env X)) R w objs ->
  reaches cf (e_ti (r_env X)) R w objs P s -> target s x = Some (Some o) -> ob_type (objs o) = t ->
  bool_decide (t ∈ map cr_type (reg_classes R)) = true ->
  exists v, var_arg w objs s x = Ok (APtr v t) /\ through cf (e_ti (r_env X)) R w (APtr v t) (AObject t).
Proof.
  intros HP HW HI Hs Hx <- Hk. apply bool_decide_eq_true in Hk. unfold target in Hx.
  destruct (vs_vars s x) as [|obj b] eqn:E; [discriminate|]. injection Hx as ->.
  destruct (virtual_ptr_right cf X false R w objs HP HW HI P s x o b Hs E Hk) as (v & Ha & Hp).
  exists v. split; [exact Ha|]. apply through_ptr; [exact Hk|exact Hp].
Qed.

Lemma through_example : exists v1 v2,
  var_arg w0 objs0 s0 0 = Ok (APtr v1 4) /\ var_arg w0 objs0 s0 11 = Ok (APtr v2 3) /\
  Forall2 (through cf0 id R0 w0) [APtr v1 4; APtr v2 3; AObject 1]%N [AObject 4; AObject 3; AObject 1]%N.
Proof.
  pose proof (fun x o t => through_var cf0 run0 R0 w0 objs0 _ s0 x o t R0_program R0_initialized
    (objs0_inplace R0) s0_reaches) as G.
  destruct (G 0 0 4%N) as (v1 & H1 & H1'); [by_compute|reflexivity|by_compute|].
  destruct (G 11 2 3%N) as (v2 & H2 & H2'); [by_compute|reflexivity|by_compute|].
  exists v1, v2. split; [exact H1|]. split; [exact H2|].
  constructor; [exact H1'|]. constructor; [exact H2'|]. constructor; [apply through_same|constructor].
Qed.

(* A moving cast leaves an empty virtual_ptr with a v-table pointer. *)
Definition ops_moved : list vop :=
  [SmartPtrSet 0 (Some 0); SmartFrom 0 0 false; SmartCastMove 1 0 CStatic true true].
Definition s_moved : vstate := ops_state cf0 id R0 w0 objs0 (fun _ => true) ops_moved.

Lemma null_stale : exists cf X R w objs s x b v,
  program_ok cf (r_env X) R /\ initialized_by cf X false R w /\ inplace_ok (e_ti (r_env X)) R w objs /\
  reaches cf (e_ti (r_env X)) R w objs (fun _ => True) s /\
  vs_vars s x = VVar None b /\ unbox_vptr w b = Ok v /\ v <> VNull.
Proof.
  exists cf0, run0, R0, w0, objs0, s_moved, 0.
  assert (E : exists b v, vs_vars s_moved 0 = VVar None b /\ unbox_vptr w0 b = Ok v /\ v <> VNull).
  { enough (H : match vs_vars s_moved 0 with
                | VVar None b => match unbox_vptr w0 b with Ok (VPtr _ _) => true | _ => false end
                | _ => false end = true).
    { destruct (vs_vars s_moved 0) as [|[o|] b]; try discriminate.
      destruct (unbox_vptr w0 b) as [[|bl off]| | |] eqn:E; try discriminate.
      exists b, (VPtr bl off). split; [reflexivity|]. split; [exact E|discriminate]. }
    by_compute. }
  destruct E as (b & v & E1 & E2 & E3). exists b, v.
  split; [apply R0_program|]. split; [apply R0_initialized|]. split; [apply objs0_inplace|].
  split; [|auto]. apply (ops_state_reaches _ _ _ _ _ (fun _ => true)); [intros; exact I|by_compute].
Qed.

(* An embedded v-table pointer and indirect_vptr: the virtual_ptr keeps the address
   of a temporary. *)
Definition wi : world := state cf_ihash false R0.
Definition objs_i (n : nat) : object := Object 4 (Some (BRef (RStatic 4))).
Lemma inplace_stale : exists cf X R w objs s op s',
  program_ok cf (r_env X) R /\ initialized_by cf X false R w /\ inplace_ok (e_ti (r_env X)) R w objs /\
  no_vars s /\ op = PlainFromRef 0 0 true /\ known R (ob_type (objs 0)) /\
  vstep cf w objs op s = (s', Ok tt) /\ var_arg w objs s' 0 = Undef.
Proof.
  exists cf_ihash, run0, R0, wi, objs_i, vstate0, (PlainFromRef 0 0 true),
    (set_var 0 (VVar (Some 0) BTemp) vstate0).
  split; [apply program_check; by_compute|]. split; [apply state_initialized; by_compute|].
  split.
  { intros o b _ [= <-]. exists (w_static wi 4). split; [reflexivity|].
    exists (cls 4 [4; 2; 3; 1])%N. split; reflexivity. }
  split; [apply vstate0_no_vars|]. split; [reflexivity|].
  split; [unfold known; by_decide|]. split; [|reflexivity].
  unfold vstep, construct, acquire. rewrite (initialized_required cf_ihash run0 false R0 wi).
  - reflexivity.
  - apply state_initialized; by_compute.
Qed.

(* A null smart pointer. *)
Lemma stores_null_example :
  stores s0 (SmartFrom 0 0 false) 0 (Some 1) /\ stores s0 (SmartFromMove 0 1 false) 0 None /\
  stores s0 (SmartAssignFromMove 4 1 true) 4 None /\ target s0 4 = Some (Some 1) /\
  moves_to (SmartAssignMove 9 0) 9 0 /\ target s0 0 = Some (Some 0).
Proof. repeat split; try by_compute; try discriminate. right. reflexivity. Qed.

Lemma lvalue_null_example : exists cf X R w objs s op d,
  program_ok cf (r_env X) R /\ initialized_by cf X false R w /\
  reaches cf (e_ti (r_env X)) R w objs (fun _ => True) s /\
  stores s op d None /\ snd (vstep cf w objs op s) = Undef.
Proof.
  exists cf0, run0, R0, w0, objs0, vstate0, (SmartAssignFrom 0 0 false), 0.
  split; [apply R0_program|]. split; [apply R0_initialized|].
  split; [apply reaches_start, vstate0_no_vars|]. split; [split; reflexivity|reflexivity].
Qed.

(* ---- final_virtual_ptr ---- *)
Lemma final_example :
  final_ok cf0 id R0 objs0 (Final 0 (Some 2) 3 3 true) /\
  snd (vstep cf0 w0 objs0 (Final 0 (Some 2) 3 3 true) vstate0) = Ok tt /\
  final_ok cf0 id R0 objs0 (Final 0 (Some 0) 3 3 true) /\
  snd (vstep cf0 w0 objs0 (Final 0 (Some 0) 3 3 true) vstate0) = Err (EFinal 3 4).
Proof.
  split; [|split; [by_compute|split; [|by_compute]]]; split; try discriminate;
    exists (cls 3 [3; 1])%N; split; reflexivity.
Qed.

(* A class with two type ids is rejected. *)
Definition objs_ids (n : nat) : object := Object 13 None.
Lemma final_ids : exists cf X R w objs s o t loc e,
  program_ok cf (r_env X) R /\ initialized_by cf X false R w /\
  e_ti (r_env X) (ob_type (objs o)) = e_ti (r_env X) t /\ known R (ob_type (objs o)) /\
  final_ok cf (e_ti (r_env X)) R objs (Final 0 (Some o) t loc true) /\
  snd (vstep cf w objs (Final 0 (Some o) t loc true) s) = Err e.
Proof.
  exists cf0, run2, R_ids, (state2 cf0 R_ids), objs_ids, vstate0, 0, 3%N, 3, (EFinal 3 13).
  split; [apply R_ids_program|]. split; [apply state2_initialized; by_compute|].
  split; [reflexivity|]. split; [unfold known; by_decide|]. split; [|by_compute].
  split; [|discriminate]. exists (cls 3 [3; 1])%N. split; reflexivity.
Qed.

(* ---- lives ---- *)
Inductive item := IEvent (ev : event) | IOp (op : vop).

Section Lives.
  Context (cf : config) (addr : N -> nat) (objs : nat -> object).

  Definition addressb (R : registrations) : bool :=
    forallb (fun cr => bool_decide (cr_static_vptr cr = addr (cr_type cr))) (reg_classes R).

  Definition event_coherent (ev : event) (p : process) (r : result) : bool :=
    match ev, r with
    | Initializes X _, Done => programb (pr_regs p)
    | _, _ => false
    end.

  (* Only initialize() makes the state coherent; a failed one is not tracked. *)
  Fixpoint life_play (items : list item) (c : bool) (p : process) (s : vstate) :
      option (process * vstate * bool) :=
    match items with
    | [] => Some (p, s, c)
    | IEvent ev :: items =>
        let ev := match ev with Initializes _ n => Initializes run0 n | ev => ev end in
        match ModelLife.step cf ev p with
        | Ok (p', r) =>
            if addressb (pr_regs p') then life_play items (event_coherent ev p r) p' s else None
        | _ => None
        end
    | IOp op :: items =>
        let '(s', o) := vstep cf (pr_world p) objs op s in
        if c && op_okb cf id (pr_regs p) objs op o &&
           forallb (fun o => bool_decide (ob_type (objs o) ∈ map cr_type (reg_classes (pr_regs p))))
             (looks_up s op)
        then life_play items c p s' else None
    end.

  Lemma life_play_ok items : forall c p s p' s' c',
    vlife cf id addr objs p s -> (c = true -> coherent cf id p) -> world_ok (pr_world p) ->
    life_play items c p s = Some (p', s', c') ->
    vlife cf id addr objs p' s' /\ (c' = true -> coherent cf id p').
  Proof.
    induction items as [|[ev|op] items IH]; intros c p s p' s' c' Hl Hc Hw H; simpl in H.
    - injection H as <- <- <-. auto.
    - set (ev' := match ev with Initializes _ n => Initializes run0 n | ev => ev end) in *.
      destruct (ModelLife.step cf ev' p) as [[p1 r]| | |] eqn:Hs; try discriminate.
      destruct (addressb (pr_regs p1)) eqn:Ha; [|discriminate].
      assert (Ha' : at_address id addr (pr_regs p1)).
      { unfold addressb in Ha. rewrite forallb_forall in Ha. intros cr Hcr.
        apply elem_of_list_In in Hcr. specialize (Ha cr Hcr). apply bool_decide_eq_true in Ha. exact Ha. }
      apply (IH (event_coherent ev' p r) p1 s); [eapply vlife_event; eauto| | |exact H].
      + intros He. destruct ev' as [R|X n|] eqn:Eev; try discriminate. destruct r; [|discriminate].
        assert (X = run0) as ->.
        { destruct ev; try discriminate. injection Eev as <- _. reflexivity. }
        simpl in Hs, He. destruct (initialize cf run0 n (pr_regs p) (pr_world p)) as [w [rep|e| |]] eqn:Hi;
          try discriminate. injection Hs as <-.
        exists run0, n. split; [reflexivity|]. split; [apply program_check; exact He|].
        exists (pr_world p), rep. auto.
      + destruct ev' as [R|X n|]; simpl in Hs.
        * injection Hs as <- _. exact Hw.
        * destruct (initialize cf X n (pr_regs p) (pr_world p)) as [w o] eqn:Hi.
          apply initialize_world_ok in Hi; [|exact Hw].
          destruct o; try discriminate; injection Hs as <- _; exact Hi.
        * injection Hs as <- _. apply finalize_world_ok. exact Hw.
    - destruct (vstep cf (pr_world p) objs op s) as [s1 o] eqn:Hs.
      destruct c; [|discriminate]. simpl in H.
      destruct (op_okb cf id (pr_regs p) objs op o) eqn:Ho; [|discriminate]. simpl in H.
      destruct (forallb _ (looks_up s op)) eqn:Hk; [|discriminate].
      apply (IH true p s1); [|exact Hc|exact Hw|exact H].
      eapply vlife_op; [exact Hl|auto| |exact Hs|apply op_okb_spec; exact Ho].
      apply list.Forall_forall. intros o' Hin. rewrite forallb_forall in Hk.
      apply elem_of_list_In in Hin. specialize (Hk o' Hin). apply bool_decide_eq_true in Hk. exact Hk.
  Qed.
End Lives.

Definition lived (cf : config) (addr : N -> nat) (objs : nat -> object) (items : list item) :
    process * vstate * bool :=
  match life_play cf addr objs items false process0 vstate0 with
  | Some x => x | None => (process0, vstate0, false)
  end.
Definition lived_p cf addr objs items := fst (fst (lived cf addr objs items)).
Definition lived_s cf addr objs items := snd (fst (lived cf addr objs items)).

Lemma lived_ok cf addr objs items :
  match life_play cf addr objs items false process0 vstate0 with Some (_, _, c) => c | _ => false end = true ->
  vlife cf id addr objs (lived_p cf addr objs items) (lived_s cf addr objs items) /\
  coherent cf id (lived_p cf addr objs items).
Proof.
  unfold lived_p, lived_s, lived.
  destruct (life_play cf addr objs items false process0 vstate0) as [[[p s] c]|] eqn:E; [|discriminate].
  simpl. intros ->.
  apply life_play_ok in E as [H1 H2]; [auto|constructor; apply vstate0_no_vars|discriminate|].
  apply world0_start.
Qed.

(* A plugin brings cats and the methods meet and purr, is unloaded, and comes back. *)
Definition poke_small : method_record := (mth 1 [1] [ovr [1] 11; ovr [2] 12])%N.
Definition R_small' : registrations := Registrations [cls 2 [2; 1]; cls 1 [1]]%N [poke_small].
Definition items0 : list item :=
  [IEvent (Registers R_small'); IEvent (Initializes run0 false);
   IOp (PlainFromRef 1 1 false);                                   (* a dog *)
   IEvent (Registers R0); IEvent (Initializes run0 false);
   IOp (PlainFromRef 0 0 false); IOp (PlainCopy 2 1);              (* a chimera; the dog *)
   IEvent (Registers R1); IEvent Finalizes; IEvent (Initializes run0 false);
   IOp (Final 3 (Some 2) 3 3 true); IOp (PlainAssign 4 3);         (* a cat *)
   IEvent (Registers R0); IEvent (Initializes run0 false)].
Definition p_i : process := lived_p cf_ihash N.to_nat objs0 items0.
Definition s_i : vstate := lived_s cf_ihash N.to_nat objs0 items0.

Lemma items0_lived : vlife cf_ihash id N.to_nat objs0 p_i s_i /\ coherent cf_ihash id p_i.
Proof. apply lived_ok. by_compute. Qed.

Lemma regs_are_R0 cf addr objs items c p s :
  life_play cf addr objs items false process0 vstate0 = Some (p, s, c) ->
  lived_p cf addr objs items = p /\ lived_s cf addr objs items = s.
Proof. intros H. unfold lived_p, lived_s, lived. rewrite H. auto. Qed.

Lemma survives_example :
  cf_indirect cf_ihash = true /\ vlife cf_ihash id N.to_nat objs0 p_i s_i /\ pr_regs p_i = R0 /\
  coherent cf_ihash id p_i /\
  map (target s_i) [0; 1; 2; 3; 4] =
    [Some (Some 0); Some (Some 1); Some (Some 1); Some (Some 2); Some (Some 2)] /\
  map (calls cf_ihash (pr_world p_i) objs0 s_i 2 meet) [[0; 1]; [1; 2]; [2; 4]; [3; 1]; [3; 4]] =
  map (fun ts => call cf_ihash (pr_world p_i) 2 meet (map AObject ts)) [[4; 2]; [2; 2]; [2; 3]; [3; 2]; [3; 3]]%N /\
  map (calls cf_ihash (pr_world p_i) objs0 s_i 2 meet) [[0; 1]; [1; 2]; [3; 1]; [3; 4]] =
    [Ok (Calls 24); Ok (Calls 24); Ok (Calls 21); Ok (Calls 23)]%N.
Proof.
  destruct items0_lived as [H1 H2].
  split; [reflexivity|]. split; [exact H1|]. split; [by_compute|]. split; [exact H2|].
  split; [by_compute|]. split; by_compute.
Qed.

(* Without indirect_vptr. *)
Definition items_d : list item :=
  [IEvent (Registers R0); IEvent (Initializes run0 false); IOp (PlainFromRef 0 0 false);
   IEvent (Initializes run0 false)].

Definition undefb {A} (o : outcome A) : bool := match o with Undef => true | _ => false end.

Lemma stale_var cf w objs s x mid m :
  match vs_vars s x with VVar (Some o) b => isok (unbox_vptr w b) | _ => false end &&
  undefb (calls cf w objs s mid m [x]) = true ->
  exists o b a, vs_vars s x = VVar (Some o) b /\ var_arg w objs s x = Ok a /\ call cf w mid m [a] = Undef.
Proof.
  unfold calls, var_arg, read_var. simpl. destruct (vs_vars s x) as [|[o|] b]; try discriminate. simpl.
  destruct (unbox_vptr w b) as [v| | |] eqn:E; try discriminate. simpl.
  destruct (call cf w mid m [APtr v (ob_type (objs o))]) eqn:Ec; try discriminate. intros _.
  exists o, b, (APtr v (ob_type (objs o))). auto.
Qed.

Lemma direct_stale : exists cf addr objs p s x o b a m mid,
  vlife cf id addr objs p s /\ coherent cf id p /\ cf_indirect cf = false /\
  vs_vars s x = VVar (Some o) b /\ known (pr_regs p) (ob_type (objs o)) /\
  m ∈ reg_methods (pr_regs p) /\ var_arg (pr_world p) objs s x = Ok a /\
  call cf (pr_world p) mid m [a] = Undef.
Proof.
  set (objs := fun _ : nat => Object 4 None).
  exists cf0, N.to_nat, objs, (lived_p cf0 N.to_nat objs items_d), (lived_s cf0 N.to_nat objs items_d), 0.
  destruct (stale_var cf0 (pr_world (lived_p cf0 N.to_nat objs items_d)) objs
              (lived_s cf0 N.to_nat objs items_d) 0 1 poke) as (o & b & a & H1 & H2 & H3); [by_compute|].
  destruct (lived_ok cf0 N.to_nat objs items_d) as [L1 L2]; [by_compute|].
  exists o, b, a, poke, 1%N. split; [exact L1|]. split; [exact L2|]. split; [reflexivity|].
  split; [exact H1|].
  assert (HR : pr_regs (lived_p cf0 N.to_nat objs items_d) = R0) by by_compute.
  rewrite HR. split; [unfold known, objs; simpl; by_decide|].
  split; [left|]. auto.
Qed.

(* An assignment that throws: the virtual_ptr points to the dog, with the v-table of
   the chimera. *)
Lemma wrong_var ti R w objs s x o b cf v1 v2 :
  vs_vars s x = VVar (Some o) b -> unbox_vptr w b = Ok v1 ->
  (exists cr, first_record ti R (ti (ob_type (objs o))) = Some cr /\ v2 = w_static w (cr_static_vptr cr)) ->
  v1 <> v2 ->
  exists a, var_arg w objs s x = Ok a /\ arg_type a = ob_type (objs o) /\
    ~ passes cf ti R w a (ti (ob_type (objs o))).
Proof.
  intros Hx Hu (cr & Hf & Hv) Hne. exists (APtr v1 (ob_type (objs o))).
  split; [unfold var_arg, read_var; rewrite Hx; simpl; rewrite Hu; reflexivity|].
  split; [reflexivity|]. intros Hp. inversion Hp as [|v t cr' Hf' Hv' Hp']; subst.
  rewrite Hf in Hf'. injection Hf' as <-. contradiction.
Qed.

Definition w_f : world := finalize cf_ihash wi.
Definition w_r : world := fst (initialize cf_ihash run0 false R0 w_f).
Definition s_1 : vstate := set_var 0 (VVar (Some 0) (BRef (RStatic 4))) vstate0.
Definition s_2 : vstate := set_obj 0 (Some 1) s_1.

Lemma reinit_ok cf R w : succeedsb cf false R = true -> world_ok w ->
  initialized_by cf run0 false R (fst (initialize cf run0 false R w)).
Proof.
  unfold succeedsb. intros Hs Hw. pose proof (ProofReinit.initialize_outcome cf run0 false R w world0) as H.
  destruct (initialize cf run0 false R world0) as [wa [rep| | |]]; try discriminate.
  destruct (initialize cf run0 false R w) as [w1 o] eqn:E. simpl in *. subst o. exists w, rep. auto.
Qed.

Lemma state_world_ok cf n R : world_ok (state cf n R).
Proof.
  unfold state. destruct (initialize cf run0 n R world0) as [w o] eqn:Hi.
  eapply initialize_world_ok; [exact Hi|apply world0_start].
Qed.

Lemma from_ref cf w objs d o r s : require_initialized cf w = Ok tt ->
  dynamic_vptr cf w (ob_type (objs o)) = Ok r ->
  vstep cf w objs (PlainFromRef d o false) s = (set_var d (VVar (Some o) (box_vptr cf w (FromRef r))) s, Ok tt).
Proof. intros H1 H2. simpl. unfold acquire. rewrite H1. simpl. rewrite H2. reflexivity. Qed.

Lemma throw_stale : exists cf X R w w' objs s1 s2 e a,
  program_ok cf (r_env X) R /\ initialized_by cf X false R w /\
  vstep cf w objs (PlainFromRef 0 0 false) vstate0 = (s1, Ok tt) /\
  vstep cf (finalize cf w) objs (PlainAssignRef 0 1 false) s1 = (s2, Err e) /\
  w' = fst (initialize cf X false R (finalize cf w)) /\ initialized_by cf X false R w' /\
  (exists b, vs_vars s2 0 = VVar (Some 1) b) /\ known R (ob_type (objs 1)) /\
  var_arg w' objs s2 0 = Ok a /\ ~ passes cf (e_ti (r_env X)) R w' a (e_ti (r_env X) (ob_type (objs 1))).
Proof.
  destruct (wrong_var id R0 w_r objs0 s_2 0 1 (BRef (RStatic 4)) cf_ihash (w_static w_r 4) (w_static w_r 2))
    as (a & Ha & _ & Hn).
  { reflexivity. }
  { reflexivity. }
  { exists (cls 2 [2; 1])%N. split; reflexivity. }
  { assert (H : bool_decide (w_static w_r 4 = w_static w_r 2) = false) by by_compute.
    apply bool_decide_eq_false in H. exact H. }
  exists cf_ihash, run0, R0, wi, w_r, objs0, s_1, s_2, ENotInitialized, a.
  assert (Hwi : initialized_by cf_ihash run0 false R0 wi) by (apply state_initialized; by_compute).
  split; [apply program_check; by_compute|]. split; [exact Hwi|].
  split.
  { rewrite (from_ref cf_ihash wi objs0 0 0 (RStatic 4)); [reflexivity| |by_compute].
    exact (initialized_required cf_ihash run0 false R0 wi Hwi). }
  split; [reflexivity|]. split; [reflexivity|].
  split.
  { apply reinit_ok; [by_compute|]. apply finalize_world_ok.
    apply state_world_ok. }
  split; [eexists; reflexivity|]. split; [unfold known; by_decide|].
  split; [exact Ha|exact Hn].
Qed.

Lemma life_play_app cf addr objs a b : forall c p s,
  life_play cf addr objs (a ++ b) c p s =
  match life_play cf addr objs a c p s with
  | Some (p', s', c') => life_play cf addr objs b c' p' s'
  | None => None
  end.
Proof.
  induction a as [|[ev|op] a IH]; intros c p s; [reflexivity| |]; simpl.
  - destruct (ModelLife.step cf _ p) as [[p' r]| | |]; try reflexivity.
    destruct (addressb addr (pr_regs p')); [apply IH|reflexivity].
  - destruct (vstep cf (pr_world p) objs op s) as [s' o].
    destruct (_ && _); [apply IH|reflexivity].
Qed.

Lemma life_play_world_ok cf addr objs items : forall c p s p' s' c',
  world_ok (pr_world p) -> life_play cf addr objs items c p s = Some (p', s', c') ->
  world_ok (pr_world p').
Proof.
  induction items as [|[ev|op] items IH]; intros c p s p' s' c' Hw H; simpl in H.
  - injection H as <- <- <-. exact Hw.
  - set (ev' := match ev with Initializes _ n => Initializes run0 n | ev => ev end) in *.
    destruct (ModelLife.step cf ev' p) as [[p1 r]| | |] eqn:Hs; try discriminate.
    destruct (addressb addr (pr_regs p1)); [|discriminate]. eapply IH; [|exact H].
    destruct ev' as [R|X n|]; simpl in Hs.
    + injection Hs as <- _. exact Hw.
    + destruct (initialize cf X n (pr_regs p) (pr_world p)) as [w o] eqn:Hi.
      apply initialize_world_ok in Hi; [|exact Hw].
      destruct o; try discriminate; injection Hs as <- _; exact Hi.
    + injection Hs as <- _. apply finalize_world_ok. exact Hw.
  - destruct (vstep cf (pr_world p) objs op s) as [s1 o].
    destruct (_ && _); [|discriminate]. eapply IH; eauto.
Qed.

Lemma life_initialized cf addr objs items n :
  match life_play cf addr objs (items ++ [IEvent (Initializes run0 n)]) false process0 vstate0 with
  | Some (_, _, c) => c | _ => false end = true ->
  initialized_by cf run0 n
    (pr_regs (lived_p cf addr objs (items ++ [IEvent (Initializes run0 n)])))
    (pr_world (lived_p cf addr objs (items ++ [IEvent (Initializes run0 n)]))).
Proof.
  unfold lived_p, lived. rewrite life_play_app.
  destruct (life_play cf addr objs items false process0 vstate0) as [[[p s] c]|] eqn:E; [|discriminate].
  apply life_play_world_ok in E; [|apply world0_start]. simpl.
  destruct (initialize cf run0 n (pr_regs p) (pr_world p)) as [w o] eqn:Hi.
  destruct o as [rep|e| |]; simpl; try discriminate; destruct (addressb addr (pr_regs p)); try discriminate.
  intros _. simpl. exists (pr_world p), rep. auto.
Qed.

Lemma survive_call_example :
  cf_indirect cf_ihash = true /\ vlife cf_ihash id N.to_nat objs0 p_i s_i /\
  program_ok cf_ihash env0 (pr_regs p_i) /\ bases_first id (pr_regs p_i) /\
  initialized_by cf_ihash run0 false (pr_regs p_i) (pr_world p_i) /\
  meet ∈ reg_methods (pr_regs p_i) /\ functions_ok meet /\
  Forall2 (fun x o => exists b, vs_vars s_i x = VVar (Some o) b) [1; 0] [1; 0] /\
  map (fun o => ob_type (objs0 o)) [1; 0] = [2; 4]%N /\
  valid_args id (pr_regs p_i) meet [2; 4]%N /\ Forall (registered id (pr_regs p_i)) [2; 4]%N /\
  settled id (pr_regs p_i) (mr_overriders meet)
    (candidate id (pr_regs p_i) (mr_overriders meet) [2; 4]%N).
Proof.
  assert (HR : pr_regs p_i = R0) by by_compute. destruct items0_lived as [H1 H2].
  destruct meet_example as (M1 & M2 & M3 & M4 & M5 & M6 & M7).
  split; [reflexivity|]. split; [exact H1|].
  split; [apply program_check; by_compute|]. split; [rewrite HR; exact M2|].
  split.
  { apply (life_initialized cf_ihash N.to_nat objs0 (take 13 items0)). by_compute. }
  rewrite HR. split; [right; left|]. split; [exact M5|].
  split.
  { assert (G : forall s x o, target s x = Some (Some o) -> exists b, vs_vars s x = VVar (Some o) b).
    { intros s x o H. unfold target in H. destruct (vs_vars s x); [discriminate|]. injection H as ->. eauto. }
    constructor; [apply G; by_compute|]. constructor; [apply G; by_compute|constructor]. }
  split; [reflexivity|]. split; [exact (ca_valid _ _ _ _ _ _ _ M4)|].
  split; [|exact M7].
  constructor; [exists (cls 2 [2; 1])%N; split; [right; left|reflexivity]|].
  constructor; [exists (cls 4 [4; 2; 3; 1])%N; split; [do 3 right; left|reflexivity]|constructor].
Qed.
