(* Concrete registries run through the model.  The slot numbers are those expected
   by test/test_compiler.cpp. *)
From stdpp Require Import base list numbers.
From Verif Require Import Base Registry ModelClasses ModelMethods ModelSlots
  ModelTables ModelHash ModelWorld ModelCall.

(* An environment: iteration in insertion order, insertion sort. *)
Fixpoint insert_desc (key : nat -> nat) (x : nat) (l : list nat) : list nat :=
  match l with
  | [] => [x]
  | y :: l' => if decide (key y < key x) then x :: l else y :: insert_desc key x l'
  end.
Definition sort_desc (key : nat -> nat) (l : list nat) : list nat :=
  foldl (fun acc x => insert_desc key x acc) [] l.

Definition env0 : env := Env (fun t => t) 0 (fun _ l => l) sort_desc.
Definition run0 : run := Run env0 (fun i => ((i + 1) * 11400714819323198485)%N).

(* A class whose static_vptr has address t. *)
Bind Scope N_scope with N.
Definition cls (t : N) (bases : list N) : class_record :=
  ClassRecord t bases false (N.to_nat t).
Definition ovr (vp : list N) (pf : N) : overrider_record :=
  OverriderRecord vp 0 pf (N.to_nat pf).
Definition mth (id : N) (vp : list N) (ovs : list overrider_record) : method_record :=
  MethodRecord vp 0 ovs (1000 + id)%N (2000 + id)%N (N.to_nat id).

Definition slots_of (R : registrations) : outcome (list (list nat)) :=
  let* cp := compile env0 false R in
  Ok (imap (fun i m => method_slots (cp_slots cp) i m) (cp_methods cp)).

(* diamond A, B, C, D (test_compiler.cpp): classes 1 2 3 4. *)
Definition diamond : list class_record :=
  [cls 1 [1]; cls 2 [2; 1]; cls 3 [3; 1]; cls 4 [4; 2; 3; 1]]%N.

Example diamond_slots :
  slots_of (Registrations diamond
    [mth 1 [1] []; mth 2 [2] []; mth 3 [3] []; mth 4 [4] []])%N
  = Ok [[0]; [1]; [3]; [2]].
Proof. vm_compute. reflexivity. Qed.

Definition cf0 := Config VptrVector true false true.

Definition poke : method_record :=
  (mth 1 [1] [ovr [1] 11; ovr [2] 12; ovr [3] 13])%N.
Definition meet : method_record :=
  (mth 2 [1; 1] [ovr [1; 1] 21; ovr [2; 1] 22; ovr [1; 3] 23; ovr [2; 2] 24])%N.
Definition R0 := Registrations diamond [poke; meet].

Definition run_call (R : registrations) (m : method_record) (ts : list N) :=
  let '(w, o) := initialize cf0 run0 false R world0 in
  match o with
  | Ok _ => resolve cf0 w m (map AObject ts)
  | Err e => Err e | Undef => Undef | Diverge => Diverge
  end.

Example poke_calls : map (fun t => run_call R0 poke [t]) [1;2;3;4;5]%N =
  [Ok 11; Ok 12; Ok 13; Ok 2001; Err (EMissingClass 5)]%N.
Proof. vm_compute. reflexivity. Qed.
Example meet_calls : map (fun '(a,b) => run_call R0 meet [a;b])
  [(1,1);(1,2);(1,3);(1,4);(2,1);(2,2);(2,3);(2,4);(3,3);(4,4)]%N =
  [Ok 21; Ok 21; Ok 23; Ok 23; Ok 22; Ok 24; Ok 2002; Ok 24; Ok 23; Ok 24]%N.
Proof. vm_compute. reflexivity. Qed.

(* The array [types] of a bad_call with these elements. *)
Definition types_of (l : list N) : list (option N) := map Some l ++ repeat None (16 - length l).
