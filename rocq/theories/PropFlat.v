(* C68: the arithmetic of calls on addresses and 64-bit numbers. *)
From stdpp Require Import base list numbers.
From Verif Require Import Base Registry Spec ModelClasses ModelTables ModelHash ModelWorld ModelCall
  SpecCall ModelFlat SpecFlat ExamplesModel ExamplesDispatch ExamplesChain ExamplesFlat ProofFlat ProofFlatSingle ProofFlatEntries.

(* On a machine that computes modulo 2^64 a call enters the same function as with addresses and numbers
   of any size, wherever in memory the arrays are, and even if a v-table pointer is the address of
   nothing. *)
Theorem C68_flat :
  forall (cf : config) (X : run) (n2216 : bool) (R : registrations) (w : world) (m : method_record)
         (all : list arg) (args : list N) (at_base : nat -> Z) (mem : Z -> Z),
    program_ok cf (r_env X) R -> bases_first (e_ti (r_env X)) R ->
    initialized_by cf X n2216 R w -> call_ok cf (e_ti (r_env X)) R w m all args ->
    (length (mr_vp m) = 1 \/ together all) -> holds at_base mem w ->
    exists f, resolve cf w m all = Ok f /\
      flat_resolve cf w at_base mem (map (fun n => (Z.of_nat n mod 2 ^ 64)%Z) (w_ss w (mr_slots_strides m))) m all =
        Ok (Z.of_N f mod 2 ^ 64)%Z.
Proof. exact calls_flat. Qed.
Print Assumptions C68_flat.

Example C68_flat_example : program_ok cf0 env0 R0 /\ bases_first id R0 /\ initialized_by cf0 run0 false R0 w0 /\
  call_ok cf0 id R0 w0 meet (map AObject [2; 4]%N) [2; 4]%N /\
  together (map AObject [2; 4]%N) /\ holds base0 (memory w0) w0 /\
  flat_resolve cf0 w0 base0 (memory w0) (map Z.of_nat (w_ss w0 2)) meet (map AObject [2; 4]%N) = Ok 24%Z.
Proof. exact R0_flat. Qed.

(* The strides that such a machine computes are the products of the sizes of the dimensions, modulo
   2^64: those that C68_flat is about. *)
Theorem C68_strides :
  forall (sizes : list nat) (k : nat), S k < length sizes ->
    flat_strides (map (fun n => (Z.of_nat n mod 2 ^ 64)%Z) sizes) !! k =
      Some (Z.of_nat (foldr Nat.mul 1%nat (take (S k) sizes)) mod 2 ^ 64)%Z.
Proof. exact strides_flat. Qed.
Print Assumptions C68_strides.

Example C68_strides_example : strides [3; 4; 5; 7] = [3; 12; 60] /\
  flat_strides [2 ^ 63; 3; 2]%Z = [2 ^ 63; 2 ^ 63]%Z.
Proof. exact strides_wrap. Qed.

(* The pointers that initialize() stores in the array, which are the entries for the first virtual
   parameters of methods with several, point to words of the array, which hold functions. *)
Theorem C68_entries :
  forall (cf : config) (X : run) (n2216 : bool) (R : registrations) (w : world) (b : nat) (ws : list word)
         (p : vptr),
    program_ok cf (r_env X) R -> initialized_by cf X n2216 R w ->
    w_data w = Some b -> w_heap w b = Some ws -> WPw p ∈ ws ->
    exists i f, p = VPtr b (Z.of_nat i) /\ ws !! i = Some (WPf f).
Proof. exact entries_in_array. Qed.
Print Assumptions C68_entries.

Example C68_entries_example : program_ok cf0 env0 R0 /\ initialized_by cf0 run0 false R0 w0 /\
  w_data w0 = Some 0 /\ exists ws, w_heap w0 0 = Some ws /\ WPw (VPtr 0 1) ∈ ws.
Proof. exact R0_entries. Qed.

(* What is meant by pointers being checked: where p[i] is read both p and p + i are pointers into an
   array, and so are both p and p + k where a sum is computed. *)
Theorem C68_checks :
  forall (w : world) (p : vptr) (i : nat) (x : word) (q : vptr),
    (strict_read w p i = Ok x ->
       in_array w p /\ exists b o, p = VPtr b o /\ in_array w (VPtr b (o + Z.of_nat i))) /\
    (strict_add w p i = Ok q ->
       in_array w p /\ in_array w q /\ exists b o, p = VPtr b o /\ q = VPtr b (o + Z.of_nat i)).
Proof. exact checks. Qed.
Print Assumptions C68_checks.

Example C68_checks_example : strict_read w0 (VPtr 0 3) 2 = Ok (WPf 24%N) /\
  strict_add w0 (VPtr 0 3) 21 = Ok (VPtr 0 24) /\ strict_add w0 (VPtr 0 3) 22 = Undef.
Proof. exact R0_checks. Qed.

(* If the v-table pointers of the classes are pointers into arrays, so are all the pointers that a call
   computes. *)
Theorem C68_pointers :
  forall (cf : config) (X : run) (n2216 : bool) (R : registrations) (w : world) (m : method_record)
         (all : list arg) (args : list N),
    program_ok cf (r_env X) R -> bases_first (e_ti (r_env X)) R ->
    initialized_by cf X n2216 R w -> call_ok cf (e_ti (r_env X)) R w m all args ->
    (length (mr_vp m) = 1 \/ together all) -> vptrs_in_array (e_ti (r_env X)) R w ->
    exists f, resolve cf w m all = Ok f /\ strict_resolve cf w m all = Ok f.
Proof. exact calls_strict. Qed.
Print Assumptions C68_pointers.

Example C68_pointers_example : program_ok cf0 env0 R0 /\ bases_first id R0 /\
  initialized_by cf0 run0 false R0 w0 /\ call_ok cf0 id R0 w0 meet (map AObject [2; 4]%N) [2; 4]%N /\
  together (map AObject [2; 4]%N) /\ vptrs_in_array id R0 w0 /\ ~ single_inheritance id R0.
Proof. exact R0_pointers. Qed.

(* They are, if no class has two bases of which neither is a base of the other. *)
Theorem C68_single :
  forall (cf : config) (X : run) (n2216 : bool) (R : registrations) (w : world),
    program_ok cf (r_env X) R -> bases_first (e_ti (r_env X)) R -> single_inheritance (e_ti (r_env X)) R ->
    initialized_by cf X n2216 R w -> vptrs_in_array (e_ti (r_env X)) R w.
Proof. exact single_in_array. Qed.
Print Assumptions C68_single.

Example C68_single_example : program_ok cf0 env0 R_pets /\ bases_first id R_pets /\ single_inheritance id R_pets /\
  initialized_by cf0 run0 false R_pets w_pets /\ length (reg_classes R_pets) = 4.
Proof. exact pets_single. Qed.

(* With multiple inheritance they need not be: initialize() computes a pointer to before the beginning of
   the array, and the call that uses it does what it should only on a machine where such a pointer does
   no harm. *)
Theorem C68_pointers_refuted :
  exists (cf : config) (X : run) (n2216 : bool) (R : registrations) (w : world) (m : method_record)
         (all : list arg) (args : list N) (cr : class_record),
    program_ok cf (r_env X) R /\ bases_first (e_ti (r_env X)) R /\ initialized_by cf X n2216 R w /\
    call_ok cf (e_ti (r_env X)) R w m all args /\ length (mr_vp m) = 1 /\
    cr ∈ reg_classes R /\ w_static w (cr_static_vptr cr) = VPtr 0 (-1) /\ ~ in_array w (VPtr 0 (-1)) /\
    resolve cf w m all = Ok 12%N /\ strict_resolve cf w m all = Undef.
Proof. exact hatch_outside. Qed.
Print Assumptions C68_pointers_refuted.
