(* Concrete programs for C68. *)
From stdpp Require Import base list numbers relations.
From Verif Require Import Base Registry Spec ModelClasses ModelMethods ModelSlots ModelTables ModelHash
  ModelWorld ModelCall SpecCall Decide ModelFlat SpecFlat ExamplesModel ExamplesDispatch ExamplesChain
  ProofBase ProofCall ProofFlat.

(* Memory with the array number 0 at this address. *)
Definition base0 (b : nat) : Z := 4096.

Definition bytes (x : word) : Z :=
  match x with
  | WZero => 0
  | WPf f => (Z.of_N f mod 2 ^ 64)%Z
  | WPw VNull => 0
  | WPw (VPtr b o) => ((base0 b + 8 * o) mod 2 ^ 64)%Z
  | WIdx i => (Z.of_nat i mod 2 ^ 64)%Z
  end.

Definition memory (w : world) (a : Z) : Z :=
  match w_heap w 0 with
  | Some ws => default 0%Z (bytes <$> ws !! Z.to_nat ((a - 4096) / 8))
  | None => 0
  end.

Lemma memory_holds w :
  (forall b, w_heap w (S b) = None) -> (forall ws, w_heap w 0 = Some ws -> (length ws < 1000)%nat) ->
  holds base0 (memory w) w.
Proof.
  intros H1 H2 b ws Hws. destruct b as [|b]; [|rewrite H1 in Hws; discriminate].
  specialize (H2 ws Hws). unfold base0. split; [lia|]. split; [lia|]. intros i x Hx.
  unfold memory. rewrite Hws. replace (4096 + 8 * Z.of_nat i - 4096)%Z with (Z.of_nat i * 8)%Z by lia.
  rewrite Z.div_mul, Nat2Z.id, Hx by lia. cbn.
  destruct x as [|f|[|b o]|j]; constructor.
Qed.

Lemma in_array_check R w :
  forallb (fun cr => pointer_exists w (w_static w (cr_static_vptr cr))) (reg_classes R) = true ->
  vptrs_in_array id R w.
Proof.
  intros H k cr Hcr. unfold first_record in Hcr. apply head_filter in Hcr as [Hin _].
  rewrite forallb_forall in H. apply pointer_exists_iff. apply H. apply elem_of_list_In. exact Hin.
Qed.

(* The diamond of ExamplesModel. *)
Lemma R0_heap b : w_heap w0 (S b) = None.
Proof. by_compute. Qed.

Lemma R0_length : match w_heap w0 0 with Some ws => length ws | None => 0 end = 24.
Proof. by_compute. Qed.

Lemma R0_holds : holds base0 (memory w0) w0.
Proof.
  apply memory_holds; [exact R0_heap|]. intros ws H. pose proof R0_length as L. rewrite H in L. lia.
Qed.

Lemma R0_flat : program_ok cf0 env0 R0 /\ bases_first id R0 /\ initialized_by cf0 run0 false R0 w0 /\
  call_ok cf0 id R0 w0 meet (map AObject [2; 4]%N) [2; 4]%N /\
  together (map AObject [2; 4]%N) /\ holds base0 (memory w0) w0 /\
  flat_resolve cf0 w0 base0 (memory w0) (map Z.of_nat (w_ss w0 2)) meet (map AObject [2; 4]%N) = Ok 24%Z.
Proof.
  split; [exact R0_program|]. split; [apply bases_firstb_spec; by_compute|].
  split; [exact R0_initialized|]. split.
  { apply (call_check cf0 R0 w0 meet [2; 4]%N 4); [discriminate|right; left|by_compute|by_compute|by_compute]. }
  split; [apply objects_together|]. split; [exact R0_holds|]. by_compute.
Qed.

Lemma R0_pointers : program_ok cf0 env0 R0 /\ bases_first id R0 /\ initialized_by cf0 run0 false R0 w0 /\
  call_ok cf0 id R0 w0 meet (map AObject [2; 4]%N) [2; 4]%N /\
  together (map AObject [2; 4]%N) /\ vptrs_in_array id R0 w0 /\ ~ single_inheritance id R0.
Proof.
  destruct R0_flat as (H1 & H2 & H3 & H4 & H5 & _). do 5 (split; [assumption|]).
  split; [apply in_array_check; by_compute|]. intros H.
  assert (Hc : closure_ok id R0 4 = true) by by_compute.
  destruct (H 4 2 3)%N as [D|D];
    try (apply (derivesb_spec id R0 4 Hc); by_compute);
    apply (derivesb_spec id R0 4 Hc) in D; revert D; vm_compute; discriminate.
Qed.

Lemma R0_checks : strict_read w0 (VPtr 0 3) 2 = Ok (WPf 24%N) /\
  strict_add w0 (VPtr 0 3) 21 = Ok (VPtr 0 24) /\ strict_add w0 (VPtr 0 3) 22 = Undef.
Proof. repeat split; by_compute. Qed.

Lemma R0_entries : program_ok cf0 env0 R0 /\ initialized_by cf0 run0 false R0 w0 /\
  w_data w0 = Some 0 /\ exists ws, w_heap w0 0 = Some ws /\ WPw (VPtr 0 1) ∈ ws.
Proof.
  split; [exact R0_program|]. split; [exact R0_initialized|]. split; [by_compute|].
  destruct (w_heap w0 0) as [ws|] eqn:H; [|exfalso; revert H; vm_compute; discriminate].
  exists ws. split; [reflexivity|]. apply (elem_of_list_lookup_2 _ 12).
  assert (G : match w_heap w0 0 with Some ws => ws !! 12 | None => None end = Some (WPw (VPtr 0 1))) by by_compute.
  rewrite H in G. exact G.
Qed.

(* Sizes of the dimensions of a table of 2^63 * 6 cells: the last stride wraps around. *)
Lemma strides_wrap : strides [3; 4; 5; 7] = [3; 12; 60] /\
  flat_strides [2 ^ 63; 3; 2]%Z = [2 ^ 63; 2 ^ 63]%Z.
Proof. split; by_compute. Qed.

(* Animals with single inheritance. *)
Lemma pets_single : program_ok cf0 env0 R_pets /\ bases_first id R_pets /\ single_inheritance id R_pets /\
  initialized_by cf0 run0 false R_pets w_pets /\ length (reg_classes R_pets) = 4.
Proof.
  split; [exact pets_program|]. split; [exact pets_bases_first|]. split; [|split; [exact pets_initialized|reflexivity]].
  assert (Hc : closure_ok id R_pets 4 = true) by by_compute.
  intros k a b Ha Hb. apply (ups_spec id R_pets 4 _ _ Hc) in Ha. apply (ups_spec id R_pets 4 _ _ Hc) in Hb.
  destruct (decide (k ∈ [1; 2; 3; 4]%N)) as [Hk|Hk].
  - assert (G : forallb (fun k => forallb (fun a => forallb (fun b => derivesb id R_pets 4 a b || derivesb id R_pets 4 b a)
        (ups id R_pets 4 k)) (ups id R_pets 4 k)) [1; 2; 3; 4]%N = true) by by_compute.
    rewrite forallb_forall in G. specialize (G k). rewrite <- elem_of_list_In in G. specialize (G Hk).
    rewrite forallb_forall in G. specialize (G a). rewrite <- elem_of_list_In in G. specialize (G Ha).
    rewrite forallb_forall in G. specialize (G b). rewrite <- elem_of_list_In in G. specialize (G Hb).
    rewrite orb_true_iff, !(derivesb_spec id R_pets 4 Hc) in G. exact G.
  - assert (forall x, derives id R_pets k x -> x = k).
    { intros x Hx. inversion Hx as [|? y ? (cr & t & Hcr & Ht & Hk' & _)]; [reflexivity|exfalso].
      apply Hk. subst. clear -Hcr. repeat (apply elem_of_cons in Hcr as [->|Hcr]; [vm_compute; repeat constructor|]).
      inversion Hcr. }
    apply (ups_spec id R_pets 4 _ _ Hc) in Ha. apply (ups_spec id R_pets 4 _ _ Hc) in Hb.
    rewrite (H _ Ha), (H _ Hb). left. constructor.
Qed.

(* Door 1, Window 2, Hatch 3 : Door, Window; one method for each class.  The method of Hatch gets a
   slot before that of Window, and the slots of Window begin at 2; its v-table is the second one, after
   the only entry of that of Door. *)
Definition openings : list class_record := [cls 1 [1]; cls 2 [2]; cls 3 [3; 1; 2]]%N.
Definition knock := (mth 1 [1] [ovr [1] 11])%N.
Definition look := (mth 2 [2] [ovr [2] 12])%N.
Definition climb := (mth 3 [3] [ovr [3] 13])%N.
Definition R_hatch := Registrations openings [knock; look; climb].
Definition w_hatch : world := state cf0 false R_hatch.

Lemma hatch_outside : exists cf X n2216 R w m all args cr,
  program_ok cf (r_env X) R /\ bases_first (e_ti (r_env X)) R /\ initialized_by cf X n2216 R w /\
  call_ok cf (e_ti (r_env X)) R w m all args /\ length (mr_vp m) = 1 /\
  cr ∈ reg_classes R /\ w_static w (cr_static_vptr cr) = VPtr 0 (-1) /\ ~ in_array w (VPtr 0 (-1)) /\
  resolve cf w m all = Ok 12%N /\ strict_resolve cf w m all = Undef.
Proof.
  exists cf0, run0, false, R_hatch, w_hatch, look, [AObject 2%N], [2%N], (cls 2 [2])%N.
  split; [apply program_check; by_compute|]. split; [apply bases_firstb_spec; by_compute|].
  split; [apply state_initialized; by_compute|]. split.
  { apply (call_check cf0 R_hatch w_hatch look [2]%N 4); [discriminate|right; left|by_compute|by_compute|by_compute]. }
  split; [reflexivity|]. split; [right; left|]. split; [by_compute|]. split; [|split; by_compute].
  intros (b & ws & i & [= _ H] & _). lia.
Qed.
