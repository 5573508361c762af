(* Programs for the theorems about the report and the dispatch tables. *)
From stdpp Require Import base list numbers list_numbers relations.
From Verif Require Import Base Registry Spec ModelClasses ModelMethods ModelSlots
  ModelTables ModelHash ModelWorld ModelCall SpecCall Decide ExamplesModel ExamplesDispatch ProofDispatch.

Definition report_of (R : registrations) : outcome method_report :=
  snd (initialize cf0 run0 false R world0).

Lemma state_report R rep :
  report_of R = Ok rep -> initialize cf0 run0 false R world0 = (state cf0 false R, Ok rep).
Proof.
  unfold report_of, state. destruct (initialize cf0 run0 false R world0) as [w o].
  simpl. intros ->. reflexivity.
Qed.

Lemma selects_check ti R n ovs args s :
  closure_ok ti R n = true -> selectb ti R n ovs (cands ti R n ovs args) = s ->
  selects ti R ovs args s.
Proof. intros Hc <-. apply selects_compute. exact Hc. Qed.

Lemma transitive_all ti R n ovs cand :
  closure_ok ti R n = true -> transb ti R n ovs (seq 0 (length ovs)) = true ->
  transitive_dominance ti R ovs cand.
Proof.
  intros Hc H. apply (transb_spec ti R n Hc ovs (fun i => i ∈ seq 0 (length ovs)) (seq 0 (length ovs))) in H;
    [|intros; reflexivity].
  intros i j k a b c Ha Hb Hk _ _ _. apply (H i j k a b c Ha Hb Hk);
    apply elem_of_seq; [apply lookup_lt_Some in Ha|apply lookup_lt_Some in Hb|apply lookup_lt_Some in Hk]; lia.
Qed.

(* [purr] is not implemented for 1 and 2, [poke] ambiguous for 4. *)
Lemma report_example :
  program_ok cf0 env0 R1 /\ world_ok world0 /\
  initialize cf0 run0 false R1 world0 = (w1, Ok (Report 0 1 1)) /\
  (forall m, m ∈ reg_methods R1 -> forall args, valid_args id R1 m args ->
     settled id R1 (mr_overriders m) (candidate id R1 (mr_overriders m) args)) /\
  valid_args id R1 purr [2%N] /\ selects id R1 (mr_overriders purr) [2%N] SNone /\
  valid_args id R1 poke [4%N] /\ selects id R1 (mr_overriders poke) [4%N] SAmbiguous.
Proof.
  split; [apply R1_program|]. split; [apply world0_start|].
  split; [apply state_report; by_compute|].
  split.
  { intros m Hm args _.
    simpl in Hm. repeat (apply elem_of_cons in Hm as [->|Hm]); [..|inversion Hm];
      (apply candidates_settled; eapply (transitive_all id R1 4); by_compute). }
  split; [apply (validb_spec id R1 4); by_compute|].
  split; [apply (selects_check id R1 4); by_compute|].
  split; [apply (validb_spec id R1 4); by_compute|].
  apply (selects_check id R1 4); by_compute.
Qed.

(* Nothing missing, nothing ambiguous. *)
Definition feed := (mth 1 [1] [ovr [1] 11; ovr [2] 12; ovr [4] 13])%N.
Definition race := (mth 2 [1; 1] [ovr [1; 1] 21; ovr [2; 1] 22; ovr [4; 4] 24])%N.
Definition R_clean := Registrations diamond [feed; race].
Definition w_clean : world := state cf0 false R_clean.
Lemma clean_example :
  program_ok cf0 env0 R_clean /\ world_ok world0 /\ bases_first id R_clean /\
  initialize cf0 run0 false R_clean world0 = (w_clean, Ok (Report 6 0 0)) /\
  call_ok cf0 id R_clean w_clean race (map AObject [4; 3]%N) [4; 3]%N /\ functions_ok race /\
  together (map AObject [4; 3]%N).
Proof.
  split; [apply program_check; by_compute|]. split; [apply world0_start|].
  split; [apply bases_firstb_spec; by_compute|]. split; [apply state_report; by_compute|].
  split; [apply (call_check cf0 R_clean w_clean race _ 4); try discriminate; [right; left|by_compute..]|].
  split; [apply functions_check; by_compute|apply objects_together].
Qed.

(* A uni-method without overrider for its base class. *)
Lemma uni_counted :
  exists (cf : config) (X : run) (R : registrations) (w0 w : world) rep,
    program_ok cf (r_env X) R /\ world_ok w0 /\ bases_first (e_ti (r_env X)) R /\
    initialize cf X false R w0 = (w, Ok rep) /\
    (forall m, m ∈ reg_methods R -> length (mr_vp m) = 1) /\
    rp_ni rep <> 0 /\ rp_amb rep <> 0.
Proof.
  exists cf0, run0, R1, world0, w1, (Report 0 1 1).
  split; [apply R1_program|]. split; [apply world0_start|]. split; [apply R1_bases_first|].
  split; [apply state_report; by_compute|]. split; [|split; discriminate].
  intros m Hm. simpl in Hm. repeat (apply elem_of_cons in Hm as [->|Hm]); [..|inversion Hm]; reflexivity.
Qed.

(* Shape 1 is abstract; its two subclasses have overriders. *)
Definition shapes : list class_record :=
  [ClassRecord 1 [1] true 1; cls 2 [2; 1]; cls 3 [3; 1]]%N.
Definition draw := (mth 1 [1; 1] [ovr [2; 2] 11; ovr [2; 3] 12; ovr [3; 2] 13; ovr [3; 3] 14])%N.
Definition R_shapes := Registrations shapes [draw].
Definition w_shapes : world := state cf0 false R_shapes.
Lemma abstract_counted :
  exists (cf : config) (X : run) (R : registrations) (w0 w : world) rep,
    program_ok cf (r_env X) R /\ world_ok w0 /\ bases_first (e_ti (r_env X)) R /\
    initialize cf X false R w0 = (w, Ok rep) /\ rp_ni rep <> 0 /\
    forall m args, m ∈ reg_methods R -> valid_args (e_ti (r_env X)) R m args ->
      (forall a, a ∈ args -> exists cr, cr ∈ reg_classes R /\ cr_abstract cr = false /\
         e_ti (r_env X) (cr_type cr) = a) ->
      exists i, selects (e_ti (r_env X)) R (mr_overriders m) args (SOverrider i).
Proof.
  exists cf0, run0, R_shapes, world0, w_shapes, (Report 9 1 0).
  split; [apply program_check; by_compute|]. split; [apply world0_start|].
  split; [apply bases_firstb_spec; by_compute|]. split; [apply state_report; by_compute|].
  split; [discriminate|]. intros m args Hm Hva Hc.
  assert (Hc' : forall a, a ∈ args -> a = 2%N \/ a = 3%N).
  { intros a Ha. destruct (Hc a Ha) as (cr & Hcr & Hab & <-). simpl in Hcr. unfold shapes in Hcr.
    repeat (apply elem_of_cons in Hcr as [->|Hcr]); [discriminate|auto|auto|inversion Hcr]. }
  apply elem_of_list_singleton in Hm as ->.
  pose proof (Forall2_length _ _ _ Hva) as Hl.
  destruct args as [|a [|b [|? ?]]]; simpl in Hl; try lia.
  destruct (Hc' a ltac:(left)) as [->| ->], (Hc' b ltac:(right; left)) as [->| ->].
  - exists 0. apply (selects_check id R_shapes 4); by_compute.
  - exists 1. apply (selects_check id R_shapes 4); by_compute.
  - exists 2. apply (selects_check id R_shapes 4); by_compute.
  - exists 3. apply (selects_check id R_shapes 4); by_compute.
Qed.

(* [meet]: 4 classes, 2 rows in the first dimension and 4 in the second. *)
Lemma cells_example :
  program_ok cf0 env0 R0 /\ world_ok world0 /\ bases_first id R0 /\
  initialize cf0 run0 false R0 world0 = (w0, Ok (Report 8 0 2)) /\
  meet ∈ reg_methods R0 /\ mr_vp meet !! 0 = Some 1%N /\
  first_record id R0 2%N = Some (cls 2 [2; 1])%N /\ first_record id R0 4%N = Some (cls 4 [4; 2; 3; 1])%N /\
  derives id R0 2%N 1%N /\ derives id R0 4%N 1%N.
Proof.
  split; [apply R0_program|]. split; [apply world0_start|]. split; [apply R0_bases_first|].
  split; [apply state_report; by_compute|]. split; [right; left|]. split; [reflexivity|].
  split; [reflexivity|]. split; [reflexivity|].
  split; apply (derivesb_spec id R0 4); by_compute.
Qed.

Definition same_rowb R n m d a b : bool :=
  forallb (fun o => match or_vp o !! d with
    | Some v => Bool.eqb (derivesb id R n a v) (derivesb id R n b v)
    | None => true end) (mr_overriders m).
Lemma same_row_check R n m d a b :
  closure_ok id R n = true -> same_rowb R n m d a b = true -> same_row id R m d a b.
Proof.
  intros Hc H o v Ho Hv. unfold same_rowb in H. rewrite forallb_forall in H.
  specialize (H o (proj1 (elem_of_list_In _ _) Ho)). rewrite Hv in H. apply eqb_prop in H.
  unfold id at 2 4. rewrite <- !(derivesb_spec id R n Hc), H. reflexivity.
Qed.

(* [meet]: the same overriders accept 1 and 3 in the first position. *)
Lemma alike_example :
  program_ok cf0 env0 R0 /\ bases_first id R0 /\ initialized_by cf0 run0 false R0 w0 /\
  call_ok cf0 id R0 w0 meet (map AObject [1; 4]%N) [1; 4]%N /\
  call_ok cf0 id R0 w0 meet (map AObject [3; 4]%N) [3; 4]%N /\
  together (map AObject [1; 4]%N) /\ together (map AObject [3; 4]%N) /\
  (forall d a b, [1; 4]%N !! d = Some a -> [3; 4]%N !! d = Some b -> same_row id R0 meet d a b) /\
  resolve cf0 w0 meet (map AObject [1; 4]%N) = Ok 23%N /\
  resolve cf0 w0 meet (map AObject [3; 4]%N) = Ok 23%N.
Proof.
  split; [apply R0_program|]. split; [apply R0_bases_first|]. split; [apply R0_initialized|].
  split; [apply (call_check cf0 R0 w0 meet _ 4); try discriminate; [right; left|by_compute..]|].
  split; [apply (call_check cf0 R0 w0 meet _ 4); try discriminate; [right; left|by_compute..]|].
  split; [apply objects_together|]. split; [apply objects_together|].
  split; [|split; by_compute].
  intros [|[|d]] a b Ha Hb; simpl in Ha, Hb; simplify_eq;
    apply (same_row_check R0 4); by_compute.
Qed.
