(* Programs for the theorems about chains of calls through next. *)
From stdpp Require Import base list numbers list_numbers relations sorting.
From Verif Require Import Base Registry Spec ModelClasses ModelMethods ModelSlots
  ModelTables ModelHash ModelWorld ModelCall SpecCall SpecChain Decide ExamplesModel ExamplesDispatch
  ExamplesVptr ExamplesNext.

(* A rank that decreases from an overrider to those it dominates. *)
Definition rankedb (R : registrations) (n : nat) (m : method_record) (rank : list nat) : bool :=
  let ovs := mr_overriders m in
  forallb (fun i => forallb (fun j =>
    negb (dominatesi id R n ovs i j) || bool_decide (nth i rank 0 < nth j rank 0))
    (seq 0 (length ovs))) (seq 0 (length ovs)).

Lemma ranked_no_circle R n m rank :
  closure_ok id R n = true -> rankedb R n m rank = true -> no_circle id R m.
Proof.
  intros Hc Hr.
  assert (B : forall i j, beats id R m i j -> nth i rank 0 < nth j rank 0).
  { intros i j (oi & oj & args & Hi & Hj & _ & _ & _ & D). unfold rankedb in Hr.
    rewrite forallb_forall in Hr. specialize (Hr i). rewrite <- elem_of_list_In, elem_of_seq in Hr.
    pose proof (lookup_lt_Some _ _ _ Hi). pose proof (lookup_lt_Some _ _ _ Hj).
    specialize (Hr ltac:(lia)). rewrite forallb_forall in Hr. specialize (Hr j).
    rewrite <- elem_of_list_In, elem_of_seq in Hr. specialize (Hr ltac:(lia)).
    assert (Hd : dominatesi id R n (mr_overriders m) i j = true).
    { apply (dominatesi_spec id R n Hc). eauto. }
    rewrite Hd in Hr. simpl in Hr. apply bool_decide_eq_true in Hr. exact Hr. }
  assert (G : forall i j, tc (beats id R m) i j -> nth i rank 0 < nth j rank 0).
  { intros i j H. induction H as [i j H|i j k H _ IH]; [auto|]. specialize (B i j H). lia. }
  intros i Hi. specialize (G i i Hi). lia.
Qed.

Definition totalb (R : registrations) (n : nat) (m : method_record) (args : list N) : bool :=
  let ovs := mr_overriders m in
  forallb (fun i => forallb (fun j =>
    bool_decide (i = j) || dominatesi id R n ovs i j || dominatesi id R n ovs j i)
    (cands id R n ovs args)) (cands id R n ovs args).

Lemma totalb_spec R n m args :
  closure_ok id R n = true -> totalb R n m args = true -> total_dominance id R m args.
Proof.
  intros Hc Ht i j a b Ha Hb Aa Ab Hne. unfold totalb in Ht.
  rewrite forallb_forall in Ht. specialize (Ht i). rewrite <- elem_of_list_In in Ht.
  specialize (Ht (proj2 (cands_spec id R n Hc _ args i) (ex_intro _ a (conj Ha Aa)))).
  rewrite forallb_forall in Ht. specialize (Ht j). rewrite <- elem_of_list_In in Ht.
  specialize (Ht (proj2 (cands_spec id R n Hc _ args j) (ex_intro _ b (conj Hb Ab)))).
  rewrite !orb_true_iff, bool_decide_eq_true, !(dominatesi_spec id R n Hc) in Ht.
  destruct Ht as [[->|(a' & b' & H1 & H2 & D)]|(b' & a' & H1 & H2 & D)]; [contradiction|left|right];
    replace a' with a in * by congruence; replace b' with b in * by congruence; exact D.
Qed.

Definition comparableb (R : registrations) (n : nat) (m : method_record) (args : list N) : bool :=
  let ovs := mr_overriders m in
  forallb (fun i => forallb (fun j =>
    match ovs !! i, ovs !! j with
    | Some a, Some b =>
        forallb (fun xy => derivesb id R n xy.1 xy.2 || derivesb id R n xy.2 xy.1) (zip (or_vp a) (or_vp b))
    | _, _ => true
    end) (cands id R n ovs args)) (cands id R n ovs args).

Lemma comparableb_spec R n m args :
  closure_ok id R n = true -> comparableb R n m args = true ->
  comparable id R (mr_overriders m) (candidate id R (mr_overriders m) args).
Proof.
  intros Hc Ht i j a b Ha Hb Ci Cj p x y Hx Hy. unfold comparableb in Ht.
  rewrite forallb_forall in Ht. specialize (Ht i). rewrite <- elem_of_list_In in Ht.
  specialize (Ht (proj2 (cands_spec id R n Hc _ args i) Ci)).
  rewrite forallb_forall in Ht. specialize (Ht j). rewrite <- elem_of_list_In in Ht.
  specialize (Ht (proj2 (cands_spec id R n Hc _ args j) Cj)).
  rewrite Ha, Hb, forallb_forall in Ht. specialize (Ht (x, y)). rewrite <- elem_of_list_In in Ht.
  assert (Hin : (x, y) ∈ zip (or_vp a) (or_vp b)).
  { apply elem_of_list_lookup. exists p. apply lookup_zip_with_Some. eauto. }
  specialize (Ht Hin). simpl in Ht. rewrite orb_true_iff, !(derivesb_spec id R n Hc) in Ht. exact Ht.
Qed.

Fixpoint chainb (w : world) (m : method_record) (l : list nat) : bool :=
  match l with
  | [] => false
  | i :: l =>
      match l with
      | [] => bool_decide (i < length (mr_overriders m))
      | j :: _ =>
          match mr_overriders m !! i, mr_overriders m !! j with
          | Some oi, Some oj => bool_decide (w_next w (or_next oi) = Some (or_pf oj))
          | _, _ => false
          end && chainb w m l
      end
  end.

Lemma chainb_spec w m l : chainb w m l = true -> chain w m l.
Proof.
  induction l as [|i [|j l] IH]; intros H; [discriminate| |].
  - constructor. simpl in H. apply bool_decide_eq_true in H. exact H.
  - change (chainb w m (i :: j :: l)) with
      (match mr_overriders m !! i, mr_overriders m !! j with
       | Some oi, Some oj => bool_decide (w_next w (or_next oi) = Some (or_pf oj))
       | _, _ => false
       end && chainb w m (j :: l)) in H.
    apply andb_true_iff in H as [H1 H2]. constructor; [|auto].
    destruct (mr_overriders m !! i) as [oi|] eqn:Hi, (mr_overriders m !! j) as [oj|] eqn:Hj; try discriminate.
    apply bool_decide_eq_true in H1. exists oi, oj. auto.
Qed.

(* Going round for ever. *)
Lemma loop_chain w m (r : list nat) i :
  (forall j, j ∈ r -> exists k, k ∈ r /\ next_is w m j k) -> i ∈ r ->
  forall n, exists l, length l = n /\ chain w m (i :: l) /\ forall j, j ∈ i :: l -> j ∈ r.
Proof.
  intros Hr Hi n. revert i Hi. induction n as [|n IH]; intros i Hi.
  - exists []. split; [reflexivity|]. split.
    + constructor. destruct (Hr i Hi) as (k & _ & oi & ok & Hoi & _). eapply lookup_lt_Some; eauto.
    + intros j Hj. apply elem_of_list_singleton in Hj as ->. exact Hi.
  - destruct (Hr i Hi) as (k & Hk & Hn). destruct (IH k Hk) as (l & Hl & Hc & Hin).
    exists (k :: l). split; [simpl; lia|]. split; [constructor; assumption|].
    intros j [->|Hj]%elem_of_cons; auto.
Qed.

Definition loopsb (w : world) (m : method_record) (r : list nat) : bool :=
  forallb (fun j => existsb (fun k => chainb w m [j; k]) r) r.

Lemma loopsb_spec w m r : loopsb w m r = true ->
  forall j, j ∈ r -> exists k, k ∈ r /\ next_is w m j k.
Proof.
  intros H j Hj. unfold loopsb in H. rewrite forallb_forall in H. specialize (H j).
  rewrite <- elem_of_list_In in H. specialize (H Hj). apply existsb_exists in H as (k & Hk & Hc).
  exists k. split; [apply elem_of_list_In; exact Hk|]. apply chainb_spec in Hc. inversion Hc; subst. assumption.
Qed.

(* ---- chains that end ---- *)

Lemma skew_chain_example :
  program_ok cf0 env0 R_skew /\ initialized_by cf0 run0 false R_skew w_skew /\
  skew ∈ reg_methods R_skew /\ functions_ok skew /\ NoDup (map or_pf (mr_overriders skew)) /\
  (forall i, unique_signature id (mr_overriders skew) i) /\ no_circle id R_skew skew /\
  chain w_skew skew [1; 0].
Proof.
  split; [apply program_check; by_compute|]. split; [apply state_initialized; by_compute|].
  split; [left|]. split; [apply functions_check; by_compute|].
  split; [by_decide|].
  split; [intros i; apply signatures_uniqueb_spec; by_compute|].
  split; [apply (ranked_no_circle R_skew 4 skew [1; 0]); by_compute|]. apply chainb_spec. by_compute.
Qed.

Lemma poke_chain_example :
  program_ok cf0 env0 R0 /\ initialized_by cf0 run0 false R0 w0 /\
  poke ∈ reg_methods R0 /\ functions_ok poke /\ NoDup (map or_pf (mr_overriders poke)) /\
  (forall i, unique_signature id (mr_overriders poke) i) /\ length (mr_vp poke) = 1 /\
  chain w0 poke [2; 0].
Proof.
  split; [apply R0_program|]. split; [apply R0_initialized|]. split; [left|]. split; [apply poke_functions|].
  split; [by_decide|].
  split; [intros i; apply signatures_uniqueb_spec; by_compute|].
  split; [reflexivity|]. apply chainb_spec. by_compute.
Qed.

(* Animal 1, Dog 2 : Animal, Bulldog 3 : Dog, Cat 4 : Animal.  fight(Animal, Animal)
   with overriders for (Animal, Animal), (Dog, Cat), (Bulldog, Cat), (Dog, Animal) and
   speak(Animal) for all classes. *)
Definition pets : list class_record := [cls 1 [1]; cls 2 [2; 1]; cls 3 [3; 2; 1]; cls 4 [4; 1]]%N.
Definition fight := (mth 1 [1; 1] [ovr [2; 4] 41; ovr [1; 1] 42; ovr [2; 1] 43; ovr [3; 4] 44])%N.
Definition speak := (mth 2 [1] [ovr [2] 51; ovr [4] 52; ovr [1] 53; ovr [3] 54])%N.
Definition R_pets := Registrations pets [fight; speak].
Definition w_pets : world := state cf0 false R_pets.

Lemma pets_program : program_ok cf0 env0 R_pets.
Proof. apply program_check. by_compute. Qed.
Lemma pets_initialized : initialized_by cf0 run0 false R_pets w_pets.
Proof. apply state_initialized. by_compute. Qed.
Lemma pets_bases_first : bases_first id R_pets.
Proof. apply bases_firstb_spec. by_compute. Qed.

(* Each class of the program has one base: any two classes above one are comparable. *)
Lemma single_comparable R n ovs args :
  closure_ok id R n = true ->
  forallb (fun cr => forallb (fun x => forallb (fun y => derivesb id R n x y || derivesb id R n y x)
    (ups id R n (cr_type cr))) (ups id R n (cr_type cr))) (reg_classes R) = true ->
  Forall (registered id R) args ->
  comparable id R ovs (candidate id R ovs args).
Proof.
  intros Hc H Hreg i j a b Ha Hb (a' & Ha' & Aa) (b' & Hb' & Ab) p x y Hx Hy.
  replace a' with a in * by congruence. replace b' with b in * by congruence.
  destruct (Forall2_lookup_r _ _ _ _ _ Aa Hx) as (c & Hcx & Dx).
  destruct (Forall2_lookup_r _ _ _ _ _ Ab Hy) as (c' & Hcy & Dy). replace c' with c in * by congruence.
  pose proof (Forall_lookup_1 _ _ _ _ Hreg Hcx) as Hr. unfold registered in Hr.
  destruct Hr as (cr & Hcr & <-).
  rewrite forallb_forall in H. specialize (H cr). rewrite <- elem_of_list_In in H. specialize (H Hcr).
  rewrite forallb_forall in H. specialize (H x). rewrite <- elem_of_list_In in H.
  specialize (H (proj1 (ups_spec id R n _ _ Hc) Dx)).
  rewrite forallb_forall in H. specialize (H y). rewrite <- elem_of_list_In in H.
  specialize (H (proj1 (ups_spec id R n _ _ Hc) Dy)).
  rewrite orb_true_iff, !(derivesb_spec id R n Hc) in H. exact H.
Qed.

Lemma valid_registered R m args : valid_args id R m args -> Forall (registered id R) args.
Proof. intros H. induction H as [|a v l l' [Hr _] _ IH]; constructor; auto. Qed.

Lemma fight_chain_example :
  program_ok cf0 env0 R_pets /\ initialized_by cf0 run0 false R_pets w_pets /\
  fight ∈ reg_methods R_pets /\ functions_ok fight /\ NoDup (map or_pf (mr_overriders fight)) /\
  (forall i, unique_signature id (mr_overriders fight) i) /\
  (forall args, valid_args id R_pets fight args ->
     comparable id R_pets (mr_overriders fight) (candidate id R_pets (mr_overriders fight) args)) /\
  chain w_pets fight [3; 0; 2; 1].
Proof.
  split; [apply pets_program|]. split; [apply pets_initialized|]. split; [left|].
  split; [apply functions_check; by_compute|]. split; [by_decide|].
  split; [intros i; apply signatures_uniqueb_spec; by_compute|].
  split; [|apply chainb_spec; by_compute].
  intros args Hva. apply (single_comparable R_pets 4); [by_compute|by_compute|].
  eapply valid_registered; eauto.
Qed.

Lemma fight_all_example :
  program_ok cf0 env0 R_pets /\ initialized_by cf0 run0 false R_pets w_pets /\
  fight ∈ reg_methods R_pets /\
  (forall args, valid_args id R_pets fight args ->
     pointwise id R_pets (mr_overriders fight) (candidate id R_pets (mr_overriders fight) args)) /\
  valid_args id R_pets fight [3; 4]%N /\ total_dominance id R_pets fight [3; 4]%N /\
  bases_first id R_pets /\ call_ok cf0 id R_pets w_pets fight (map AObject [3; 4]%N) [3; 4]%N /\
  functions_ok fight /\ together (map AObject [3; 4]%N) /\
  candidate id R_pets (mr_overriders fight) [3; 4]%N 0.
Proof.
  assert (Hcall : call_ok cf0 id R_pets w_pets fight (map AObject [3; 4]%N) [3; 4]%N).
  { apply (call_check cf0 R_pets w_pets fight _ 4); try discriminate; [left|by_compute..]. }
  split; [apply pets_program|]. split; [apply pets_initialized|]. split; [left|].
  split; [intros args _; apply (pointwiseb_spec id R_pets 4); by_compute|].
  split; [apply Hcall|]. split; [apply (totalb_spec R_pets 4); by_compute|].
  split; [apply pets_bases_first|]. split; [exact Hcall|].
  split; [apply functions_check; by_compute|]. split; [apply objects_together|].
  apply (cands_spec id R_pets 4); [by_compute|]. by_decide.
Qed.

Lemma speak_all_example :
  program_ok cf0 env0 R_pets /\ initialized_by cf0 run0 false R_pets w_pets /\
  bases_first id R_pets /\ call_ok cf0 id R_pets w_pets speak (map AObject [3]%N) [3]%N /\
  functions_ok speak /\ length (mr_vp speak) = 1 /\
  comparable id R_pets (mr_overriders speak) (candidate id R_pets (mr_overriders speak) [3]%N) /\
  (forall i, unique_signature id (mr_overriders speak) i) /\
  candidate id R_pets (mr_overriders speak) [3]%N 0 /\
  chain w_pets speak [3; 0; 2].
Proof.
  split; [apply pets_program|]. split; [apply pets_initialized|]. split; [apply pets_bases_first|].
  split; [apply (call_check cf0 R_pets w_pets speak _ 4); try discriminate; [right; left|by_compute..]|].
  split; [apply functions_check; by_compute|]. split; [reflexivity|].
  split; [apply (comparableb_spec R_pets 4); by_compute|].
  split; [intros i; apply signatures_uniqueb_spec; by_compute|].
  split; [apply (cands_spec id R_pets 4); [by_compute|by_decide]|]. apply chainb_spec. by_compute.
Qed.

(* ---- chains that do not end ---- *)

(* R 1; B 2 : R; A 3 : B; D 4 : A; C 5 : R; E 6 : B, C; Z 7 : D, C
   V 11; P 12 : V; Q 13 : V; S 14 : Q; T 15 : S; U 16 : P, T
   Overriders (A, P), (B, T), (C, S), (D, Q).  (A, P) dominates (B, T), which
   dominates (C, S), which dominates (D, Q), which dominates (A, P). *)
Definition round_classes : list class_record :=
  [cls 1 [1]; cls 2 [2; 1]; cls 3 [3; 2; 1]; cls 4 [4; 3; 2; 1]; cls 5 [5; 1]; cls 6 [6; 2; 5; 1];
   cls 7 [7; 4; 5; 3; 2; 1]; cls 11 [11]; cls 12 [12; 11]; cls 13 [13; 11]; cls 14 [14; 13; 11];
   cls 15 [15; 14; 13; 11]; cls 16 [16; 12; 15; 14; 13; 11]]%N.
Definition round := (mth 1 [1; 11] [ovr [3; 12] 31; ovr [2; 15] 32; ovr [5; 14] 33; ovr [4; 13] 34])%N.
Definition R_round := Registrations round_classes [round].
Definition w_round : world := state cf0 false R_round.

Lemma candidates_check R n ovs args (l : list nat) :
  closure_ok id R n = true -> forallb (fun j => bool_decide (j ∈ cands id R n ovs args)) l = true ->
  forall j, j ∈ l -> candidate id R ovs args j.
Proof.
  intros Hc H j Hj. rewrite forallb_forall in H. specialize (H j). rewrite <- elem_of_list_In in H.
  specialize (H Hj). apply bool_decide_eq_true in H. apply (cands_spec id R n Hc) in H. exact H.
Qed.

Lemma chain_endless :
  exists (cf : config) (X : run) (R : registrations) (w : world)
         (mid : N) (m : method_record) (all : list arg) (args : list N) i o,
    program_ok cf (r_env X) R /\ bases_first (e_ti (r_env X)) R /\
    initialized_by cf X false R w /\
    call_ok cf (e_ti (r_env X)) R w m all args /\ functions_ok m /\ together all /\
    NoDup (map or_pf (mr_overriders m)) /\
    (forall k, unique_signature (e_ti (r_env X)) (mr_overriders m) k) /\
    mr_overriders m !! i = Some o /\ call cf w mid m all = Ok (Calls (or_pf o)) /\
    forall n, exists l, length l = n /\ chain w m (i :: l) /\
      forall j, j ∈ i :: l -> candidate (e_ti (r_env X)) R (mr_overriders m) args j.
Proof.
  exists cf0, run0, R_round, w_round, 1%N, round, (map AObject [7; 16]%N), [7; 16]%N, 2, (ovr [5; 14] 33)%N.
  split; [apply program_check; by_compute|]. split; [apply bases_firstb_spec; by_compute|].
  split; [apply state_initialized; by_compute|].
  split; [apply (call_check cf0 R_round w_round round _ 6); try discriminate; [left|by_compute..]|].
  split; [apply functions_check; by_compute|]. split; [apply objects_together|].
  split; [by_decide|]. split; [intros k; apply signatures_uniqueb_spec; by_compute|].
  split; [reflexivity|]. split; [by_compute|]. intros n.
  destruct (loop_chain w_round round [0; 1; 2; 3] 2) with (n := n) as (l & L1 & L2 & L3).
  - apply loopsb_spec. by_compute.
  - by_decide.
  - exists l. split; [exact L1|]. split; [exact L2|]. intros j Hj.
    apply (candidates_check R_round 6 _ _ [0; 1; 2; 3]); [by_compute|by_compute|]. apply L3. exact Hj.
Qed.

(* With n2216, one parameter is enough.
   R 1; F 2 : R; K 3 : R; G 4 : K; H 5 : F; Z 6 : F, G; Y 7 : K, H. *)
Definition pair_classes : list class_record :=
  [cls 1 [1]; cls 2 [2; 1]; cls 3 [3; 1]; cls 4 [4; 3; 1]; cls 5 [5; 2; 1]; cls 6 [6; 2; 4; 3; 1];
   cls 7 [7; 3; 5; 2; 1]]%N.
Definition ping := (mth 1 [1] [ovr [4] 33; ovr [5] 34; ovr [2] 31; ovr [3] 32])%N.
Definition R_ping := Registrations pair_classes [ping].
Definition w_ping : world := state cf0 true R_ping.

Lemma chain_endless_n2216 :
  exists (cf : config) (X : run) (R : registrations) (w : world)
         (mid : N) (m : method_record) (all : list arg) (args : list N) i o,
    program_ok cf (r_env X) R /\ bases_first (e_ti (r_env X)) R /\
    initialized_by cf X true R w /\
    call_ok cf (e_ti (r_env X)) R w m all args /\ functions_ok m /\ length (mr_vp m) = 1 /\
    NoDup (map or_pf (mr_overriders m)) /\
    (forall k, unique_signature (e_ti (r_env X)) (mr_overriders m) k) /\
    mr_overriders m !! i = Some o /\ call cf w mid m all = Ok (Calls (or_pf o)) /\
    forall n, exists l, length l = n /\ chain w m (i :: l) /\
      forall j, j ∈ i :: l -> candidate (e_ti (r_env X)) R (mr_overriders m) args j.
Proof.
  exists cf0, run0, R_ping, w_ping, 1%N, ping, (map AObject [6]%N), [6]%N, 2, (ovr [2] 31)%N.
  split; [apply program_check; by_compute|]. split; [apply bases_firstb_spec; by_compute|].
  split; [apply state_initialized; by_compute|].
  split; [apply (call_check cf0 R_ping w_ping ping _ 6); try discriminate; [left|by_compute..]|].
  split; [apply functions_check; by_compute|]. split; [reflexivity|].
  split; [by_decide|]. split; [intros k; apply signatures_uniqueb_spec; by_compute|].
  split; [reflexivity|]. split; [by_compute|]. intros n.
  destruct (loop_chain w_ping ping [2; 3] 2) with (n := n) as (l & L1 & L2 & L3).
  - apply loopsb_spec. by_compute.
  - by_decide.
  - exists l. split; [exact L1|]. split; [exact L2|]. intros j Hj.
    apply (candidates_check R_ping 6 _ _ [2; 3]); [by_compute|by_compute|]. apply L3. exact Hj.
Qed.
