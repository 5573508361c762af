(* use_classes on concrete hierarchies. *)
From stdpp Require Import base list numbers sets.
From Coq Require Import Lia.
From Verif Require Import Base Registry Spec ModelClasses ModelHash ModelWorld ModelCall SpecCall
  Decide ExamplesModel ExamplesDispatch ModelUseClasses SpecUseClasses ProofUseClasses.

Ltac by_cases :=
  repeat rewrite ?orb_true_iff, ?andb_true_iff, ?N.eqb_eq, ?N.leb_le in *; lia.

(* ---- Animal 1, Dog 2, Cat 3, Chimera 4 : Dog, Cat ---- *)
Definition pets (b c : N) : bool :=
  (b =? c)%N || ((b =? 1)%N && (2 <=? c)%N && (c <=? 4)%N) ||
  (((b =? 2)%N || (b =? 3)%N) && (c =? 4)%N).

Lemma pets_hierarchy : cpp_hierarchy pets.
Proof. split; unfold pets; intros; by_cases. Qed.

Definition no_abstract (_ : N) : bool := false.
Definition plain_type (_ : nat) (c : N) : N := c.

Definition records (is_base : N -> N -> bool) := use_classes is_base no_abstract N.to_nat plain_type.

(* use_classes<Animal, Dog, Cat, Chimera>, registered from the last to the first as
   libstdc++ does, and use_classes<Dog, Animal> in another translation unit. *)
Definition pets_lists : list listing :=
  [Listing 0 [1; 2; 3; 4] (rev (records pets 0 [1; 2; 3; 4]));
   Listing 1 [2; 1] (records pets 1 [2; 1])]%N.

Definition R_pets := Registrations (flat_map li_records pets_lists) [poke; meet].

Example pets_records : reg_classes R_pets =
  [cls 4 [1; 2; 3; 4]; cls 3 [1; 3]; cls 2 [1; 2]; cls 1 [1]; cls 2 [2; 1]; cls 1 [1]]%N.
Proof. by_compute. Qed.

Lemma pets_registers : registers pets no_abstract N.to_nat plain_type pets_lists R_pets.
Proof.
  split; [reflexivity|]. intros l Hl. repeat (apply elem_of_cons in Hl as [->|Hl]); [..|inversion Hl].
  - symmetry. apply Permutation_rev.
  - reflexivity.
Qed.

Lemma plain_identifies : identifies id plain_type id.
Proof. split; [reflexivity|auto]. Qed.

Lemma pets_complete : complete pets pets_lists.
Proof.
  intros l c b Hl Hc Hb Hp.
  assert (Hb' : b ∈ [1; 2; 3; 4; 2; 1]%N).
  { destruct Hb as (l' & Hl' & Hb). unfold pets_lists in Hl'.
    repeat (apply elem_of_cons in Hl' as [->|Hl']); [..|inversion Hl']; simpl in Hb; set_solver. }
  unfold pets_lists in Hl.
  repeat (apply elem_of_cons in Hl as [->|Hl]); [..|inversion Hl]; simpl in *;
    repeat (apply elem_of_cons in Hc as [->|Hc]); try (inversion Hc; fail);
    repeat (apply elem_of_cons in Hb' as [->|Hb']); try (inversion Hb'; fail);
    first [discriminate Hp | set_solver].
Qed.

Definition w_pets : world := state cf0 false R_pets.
Lemma pets_initialized : initialized_by cf0 run0 false R_pets w_pets.
Proof. apply state_initialized. by_compute. Qed.
Lemma pets_program : program_ok cf0 env0 R_pets.
Proof. apply program_check. by_compute. Qed.
Lemma pets_call : call_ok cf0 id R_pets w_pets meet (map AObject [2; 4]%N) (map id [2; 4]%N).
Proof.
  apply (call_check cf0 R_pets w_pets meet _ 4); try discriminate; [right; left|by_compute|by_compute|by_compute].
Qed.
Lemma meet_takes : takes id id meet [[1; 1]; [2; 1]; [1; 3]; [2; 2]]%N.
Proof. repeat constructor. Qed.

(* meet(Dog, Chimera): (Dog, Dog) and (Animal, Cat) accept it; the former is better
   than the others. *)
Lemma meet_settled : better_is_settled pets [[1; 1]; [2; 1]; [1; 3]; [2; 2]]%N [2; 4]%N.
Proof.
  assert (Hd : forall i ps, ([[1; 1]; [2; 1]; [1; 3]; [2; 2]]%N : list (list N)) !! i = Some ps ->
    (i = 0 /\ ps = [1; 1]%N) \/ (i = 1 /\ ps = [2; 1]%N) \/ (i = 2 /\ ps = [1; 3]%N) \/ (i = 3 /\ ps = [2; 2]%N)).
  { intros [|[|[|[|i]]]] ps [= <-]; auto. }
  assert (Hb : forall a b, proper_in_some pets a b -> length a = 2 -> length b = 2 ->
    exists i, i < 2 /\ exists x y, a !! i = Some x /\ b !! i = Some y /\ pets y x = true /\ x <> y).
  { intros a b (i & x & y & Ha & Hb & H) La Lb. exists i. split; [|eauto 8].
    apply lookup_lt_Some in Ha. lia. }
  assert (HP : forall a1 a2 b1 b2, proper_in_some pets [a1; a2] [b1; b2] <->
    pets b1 a1 && negb (a1 =? b1)%N || pets b2 a2 && negb (a2 =? b2)%N = true).
  { intros. rewrite orb_true_iff, !andb_true_iff, !negb_true_iff, !N.eqb_neq. split.
    - intros (i & x & y & Ha & Hb' & H). destruct i as [|[|i]]; simpl in *; [| |discriminate];
        injection Ha as <-; injection Hb' as <-; auto.
    - intros [H|H]; [exists 0, a1, b1|exists 1, a2, b2]; auto. }
  clear Hb.
  assert (Hn : forall a i, ([[1; 1]; [2; 1]; [1; 3]; [2; 2]]%N : list (list N)) !! i = Some a ->
    ~ proper_in_some pets a [2; 2]%N).
  { intros a i Ha. apply Hd in Ha. destruct Ha as [[_ ->]|[[_ ->]|[[_ ->]|[_ ->]]]]; rewrite HP;
      apply not_true_iff_false; reflexivity. }
  intros i j _ _ (a & b & Ha & Hb & H1 & _). exists 3. split; [split|].
  - exists [2; 2]%N. split; [reflexivity|]. repeat constructor.
  - intros k _ (a' & b' & Ha' & Hb' & H & _). injection Hb' as <-. apply (Hn _ _ Ha' H).
  - exists [2; 2]%N, b. split; [reflexivity|]. split; [exact Hb|]. split; [|apply (Hn _ _ Hb)].
    apply Hd in Hb. destruct Hb as [[_ ->]|[[_ ->]|[[_ ->]|[_ ->]]]]; try (rewrite HP; reflexivity).
    destruct (Hn _ _ Ha H1).
Qed.

Lemma pets_example :
  cpp_hierarchy pets /\ identifies id plain_type id /\
  registers pets no_abstract N.to_nat plain_type pets_lists R_pets /\ complete pets pets_lists /\
  program_ok cf0 env0 R_pets /\ initialized_by cf0 run0 false R_pets w_pets /\
  call_ok cf0 id R_pets w_pets meet (map AObject [2; 4]%N) (map id [2; 4]%N) /\ functions_ok meet /\
  takes id id meet [[1; 1]; [2; 1]; [1; 3]; [2; 2]]%N /\ together (map AObject [2; 4]%N) /\
  better_is_settled pets [[1; 1]; [2; 1]; [1; 3]; [2; 2]]%N [2; 4]%N.
Proof.
  split; [apply pets_hierarchy|]. split; [apply plain_identifies|]. split; [apply pets_registers|].
  split; [apply pets_complete|]. split; [apply pets_program|]. split; [apply pets_initialized|].
  split; [apply pets_call|]. split; [apply functions_check; by_compute|]. split; [apply meet_takes|].
  split; [apply objects_together|apply meet_settled].
Qed.

(* ---- several type ids per class, hierarchy split between two lists ---- *)
(* Dog and Cat are listed with Animal in unit 0, Chimera with Dog and Cat in unit 1. *)
Definition unit_type (u : nat) (c : N) : N := (10 * c + N.of_nat (u mod 10))%N.
Definition split_lists : list listing :=
  [Listing 1 [2; 3; 4] (use_classes pets no_abstract N.to_nat unit_type 1 [2; 3; 4]);
   Listing 0 [1; 2; 3] (use_classes pets no_abstract N.to_nat unit_type 0 [1; 2; 3])]%N.
Definition R_split := Registrations (flat_map li_records split_lists) [].

Lemma unit_identifies : identifies (fun t => t / 10)%N unit_type id.
Proof.
  split; [|auto]. intros u c. unfold unit_type, id. symmetry.
  assert (u mod 10 < 10) by (apply Nat.mod_upper_bound; lia).
  apply N.div_unique with (N.of_nat (u mod 10)); lia.
Qed.

Lemma split_registers : registers pets no_abstract N.to_nat unit_type split_lists R_split.
Proof.
  split; [reflexivity|]. intros l Hl. repeat (apply elem_of_cons in Hl as [->|Hl]); [..|inversion Hl];
    reflexivity.
Qed.

Lemma split_listed c : listed split_lists c <-> (1 <= c <= 4)%N.
Proof.
  unfold listed, split_lists. split.
  - intros (l & Hl & Hc). repeat (apply elem_of_cons in Hl as [->|Hl]); [..|inversion Hl]; simpl in Hc;
      repeat (apply elem_of_cons in Hc as [->|Hc]); try lia; inversion Hc.
  - intros Hc. assert (Hd : (c = 1 \/ c = 2 \/ c = 3 \/ c = 4)%N) by lia.
    destruct Hd as [Hd|[Hd|[Hd|Hd]]]; subst c;
      [exists (Listing 0 [1; 2; 3] (use_classes pets no_abstract N.to_nat unit_type 0 [1; 2; 3]))%N; simpl; set_solver|..];
      (exists (Listing 1 [2; 3; 4] (use_classes pets no_abstract N.to_nat unit_type 1 [2; 3; 4]))%N; simpl; set_solver).
Qed.

Lemma split_documented : documented pets split_lists.
Proof.
  intros c b (Hc & Hb & Hne & Hp & Hd). apply split_listed in Hc, Hb.
  assert (H : (c <= 3 \/ 2 <= b)%N).
  { destruct (decide (b = 1)%N) as [->|]; [|lia]. destruct (decide (c = 4)%N) as [->|]; [|lia].
    destruct (Hd 2%N) as [H|H]; [apply split_listed; lia|reflexivity|reflexivity|discriminate..]. }
  assert (Hbc : (b < c)%N) by (unfold pets in Hp; by_cases).
  destruct H as [H|H].
  - exists (Listing 0 [1; 2; 3] (use_classes pets no_abstract N.to_nat unit_type 0 [1; 2; 3]))%N.
    assert (Hx : forall x, (1 <= x <= 3)%N -> x ∈ [1; 2; 3]%N).
    { intros x Hx. assert (x = 1 \/ x = 2 \/ x = 3)%N as [->|[->| ->]] by lia; set_solver. }
    split; [unfold split_lists; set_solver|]. simpl. split; apply Hx; lia.
  - exists (Listing 1 [2; 3; 4] (use_classes pets no_abstract N.to_nat unit_type 1 [2; 3; 4]))%N.
    assert (Hx : forall x, (2 <= x <= 4)%N -> x ∈ [2; 3; 4]%N).
    { intros x Hx. assert (x = 2 \/ x = 3 \/ x = 4)%N as [->|[->| ->]] by lia; set_solver. }
    split; [unfold split_lists; set_solver|]. simpl. split; apply Hx; lia.
Qed.

Lemma split_example :
  cpp_hierarchy pets /\ identifies (fun t => t / 10)%N unit_type id /\
  registers pets no_abstract N.to_nat unit_type split_lists R_split /\ documented pets split_lists /\
  listed split_lists 4 /\ listed split_lists 1 /\ pets 1 4 = true /\
  ~ base_pair (fun t => t / 10)%N R_split 4 1.
Proof.
  split; [apply pets_hierarchy|]. split; [apply unit_identifies|]. split; [apply split_registers|].
  split; [apply split_documented|]. split; [apply split_listed; lia|]. split; [apply split_listed; lia|].
  split; [reflexivity|]. rewrite <- pairs_spec.
  apply (proj1 (bool_decide_eq_false ((4, 1)%N ∈ pairs (fun t => t / 10)%N R_split))). by_compute.
Qed.

(* ---- documented, but a class is registered before some of its bases ---- *)
(* A 1, B 2, C 3 : B, Z 4 : A, C. *)
Definition zoo (b c : N) : bool :=
  (b =? c)%N || ((b =? 2)%N && ((c =? 3)%N || (c =? 4)%N)) || ((b =? 3)%N && (c =? 4)%N) ||
  ((b =? 1)%N && (c =? 4)%N).
Lemma zoo_hierarchy : cpp_hierarchy zoo.
Proof. split; unfold zoo; intros; by_cases. Qed.

Definition zoo_lists : list listing :=
  [Listing 0 [1; 3; 4] (records zoo 0 [1; 3; 4]); Listing 1 [2; 3] (records zoo 1 [2; 3])]%N.
Definition R_zoo := Registrations (flat_map li_records zoo_lists) [mA; mB].
Definition w_zoo : world := state cf0 false R_zoo.

Lemma zoo_registers : registers zoo no_abstract N.to_nat plain_type zoo_lists R_zoo.
Proof.
  split; [reflexivity|]. intros l Hl. repeat (apply elem_of_cons in Hl as [->|Hl]); [..|inversion Hl];
    reflexivity.
Qed.

Lemma zoo_listed c : listed zoo_lists c <-> (1 <= c <= 4)%N.
Proof.
  unfold listed, zoo_lists. split.
  - intros (l & Hl & Hc). repeat (apply elem_of_cons in Hl as [->|Hl]); [..|inversion Hl]; simpl in Hc;
      repeat (apply elem_of_cons in Hc as [->|Hc]); try lia; inversion Hc.
  - intros Hc. assert (Hd : (c = 1 \/ c = 2 \/ c = 3 \/ c = 4)%N) by lia.
    destruct Hd as [Hd|[Hd|[Hd|Hd]]]; subst c;
    [exists (Listing 0 [1; 3; 4] (records zoo 0 [1; 3; 4]))%N
    |exists (Listing 1 [2; 3] (records zoo 1 [2; 3]))%N
    |exists (Listing 0 [1; 3; 4] (records zoo 0 [1; 3; 4]))%N
    |exists (Listing 0 [1; 3; 4] (records zoo 0 [1; 3; 4]))%N]; simpl; set_solver.
Qed.

Lemma zoo_documented : documented zoo zoo_lists.
Proof.
  intros c b (Hc & Hb & Hne & Hp & Hd). apply zoo_listed in Hc, Hb.
  assert (H : ((c = 3 /\ b = 2) \/ (c = 4 /\ b = 3) \/ (c = 4 /\ b = 1))%N).
  { assert ((c = 3 /\ b = 2) \/ (c = 4 /\ b = 3) \/ (c = 4 /\ b = 1) \/ (c = 4 /\ b = 2))%N
      as [H|[H|[H|[-> ->]]]] by (unfold zoo in Hp; by_cases); auto.
    destruct (Hd 3%N) as [H|H]; [apply zoo_listed; lia|reflexivity|reflexivity|discriminate..]. }
  destruct H as [[-> ->]|[[-> ->]|[-> ->]]];
    [exists (Listing 1 [2; 3] (records zoo 1 [2; 3]))%N
    |exists (Listing 0 [1; 3; 4] (records zoo 0 [1; 3; 4]))%N
    |exists (Listing 0 [1; 3; 4] (records zoo 0 [1; 3; 4]))%N]; simpl; unfold zoo_lists; set_solver.
Qed.

Lemma zoo_initialized : initialized_by cf0 run0 false R_zoo w_zoo.
Proof. apply state_initialized. by_compute. Qed.
Lemma zoo_program : program_ok cf0 env0 R_zoo.
Proof. apply program_check. by_compute. Qed.
Lemma zoo_call : call_ok cf0 id R_zoo w_zoo mA (map AObject [4]%N) (map id [4]%N).
Proof.
  apply (call_check cf0 R_zoo w_zoo mA _ 4); try discriminate; [left|by_compute|by_compute|by_compute].
Qed.
Lemma zoo_result : call cf0 w_zoo 4 mA (map AObject [4]%N) = Ok (Calls 51%N).
Proof. by_compute. Qed.

Lemma zoo_rule : rule zoo [[1]]%N [4]%N (SOverrider 0).
Proof.
  assert (Ha : accepts zoo [[1]]%N [4]%N 0).
  { exists [1]%N. split; [reflexivity|]. repeat constructor. }
  assert (H0 : forall i, accepts zoo [[1]]%N [4]%N i -> i = 0).
  { intros [|i] (ps & Hps & _); [reflexivity|discriminate]. }
  split; [|intros j [Hj _]; apply H0, Hj]. split; [exact Ha|].
  intros j Hj (a & b & H1 & H2 & (i & x & y & Hx & Hy & _ & Hne) & _). apply H0 in Hj. subst j.
  simpl in H1, H2. injection H1 as <-. injection H2 as <-. destruct i; simpl in *; [|discriminate]. congruence.
Qed.

Lemma zoo_refuted :
  exists is_base abstract vptr_of static_type key ls cf X R w,
  cpp_hierarchy is_base /\
  identifies (e_ti (r_env X)) static_type key /\
  registers is_base abstract vptr_of static_type ls R /\ documented is_base ls /\
  program_ok cf (r_env X) R /\ initialized_by cf X false R w /\
  exists mid m m' ovs all args i o f,
    call_ok cf (e_ti (r_env X)) R w m all (map key args) /\ functions_ok m /\
    takes (e_ti (r_env X)) key m ovs /\ length (mr_vp m) = 1 /\
    rule is_base ovs args (SOverrider i) /\ mr_overriders m !! i = Some o /\
    call cf w mid m all = Ok (Calls f) /\ f <> or_pf o /\
    m' ∈ reg_methods R /\ m' <> m /\ exists o', o' ∈ mr_overriders m' /\ f = or_pf o'.
Proof.
  exists zoo, no_abstract, N.to_nat, plain_type, id, zoo_lists, cf0, run0, R_zoo, w_zoo.
  split; [apply zoo_hierarchy|]. split; [apply plain_identifies|]. split; [apply zoo_registers|].
  split; [apply zoo_documented|]. split; [apply zoo_program|]. split; [apply zoo_initialized|].
  exists 4%N, mA, mB, [[1]]%N, (map AObject [4]%N), [4]%N, 0, (ovr [1] 41)%N, 51%N.
  split; [apply zoo_call|]. split; [apply functions_check; by_compute|]. split; [repeat constructor|].
  split; [reflexivity|]. split; [apply zoo_rule|]. split; [reflexivity|]. split; [apply zoo_result|].
  split; [discriminate|]. split; [right; left|]. split; [discriminate|].
  exists (ovr [2] 51)%N. split; [left|reflexivity].
Qed.

(* ---- the same with single inheritance: each class listed with its direct base ---- *)
(* 1, 2 : 1, 3 : 2, 4 : 3, 5 : 4, 6 : 5. *)
Definition chain (b c : N) : bool := (b =? c)%N || ((1 <=? b) && (b <=? c) && (c <=? 6))%N.
Lemma chain_spec b c : chain b c = true <-> (b = c \/ (1 <= b /\ b <= c /\ c <= 6))%N.
Proof. unfold chain. rewrite orb_true_iff, !andb_true_iff, N.eqb_eq, !N.leb_le. tauto. Qed.
Lemma chain_hierarchy : cpp_hierarchy chain.
Proof. split; intros *; rewrite ?chain_spec; lia. Qed.
Lemma chain_single a b c : chain a c = true -> chain b c = true -> chain a b = true \/ chain b a = true.
Proof. rewrite !chain_spec. lia. Qed.

Definition chain_lists : list listing :=
  [Listing 0 [5; 6] (records chain 0 [5; 6]); Listing 1 [3; 4] (records chain 1 [3; 4]);
   Listing 2 [4; 5] (records chain 2 [4; 5]); Listing 3 [1; 2] (records chain 3 [1; 2]);
   Listing 4 [2; 3] (records chain 4 [2; 3])]%N.
Definition mP := (mth 4 [4] [ovr [4] 41])%N.
Definition mQ := (mth 5 [6] [ovr [6] 51])%N.
Definition R_chain := Registrations (flat_map li_records chain_lists) [mP; mQ].
Definition w_chain : world := state cf0 false R_chain.

Lemma chain_registers : registers chain no_abstract N.to_nat plain_type chain_lists R_chain.
Proof.
  split; [reflexivity|]. intros l Hl. repeat (apply elem_of_cons in Hl as [->|Hl]); [..|inversion Hl];
    reflexivity.
Qed.

Lemma chain_listed c : listed chain_lists c <-> (1 <= c <= 6)%N.
Proof.
  unfold listed, chain_lists. split.
  - intros (l & Hl & Hc). repeat (apply elem_of_cons in Hl as [->|Hl]); [..|inversion Hl]; simpl in Hc;
      repeat (apply elem_of_cons in Hc as [->|Hc]); try lia; inversion Hc.
  - intros Hc. assert (Hd : (c = 1 \/ c = 2 \/ c = 3 \/ c = 4 \/ c = 5 \/ c = 6)%N) by lia.
    destruct Hd as [Hd|[Hd|[Hd|[Hd|[Hd|Hd]]]]]; subst c;
    [exists (Listing 3 [1; 2] (records chain 3 [1; 2]))%N
    |exists (Listing 3 [1; 2] (records chain 3 [1; 2]))%N
    |exists (Listing 1 [3; 4] (records chain 1 [3; 4]))%N
    |exists (Listing 1 [3; 4] (records chain 1 [3; 4]))%N
    |exists (Listing 0 [5; 6] (records chain 0 [5; 6]))%N
    |exists (Listing 0 [5; 6] (records chain 0 [5; 6]))%N]; simpl; set_solver.
Qed.

Lemma chain_documented : documented chain chain_lists.
Proof.
  intros c b (Hc & Hb & Hne & Hp & Hd). apply chain_listed in Hc, Hb.
  assert (H : c = N.succ b).
  { apply chain_spec in Hp. destruct (decide (c = N.succ b)) as [|Hn]; [assumption|exfalso].
    destruct (Hd (N.succ b)) as [H|H]; [apply chain_listed; lia|apply chain_spec; lia|apply chain_spec; lia|lia..]. }
  subst c. assert (b = 1 \/ b = 2 \/ b = 3 \/ b = 4 \/ b = 5)%N as [->|[->|[->|[->| ->]]]] by lia; simpl;
    [exists (Listing 3 [1; 2] (records chain 3 [1; 2]))%N
    |exists (Listing 4 [2; 3] (records chain 4 [2; 3]))%N
    |exists (Listing 1 [3; 4] (records chain 1 [3; 4]))%N
    |exists (Listing 2 [4; 5] (records chain 2 [4; 5]))%N
    |exists (Listing 0 [5; 6] (records chain 0 [5; 6]))%N]; simpl; unfold chain_lists; set_solver.
Qed.

Lemma chain_initialized : initialized_by cf0 run0 false R_chain w_chain.
Proof. apply state_initialized. by_compute. Qed.
Lemma chain_program : program_ok cf0 env0 R_chain.
Proof. apply program_check. by_compute. Qed.
Lemma chain_call : call_ok cf0 id R_chain w_chain mP (map AObject [6]%N) (map id [6]%N).
Proof.
  apply (call_check cf0 R_chain w_chain mP _ 6); try discriminate; [left|by_compute|by_compute|by_compute].
Qed.
Lemma chain_result : call cf0 w_chain 4 mP (map AObject [6]%N) = Ok (Calls 51%N).
Proof. by_compute. Qed.

Lemma chain_rule : rule chain [[4]]%N [6]%N (SOverrider 0).
Proof.
  assert (Ha : accepts chain [[4]]%N [6]%N 0).
  { exists [4]%N. split; [reflexivity|]. repeat constructor. }
  assert (H0 : forall i, accepts chain [[4]]%N [6]%N i -> i = 0).
  { intros [|i] (ps & Hps & _); [reflexivity|discriminate]. }
  split; [|intros j [Hj _]; apply H0, Hj]. split; [exact Ha|].
  intros j Hj (a & b & H1 & H2 & (i & x & y & Hx & Hy & _ & Hne) & _). apply H0 in Hj. subst j.
  simpl in H1, H2. injection H1 as <-. injection H2 as <-. destruct i; simpl in *; [|discriminate]. congruence.
Qed.

Lemma chain_refuted :
  exists is_base abstract vptr_of static_type key ls cf X R w,
  cpp_hierarchy is_base /\
  (forall a b c, is_base a c = true -> is_base b c = true -> is_base a b = true \/ is_base b a = true) /\
  identifies (e_ti (r_env X)) static_type key /\
  registers is_base abstract vptr_of static_type ls R /\ documented is_base ls /\
  program_ok cf (r_env X) R /\ initialized_by cf X false R w /\
  exists mid m m' ovs all args i o f,
    call_ok cf (e_ti (r_env X)) R w m all (map key args) /\ functions_ok m /\
    takes (e_ti (r_env X)) key m ovs /\ length (mr_vp m) = 1 /\
    rule is_base ovs args (SOverrider i) /\ mr_overriders m !! i = Some o /\
    call cf w mid m all = Ok (Calls f) /\ f <> or_pf o /\
    m' ∈ reg_methods R /\ m' <> m /\ exists o', o' ∈ mr_overriders m' /\ f = or_pf o'.
Proof.
  exists chain, no_abstract, N.to_nat, plain_type, id, chain_lists, cf0, run0, R_chain, w_chain.
  split; [apply chain_hierarchy|]. split; [exact chain_single|].
  split; [apply plain_identifies|]. split; [apply chain_registers|].
  split; [apply chain_documented|]. split; [apply chain_program|]. split; [apply chain_initialized|].
  exists 4%N, mP, mQ, [[4]]%N, (map AObject [6]%N), [6]%N, 0, (ovr [4] 41)%N, 51%N.
  split; [apply chain_call|]. split; [apply functions_check; by_compute|]. split; [repeat constructor|].
  split; [reflexivity|]. split; [apply chain_rule|]. split; [reflexivity|]. split; [apply chain_result|].
  split; [discriminate|]. split; [right; left|]. split; [discriminate|].
  exists (ovr [6] 51)%N. split; [left|reflexivity].
Qed.
