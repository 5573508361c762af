(* Objects with virtual and repeated bases. *)
From stdpp Require Import base list numbers relations sets.
From Coq Require Import Lia.
From Verif Require Import Base Registry Spec ModelClasses ModelTables ModelHash ModelWorld ModelCall ModelErrors SpecCall
  Decide ExamplesModel ExamplesDispatch ExamplesVptr ExamplesNext ModelUseClasses SpecUseClasses ProofUseClasses
  ExamplesUseClasses ModelCasts SpecCasts ProofCasts ProofCastsProgram.

(* Animal 1, Dog 2 : virtual Animal, Cat 3 : virtual Animal, Chimera 4 : Dog, Cat. *)
Definition virtually : hierarchy :=
  [(4, [(2, false); (3, false)]); (3, [(1, true)]); (2, [(1, true)]); (1, [])]%N.
(* The same without virtual: a Chimera is two animals. *)
Definition repeatedly : hierarchy :=
  [(4, [(2, false); (3, false)]); (3, [(1, false)]); (2, [(1, false)]); (1, [])]%N.

Lemma virtually_ok : hierarchy_ok virtually.
Proof. apply hierarchyb_ok. by_compute. Qed.
Lemma repeatedly_ok : hierarchy_ok repeatedly.
Proof. apply hierarchyb_ok. by_compute. Qed.

Example parts :
  subobjects virtually 4 = [[4]; [4; 2]; [4; 3]; [1]]%N /\
  subobjects repeatedly 4 = [[4]; [4; 2]; [4; 2; 1]; [4; 3]; [4; 3; 1]]%N /\
  map (fun d => requires_dynamic_cast virtually 1 d) [1; 2; 3; 4]%N = [false; true; true; true] /\
  map (fun d => requires_dynamic_cast repeatedly 1 d) [1; 2; 3; 4]%N = [false; false; false; true] /\
  map (fun s => optimal_cast repeatedly 4 1 2 s) [[4; 2; 1]; [4; 3; 1]]%N = [Ok (Some [4; 2]%N); Undef] /\
  map (fun k => cast_part k repeatedly 4 1 2 [4; 3; 1]%N)
    [ByReference; ByPointer; ByShared; BySharedRef; ByUnique; ByIntrusive] =
    [Undef; Undef; Undef; Ok (Some [4; 2]%N); Ok (Some [4; 2]%N); Undef] /\
  map (fun s => optimal_cast repeatedly 4 1 4 s) [[4; 2; 1]; [4; 3; 1]]%N = [Ok (Some [4]%N); Ok (Some [4]%N)].
Proof. repeat split; by_compute. Qed.

Lemma only_check H c d s : hierarchy_ok H -> conversion H c d = Some s -> only_part H c d s.
Proof. intros HO Hc. apply conversion_spec; assumption. Qed.

Lemma embeds_check H d sd t s :
  hierarchy_ok H -> list.last sd = Some d -> bool_decide (t ∈ subobjects H d /\ compose sd t = s) = true ->
  embeds H d sd t s.
Proof.
  intros HO Hl Hb. apply bool_decide_eq_true in Hb as [Ht <-].
  apply compose_embeds; [exact HO|exact Hl|]. apply subobjects_spec; assumption.
Qed.

(* The Dog of a Chimera, from either kind of Animal. *)
Lemma dog_example :
  hierarchy_ok virtually /\ only_part virtually 4 2 [4; 2]%N /\
  embeds virtually 2 [4; 2]%N [1]%N [1]%N /\ list.last [1]%N = Some 1%N /\
  hierarchy_ok repeatedly /\ only_part repeatedly 4 2 [4; 2]%N /\
  embeds repeatedly 2 [4; 2]%N [2; 1]%N [4; 2; 1]%N /\ list.last [2; 1]%N = Some 1%N.
Proof.
  split; [apply virtually_ok|].
  split; [apply only_check; [apply virtually_ok|by_compute]|].
  split; [apply embeds_check; [apply virtually_ok|reflexivity|by_compute]|]. split; [reflexivity|].
  split; [apply repeatedly_ok|].
  split; [apply only_check; [apply repeatedly_ok|by_compute]|].
  split; [apply embeds_check; [apply repeatedly_ok|reflexivity|by_compute]|reflexivity].
Qed.

(* ---- use_classes<Animal, Dog, Cat, Chimera>, with virtual bases ---- *)
Lemma virtual_registers ms :
  registers (isb virtually) no_abstract N.to_nat plain_type pets_lists
    (Registrations (flat_map li_records pets_lists) ms).
Proof.
  split; [reflexivity|]. intros l Hl. repeat (apply elem_of_cons in Hl as [->|Hl]); [..|inversion Hl].
  - simpl li_records. simpl li_classes. simpl li_unit.
    replace (use_classes (isb virtually) no_abstract N.to_nat plain_type 0 [1; 2; 3; 4]%N)
      with (records pets 0 [1; 2; 3; 4]%N) by by_compute.
    symmetry. apply Permutation_rev.
  - simpl li_records. simpl li_classes. simpl li_unit.
    replace (use_classes (isb virtually) no_abstract N.to_nat plain_type 1 [2; 1]%N)
      with (records pets 1 [2; 1]%N) by by_compute. reflexivity.
Qed.

Lemma pets_listed b : listed pets_lists b -> b ∈ [1; 2; 3; 4]%N.
Proof.
  intros (l' & Hl' & Hb). unfold pets_lists in Hl'.
  repeat (apply elem_of_cons in Hl' as [->|Hl']); [..|inversion Hl']; simpl in Hb; set_solver.
Qed.

Lemma virtual_complete : complete (isb virtually) pets_lists.
Proof.
  intros l c b Hl Hc Hb Hp. apply pets_listed in Hb.
  unfold pets_lists in Hl.
  repeat (apply elem_of_cons in Hl as [->|Hl]); [..|inversion Hl]; simpl in *;
    repeat (apply elem_of_cons in Hc as [->|Hc]); try (inversion Hc; fail);
    repeat (apply elem_of_cons in Hb as [->|Hb]); try (inversion Hb; fail);
    first [set_solver | vm_compute in Hp; discriminate Hp].
Qed.

Lemma virtual_checked c b :
  listed_together pets_lists c b -> isb virtually b c = true -> unambiguous virtually c b.
Proof.
  intros (l & Hl & Hc & Hb) Hp.
  assert (Hc' : c ∈ [1; 2; 3; 4]%N) by (apply pets_listed; exists l; auto).
  assert (Hb' : b ∈ [1; 2; 3; 4]%N) by (apply pets_listed; exists l; auto).
  clear l Hl Hc Hb.
  repeat (apply elem_of_cons in Hc' as [->|Hc']); try (inversion Hc'; fail);
    repeat (apply elem_of_cons in Hb' as [->|Hb']); try (inversion Hb'; fail);
    first [ vm_compute in Hp; discriminate Hp
          | apply unambiguousb; [apply virtually_ok|by_compute] ].
Qed.

Lemma virtual_listed_example :
  hierarchy_ok virtually /\ (forall b c, isb virtually b c = true <-> inherits virtually c b) /\
  identifies id plain_type id /\ registers (isb virtually) no_abstract N.to_nat plain_type pets_lists R_pets /\
  complete (isb virtually) pets_lists /\
  (forall c b, listed_together pets_lists c b -> isb virtually b c = true -> unambiguous virtually c b) /\
  registered id R_pets 4 /\ derives id R_pets 4 1.
Proof.
  split; [apply virtually_ok|]. split; [intros b c; apply isb_spec, virtually_ok|].
  split; [apply plain_identifies|]. split; [apply virtual_registers|]. split; [apply virtual_complete|].
  split; [apply virtual_checked|]. split.
  - exists (cls 4 [1; 2; 3; 4])%N. split; [left|reflexivity].
  - econstructor; [|constructor]. exists (cls 4 [1; 2; 3; 4])%N, 1%N. split; [left|]. split; [left|].
    split; reflexivity.
Qed.

Lemma virtual_unambiguous ms c b :
  let R := Registrations (flat_map li_records pets_lists) ms in
  registered id R c -> derives id R c b -> unambiguous virtually c b.
Proof.
  intros R. apply (listed_unambiguous virtually (isb virtually) no_abstract N.to_nat plain_type id id pets_lists R).
  - apply virtually_ok.
  - intros b' c'. apply isb_spec, virtually_ok.
  - apply plain_identifies.
  - apply virtual_registers.
  - apply virtual_complete.
  - apply virtual_checked.
Qed.

Lemma virtual_bases_first : bases_first id R_pets.
Proof.
  apply (complete_bases_first (isb virtually) no_abstract N.to_nat plain_type id id pets_lists R_pets).
  - apply (inherits_hierarchy virtually); [apply virtually_ok|]. intros b' c'. apply isb_spec, virtually_ok.
  - apply plain_identifies.
  - apply virtual_registers.
  - apply virtual_complete.
Qed.

(* meet(Dog, Chimera), through virtual bases. *)
Lemma virtual_call_example :
  hierarchy_ok virtually /\
  (forall c b, registered id R_pets (id c) -> derives id R_pets (id c) (id b) -> unambiguous virtually c b) /\
  program_ok cf0 env0 R_pets /\ bases_first id R_pets /\ initialized_by cf0 run0 false R_pets w_pets /\
  call_ok cf0 id R_pets w_pets meet (map AObject [2; 4]%N) (map id [2; 4]%N) /\ functions_ok meet /\
  together (map AObject [2; 4]%N) /\ map id (mr_vp meet) = map id [1; 1]%N /\
  takes id id meet [[1; 1]; [2; 1]; [1; 3]; [2; 2]]%N /\
  call cf0 w_pets 2 meet (map AObject [2; 4]%N) = Ok (Calls 24%N) /\
  contains virtually 4 [1]%N /\ cast_part ByReference virtually 4 1 2 [1]%N = Ok (Some [4; 2]%N).
Proof.
  split; [apply virtually_ok|]. split; [exact (virtual_unambiguous [poke; meet])|]. split; [apply pets_program|].
  split; [apply virtual_bases_first|].
  split; [apply pets_initialized|]. split; [apply pets_call|]. split; [apply functions_check; by_compute|].
  split; [apply objects_together|]. split; [reflexivity|]. split; [apply meet_takes|]. split; [by_compute|].
  split; [|by_compute]. apply subobjects_spec; [apply virtually_ok|]. by_decide.
Qed.

(* next, in greet(Chimera, Chimera). *)
Definition R_hello := Registrations (flat_map li_records pets_lists) [greet].
Definition w_hello : world := state cf0 false R_hello.

Lemma hello_example :
  hierarchy_ok virtually /\
  (forall c b, registered id R_hello (id c) -> derives id R_hello (id c) (id b) -> unambiguous virtually c b) /\
  program_ok cf0 env0 R_hello /\ initialized_by cf0 run0 false R_hello w_hello /\
  greet ∈ reg_methods R_hello /\ mr_overriders greet !! 3 = Some (ovr [4; 4] 24)%N /\
  unique_signature id (mr_overriders greet) 3 /\
  (forall args, valid_args id R_hello greet args ->
     pointwise id R_hello (mr_overriders greet) (candidate id R_hello (mr_overriders greet) args)) /\
  functions_ok greet /\ NoDup (map or_pf (mr_overriders greet)) /\
  valid_args id R_hello greet (map id [4; 4]%N) /\ applicable id R_hello (map id [4; 4]%N) (ovr [4; 4] 24)%N /\
  map id (mr_vp greet) = map id [1; 1]%N /\ takes id id greet [[1; 1]; [2; 1]; [2; 2]; [4; 4]]%N /\
  call_next w_hello 2 greet (or_next (ovr [4; 4] 24)%N) (map AObject [4; 4]%N) = Ok (Calls 23%N).
Proof.
  split; [apply virtually_ok|]. split; [exact (virtual_unambiguous [greet])|].
  split; [apply program_check; by_compute|]. split; [apply state_initialized; by_compute|].
  split; [left|]. split; [reflexivity|]. split; [apply signatures_uniqueb_spec; by_compute|].
  split; [intros args _; apply (pointwiseb_spec id R_hello 4); by_compute|].
  split; [apply functions_check; by_compute|]. split; [by_decide|].
  split; [apply (validb_spec id R_hello 4); by_compute|].
  split; [apply (applicableb_spec id R_hello 4); by_compute|].
  split; [reflexivity|]. split; [repeat constructor|by_compute].
Qed.

(* ---- use_classes<Animal, Dog, Cat>, use_classes<Dog, Cat, Chimera>, without virtual ---- *)
Definition knot_lists : list listing :=
  [Listing 0 [1; 2; 3] (records (isb repeatedly) 0 [1; 2; 3]);
   Listing 1 [2; 3; 4] (records (isb repeatedly) 1 [2; 3; 4])]%N.
Definition R_knot := Registrations (flat_map li_records knot_lists) [purr].
Definition w_knot : world := state cf0 false R_knot.

Lemma knot_registers : registers (isb repeatedly) no_abstract N.to_nat plain_type knot_lists R_knot.
Proof.
  split; [reflexivity|]. intros l Hl. repeat (apply elem_of_cons in Hl as [->|Hl]); [..|inversion Hl];
    reflexivity.
Qed.

Lemma knot_listed c : listed knot_lists c -> c ∈ [1; 2; 3; 4]%N.
Proof.
  intros (l & Hl & Hc). unfold knot_lists in Hl.
  repeat (apply elem_of_cons in Hl as [->|Hl]); [..|inversion Hl]; simpl in Hc; set_solver.
Qed.

Lemma knot_2 : listed knot_lists 2.
Proof.
  exists (Listing 0 [1; 2; 3] (records (isb repeatedly) 0 [1; 2; 3]))%N. split; [left|]. simpl. set_solver.
Qed.

Lemma knot_documented : documented (isb repeatedly) knot_lists.
Proof.
  intros c b (Hc & Hb & Hne & Hp & Hd). apply knot_listed in Hc, Hb.
  assert (H41 : ~ (c = 4 /\ b = 1)%N).
  { intros [-> ->]. destruct (Hd 2%N knot_2) as [H|H]; [by_compute|by_compute|discriminate..]. }
  repeat (apply elem_of_cons in Hc as [->|Hc]); try (inversion Hc; fail);
    repeat (apply elem_of_cons in Hb as [->|Hb]); try (inversion Hb; fail);
    try (vm_compute in Hp; discriminate Hp); try (destruct Hne; reflexivity); try (destruct H41; auto; fail).
  - exists (Listing 0 [1; 2; 3] (records (isb repeatedly) 0 [1; 2; 3]))%N. split; [left|]. simpl. set_solver.
  - exists (Listing 0 [1; 2; 3] (records (isb repeatedly) 0 [1; 2; 3]))%N. split; [left|]. simpl. set_solver.
  - exists (Listing 1 [2; 3; 4] (records (isb repeatedly) 1 [2; 3; 4]))%N. split; [right; left|]. simpl. set_solver.
  - exists (Listing 1 [2; 3; 4] (records (isb repeatedly) 1 [2; 3; 4]))%N. split; [right; left|]. simpl. set_solver.
Qed.

Lemma knot_checked c b :
  listed_together knot_lists c b -> isb repeatedly b c = true -> unambiguous repeatedly c b.
Proof.
  intros (l & Hl & Hc & Hb) Hp. unfold knot_lists in Hl.
  repeat (apply elem_of_cons in Hl as [->|Hl]); [..|inversion Hl]; simpl in Hc, Hb;
    repeat (apply elem_of_cons in Hc as [->|Hc]); try (inversion Hc; fail);
    repeat (apply elem_of_cons in Hb as [->|Hb]); try (inversion Hb; fail);
    first [ vm_compute in Hp; discriminate Hp
          | apply unambiguousb; [apply repeatedly_ok|by_compute] ].
Qed.

(* The Chimera is passed as a Dog: the Animal of the Dog is cast to a Cat. *)
Lemma knot_refuted :
  exists H is_base abstract vptr_of static_type key ls cf X R w,
    hierarchy_ok H /\ (forall b c, is_base b c = true <-> inherits H c b) /\
    identifies (e_ti (r_env X)) static_type key /\
    registers is_base abstract vptr_of static_type ls R /\ documented is_base ls /\
    (forall c b, listed_together ls c b -> is_base b c = true -> unambiguous H c b) /\
    program_ok cf (r_env X) R /\ bases_first (e_ti (r_env X)) R /\ initialized_by cf X false R w /\
    exists mid m all c b d o s,
      call_ok cf (e_ti (r_env X)) R w m all [key c] /\ functions_ok m /\
      map (e_ti (r_env X)) (mr_vp m) = [key b] /\
      o ∈ mr_overriders m /\ map (e_ti (r_env X)) (or_vp o) = [key d] /\
      call cf w mid m all = Ok (Calls (or_pf o)) /\
      contains H c s /\ list.last s = Some b /\ cast_part ByReference H c b d s = Undef.
Proof.
  exists repeatedly, (isb repeatedly), no_abstract, N.to_nat, plain_type, id, knot_lists, cf0, run0, R_knot, w_knot.
  split; [apply repeatedly_ok|]. split; [intros b c; apply isb_spec, repeatedly_ok|].
  split; [apply plain_identifies|]. split; [apply knot_registers|]. split; [apply knot_documented|].
  split; [apply knot_checked|]. split; [apply program_check; by_compute|].
  split; [apply bases_firstb_spec; by_compute|]. split; [apply state_initialized; by_compute|].
  exists 3%N, purr, (map AObject [4]%N), 4%N, 1%N, 3%N, (ovr [3] 31)%N, [4; 2; 1]%N.
  split.
  { apply (call_check cf0 R_knot w_knot purr [4]%N 4); try discriminate; [left|by_compute|by_compute|by_compute]. }
  split; [apply functions_check; by_compute|]. split; [reflexivity|]. split; [left|]. split; [reflexivity|].
  split; [by_compute|].
  split; [apply subobjects_spec; [apply repeatedly_ok|by_decide]|]. split; [reflexivity|by_compute].
Qed.
