(* Objects with an embedded v-table pointer. *)
From stdpp Require Import base list numbers relations.
From Verif Require Import Base Registry Spec ModelClasses ModelMethods ModelSlots ModelTables ModelHash
  ModelWorld ModelCall ModelVirtualPtr ModelInplace SpecCall SpecVirtualPtr SpecInplace Decide
  ExamplesModel ExamplesDispatch ExamplesVptr ProofInplace.

(* ---- deciding that no subobject is shared ---- *)
Lemma subs_unshared c : forall p, NoDup (subs p c) ->
  forall path path' q b b', within p c path q b -> within p c path' q b' -> path = path'.
Proof.
  induction c as [n v bs IH] using class_induction. intros p Hnd path path' q b b' H H'.
  simpl in Hnd. apply NoDup_cons in Hnd as [Hp Hnd].
  assert (Hin : forall i x l d, bs !! i = Some x -> within (base_at p x) x l q d ->
    q ∈ flat_map (fun b => subs (base_at p b) b) bs /\ q ∈ subs (base_at p x) x).
  { intros i x l d Hi Hw. assert (Hq : q ∈ subs (base_at p x) x) by (apply subs_within; eauto).
    split; [|exact Hq]. apply elem_of_flat_map. exists x. split; [|exact Hq].
    eapply elem_of_list_lookup_2; eauto. }
  inversion H as [|p1 c1 i x l q1 d Hi Hw]; inversion H' as [|p2 c2 j y l' q2 d' Hj Hw']; subst;
    simpl in *; [reflexivity| | |].
  - exfalso. apply Hp. eapply Hin; eauto.
  - exfalso. apply Hp. eapply Hin; eauto.
  - assert (i = j) as ->.
    { destruct (Hin _ _ _ _ Hi Hw) as [_ H1]. destruct (Hin _ _ _ _ Hj Hw') as [_ H2].
      destruct (lt_eq_lt_dec i j) as [[Hlt|Heq]|Hlt]; [|exact Heq|]; exfalso.
      - pose proof (take_drop_middle bs j y Hj) as Hs. rewrite <- Hs in Hnd.
        refine (NoDup_flat_map_app _ _ _ _ x q Hnd _ H2 H1). left.
        apply elem_of_list_lookup. exists i. rewrite lookup_take by lia. exact Hi.
      - pose proof (take_drop_middle bs i x Hi) as Hs. rewrite <- Hs in Hnd.
        refine (NoDup_flat_map_app _ _ _ _ y q Hnd _ H1 H2). left.
        apply elem_of_list_lookup. exists j. rewrite lookup_take by lia. exact Hj. }
    f_equal. assert (x = y) as -> by congruence.
    pose proof (elem_of_list_lookup_2 _ _ _ Hj) as Hy.
    eapply (IH y Hy); eauto. exact (NoDup_flat_map_elem _ _ _ Hnd Hy).
Qed.

Lemma unshared_check o c : bool_decide (NoDup (subs (complete_at o c) c)) = true -> unshared o c.
Proof. intros H. apply bool_decide_eq_true in H. exact (subs_unshared c _ H). Qed.

(* ---- classes ---- *)
(* test_inplace_vptr.cpp: Animal 1, Cat 3 : Animal, Pet 6, DomesticCat 7 : Cat, Pet. *)
Definition animal (v : bool) := Class 1 v [].
Definition domestic : class := Class 7 false [Class 3 false [animal false]; Class 6 false []].
(* The same with Animal a virtual base of Cat, Cat a virtual base of House (8) and House
   the second base of Palace (9). *)
Definition palace : class :=
  Class 9 false [Class 6 false []; Class 8 false [Class 3 true [animal true]]].
(* Dog 2 : Animal.  Chimera 4 : Dog, Cat, with a virtual base Animal. *)
Definition dog (v : bool) : class := Class 2 false [animal v].
Definition chimera : class := Class 4 false [dog true; Class 3 false [animal true]].

Definition mem0 : memory := fun _ => None.
Definition addr0 : N -> nat := N.to_nat.

Lemma dispatches_check cf w addr m p c n :
  forallb (fun r => match read cf w (m r) with
    | Ok v => bool_decide (v = w_static w (addr n)) | _ => false end) (roots p c) = true ->
  dispatches_as cf w addr m p c n.
Proof.
  intros H. apply right_dispatches. intros r Hr. rewrite forallb_forall in H.
  specialize (H r ltac:(apply elem_of_list_In; exact Hr)).
  destruct (read cf w (m r)) as [v| | |]; try discriminate. apply bool_decide_eq_true in H. congruence.
Qed.

(* The bodies that run: class, and class designated by the pointer that the object
   gives, in a state where the variables have different values. *)
Definition shown (e : event) : bool * N := (ev_ctor e, cname (ev_class e)).

Definition made (c : class) : memory := fst (construct cf0 w0 addr0 0 c (mem0, [])).

Lemma domestic_example :
  unshared 0 domestic /\
  dispatches_as cf0 w0 addr0 (made domestic) (complete_at 0 domestic) domestic 7 /\
  within (complete_at 0 domestic) domestic [0; 0] (0, [7; 3; 1]%N) (animal false) /\
  map shown (snd (construct cf0 w0 addr0 0 domestic (mem0, []))) =
    [(true, 1); (true, 3); (true, 6); (true, 7)]%N /\
  map shown (snd (destroy cf0 w0 addr0 0 domestic (made domestic, []))) =
    [(false, 7); (false, 6); (false, 3); (false, 1)]%N.
Proof.
  split; [apply unshared_check; by_compute|].
  split; [apply dispatches_check; by_compute|].
  split; [|split; by_compute].
  apply within_base with (b := Class 3 false [animal false]); [reflexivity|].
  apply within_base with (b := animal false); [reflexivity|]. constructor.
Qed.

Lemma palace_example :
  unshared 0 palace /\
  dispatches_as cf0 w0 addr0 (made palace) (complete_at 0 palace) palace 9 /\
  map shown (snd (construct cf0 w0 addr0 0 palace (mem0, []))) =
    [(true, 1); (true, 3); (true, 6); (true, 8); (true, 9)]%N /\
  map shown (snd (destroy cf0 w0 addr0 0 palace (made palace, []))) =
    [(false, 9); (false, 8); (false, 6); (false, 3); (false, 1)]%N.
Proof.
  split; [apply unshared_check; by_compute|].
  split; [apply dispatches_check; by_compute|]. split; by_compute.
Qed.

(* A call from the body of the constructor of Dog. *)
Definition dog_event : event := Event true (complete_at 0 (dog false)) (dog false) (made (dog false)).

Lemma dog_example :
  program_ok cf0 env0 R0 /\ bases_first id R0 /\ initialized_by cf0 run0 false R0 w0 /\
  dog_event ∈ snd (construct cf0 w0 addr0 0 (dog false) (mem0, [])) /\
  first_record id R0 2%N = Some (cls 2 [2; 1])%N /\ cr_static_vptr (cls 2 [2; 1])%N = addr0 2 /\
  within (ev_at dog_event) (ev_class dog_event) [0] (0, [2; 1]%N) (animal false) /\
  poke ∈ reg_methods R0 /\ length (mr_vp poke) = 1 /\ valid_args id R0 poke [2%N] /\ functions_ok poke.
Proof.
  split; [apply R0_program|]. split; [apply R0_bases_first|]. split; [apply R0_initialized|].
  split; [right; left|]. split; [by_compute|]. split; [reflexivity|].
  split; [apply within_base with (b := animal false); [reflexivity|constructor]|].
  split; [left|]. split; [reflexivity|].
  split; [apply (validb_spec id R0 4); by_compute|apply poke_functions].
Qed.

(* The pointer of Animal, shared by Dog and Cat, designates Animal while the
   destructor of Dog runs: calls from it enter the overrider for Animal. *)
Lemma shared_wrong : exists cf X R w addr o c m e v mid mr n,
  program_ok cf (r_env X) R /\ bases_first (e_ti (r_env X)) R /\ initialized_by cf X false R w /\
  m = fst (construct cf w addr o c (mem0, [])) /\
  dispatches_as cf w addr m (complete_at o c) c (cname c) /\
  e ∈ snd (destroy cf w addr o c (m, [])) /\ n = cname (ev_class e) /\
  mr ∈ reg_methods R /\
  vptr_fn cf w (ev_memory e) (ev_at e) (ev_class e) = Ok v /\
  selects (e_ti (r_env X)) R (mr_overriders mr) [n] (SOverrider 1) /\
  call cf w mid mr [APtr v n] = Ok (Calls 11%N) /\ or_pf <$> mr_overriders mr !! 1 = Some 12%N.
Proof.
  assert (He : exists e, snd (destroy cf0 w0 addr0 0 chimera (made chimera, [])) !! 2 = Some e /\
    cname (ev_class e) = 2%N /\ vptr_fn cf0 w0 (ev_memory e) (ev_at e) (ev_class e) = Ok (w_static w0 1)).
  { eexists. split; [reflexivity|]. split; [reflexivity|]. by_compute. }
  destruct He as (e & He & Hn & Hv).
  exists cf0, run0, R0, w0, addr0, 0, chimera, (made chimera), e, (w_static w0 1), 1%N, poke, 2%N.
  split; [apply R0_program|]. split; [apply R0_bases_first|]. split; [apply R0_initialized|].
  split; [reflexivity|]. split; [apply dispatches_check; by_compute|].
  split; [eapply elem_of_list_lookup_2; exact He|]. split; [congruence|]. split; [left|].
  split; [exact Hv|]. split; [|split; [by_compute|reflexivity]].
  change (SOverrider 1) with
    (selectb id R0 4 (mr_overriders poke) (cands id R0 4 (mr_overriders poke) [2%N])).
  apply selects_compute. by_compute.
Qed.

(* ---- programs with objects ---- *)
Definition cf_indirect0 := Config VptrVector true true true.

Lemma life_example : exists s,
  rtc (object_step cf_indirect0 addr0) (Objects world0 mem0 []) s /\
  os_live s = [(1, chimera); (2, dog false)] /\ os_world s = state cf_indirect0 false R0 /\
  vptr_fn cf_indirect0 (os_world s) (os_memory s) (complete_at 1 chimera) chimera =
    Ok (w_static (os_world s) 4).
Proof.
  eexists (Objects (state cf_indirect0 false R0) _ _). split.
  - eapply rtc_l; [apply (step_new _ _ _ _ _ 0 chimera); set_solver|].
    eapply rtc_l; [apply (step_new _ _ _ _ _ 2 (dog false)); set_solver|].
    eapply rtc_l; [apply (step_world _ _ _ (state cf_indirect0 false R0)); left; reflexivity|].
    eapply rtc_l; [apply (step_copy _ _ _ _ _ 1 0 chimera); set_solver|].
    eapply rtc_l; [apply (step_assign _ _ _ _ _ 1 0 chimera); set_solver|].
    eapply rtc_l; [apply (step_delete _ _ _ _ _ 0 chimera); set_solver|]. constructor.
  - split; [reflexivity|]. split; [reflexivity|]. by_compute.
Qed.

(* An Animal copied from a Dog. *)
Definition sliced : memory := copy (complete_at 1 (animal false)) (0, [2; 1]%N) (animal false) (made (dog false)).

Lemma slice_example :
  dispatches_as cf0 w0 addr0 (made (dog false)) (0, [2; 1]%N) (animal false) 2.
Proof. apply dispatches_check. by_compute. Qed.

Lemma slice_wrong : exists cf X R w addr m p q c v mid mr,
  program_ok cf (r_env X) R /\ bases_first (e_ti (r_env X)) R /\ initialized_by cf X false R w /\
  (* [p]: a complete object of class [c], copied from the base [q] of an object *)
  p = complete_at 1 c /\
  m = copy p q c (fst (construct cf w addr 0 (dog false) (mem0, []))) /\
  within (complete_at 0 (dog false)) (dog false) [0] q c /\ mr ∈ reg_methods R /\
  vptr_fn cf w m p c = Ok v /\ v <> w_static w (addr (cname c)) /\
  selects (e_ti (r_env X)) R (mr_overriders mr) [cname c] (SOverrider 0) /\
  call cf w mid mr [APtr v (cname c)] = Ok (Calls 12%N) /\ or_pf <$> mr_overriders mr !! 0 = Some 11%N.
Proof.
  exists cf0, run0, R0, w0, addr0, sliced, (complete_at 1 (animal false)), (0, [2; 1]%N), (animal false),
    (w_static w0 2), 1%N, poke.
  split; [apply R0_program|]. split; [apply R0_bases_first|]. split; [apply R0_initialized|].
  split; [reflexivity|]. split; [reflexivity|].
  split; [apply within_base with (b := animal false); [reflexivity|constructor]|]. split; [left|].
  split; [by_compute|].
  split; [apply (bool_decide_unpack (w_static w0 2 <> w_static w0 1)); vm_compute; exact I|].
  split; [|split; [by_compute|reflexivity]].
  change (SOverrider 0) with
    (selectb id R0 4 (mr_overriders poke) (cands id R0 4 (mr_overriders poke) [1%N])).
  apply selects_compute. by_compute.
Qed.

(* Without indirect_vptr, an object constructed before initialize(). *)
Lemma early_wrong : exists cf X R w addr o c v mid mr,
  program_ok cf (r_env X) R /\ bases_first (e_ti (r_env X)) R /\
  (exists rep, initialize cf X false R world0 = (w, Ok rep)) /\ mr ∈ reg_methods R /\
  vptr_fn cf w (fst (construct cf world0 addr o c (mem0, []))) (complete_at o c) c = Ok v /\
  valid_args (e_ti (r_env X)) R mr [cname c] /\ call cf w mid mr [APtr v (cname c)] = Undef.
Proof.
  exists cf0, run0, R0, w0, addr0, 0, (dog false), VNull, 1%N, poke.
  split; [apply R0_program|]. split; [apply R0_bases_first|].
  split.
  { unfold w0, ExamplesDispatch.state. assert (H : succeedsb cf0 false R0 = true) by by_compute. unfold succeedsb in H.
    destruct (initialize cf0 run0 false R0 world0) as [w' [rep| | |]]; try discriminate. exists rep. reflexivity. }
  split; [left|]. split; [by_compute|]. split; [apply (validb_spec id R0 4); by_compute|by_compute].
Qed.
