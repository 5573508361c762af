(* A program whose objects are constructed in an awkward order, and a shared library. *)
From stdpp Require Import base list numbers relations.
From Verif Require Import Base Registry Spec ModelClasses ModelHash ModelWorld ModelCall SpecCall
  Decide ExamplesModel ExamplesDispatch ProofDispatch ProofFindings
  ModelStaticList ModelRegistrars SpecRegistrars ProofRegistrars ProofRegistrarOrder.

(* Objects 0 and 4 register the same class.  Overrider 7 is in a shared library. *)
Definition S0 : source := Source
  (fun k => nth k [cls 1 [1]; cls 2 [2; 1]; cls 3 [3; 1]; cls 4 [4; 2; 3; 1]; cls 1 [1]]%N (cls 9 [9])%N)
  (fun k => if decide (k = 4) then 0 else k)
  (fun k => nth k [poke; meet] poke)
  (fun k => nth k [(0, ovr [1%N] 11); (0, ovr [2%N] 12); (0, ovr [3%N] 13);
                   (1, ovr [1; 1]%N 21); (1, ovr [2; 1]%N 22); (1, ovr [1; 3]%N 23);
                   (1, ovr [2; 2]%N 24); (0, ovr [4%N] 14)] (0, ovr [1%N] 99)).

Lemma S0_ok : source_ok S0.
Proof.
  intros i j. simpl.
  do 5 (destruct i as [|i]; [do 5 (destruct j as [|j]; [simpl; congruence|]); simpl; congruence|]).
  do 5 (destruct j as [|j]; [simpl; congruence|]). simpl. destruct i, j; reflexivity.
Qed.

(* Overriders come before their methods, derived classes before their bases.  [st] is
   static_type at that time. *)
Definition loading (st : N -> N) : list revent := map (Construct st)
  [ROverrider 3; ROverrider 4; RMethod 1; RClass 0; ROverrider 0; RClass 4; ROverrider 5; RClass 1;
   RClass 2; ROverrider 6; RMethod 0; ROverrider 1; ROverrider 2; RClass 3].
Definition other_order : list registrar :=
  [RClass 0; RClass 1; RClass 4; RClass 2; RClass 3; RMethod 0; RMethod 1; ROverrider 6; ROverrider 5;
   ROverrider 4; ROverrider 3; ROverrider 2; ROverrider 1; ROverrider 0].
Definition with_library (st : N -> N) : list revent := loading st ++ [Construct st (ROverrider 7)].
Definition unloaded (st : N -> N) : list revent := with_library st ++ [Destroy (ROverrider 7)].

(* Type ids that are assigned late, in two steps. *)
Definition no_ids : N -> N := fun _ => 0%N.
Definition some_ids : N -> N := fun x => if decide (x = 1)%N then 7%N else 0%N.
Definition deferred_events : list revent :=
  loading no_ids ++ [Attempt some_ids 5; Construct some_ids (ROverrider 7); Destroy (ROverrider 7)].

(* Lifetimes can be checked. *)
Definition event_okb (before : list revent) (ev : revent) : bool :=
  match ev with
  | Construct _ o =>
      forallb (fun ev => match ev with Construct _ o' => bool_decide (o' <> o) | _ => true end) before
  | Destroy o => bool_decide (o ∈ live before)
  | Attempt _ _ => true
  end.
Fixpoint lifetimesb (before evs : list revent) : bool :=
  match evs with
  | [] => true
  | ev :: evs => event_okb before ev && lifetimesb (before ++ [ev]) evs
  end.

Lemma lifetimes_from evs : forall b0, lifetimesb b0 evs = true ->
  forall before ev after, evs = before ++ ev :: after -> event_okb (b0 ++ before) ev = true.
Proof.
  induction evs as [|e evs IH]; intros b0 H before ev after E; [destruct before; discriminate|].
  cbn [lifetimesb] in H. apply andb_prop in H as [H1 H2]. destruct before as [|b before].
  - injection E as -> ->. rewrite app_nil_r. exact H1.
  - injection E as -> ->. specialize (IH _ H2 before ev after eq_refl).
    rewrite <- app_assoc in IH. exact IH.
Qed.

Lemma lifetimes_check evs : lifetimesb [] evs = true -> lifetimes evs.
Proof.
  intros H before ev after E. pose proof (lifetimes_from evs [] H before ev after E) as Hok.
  simpl in Hok. destruct ev as [st o|o|st n]; simpl in Hok.
  - intros (st' & Hc). apply forallb_forall with (x := Construct st' o) in Hok.
    + apply bool_decide_eq_true in Hok. contradiction.
    + apply elem_of_list_In. exact Hc.
  - apply bool_decide_eq_true in Hok. exact Hok.
  - exact Logic.I.
Qed.

Lemma library_lifetimes st : lifetimes (unloaded st).
Proof. apply lifetimes_check. by_compute. Qed.
Lemma deferred_lifetimes : lifetimes deferred_events.
Proof. apply lifetimes_check. by_compute. Qed.

Lemma loading_ids st ev st' o : ev = loading st \/ ev = with_library st \/ ev = unloaded st ->
  Construct st' o ∈ ev -> st' = st.
Proof.
  intros H Hc. assert (Hu : Construct st' o ∈ unloaded st).
  { unfold unloaded, with_library in *. rewrite !elem_of_app. destruct H as [->|[->| ->]];
      rewrite ?elem_of_app in Hc; tauto. }
  unfold unloaded, with_library, loading in Hu. rewrite !elem_of_app in Hu.
  destruct Hu as [[Hu|Hu]|Hu].
  - apply elem_of_list_fmap in Hu as (o' & [= -> ->] & _). reflexivity.
  - apply elem_of_list_singleton in Hu. congruence.
  - apply elem_of_list_singleton in Hu. discriminate.
Qed.

Lemma unloaded_ids st : gives_ids false (unloaded st) st.
Proof.
  right. intros st' o x H. rewrite (loading_ids st (unloaded st) st' o); auto.
Qed.

(* What is registered: with and without the library, and after type ids are known. *)
Definition R_with := registers S0 id (live (with_library id)).
Definition R_without := registers S0 id (live (unloaded id)).
Definition w_without : world := state cf0 false R_without.

Lemma unloaded_registers :
  map cr_type (reg_classes R_without) = [1; 1; 2; 3; 4]%N /\
  map (fun m => (mr_slots_strides m, map or_pf (mr_overriders m))) (reg_methods R_with)
  = [(2, [21; 22; 23; 24]%N); (1, [11; 12; 13; 14]%N)] /\
  map (fun m => (mr_slots_strides m, map or_pf (mr_overriders m))) (reg_methods R_without)
  = [(2, [21; 22; 23; 24]%N); (1, [11; 12; 13]%N)].
Proof. split; [|split]; by_compute. Qed.

Lemma registrars_example :
  source_ok S0 /\ lifetimes (unloaded id) /\ gives_ids false (unloaded id) id /\
  length (unloaded id) <= 100.
Proof.
  split; [exact S0_ok|]. split; [apply library_lifetimes|]. split; [apply unloaded_ids|].
  simpl. lia.
Qed.

Lemma deferred_example :
  source_ok S0 /\ lifetimes deferred_events /\ length deferred_events <= 100 /\
  registers S0 id (live deferred_events) = R_without.
Proof.
  split; [exact S0_ok|]. split; [exact deferred_lifetimes|]. split; [simpl; lia|by_compute].
Qed.

(* Without deferral, type ids that are not known yet are registered. *)
Definition report_for (deferred : bool) (evs : list revent) (st : N -> N) :=
  match registrar_run deferred S0 100 evs memory0 with
  | Ok s => snd (initialize_objects deferred S0 cf0 run0 false 100 st s world0)
  | Err e => Err e | Undef => Undef | Diverge => Diverge
  end.

Lemma ids_needed :
  exists S evs fuel st s s' cf X w, source_ok S /\ lifetimes evs /\ length evs <= fuel /\
    registrar_run false S fuel evs memory0 = Ok s /\
    registrar_run false S fuel (early_ids st evs) memory0 = Ok s' /\
    snd (initialize_objects false S cf X false fuel st s w) <>
    snd (initialize_objects false S cf X false fuel st s' w).
Proof.
  destruct (run_ok false S0 S0_ok 100 (unloaded no_ids) (library_lifetimes no_ids) ltac:(simpl; lia))
    as (s & Hs & _).
  destruct (run_ok false S0 S0_ok 100 (early_ids id (unloaded no_ids))
    (early_lifetimes id _ (library_lifetimes no_ids)) ltac:(simpl; lia)) as (s' & Hs' & _).
  exists S0, (unloaded no_ids), 100, id, s, s', cf0, run0, world0.
  split; [exact S0_ok|]. split; [apply library_lifetimes|]. split; [simpl; lia|].
  split; [exact Hs|]. split; [exact Hs'|].
  assert (G : report_for false (unloaded no_ids) id <> report_for false (early_ids id (unloaded no_ids)) id).
  { vm_compute. congruence. }
  unfold report_for in G. rewrite Hs, Hs' in G. exact G.
Qed.

(* Another order of construction, and calls after the library is unloaded. *)
Definition R_other := registers S0 id other_order.
Definition w_other : world := state cf0 false R_other.
Definition meet_u : method_record := nth 0 (reg_methods R_without) poke.
Definition poke_u : method_record := nth 1 (reg_methods R_without) poke.

Lemma nth_elem {A} (l : list A) i d : i < length l -> nth i l d ∈ l.
Proof. intros H. apply elem_of_list_In. apply nth_In. exact H. Qed.

Lemma order_example :
  live (unloaded id) ≡ₚ other_order /\
  program_ok cf0 env0 R_without /\ bases_first id R_without /\ bases_first id R_other /\
  initialized_by cf0 run0 false R_without w_without /\ initialized_by cf0 run0 false R_other w_other /\
  call_ok cf0 id R_without w_without meet_u (map AObject [4; 2]%N) [4; 2]%N /\
  Forall2 (passes cf0 id R_other w_other) (virtual_args (map AObject [4; 2]%N)) [4; 2]%N /\
  together (map AObject [4; 2]%N) /\
  settled id R_without (mr_overriders meet_u) (candidate id R_without (mr_overriders meet_u) [4; 2]%N) /\
  map or_pf (mr_overriders meet_u) = [21; 22; 23; 24]%N /\
  flat_map (fun m => map or_pf (mr_overriders m)) (reg_methods R_other) = [13; 12; 11; 24; 23; 22; 21]%N.
Proof.
  split. { change (live (unloaded id)) with
    [ROverrider 3; ROverrider 4; RMethod 1; RClass 0; ROverrider 0; RClass 4; ROverrider 5; RClass 1;
     RClass 2; ROverrider 6; RMethod 0; ROverrider 1; ROverrider 2; RClass 3].
    unfold other_order. solve_Permutation. }
  split; [apply program_check; by_compute|].
  split; [apply bases_firstb_spec; by_compute|]. split; [apply bases_firstb_spec; by_compute|].
  split; [apply state_initialized; by_compute|]. split; [apply state_initialized; by_compute|].
  split; [apply (call_check cf0 R_without w_without meet_u [4; 2]%N 4); try discriminate;
    [apply nth_elem; vm_compute; lia|by_compute|by_compute|by_compute]|].
  split; [rewrite objects_virtual; apply objects_pass; [discriminate|by_compute]|].
  split; [apply objects_together|].
  split; [apply candidates_settled, (transitive_compute id R_without 4); by_compute|].
  split; by_compute.
Qed.

(* A call after the library is unloaded: the overrider for class 4 was in the library. *)
Lemma unload_example :
  program_ok cf0 env0 R_without /\ bases_first id R_without /\
  initialized_by cf0 run0 false R_without w_without /\
  call_ok cf0 id R_without w_without poke_u [AObject 4%N] [4%N] /\ functions_ok poke_u /\
  length (mr_vp poke_u) = 1 /\
  call cf0 (state cf0 false R_with) 0 (nth 1 (reg_methods R_with) poke) [AObject 4%N] = Ok (Calls 14%N) /\
  call cf0 w_without 1 meet_u (map AObject [4; 2]%N) = Ok (Calls 24%N) /\
  call cf0 w_without 0 poke_u [AObject 2%N] = Ok (Calls 12%N).
Proof.
  split; [apply program_check; by_compute|].
  split; [apply bases_firstb_spec; by_compute|].
  split; [apply state_initialized; by_compute|].
  split; [apply (call_check cf0 R_without w_without poke_u [4]%N 4); try discriminate;
    [apply nth_elem; vm_compute; lia|by_compute|by_compute|by_compute]|].
  split; [apply functions_check; by_compute|].
  split; [by_compute|]. split; [by_compute|]. split; by_compute.
Qed.

Lemma once_example :
  source_ok S0 /\ lifetimes (unloaded id) /\ length (unloaded id) <= 100 /\
  constructed (unloaded id) (ROverrider 0) /\ constructed (unloaded id) (ROverrider 7) /\
  ROverrider 7 ∉ live (unloaded id).
Proof.
  split; [exact S0_ok|]. split; [apply library_lifetimes|]. split; [simpl; lia|].
  split; [|split].
  - exists id. unfold unloaded, with_library, loading. simpl. do 4 right. left.
  - exists id. unfold unloaded, with_library, loading. simpl. do 14 right. left.
  - apply (bool_decide_eq_true_1 (ROverrider 7 ∉ live (unloaded id))). by_compute.
Qed.
