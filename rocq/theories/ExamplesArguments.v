(* A call with a value, a unique_ptr and a virtual_ptr to a shared_ptr, the last two moved. *)
From stdpp Require Import base list numbers sets.
From Verif Require Import Base Registry Spec SpecCall ModelClasses ModelHash ModelWorld ModelCall ModelErrors
  ModelVirtualPtr ModelArguments SpecArguments Decide ExamplesModel ExamplesDispatch ExamplesVptr ExamplesNext ProofArgumentsProgram.

(* void meet(std::string, virtual_<std::unique_ptr<Animal>>, virtual_ptr<std::shared_ptr<Animal>>) *)
Definition ts0 : list ptype := [TValue; TSmart Unique; TVptr (Some Shared)].
(* Overriders with the classes of the overriders of [m]. *)
Definition ots_of (m : method_record) (f : fptr) : list otype :=
  OType 0 true false false ::
  match filter (fun o => or_pf o = f) (mr_overriders m) with
  | o :: _ => map (fun c => OType c false false true) (or_vp o)
  | [] => []
  end.

(* Two dogs, 0 and 1, a cat, 2, and a chimera, 3. *)
Definition objs0 (o : nat) : N := match o with 0 | 1 => 2%N | 2 => 3%N | _ => 4%N end.
Definition isa0 (o : nat) (c : N) : bool := derivesb id R0 4 (objs0 o) c.
Definition dyn0 (h : handle) : N := 77%N.

(* The caller: a string, a unique_ptr to dog 0, a virtual_ptr to a shared_ptr, to [o]. *)
Definition vp_of (w : world) (o : nat) : box := BValue (w_static w (N.to_nat (objs0 o))).
Definition heap_of (w : world) (o : nat) : heap :=
  Heap [Some (Content (HValue (Some 42%N)) None);
        Some (Content (HSmart Unique (Some (0, 0))) None);
        Some (Content (HSmart Shared (Some (o, 5))) (Some (vp_of w o)))] (fun _ => true).
Definition es0 : list expression := [ECopy 0; EMove 1; EMove 2].
Definition all_of (w : world) (o : nat) : list arg :=
  [AOther 77; AObject 2; APtr (w_static w (N.to_nat (objs0 o))) (objs0 o)]%N.

Lemma heap_healthy w o : o <> 0 -> healthy (heap_of w o).
Proof.
  intros Ho.
  assert (Hl : forall x k o' b vp, look (heap_of w o) x = Some (Content (HSmart k (Some (o', b))) vp) ->
    (x = 1 /\ k = Unique /\ o' = 0 /\ b = 0) \/ (x = 2 /\ k = Shared /\ o' = o /\ b = 5)).
  { intros x k o' b vp H. destruct x as [|[|[|x]]]; unfold look in H; simpl in H; try discriminate;
      injection H as <- <- <- _; auto. }
  split.
  - reflexivity.
  - intros x y k k' o' b b' vp vp' Hx Hy. apply Hl in Hx, Hy.
    destruct Hx as [(-> & -> & -> & ->)|(-> & -> & -> & ->)], Hy as [(-> & -> & H & ->)|(-> & -> & H & ->)];
      try congruence; repeat split; auto; discriminate.
  - intros x k o' b vp Hx Hk. apply Hl in Hx as [(_ & _ & _ & ->)|(_ & -> & _)]; congruence.
Qed.

Lemma heap_sole w o z : o <> 0 -> owner (heap_of w o) z o -> z = 2.
Proof.
  intros Ho (k & b & vp & Hz). destruct z as [|[|[|z]]]; unfold look in Hz; simpl in Hz; try discriminate; [|reflexivity].
  congruence.
Qed.
Lemma heap_owner w o : owner (heap_of w o) 2 o.
Proof. eexists _, _, _. reflexivity. Qed.

Lemma es0_apart : apart es0.
Proof.
  intros i j x e Hi Hj Hv. destruct i as [|[|[|i]]]; simpl in Hi; try discriminate; injection Hi as <-;
    destruct j as [|[|[|j]]]; simpl in Hj; try discriminate; injection Hj as <-; try reflexivity; discriminate.
Qed.

Lemma args_example w o : o <> 0 -> args_ok w objs0 dyn0 (heap_of w o) ts0 es0 (all_of w o).
Proof.
  intros Ho. split.
  - repeat constructor.
    + eapply arg_copy_ok; [reflexivity|reflexivity|constructor|discriminate].
    + eapply arg_move_ok; [reflexivity|reflexivity|constructor].
    + eapply arg_move_ok; [reflexivity|reflexivity|constructor].
  - apply es0_apart.
  - apply heap_healthy. exact Ho.
  - constructor; [|constructor; [|constructor; [|constructor]]].
    + eapply (shows_other w objs0 dyn0 _ TValue); reflexivity.
    + apply (shows_pointer w objs0 dyn0 _ (TSmart Unique) (EMove 1) 0); [right; eauto|reflexivity].
    + eapply (shows_vptr w objs0 dyn0 _ (TVptr (Some Shared)) (EMove 2) o); [eauto|reflexivity..].
Qed.

Lemma overriders_typed (ovs : list overrider_record) nr nn na ss :
  forallb (fun o => bool_decide (length (or_vp o) = 2)) ovs = true -> NoDup (map or_pf ovs) ->
  forall o, o ∈ ovs ->
  overrider_types ts0 (ots_of (MethodRecord [1; 1]%N nr ovs nn na ss) (or_pf o)) (or_vp o).
Proof.
  intros Hlen Hnd o Ho. unfold ots_of. simpl.
  assert (Hf : filter (fun o' => or_pf o' = or_pf o) ovs = [o]).
  { clear Hlen. induction ovs as [|o' ovs IH]; [apply elem_of_nil in Ho; contradiction|].
    simpl in Hnd. apply list.NoDup_cons in Hnd as [Hn Hnd]. rewrite filter_cons.
    apply elem_of_cons in Ho as [->|Ho].
    - rewrite decide_True by reflexivity. f_equal.
      clear IH Hnd. induction ovs as [|o2 ovs IH]; [reflexivity|]. simpl in Hn. apply not_elem_of_cons in Hn as [H1 H2].
      rewrite filter_cons, decide_False by congruence. auto.
    - rewrite decide_False; [auto|]. intros E. apply Hn. rewrite E. apply elem_of_list_fmap. eauto. }
  rewrite Hf. rewrite forallb_forall in Hlen. apply elem_of_list_In in Ho. specialize (Hlen o Ho).
  apply (bool_decide_eq_true_1 (length (or_vp o) = 2)) in Hlen.
  destruct (or_vp o) as [|a [|b [|c l]]]; try discriminate. split; reflexivity.
Qed.

Lemma casts_example R m nr nn na ss ovs :
  m = MethodRecord [1; 1]%N nr ovs nn na ss -> reg_classes R = diamond ->
  forallb (fun o => bool_decide (length (or_vp o) = 2)) ovs = true -> NoDup (map or_pf ovs) ->
  casts_ok id R objs0 isa0 m ts0 (ots_of m).
Proof.
  intros -> HR Hlen Hnd. split.
  - intros o c Hd. unfold isa0. apply (derivesb_spec id R0 4); [by_compute|].
    unfold derives, base_pair in *. rewrite HR in Hd. exact Hd.
  - apply overriders_typed; assumption.
Qed.

Lemma passes_example R w o : reg_classes R = diamond -> In o [1; 2; 3] ->
  Forall2 (passes cf0 id R w) (virtual_args (all_of w o)) [2%N; objs0 o].
Proof.
  intros HR Ho. change (virtual_args (all_of w o)) with
    [AObject 2%N; APtr (w_static w (N.to_nat (objs0 o))) (objs0 o)].
  constructor; [|constructor; [|constructor]].
  - apply (passes_object cf0 id R w 2%N); [discriminate|]. rewrite HR. simpl. set_solver.
  - change (objs0 o) with (id (objs0 o)) at 3.
    eapply (passes_ptr cf0 id R w _ (objs0 o) 
      (match o with 0 | 1 => cls 2 [2; 1]%N | 2 => cls 3 [3; 1]%N | _ => cls 4 [4; 2; 3; 1]%N end)).
    + unfold first_record. rewrite HR. simpl in Ho. destruct Ho as [<-|[<-|[<-|[]]]]; reflexivity.
    + simpl in Ho. destruct Ho as [<-|[<-|[<-|[]]]]; reflexivity.
Qed.

Lemma together_example w o : together (all_of w o).
Proof.
  exists [AOther 77%N], []. split; [reflexivity|]. split; [repeat constructor|constructor].
Qed.

Lemma arguments_example :
  program_ok cf0 env0 R0 /\ bases_first id R0 /\ initialized_by cf0 run0 false R0 w0 /\ functions_ok meet /\
  casts_ok id R0 objs0 isa0 meet ts0 (ots_of meet) /\
  forall o, In o [1; 2; 3] ->
    call_ok cf0 id R0 w0 meet (all_of w0 o) [2%N; objs0 o] /\ together (all_of w0 o) /\
    args_ok w0 objs0 dyn0 (heap_of w0 o) ts0 es0 (all_of w0 o).
Proof.
  split; [exact R0_program|]. split; [exact R0_bases_first|]. split; [exact R0_initialized|].
  split; [exact meet_functions|].
  split; [eapply casts_example; [reflexivity|reflexivity|by_compute|by_decide]|].
  intros o Ho. split; [|split; [apply together_example|apply args_example; simpl in Ho; lia]].
  split; [right; left|apply passes_example; [reflexivity|exact Ho]|].
  apply (validb_spec id R0 4); [by_compute|]. simpl in Ho. destruct Ho as [<-|[<-|[<-|[]]]]; by_compute.
Qed.

(* What such calls do: with the second dog, the overrider for (Dog, Dog) starts, with the
   three parameters in variables 10, 11 and 13; with the cat, the call is ambiguous. *)
Definition start (o : nat) (cxx20 : bool) := operator_call cf0 w0 objs0 isa0 dyn0 cxx20 2 meet ts0 (ots_of meet) es0 (heap_of w0 o).
Lemma arguments_results :
  (exists s', start 1 true = Ok (Enters 24%N [PVar 10; PVar 11; PVar 13] [3; 4; 5; 6; 7; 8; 10; 11; 13] s')) /\
  (exists s', start 2 true = Ok (Throws (EAmbiguousCall 2%N 3 (types_of [77; 2; 3]%N)) s')).
Proof. split; eexists; vm_compute; reflexivity. Qed.

(* Through next, from the overrider for (Dog, Dog). *)
Lemma next_example :
  program_ok cf0 env0 R_greet /\ initialized_by cf0 run0 false R_greet w_greet /\
  greet ∈ reg_methods R_greet /\ mr_overriders greet !! 2 = Some (ovr [2; 2] 23)%N /\
  unique_signature id (mr_overriders greet) 2 /\
  (forall args, valid_args id R_greet greet args ->
     pointwise id R_greet (mr_overriders greet) (candidate id R_greet (mr_overriders greet) args)) /\
  functions_ok greet /\ NoDup (map or_pf (mr_overriders greet)) /\
  Forall2 (passes cf0 id R_greet w_greet) (virtual_args (all_of w_greet 1)) [2; 2]%N /\
  applicable id R_greet [2; 2]%N (ovr [2; 2] 23)%N /\
  casts_ok id R_greet objs0 isa0 greet ts0 (ots_of greet) /\
  args_ok w_greet objs0 dyn0 (heap_of w_greet 1) ts0 es0 (all_of w_greet 1).
Proof.
  destruct greet_example as (H1 & H2 & H3 & H4 & H5 & H6 & H7 & _ & _).
  do 3 (split; [assumption|]). split; [reflexivity|]. split; [apply signatures_uniqueb_spec; by_compute|].
  split; [exact H7|]. split; [exact H6|]. split; [by_decide|].
  split; [apply (passes_example R_greet w_greet 1); [reflexivity|simpl; auto]|].
  split; [apply (applicableb_spec id R_greet 4); by_compute|].
  split; [eapply casts_example; [reflexivity|reflexivity|by_compute|by_decide]|]. apply args_example. lia.
Qed.
Lemma next_result : exists s',
  next_call cf0 w_greet objs0 isa0 dyn0 true 2 greet (or_next (ovr [2; 2] 23)%N) ts0 (ots_of greet) es0 (heap_of w_greet 1)
  = Ok (Enters 22%N [PVar 7; PVar 8; PVar 10] [3; 4; 5; 7; 8; 10] s').
Proof. eexists. vm_compute. reflexivity. Qed.

(* In C++17, the argument of the thunk shares the ownership of the moved shared_ptr. *)
Lemma sole_owner_wrong :
  exists cf X R w objs isa dyn mid m ts ots es s all args o ps l s',
    program_ok cf (r_env X) R /\ bases_first (e_ti (r_env X)) R /\ initialized_by cf X false R w /\
    call_ok cf (e_ti (r_env X)) R w m all args /\ functions_ok m /\ together all /\
    casts_ok (e_ti (r_env X)) R objs isa m ts ots /\ args_ok w objs dyn s ts es all /\
    o ∈ mr_overriders m /\
    operator_call cf w objs isa dyn false mid m ts ots es s = Ok (Enters (or_pf o) ps l s') /\
    ~ sole (fun k => k = Shared) s ts es s' ps.
Proof.
  destruct arguments_example as (H1 & H2 & H3 & H4 & H5 & H6).
  destruct (H6 1 ltac:(simpl; auto)) as (H7 & H8 & H9).
  assert (Hr : exists vars alive, start 1 false =
      Ok (Enters 24%N [PVar 10; PVar 11; PVar 13] [3; 4; 5; 6; 7; 8; 10; 11; 13] (Heap vars alive)) /\
      (exists vp, vars !! 8 = Some (Some (Content (HSmart Shared (Some (1, 5))) vp))) /\
      (exists vp, vars !! 13 = Some (Some (Content (HSmart Shared (Some (1, 5))) vp)))).
  { eexists _, _. split; [vm_compute; reflexivity|]. split; eexists; reflexivity. }
  destruct Hr as (vars & alive & Hr & (vp8 & H8') & (vp13 & H13)).
  exists cf0, run0, R0, w0, objs0, isa0, dyn0, 2%N, meet, ts0, (ots_of meet), es0, (heap_of w0 1), (all_of w0 1),
    [2; 2]%N, (ovr [2; 2] 24)%N, [PVar 10; PVar 11; PVar 13], [3; 4; 5; 6; 7; 8; 10; 11; 13], (Heap vars alive).
  do 8 (split; [assumption|]). split; [right; right; right; left|]. split; [exact Hr|].
  intros Hs. destruct (Hs 2 Shared 2 1) as (p & y & _ & _ & Hz).
  - right. reflexivity.
  - reflexivity.
  - reflexivity.
  - apply heap_owner.
  - intros z. apply heap_sole. lia.
  - assert (E1 : 8 = y). { apply Hz. eexists _, _, _. unfold look. simpl. rewrite H8'. reflexivity. }
    assert (E2 : 13 = y). { apply Hz. eexists _, _, _. unfold look. simpl. rewrite H13. reflexivity. }
    congruence.
Qed.

Lemma return_example : exists ps l s',
  start 1 true = Ok (Enters 24%N ps l s') /\ entry (heap_of w0 1) ts0 es0 s' ps l.
Proof.
  destruct arguments_example as (H1 & H2 & H3 & H4 & H5 & H6).
  destruct (H6 1 ltac:(simpl; auto)) as (H7 & H8 & H9).
  destruct arguments_results as [(s2 & E2) _]. exists [PVar 10; PVar 11; PVar 13], [3; 4; 5; 6; 7; 8; 10; 11; 13], s2.
  split; [exact E2|]. unfold start in E2.
  exact (entered_entry cf0 run0 false R0 w0 objs0 isa0 dyn0 true 2 meet ts0 (ots_of meet) es0 (heap_of w0 1)
    (all_of w0 1) [2; objs0 1]%N _ _ _ _ H1 H2 H3 H7 H4 (or_intror H8) H5 H9 E2).
Qed.
