(* The order in which static objects are constructed does not matter to calls. *)
From stdpp Require Import base list numbers relations.
From Verif Require Import Base Registry Spec ModelClasses ModelHash ModelWorld ModelCall SpecCall
  ProofInvariance ProofBehaviour ModelRegistrars SpecRegistrars ProofRegistrars.

Section Order.
  Context (S : source) (st : N -> N) (l l' : list registrar) (Hp : l ≡ₚ l').
  Notation R := (registers S st l).
  Notation R' := (registers S st l').

  Lemma classes_perm : reg_classes R ≡ₚ reg_classes R'.
  Proof. simpl. unfold classes_of. rewrite Hp. reflexivity. Qed.

  Lemma overriders_perm m : overriders_of S st m l ≡ₚ overriders_of S st m l'.
  Proof. unfold overriders_of. rewrite Hp. reflexivity. Qed.

  Lemma elem_methods (k : list registrar) m : m ∈ methods_of S st k <->
    exists i, RMethod i ∈ k /\ m = method_with st (so_method S i) (overriders_of S st i k).
  Proof.
    unfold methods_of. rewrite elem_of_list_omap. split.
    - intros (o & H & E). destruct o as [i|i|i]; try discriminate.
      injection E as <-. eauto.
    - intros (i & H & ->). exists (RMethod i). auto.
  Qed.

  Lemma methods_perm m : m ∈ reg_methods R ->
    exists m', m' ∈ reg_methods R' /\ same_method m m' /\ mr_return m' = mr_return m /\
      mr_slots_strides m' = mr_slots_strides m.
  Proof.
    simpl. intros H. apply elem_methods in H as (i & H & ->).
    exists (method_with st (so_method S i) (overriders_of S st i l')). split.
    - apply elem_methods. exists i. split; [rewrite <- Hp; exact H|reflexivity].
    - split; [|auto]. split; [reflexivity|]. split; [reflexivity|]. split; [reflexivity|].
      apply overriders_perm.
  Qed.

  Lemma base_pair_perm ti c b : base_pair ti R c b <-> base_pair ti R' c b.
  Proof.
    unfold base_pair. split; intros (cr & t & H & H'); exists cr, t; (split; [|exact H']);
      [rewrite <- classes_perm|rewrite classes_perm]; exact H.
  Qed.

  Lemma derives_perm ti a b : derives ti R a b <-> derives ti R' a b.
  Proof.
    split; intros H; induction H as [|x y z H _ IH]; try reflexivity;
      (eapply rtc_l; [|exact IH]); apply base_pair_perm; exact H.
  Qed.

  Lemma registered_perm ti c : registered ti R c <-> registered ti R' c.
  Proof.
    unfold registered. split; intros (cr & H & E); exists cr; (split; [|exact E]);
      [rewrite <- classes_perm|rewrite classes_perm]; exact H.
  Qed.
End Order.

Lemma flat_map_perm {A B} (f g : A -> list B) (l l' : list A) :
  (forall x, f x ≡ₚ g x) -> l ≡ₚ l' -> flat_map f l ≡ₚ flat_map g l'.
Proof.
  intros Hfg H. transitivity (flat_map f l').
  - induction H as [|x l l' H IH|x y l|l1 l2 l3 H IH H' IH']; simpl.
    + reflexivity.
    + rewrite IH. reflexivity.
    + rewrite !app_assoc. rewrite (Permutation_app_comm (f y)). reflexivity.
    + etransitivity; eauto.
  - clear H. induction l' as [|x l' IH]; simpl; [reflexivity|]. rewrite IH, Hfg. reflexivity.
Qed.

Section Program.
  Context (S : source) (st : N -> N) (l l' : list registrar) (Hp : l ≡ₚ l').
  Notation R := (registers S st l).
  Notation R' := (registers S st l').

  Definition with_overriders (ovs : nat -> list overrider_record) (p : registrar) :
      option method_record :=
    match p with
    | RMethod k => Some (method_with st (so_method S k) (ovs k))
    | _ => None
    end.

  Definition slots_at (p : registrar) : option nat :=
    match p with RMethod k => Some (mr_slots_strides (so_method S k)) | _ => None end.
  Lemma slots_methods k : map mr_slots_strides (methods_of S st k) = omap slots_at k.
  Proof.
    unfold methods_of.
    assert (G : forall ovs k', map mr_slots_strides (omap (with_overriders ovs) k') = omap slots_at k').
    { intros ovs. induction k' as [|o k' IH]; [reflexivity|]. rewrite !omap_cons.
      destruct o; cbn [with_overriders slots_at]; try exact IH. cbn [map]; rewrite IH. reflexivity. }
    apply (G (fun m => overriders_of S st m k)).
  Qed.

  Definition next_at (ovs : nat -> list overrider_record) (p : registrar) : list nat :=
    match p with RMethod k => map or_next (ovs k) | _ => [] end.
  Lemma next_methods k :
    flat_map (fun m => map or_next (mr_overriders m)) (methods_of S st k) =
    flat_map (next_at (fun m => overriders_of S st m k)) k.
  Proof.
    unfold methods_of.
    assert (G : forall ovs k', flat_map (fun m => map or_next (mr_overriders m)) (omap (with_overriders ovs) k') =
      flat_map (next_at ovs) k').
    { intros ovs. induction k' as [|o k' IH]; [reflexivity|]. rewrite !omap_cons.
      destruct o; cbn [with_overriders flat_map next_at]; try exact IH. rewrite IH. reflexivity. }
    apply (G (fun m => overriders_of S st m k)).
  Qed.

  Lemma program_perm cf E : program_ok cf E R -> program_ok cf E R'.
  Proof.
    intros [H1 (rank & H2) H3 H4 H5 [A1 A2 A3]].
    assert (C : forall cr, cr ∈ reg_classes R' -> cr ∈ reg_classes R).
    { intros cr H. rewrite (classes_perm S st l l' Hp). exact H. }
    split.
    - exact H1.
    - exists rank. intros c b H. apply H2. apply (base_pair_perm S st l l' Hp). exact H.
    - intros m Hm. destruct (methods_perm S st l' l (symmetry Hp) m Hm) as (m' & Hm' & (Hv & _ & _ & Ho) & _).
      destruct (H3 m' Hm') as [Hne Hlen]. rewrite Hv in *. split; [exact Hne|].
      intros o Hin. apply Hlen. rewrite <- Ho. exact Hin.
    - intros cr H. apply H4. auto.
    - intros H. specialize (H5 H). rewrite <- (Permutation_length (classes_perm S st l l' Hp)). exact H5.
    - split.
      + intros cr1 cr2 Hc1 Hc2. apply A1; auto.
      + simpl in *. rewrite slots_methods in *. rewrite <- Hp. exact A2.
      + simpl in *. rewrite next_methods in *. eapply NoDup_Permutation_proper; [|exact A3].
        apply flat_map_perm; [|symmetry; exact Hp]. intros o. unfold next_at.
        destruct o; try reflexivity. apply Permutation_map. symmetry. apply overriders_perm. exact Hp.
  Qed.
End Program.

Theorem construction_order cf X S st l l' w w' m all all' args :
  l ≡ₚ l' ->
  program_ok cf (r_env X) (registers S st l) ->
  bases_first (e_ti (r_env X)) (registers S st l) -> bases_first (e_ti (r_env X)) (registers S st l') ->
  initialized_by cf X false (registers S st l) w -> initialized_by cf X false (registers S st l') w' ->
  call_ok cf (e_ti (r_env X)) (registers S st l) w m all args ->
  Forall2 (passes cf (e_ti (r_env X)) (registers S st l') w') (virtual_args all') args ->
  length (mr_vp m) = 1 \/ (together all /\ together all') ->
  settled (e_ti (r_env X)) (registers S st l) (mr_overriders m)
    (candidate (e_ti (r_env X)) (registers S st l) (mr_overriders m) args) ->
  exists m' f, m' ∈ reg_methods (registers S st l') /\ same_method m m' /\
    mr_slots_strides m' = mr_slots_strides m /\
    resolve cf w m all = Ok f /\ resolve cf w' m' all' = Ok f.
Proof.
  intros Hp HP HB HB' (w1 & rep & Hw & Hi) (w1' & rep' & Hw' & Hi') [Hm Hpa Hva] Hpa' Htog Hset.
  destruct (methods_perm S st l l' Hp m Hm) as (m' & Hm' & Hs & _ & Hss).
  pose proof (program_perm S st l l' Hp cf (r_env X) HP) as HP'.
  assert (Hva' : valid_args (e_ti (r_env X)) (registers S st l') m' args).
  { unfold valid_args in *. destruct Hs as (-> & _). eapply Forall2_impl; [exact Hva|].
    intros a v [H1 H2]. split; [apply (registered_perm S st l l' Hp); exact H1|
      apply (derives_perm S st l l' Hp); exact H2]. }
  pose proof (dispatch_invariant cf cf X X (registers S st l) (registers S st l') w1 w1' w w' rep rep' eq_refl
    HP HP' HB HB' Hw Hw' Hi Hi' (derives_perm S st l l' Hp (e_ti (r_env X))) m m' all all' args
    Hm Hm' Hs Hpa Hpa' Hva Hva') as E.
  destruct (dispatch_any cf X (registers S st l) w1 w rep false HP HB Hw Hi m all args Hm Hpa Hva)
    as (sel & f & Hr & _).
  { intros H. destruct Htog as [H'|[H' _]]; [contradiction|exact H']. }
  exists m', f. split; [exact Hm'|]. split; [exact Hs|]. split; [exact Hss|]. split; [exact Hr|].
  rewrite <- E, Hr; [reflexivity| |exact Hset].
  intros H. destruct Htog as [H'|H']; [contradiction|exact H'].
Qed.

(* Calls enter overriders that are live. *)
Theorem live_overriders cf X S st l w n2216 mid m all args f :
  program_ok cf (r_env X) (registers S st l) -> bases_first (e_ti (r_env X)) (registers S st l) ->
  initialized_by cf X n2216 (registers S st l) w ->
  call_ok cf (e_ti (r_env X)) (registers S st l) w m all args -> functions_ok m ->
  length (mr_vp m) = 1 \/ together all ->
  call cf w mid m all = Ok (Calls f) ->
  exists i k, RMethod i ∈ l /\ mr_slots_strides (so_method S i) = mr_slots_strides m /\
    ROverrider k ∈ l /\ fst (so_overrider S k) = i /\ or_pf (snd (so_overrider S k)) = f.
Proof.
  intros HP HB HI HC HF Htog Hc.
  destruct (call_applicable cf X _ w HP HB n2216 mid m all args HI HC HF Htog)
    as [(id & n & ts & E)|[(id & n & ts & E)|(o & Ho & _ & E)]]; rewrite E in Hc; try discriminate.
  injection Hc as <-. destruct HC as [Hm _ _]. simpl in Hm.
  apply elem_methods in Hm as (i & Hi & ->). simpl in Ho.
  unfold overriders_of in Ho. apply elem_of_list_omap in Ho as (o' & Hin & E'). destruct o' as [k|k|k]; try discriminate.
  destruct (decide (_ = i)) as [Hk|]; [|discriminate]. injection E' as <-.
  exists i, k. auto.
Qed.
