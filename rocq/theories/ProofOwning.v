(* Proofs about ModelOwning.  The owners in the variables, and those that are about to be stored
   or released, are kept as a list up to permutation. *)
From stdpp Require Import base list numbers sorting sets.
From Verif Require Import Base ProofBase Registry ModelClasses ModelHash ModelWorld ModelCall ModelVirtualPtr
  ModelArguments SpecArguments ProofArguments ModelOwning SpecOwning.

Notation owning := (ownership * nat * nat)%type.

Definition own (c : option content) : list owning :=
  match c with
  | Some (Content (HSmart k (Some (o, b))) _) => [(k, o, b)]
  | _ => []
  end.
Definition owners (l : list (option content)) : list owning := concat (map own l).

Record good (l : list owning) (al : nat -> bool) (n : nat) : Prop := {
  gd_alive : forall k o b, (k, o, b) ∈ l -> al o = true /\ b = block k o;
  gd_agree : forall k k' o b b', (k, o, b) ∈ l -> (k', o, b') ∈ l -> k' = k;
  gd_unique : forall o b l', l ≡ₚ (Unique, o, b) :: l' -> forall k b', (k, o, b') ∉ l';
  gd_owned : forall o, al o = true -> exists k b, (k, o, b) ∈ l;
  gd_known : forall o, al o = true -> o < n
}.

Lemma good_perm l l' al n : l ≡ₚ l' -> good l al n -> good l' al n.
Proof.
  intros Hp [Ha Hg Hu Ho Hk]. split.
  - intros k o b Hin. apply Ha. now rewrite Hp.
  - intros k k' o b b' H1 H2. eapply Hg; rewrite Hp; eassumption.
  - intros o b l1 Hl. apply Hu with b. now rewrite Hp.
  - intros o Hal. destruct (Ho o Hal) as (k & b & Hin). exists k, b. now rewrite <- Hp.
  - exact Hk.
Qed.

Lemma good_ext l al al' n : (forall o, al' o = al o) -> good l al n -> good l al' n.
Proof.
  intros He [Ha Hg Hu Ho Hk]. split; auto.
  - intros k o b Hin. rewrite He. eauto.
  - intros o. rewrite He. eauto.
  - intros o. rewrite He. eauto.
Qed.

(* A copy. *)
Lemma good_dup k o b l al n :
  (k, o, b) ∈ l -> k <> Unique -> good l al n -> good ((k, o, b) :: l) al n.
Proof.
  intros Hin Hk [Ha Hg Hu Ho Hkn]. split; auto.
  - intros k1 o1 b1 [H|H]%elem_of_cons; [injection H as -> -> ->|]; eauto.
  - intros k1 k2 o1 b1 b2 H1 H2.
    assert (Hs : forall e, e ∈ (k, o, b) :: l -> e ∈ l).
    { intros e [->|He]%elem_of_cons; auto. }
    eapply Hg; apply Hs; eassumption.
  - intros o1 b1 l1 Hl k1 b2 Hin2.
    assert (Hd : (Unique, o1, b1) ∈ (k, o, b) :: l) by (rewrite Hl; left).
    apply elem_of_cons in Hd as [Hd|Hd]; [injection Hd as Hd _ _; congruence|].
    apply elem_of_Permutation in Hd as [l2 Hl2].
    assert (Hl1 : l1 ≡ₚ (k, o, b) :: l2).
    { apply (Permutation_cons_inv (a := (Unique, o1, b1))). rewrite <- Hl, Hl2.
      apply Permutation_swap. }
    rewrite Hl1 in Hin2. apply elem_of_cons in Hin2 as [Hin2|Hin2].
    + injection Hin2 as -> -> ->. rewrite Hl2 in Hin. apply elem_of_cons in Hin as [Hin|Hin].
      * injection Hin as Hin _. congruence.
      * exact (Hu _ _ _ Hl2 _ _ Hin).
    + exact (Hu _ _ _ Hl2 _ _ Hin2).
  - intros o1 H1. destruct (Ho o1 H1) as (k1 & b1 & H2). exists k1, b1. now right.
Qed.

(* A new object. *)
Lemma good_new k l al n :
  good l al n -> good ((k, n, block k n) :: l) (upd al n true) (S n).
Proof.
  intros [Ha Hg Hu Ho Hkn].
  assert (Hf : forall k1 b1, (k1, n, b1) ∉ l).
  { intros k1 b1 Hin. destruct (Ha _ _ _ Hin) as [Hal _]. specialize (Hkn _ Hal). lia. }
  split.
  - intros k1 o1 b1 [H|H]%elem_of_cons.
    + injection H as -> -> ->. unfold upd. now rewrite decide_True by reflexivity.
    + unfold upd. destruct (decide (o1 = n)) as [->|Hne].
      * exfalso. exact (Hf _ _ H).
      * eauto.
  - intros k1 k2 o1 b1 b2 [H1|H1]%elem_of_cons [H2|H2]%elem_of_cons.
    + congruence.
    + injection H1 as -> -> ->. exfalso. exact (Hf _ _ H2).
    + injection H2 as -> -> ->. exfalso. exact (Hf _ _ H1).
    + eauto.
  - intros o1 b1 l1 Hl k1 b2 Hin2.
    assert (Hd : (Unique, o1, b1) ∈ (k, n, block k n) :: l) by (rewrite Hl; left).
    destruct (decide (o1 = n)) as [->|Hne].
    + apply elem_of_cons in Hd as [Hd|Hd]; [|exact (Hf _ _ Hd)].
      injection Hd as <- ->. apply Permutation_cons_inv in Hl. rewrite <- Hl in Hin2.
      exact (Hf _ _ Hin2).
    + apply elem_of_cons in Hd as [Hd|Hd]; [congruence|].
      apply elem_of_Permutation in Hd as [l2 Hl2].
      assert (Hl1 : l1 ≡ₚ (k, n, block k n) :: l2).
      { apply (Permutation_cons_inv (a := (Unique, o1, b1))). rewrite <- Hl, Hl2.
        apply Permutation_swap. }
      rewrite Hl1 in Hin2. apply elem_of_cons in Hin2 as [Hin2|Hin2]; [congruence|].
      exact (Hu _ _ _ Hl2 _ _ Hin2).
  - intros o1. unfold upd. destruct (decide (o1 = n)) as [->|Hne].
    + intros _. exists k, (block k n). left.
    + intros H1. destruct (Ho o1 H1) as (k1 & b1 & H2). exists k1, b1. now right.
  - intros o1. unfold upd. destruct (decide (o1 = n)) as [->|Hne]; [lia|].
    intros H1. specialize (Hkn _ H1). lia.
Qed.

(* The end of an owner. *)
Lemma good_shared e l al n : e ∈ l -> good (e :: l) al n -> good l al n.
Proof.
  intros Hin [Ha Hg Hu Ho Hkn]. split; auto.
  - intros k o b H. apply Ha. now right.
  - intros k k' o b b' H1 H2. eapply Hg; right; eassumption.
  - intros o b l1 Hl k b' Hin2. apply (Hu o b (e :: l1)) with k b'.
    + rewrite Hl. apply Permutation_swap.
    + now right.
  - intros o H. destruct (Ho o H) as (k & b & [H2|H2]%elem_of_cons); exists k, b; [now rewrite H2|exact H2].
Qed.

Lemma good_last k o b l al n :
  (k = Unique \/ (k, o, b) ∉ l) -> good ((k, o, b) :: l) al n ->
  al o = true /\ good l (upd al o false) n.
Proof.
  intros Hl [Ha Hg Hu Ho Hkn].
  assert (Hf : forall k1 b1, (k1, o, b1) ∉ l).
  { intros k1 b1 Hin. destruct Hl as [->|Hl].
    - exact (Hu o b l (reflexivity _) _ _ Hin).
    - assert (k1 = k) as ->.
      { eapply Hg; [left|right; exact Hin]. }
      destruct (Ha k o b) as [_ ->]; [left|].
      destruct (Ha k o b1) as [_ ->]; [now right|]. contradiction. }
  split; [apply (Ha k o b); left|]. split.
  - intros k1 o1 b1 H. unfold upd. destruct (decide (o1 = o)) as [->|Hne].
    + exfalso. exact (Hf _ _ H).
    + apply Ha. now right.
  - intros k1 k2 o1 b1 b2 H1 H2. eapply Hg; right; eassumption.
  - intros o1 b1 l1 Hl1 k1 b' Hin2. apply (Hu o1 b1 ((k, o, b) :: l1)) with k1 b'.
    + rewrite Hl1. apply Permutation_swap.
    + now right.
  - intros o1. unfold upd. destruct (decide (o1 = o)) as [->|Hne]; [discriminate|].
    intros H. destruct (Ho o1 H) as (k1 & b1 & [H2|H2]%elem_of_cons); [congruence|eauto].
  - intros o1. unfold upd. destruct (decide (o1 = o)); [discriminate|]. apply Hkn.
Qed.

(* The variables. *)
Lemma owners_app l l' : owners (l ++ l') = owners l ++ owners l'.
Proof. unfold owners. now rewrite map_app, concat_app. Qed.

Lemma owners_insert l x old c :
  l !! x = Some old -> own old ++ owners (<[x := c]> l) ≡ₚ own c ++ owners l.
Proof.
  intros Hx. rewrite <- (take_drop_middle l x old Hx) at 2.
  rewrite (insert_take_drop l x c) by (eapply lookup_lt_Some; eassumption).
  unfold owners. rewrite !map_app, !concat_app. cbn.
  solve_Permutation.
Qed.

Lemma elem_owners l k o b :
  (k, o, b) ∈ owners l <->
  exists x vp, l !! x = Some (Some (Content (HSmart k (Some (o, b))) vp)).
Proof.
  unfold owners. rewrite elem_of_list_In, in_concat. split.
  - intros (e & He & Hin). apply in_map_iff in He as (c & <- & Hc).
    apply elem_of_list_In, elem_of_list_lookup in Hc as [x Hx].
    destruct c as [[[v|p|k' [[o' b']|]] vp]|]; cbn in Hin; try tauto.
    destruct Hin as [Hin|[]]. injection Hin as -> -> ->. eauto.
  - intros (x & vp & Hx). eexists. split.
    + apply in_map, elem_of_list_In, elem_of_list_lookup. eauto.
    + now left.
Qed.

Lemma look_vars s x c : look s x = Some c <-> hp_vars s !! x = Some (Some c).
Proof. unfold look. destruct (hp_vars s !! x) as [[c'|]|]; split; congruence. Qed.

Lemma owned_own c : owned (ct_handle c) = None -> own (Some c) = [].
Proof. destruct c as [[v|p|k [[o b]|]] vp]; now intros. Qed.

Lemma shared_owners k o b s :
  (forall k' b', (k', o, b') ∈ owners (hp_vars s) -> k' = k) ->
  shared_with (o, b) s = true <-> (k, o, b) ∈ owners (hp_vars s).
Proof.
  intros Hk. unfold shared_with. rewrite existsb_exists, elem_owners. split.
  - intros (c & Hc & Ho). destruct c as [c|]; [|discriminate].
    apply bool_decide_eq_true in Ho. apply elem_of_list_In, elem_of_list_lookup in Hc as [x Hx].
    destruct c as [[v|p|k' p] vp]; cbn in Ho; try discriminate. subst p.
    rewrite <- (Hk k' b) by (apply elem_owners; eauto). eauto.
  - intros (x & vp & Hx). eexists. split.
    + apply elem_of_list_In, elem_of_list_lookup. eauto.
    + now apply bool_decide_eq_true.
Qed.

(* A state with owners that are not in variables. *)
Definition fine (pending : list owning) (h : heap) (n : nat) : Prop :=
  good (pending ++ owners (hp_vars h)) (hp_alive h) n.

Lemma release_fine c h n :
  fine (own (Some c)) h n ->
  exists h', release c h = Ok h' /\ hp_vars h' = hp_vars h /\ fine [] h' n.
Proof.
  intros Hf. unfold release, fine in *. destruct c as [[v|p|k [[o b]|]] vp]; cbn in *; eauto.
  assert (Hk : forall k' b', (k', o, b') ∈ owners (hp_vars h) -> k' = k).
  { intros k' b' Hin. eapply (gd_agree _ _ _ Hf); [left|right; exact Hin]. }
  pose proof (shared_owners k o b h Hk) as Hs.
  destruct (bool_decide (k <> Unique) && shared_with (o, b) h) eqn:Hd.
  - apply andb_true_iff in Hd as [_ Hd]. exists h. split; [reflexivity|]. split; [reflexivity|].
    eapply good_shared; [|exact Hf]. now apply Hs.
  - assert (Hlast : k = Unique \/ (k, o, b) ∉ owners (hp_vars h)).
    { apply andb_false_iff in Hd as [Hd|Hd].
      - left. apply bool_decide_eq_false in Hd. destruct k; try reflexivity; destruct Hd; discriminate.
      - right. rewrite <- Hs. congruence. }
    destruct (good_last _ _ _ _ _ _ Hlast Hf) as [Hal Hg].
    rewrite Hal. eexists. split; [reflexivity|]. split; [reflexivity|]. exact Hg.
Qed.

Lemma fine_perm l l' h n : l ≡ₚ l' -> fine l h n -> fine l' h n.
Proof. intros Hp. unfold fine. apply good_perm. now rewrite Hp. Qed.

Lemma write_fine l x old c h n :
  look h x = Some old -> fine (own c ++ l) h n -> fine (own (Some old) ++ l) (write x c h) n.
Proof.
  intros Hx%look_vars. unfold fine. cbn. apply good_perm.
  pose proof (owners_insert _ _ _ c Hx) as Hp.
  rewrite (Permutation_app_comm (own (Some old)) l), (Permutation_app_comm (own c) l), <- !app_assoc.
  now rewrite Hp.
Qed.

Lemma alloc_fine l c h n : fine (own (Some c) ++ l) h n -> fine l (alloc c h).2 n.
Proof.
  unfold fine. cbn [alloc snd hp_vars hp_alive]. apply good_perm. rewrite owners_app.
  change (owners [Some c]) with (own (Some c) ++ []).
  rewrite app_nil_r. rewrite <- app_assoc, (Permutation_app_comm (own (Some c))). now rewrite app_assoc.
Qed.

Lemma copy_fine x c c' h n :
  look h x = Some c -> owned (ct_handle c) = None \/ (forall p, ct_handle c <> HSmart Unique p) ->
  ct_handle c' = ct_handle c -> fine [] h n -> fine (own (Some c')) h n.
Proof.
  intros Hx%look_vars Hk Hc Hf. destruct c' as [h' vp'], c as [h0 vp]; cbn in *. subst h'.
  destruct h0 as [v|p|k [[o b]|]]; cbn; auto. unfold fine in *. cbn in *. apply good_dup; [|..|exact Hf].
  - apply elem_owners. eauto.
  - intros ->. destruct Hk as [Hk|Hk]; [discriminate|]. now apply (Hk (Some (o, b))).
Qed.

Lemma destroy_fine x c h n :
  look h x = Some c -> fine [] h n ->
  exists h', destroy x h = Ok h' /\ hp_vars h' = <[x := None]> (hp_vars h) /\ fine [] h' n.
Proof.
  intros Hx Hf. unfold destroy. rewrite (read_ok _ _ _ Hx). cbn [obind].
  assert (Hw : fine (own (Some c)) (write x None h) n).
  { rewrite <- (app_nil_r (own (Some c))). now apply write_fine. }
  exact (release_fine _ _ _ Hw).
Qed.

Lemma replace_fine d old c h n :
  look h d = Some old -> fine (own (Some c)) h n ->
  exists h', replace d c h = Ok h' /\ hp_vars h' = <[d := Some c]> (hp_vars h) /\ fine [] h' n.
Proof.
  intros Hx Hf. unfold replace. rewrite (read_ok _ _ _ Hx). cbn [obind].
  assert (Hw : fine (own (Some old)) (write d (Some c) h) n).
  { rewrite <- (app_nil_r (own (Some old))). apply write_fine; [exact Hx|]. now rewrite app_nil_r. }
  exact (release_fine _ _ _ Hw).
Qed.

(* Same owner. *)
Lemma same_fine x c c' h n :
  look h x = Some c -> own (Some c') = own (Some c) -> fine [] h n -> fine [] (write x (Some c') h) n.
Proof.
  intros Hx Hs Hf. unfold fine in *. cbn [write hp_vars hp_alive app] in *. revert Hf. apply good_perm.
  apply look_vars in Hx. pose proof (owners_insert _ _ _ (Some c') Hx) as Hp. rewrite Hs in Hp.
  symmetry. exact (Permutation_app_inv_l _ _ _ Hp).
Qed.

Lemma take_fine x c c' h n :
  look h x = Some c -> own (Some c') = [] -> fine [] h n -> fine (own (Some c)) (write x (Some c') h) n.
Proof.
  intros Hx Hc Hf. rewrite <- (app_nil_r (own (Some c))). apply write_fine; [exact Hx|]. now rewrite Hc.
Qed.

Lemma own_empty c : own (Some (empty_like c)) = [].
Proof. now destruct c as [[v|p|k [[o b]|]] vp]. Qed.
Lemma own_moved cf w c : own (Some (moved cf w c)) = [].
Proof. now destruct c as [[v|p|k [[o b]|]] [vp|]]. Qed.
Lemma own_with_vp c vp : own (Some (with_vp c vp)) = own (Some c).
Proof. now destruct c as [[v|p|k [[o b]|]] vp']. Qed.

Lemma look_alloc c h x :
  look (alloc c h).2 x = if decide (x = length (hp_vars h)) then Some c else look h x.
Proof.
  cbn. destruct (decide (x = length (hp_vars h))) as [->|Hne].
  - exact (look_grow_new c h).
  - exact (look_grow_ne c h x Hne).
Qed.

Lemma look_write c h x y :
  x < length (hp_vars h) -> look (write x c h) y = if decide (y = x) then c else look h y.
Proof.
  intros Hx. destruct (decide (y = x)) as [->|Hne]; [now apply look_write_eq|now apply look_write_ne].
Qed.

Lemma look_same h h' x : hp_vars h' = hp_vars h -> look h' x = look h x.
Proof. unfold look. now intros ->. Qed.

Lemma look_insert h h' d c x :
  d < length (hp_vars h) -> hp_vars h' = <[d := c]> (hp_vars h) ->
  look h' x = if decide (x = d) then c else look h x.
Proof. intros Hd Hv. rewrite <- (look_write c h d x Hd). now apply look_same. Qed.

(* A temporary becomes the member of a virtual_ptr. *)
Lemma adopt_fine tmp c vp h n :
  look h tmp = Some c -> fine [] h n ->
  exists h', adopt tmp vp h = Ok h' /\ fine [] h' n /\
    forall x, look h' x = if decide (x = length (hp_vars h)) then Some (with_vp c vp)
                          else if decide (x = tmp) then None else look h x.
Proof.
  intros Hx Hf. unfold adopt. rewrite (read_ok _ _ _ Hx). cbn [obind].
  pose proof (look_some_lt _ _ _ Hx) as Hlt.
  destruct (alloc (with_vp c vp) (write tmp (Some (empty_like c)) h)) as [y h1] eqn:Ha.
  assert (Hh1 : h1 = (alloc (with_vp c vp) (write tmp (Some (empty_like c)) h)).2) by now rewrite Ha.
  assert (Hlen : length (hp_vars (write tmp (Some (empty_like c)) h)) = length (hp_vars h))
    by apply length_write.
  destruct (destroy_fine tmp (empty_like c) h1 n) as (h' & Hd & Hv & Hg).
  - rewrite Hh1, look_alloc, Hlen, decide_False by lia. now apply look_write_eq.
  - rewrite Hh1. apply alloc_fine. rewrite app_nil_r, own_with_vp. apply take_fine; auto. apply own_empty.
  - exists h'. split; [exact Hd|]. split; [exact Hg|]. intros x.
    assert (Hlt1 : tmp < length (hp_vars h1)).
    { rewrite Hh1. cbn. rewrite app_length, insert_length. lia. }
    rewrite (look_insert h1 h' tmp None x Hlt1 Hv).
    destruct (decide (x = tmp)) as [->|Hne].
    + now rewrite decide_False by lia.
    + rewrite Hh1, look_alloc, Hlen. destruct (decide (x = length (hp_vars h))) as [|Hn]; [reflexivity|].
      now apply look_write_ne.
Qed.

(* The invariant, and what it means. *)
Definition sound (s : ostate) : Prop := fine [] (os_heap s) (length (os_types s)).

Lemma sound_orderly s : sound s -> orderly s.
Proof.
  intros Hf. unfold sound, fine in Hf. cbn in Hf. destruct Hf as [Ha Hg Hu Ho Hkn].
  assert (Hl : forall x k o b vp, look (os_heap s) x = Some (Content (HSmart k (Some (o, b))) vp) ->
    (k, o, b) ∈ owners (hp_vars (os_heap s))).
  { intros x k o b vp Hx%look_vars. apply elem_owners. eauto. }
  split.
  - split.
    + intros x o (k & b & vp & Hx). apply (Ha k o b). eauto.
    + intros x y k k' o b b' vp vp' Hx Hy.
      pose proof (Hg _ _ _ _ _ (Hl _ _ _ _ _ Hx) (Hl _ _ _ _ _ Hy)) as Hk.
      destruct (Ha _ _ _ (Hl _ _ _ _ _ Hx)) as [_ ->].
      destruct (Ha _ _ _ (Hl _ _ _ _ _ Hy)) as [_ ->]. subst k'.
      split; [reflexivity|]. split; [reflexivity|]. intros ->.
      destruct (decide (y = x)) as [|Hne]; [assumption|exfalso].
      apply look_vars in Hx, Hy.
      pose proof (owners_insert _ _ _ None Hx) as Hp. cbn in Hp.
      refine (Hu _ _ _ (Permutation_sym Hp) Unique (block Unique o) _).
      apply elem_owners. exists y, vp'. now rewrite list_lookup_insert_ne by congruence.
    + intros x k o b vp Hx Hk. destruct (Ha _ _ _ (Hl _ _ _ _ _ Hx)) as [_ ->].
      destruct k; [contradiction|reflexivity..].
  - intros o. unfold alive. split.
    + intros Hal. destruct (Ho o Hal) as (k & b & Hin). apply elem_owners in Hin as (x & vp & Hx).
      exists x, k, b, vp. now apply look_vars.
    + intros (x & k & b & vp & Hx). apply (Ha k o b). eauto.
  - exact Hkn.
Qed.

Lemma sound_alive s x k o b vp :
  sound s -> look (os_heap s) x = Some (Content (HSmart k (Some (o, b))) vp) ->
  hp_alive (os_heap s) o = true.
Proof.
  intros Hf Hx%look_vars. unfold sound, fine in Hf. cbn in Hf. apply (gd_alive _ _ _ Hf k o b).
  apply elem_owners. eauto.
Qed.
