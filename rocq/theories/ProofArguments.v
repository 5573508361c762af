(* Arguments reach the overrider; ownership is conserved. *)
From stdpp Require Import base list numbers.
From Verif Require Import Base Registry Spec ModelClasses ModelHash ModelWorld ModelCall ModelErrors
  SpecCall ModelVirtualPtr ModelArguments SpecArguments ProofBase.

(* ---- variables ---- *)
Lemma look_lt s x : look s x <> None -> x < length (hp_vars s).
Proof.
  unfold look. intros H. apply lookup_lt_is_Some. destruct (hp_vars s !! x); [eauto|congruence].
Qed.

Lemma look_some_lt s x c : look s x = Some c -> x < length (hp_vars s).
Proof. intros H. apply look_lt. congruence. Qed.

Lemma look_ge s x : length (hp_vars s) <= x -> look s x = None.
Proof. intros H. unfold look. rewrite lookup_ge_None_2 by exact H. reflexivity. Qed.

Lemma look_write_eq s x c : x < length (hp_vars s) -> look (write x c s) x = c.
Proof. intros H. unfold look, write. simpl. rewrite list_lookup_insert by exact H. destruct c; reflexivity. Qed.

Lemma look_write_ne s x y c : y <> x -> look (write x c s) y = look s y.
Proof. intros H. unfold look, write. simpl. rewrite list_lookup_insert_ne by congruence. reflexivity. Qed.

Lemma length_write s x c : length (hp_vars (write x c s)) = length (hp_vars s).
Proof. unfold write. simpl. apply insert_length. Qed.

Definition grow (c : content) (s : heap) : heap := Heap (hp_vars s ++ [Some c]) (hp_alive s).
Lemma alloc_grow c s : alloc c s = (length (hp_vars s), grow c s).
Proof. reflexivity. Qed.

Lemma length_grow c s : length (hp_vars (grow c s)) = Datatypes.S (length (hp_vars s)).
Proof. unfold grow. simpl. rewrite app_length. simpl. lia. Qed.

Lemma look_grow_new c s : look (grow c s) (length (hp_vars s)) = Some c.
Proof. unfold look, grow. simpl. rewrite list_lookup_middle by reflexivity. reflexivity. Qed.

Lemma look_grow_ne c s x : x <> length (hp_vars s) -> look (grow c s) x = look s x.
Proof.
  intros H. unfold look, grow. simpl. destruct (decide (x < length (hp_vars s))) as [Hl|Hl].
  - rewrite lookup_app_l by exact Hl. reflexivity.
  - rewrite (lookup_ge_None_2 (hp_vars s)) by lia.
    rewrite lookup_ge_None_2; [reflexivity|]. rewrite app_length. simpl. lia.
Qed.

Lemma read_ok s x c : look s x = Some c -> read x s = Ok c.
Proof. unfold read. intros ->. reflexivity. Qed.

(* ---- ownership ---- *)
Lemma owner_target s x o : owner s x o <-> exists c, look s x = Some c /\ fst <$> owned (ct_handle c) = Some o.
Proof.
  split.
  - intros (k & b & vp & H). eexists. split; [exact H|reflexivity].
  - intros ([h vp] & H & E). destruct h as [v|p|k [[o' b]|]]; try discriminate. injection E as ->.
    exists k, b, vp. exact H.
Qed.

Lemma healthy_from s s' (pi : nat -> nat) :
  hp_alive s' = hp_alive s -> healthy s ->
  (forall z k o b vp, look s' z = Some (Content (HSmart k (Some (o, b))) vp) ->
     exists vp', look s (pi z) = Some (Content (HSmart k (Some (o, b))) vp')) ->
  (forall z z' o b b' vp vp', look s' z = Some (Content (HSmart Unique (Some (o, b))) vp) ->
     look s' z' = Some (Content (HSmart Unique (Some (o, b'))) vp') -> pi z' = pi z -> z' = z) ->
  healthy s'.
Proof.
  intros Ha [H1 H2 H3] Hpi Hinj. split.
  - intros x o (k & b & vp & H). rewrite Ha. destruct (Hpi _ _ _ _ _ H) as (vp' & H'). eapply H1.
    exists k, b, vp'. exact H'.
  - intros x y k k' o b b' vp vp' H H'. destruct (Hpi _ _ _ _ _ H) as (u & Hu). destruct (Hpi _ _ _ _ _ H') as (u' & Hu').
    destruct (H2 _ _ _ _ _ _ _ _ _ Hu Hu') as (-> & -> & Hq). split; [reflexivity|]. split; [reflexivity|].
    intros ->. eapply Hinj; eauto.
  - intros x k o b vp H. destruct (Hpi _ _ _ _ _ H) as (u & Hu). eapply H3. exact Hu.
Qed.

(* ---- one step ---- *)
Record evolves (U : nat -> Prop) (s s' : heap) (xs : list nat) : Prop := {
  ev_len : length (hp_vars s) <= length (hp_vars s');
  ev_alive : hp_alive s' = hp_alive s;
  ev_keep : forall x, x < length (hp_vars s) -> ~ U x -> look s' x = look s x;
  ev_live : forall x, x < length (hp_vars s) -> (look s' x = None <-> look s x = None);
  ev_nodup : NoDup xs;
  ev_locals : forall x, x ∈ xs -> length (hp_vars s) <= x /\ look s' x <> None;
  ev_new : forall x, length (hp_vars s) <= x -> look s' x <> None -> x ∈ xs;
  ev_owned : forall o, (exists x, owner s x o) <-> (exists x, owner s' x o);
  ev_healthy : healthy s'
}.

Lemma evolves_refl s U : healthy s -> evolves U s s [].
Proof.
  intros H. split; try assumption; try reflexivity.
  - constructor.
  - intros x Hx. apply elem_of_nil in Hx. contradiction.
  - intros x Hx Hl. apply look_lt in Hl. lia.
Qed.

Lemma evolves_mono (U U' : nat -> Prop) s s' xs :
  (forall x, x < length (hp_vars s) -> U x -> U' x) -> evolves U s s' xs -> evolves U' s s' xs.
Proof. intros H [A1 A2 A3 A4 A5 A6 A7 A8 A9]. split; try assumption. intros x Hx Hu. apply A3; auto. Qed.

Lemma evolves_trans U U' s s1 s2 xs ys :
  evolves U s s1 xs -> evolves U' s1 s2 ys -> evolves (fun x => U x \/ U' x) s s2 (xs ++ ys).
Proof.
  intros [A1 A2 A3 A4 A5 A6 A7 A8 A9] [B1 B2 B3 B4 B5 B6 B7 B8 B9]. split.
  - lia.
  - congruence.
  - intros x Hx Hu. rewrite B3, A3; auto; try lia.
  - intros x Hx. rewrite B4 by lia. auto.
  - apply NoDup_app. split; [exact A5|]. split; [|exact B5]. intros x Hx Hy.
    destruct (A6 x Hx) as [_ Hl]. apply look_lt in Hl. destruct (B6 x Hy). lia.
  - intros x [Hx|Hx]%elem_of_app.
    + destruct (A6 x Hx) as [Hx' Hl]. split; [exact Hx'|]. rewrite B4; [exact Hl|]. apply look_lt. exact Hl.
    + destruct (B6 x Hx). split; [lia|assumption].
  - intros x Hx Hl. apply elem_of_app. destruct (decide (x < length (hp_vars s1))) as [Hlt|Hlt].
    + left. apply A7; [exact Hx|]. rewrite <- B4 by exact Hlt. exact Hl.
    + right. apply B7; [lia|exact Hl].
  - intros o. rewrite A8. apply B8.
  - exact B9.
Qed.

(* A variable is made, and another one may be changed. *)
Lemma evolves_grow s x c' c :
  healthy s -> look s x <> None -> healthy (grow c (write x (Some c') s)) ->
  (forall o, (exists z, owner s z o) <-> (exists z, owner (grow c (write x (Some c') s)) z o)) ->
  evolves (eq x) s (grow c (write x (Some c') s)) [length (hp_vars s)].
Proof.
  intros H Hx Hh Ho. pose proof (look_lt _ _ Hx) as Hlt.
  assert (HL : forall y, y <> x -> y <> length (hp_vars s) -> look (grow c (write x (Some c') s)) y = look s y).
  { intros y H1 H2. rewrite look_grow_ne by (rewrite length_write; exact H2). apply look_write_ne. exact H1. }
  assert (HX : look (grow c (write x (Some c') s)) x = Some c').
  { rewrite look_grow_ne by (rewrite length_write; lia). apply look_write_eq. exact Hlt. }
  assert (HN : look (grow c (write x (Some c') s)) (length (hp_vars s)) = Some c).
  { rewrite <- (length_write s x (Some c')). apply look_grow_new. }
  split; try assumption; try reflexivity.
  - rewrite length_grow, length_write. lia.
  - intros y Hy Hne. apply HL; [congruence|lia].
  - intros y Hy. destruct (decide (y = x)) as [->|]; [|rewrite HL by lia; reflexivity].
    rewrite HX. split; intros; congruence.
  - apply NoDup_singleton.
  - intros y ->%elem_of_list_singleton. split; [lia|congruence].
  - intros y Hy Hl. apply look_lt in Hl. rewrite length_grow, length_write in Hl.
    apply elem_of_list_singleton. lia.
Qed.

Lemma evolves_grow_only s c :
  healthy s -> healthy (grow c s) ->
  (forall o, (exists z, owner s z o) <-> (exists z, owner (grow c s) z o)) ->
  evolves (fun _ => False) s (grow c s) [length (hp_vars s)].
Proof.
  intros H Hh Ho.
  split; try assumption; try reflexivity.
  - rewrite length_grow. lia.
  - intros y Hy _. apply look_grow_ne. lia.
  - intros y Hy. rewrite look_grow_ne by lia. reflexivity.
  - apply NoDup_singleton.
  - intros y ->%elem_of_list_singleton. split; [lia|]. rewrite look_grow_new. congruence.
  - intros y Hy Hl. apply look_lt in Hl. rewrite length_grow in Hl. apply elem_of_list_singleton. lia.
Qed.

(* The new variable takes over what the other one owned. *)
Lemma healthy_take s x c c' cn :
  healthy s -> look s x = Some c -> owned (ct_handle c') = None ->
  (forall k o b vp, cn = Content (HSmart k (Some (o, b))) vp ->
     exists vp', c = Content (HSmart k (Some (o, b))) vp') ->
  (fst <$> owned (ct_handle cn)) = (fst <$> owned (ct_handle c)) ->
  healthy (grow cn (write x (Some c') s)) /\
  (forall o, (exists z, owner s z o) <-> (exists z, owner (grow cn (write x (Some c') s)) z o)).
Proof.
  intros H Hx Hc' Hcn Hown. pose proof (look_some_lt _ _ _ Hx) as Hlt.
  set (s' := grow cn (write x (Some c') s)). set (n := length (hp_vars s)).
  assert (HL : forall y, y <> x -> y <> n -> look s' y = look s y).
  { intros y H1 H2. unfold s'. rewrite look_grow_ne by (rewrite length_write; exact H2).
    apply look_write_ne. exact H1. }
  assert (HX : look s' x = Some c').
  { unfold s'. rewrite look_grow_ne by (rewrite length_write; lia). apply look_write_eq. exact Hlt. }
  assert (HN : look s' n = Some cn).
  { unfold s', n. rewrite <- (length_write s x (Some c')). apply look_grow_new. }
  assert (Hno : forall o k b vp, look s' x <> Some (Content (HSmart k (Some (o, b))) vp)).
  { intros o k b vp E. rewrite HX in E. injection E as ->. discriminate. }
  split.
  - apply (healthy_from s s' (fun z => if decide (z = n) then x else z)); [reflexivity|exact H|..].
    + intros z k o b vp Hz. destruct (decide (z = n)) as [->|Hn].
      * rewrite HN in Hz. injection Hz as ->. destruct (Hcn _ _ _ _ eq_refl) as (vp' & ->). eauto.
      * destruct (decide (z = x)) as [->|Hzx]; [exfalso; eapply Hno; eauto|].
        rewrite HL in Hz by assumption. eauto.
    + intros z z' o b b' vp vp' Hz Hz'. 
      destruct (decide (z = x)) as [->|]; [exfalso; eapply Hno; eauto|].
      destruct (decide (z' = x)) as [->|]; [exfalso; eapply Hno; eauto|].
      destruct (decide (z = n)), (decide (z' = n)); congruence.
  - intros o. split; intros (z & Hz); apply owner_target in Hz as (cz & Hz & Ho).
    + destruct (decide (z = x)) as [->|Hzx].
      * exists n. apply owner_target. exists cn. split; [exact HN|]. congruence.
      * exists z. apply owner_target. exists cz. split; [|exact Ho]. rewrite HL; [exact Hz|exact Hzx|].
        apply look_some_lt in Hz. unfold n. lia.
    + destruct (decide (z = n)) as [->|Hn].
      * exists x. apply owner_target. exists c. split; [exact Hx|]. congruence.
      * destruct (decide (z = x)) as [->|Hzx]; [rewrite HX in Hz; injection Hz as <-; rewrite Hc' in Ho; discriminate|].
        exists z. apply owner_target. exists cz. split; [|exact Ho]. rewrite <- HL; assumption.
Qed.

(* The new variable is another owner of what [x] owns, or owns nothing. *)
Lemma healthy_copy s x c cn :
  healthy s -> look s x = Some c ->
  (forall k o b vp, cn = Content (HSmart k (Some (o, b))) vp ->
     k <> Unique /\ exists vp', c = Content (HSmart k (Some (o, b))) vp') ->
  healthy (grow cn s) /\
  (forall o, (exists z, owner s z o) <-> (exists z, owner (grow cn s) z o)).
Proof.
  intros H Hx Hcn. pose proof (look_some_lt _ _ _ Hx) as Hlt.
  set (s' := grow cn s). set (n := length (hp_vars s)).
  assert (HL : forall y, y <> n -> look s' y = look s y) by (intros y Hy; apply look_grow_ne; exact Hy).
  assert (HN : look s' n = Some cn) by apply look_grow_new.
  split.
  - apply (healthy_from s s' (fun z => if decide (z = n) then x else z)); [reflexivity|exact H|..].
    + intros z k o b vp Hz. destruct (decide (z = n)) as [->|Hn].
      * rewrite HN in Hz. injection Hz as ->. destruct (Hcn _ _ _ _ eq_refl) as (_ & vp' & ->). eauto.
      * rewrite HL in Hz by assumption. eauto.
    + intros z z' o b b' vp vp' Hz Hz'.
      destruct (decide (z = n)) as [->|]; [rewrite HN in Hz; injection Hz as ->; destruct (Hcn _ _ _ _ eq_refl); congruence|].
      destruct (decide (z' = n)) as [->|]; [rewrite HN in Hz'; injection Hz' as ->; destruct (Hcn _ _ _ _ eq_refl); congruence|].
      auto.
  - intros o. split; intros (z & Hz); apply owner_target in Hz as (cz & Hz & Ho).
    + exists z. apply owner_target. exists cz. split; [|exact Ho]. rewrite HL; [exact Hz|].
      apply look_some_lt in Hz. unfold n. lia.
    + destruct (decide (z = n)) as [->|Hn].
      * rewrite HN in Hz. injection Hz as <-. destruct cn as [[v|p|k [[o' b]|]] vp]; try discriminate.
        destruct (Hcn _ _ _ _ eq_refl) as (_ & vp' & ->). exists x. injection Ho as ->. exists k, b, vp'. exact Hx.
      * exists z. apply owner_target. exists cz. split; [|exact Ho]. rewrite <- HL; assumption.
Qed.

(* ---- the destruction of a variable that owns nothing ---- *)
Lemma destroy_empty y s c :
  look s y = Some c -> owned (ct_handle c) = None -> destroy y s = Ok (write y None s).
Proof.
  intros H E. unfold destroy. rewrite (read_ok _ _ _ H). simpl.
  destruct (ct_handle c) as [| |k [[o b]|]]; try reflexivity. discriminate.
Qed.

Lemma healthy_drop s y : healthy s -> healthy (write y None s).
Proof.
  intros H. apply (healthy_from s _ id); [reflexivity|exact H|..].
  - intros z k o b vp Hz. destruct (decide (z = y)) as [->|Hn].
    + pose proof (look_some_lt _ _ _ Hz) as Hl. rewrite length_write in Hl.
      rewrite look_write_eq in Hz by exact Hl. discriminate.
    + rewrite look_write_ne in Hz by exact Hn. eauto.
  - intros; unfold id in *; congruence.
Qed.

Lemma evolves_drop U s s1 y z c :
  evolves U s s1 [y; z] -> look s1 y = Some c -> owned (ct_handle c) = None ->
  evolves U s (write y None s1) [z].
Proof.
  intros [A1 A2 A3 A4 A5 A6 A7 A8 A9] Hy Ho. pose proof (look_some_lt _ _ _ Hy) as Hlt.
  assert (Hy0 : length (hp_vars s) <= y) by (apply A6; left).
  assert (Hz : z <> y) by (intros ->; apply list.NoDup_cons in A5 as [A5 _]; apply A5; left).
  split.
  - rewrite length_write. exact A1.
  - exact A2.
  - intros x Hx Hu. rewrite look_write_ne by lia. auto.
  - intros x Hx. rewrite look_write_ne by lia. auto.
  - apply NoDup_singleton.
  - intros x ->%elem_of_list_singleton. rewrite look_write_ne by exact Hz. apply A6. right. left.
  - intros x Hx Hl. destruct (decide (x = y)) as [->|Hn].
    + rewrite look_write_eq in Hl by exact Hlt. congruence.
    + rewrite look_write_ne in Hl by exact Hn. specialize (A7 x Hx Hl).
      apply elem_of_cons in A7 as [->|A7]; [congruence|exact A7].
  - intros o. rewrite A8. split; intros (x & Hx); exists x; apply owner_target in Hx as (cx & Hx & Eo);
      apply owner_target; exists cx; (split; [|exact Eo]).
    + destruct (decide (x = y)) as [->|Hn]; [|rewrite look_write_ne by exact Hn; exact Hx].
      rewrite Hy in Hx. injection Hx as <-. rewrite Ho in Eo. discriminate.
    + destruct (decide (x = y)) as [->|Hn]; [|rewrite look_write_ne in Hx by exact Hn; exact Hx].
      rewrite look_write_eq in Hx by exact Hlt. discriminate.
  - apply healthy_drop. exact A9.
Qed.

Section Steps.
  Context (cf : config) (w : world) (isa : nat -> N -> bool) (cxx20 : bool).

  Lemma owned_moved c : owned (ct_handle (moved cf w c)) = None.
  Proof. destruct c as [[v|p|k p] vp]; reflexivity. Qed.

  Lemma move_step x s c : healthy s -> look s x = Some c ->
    exists y s', move_var cf w x s = Ok (y, s') /\ evolves (eq x) s s' [y] /\
      look s' y = Some c /\ look s' x = Some (moved cf w c).
  Proof.
    intros H Hx. pose proof (look_some_lt _ _ _ Hx) as Hlt.
    exists (length (hp_vars s)), (grow c (write x (Some (moved cf w c)) s)). split; [|split; [|split]].
    - unfold move_var. rewrite (read_ok _ _ _ Hx). cbn [obind]. rewrite alloc_grow, length_write. reflexivity.
    - destruct (healthy_take s x c (moved cf w c) c) as [Hh Ho]; auto.
      + apply owned_moved.
      + intros k o b vp ->. eauto.
      + apply evolves_grow; auto. congruence.
    - rewrite <- (length_write s x (Some (moved cf w c))). apply look_grow_new.
    - rewrite look_grow_ne by (rewrite length_write; lia). apply look_write_eq. exact Hlt.
  Qed.

  Lemma copy_step x s c : healthy s -> look s x = Some c ->
    (forall p vp, c <> Content (HSmart Unique p) vp) ->
    exists y s', copy_var x s = Ok (y, s') /\ evolves (fun _ => False) s s' [y] /\ look s' y = Some c.
  Proof.
    intros H Hx Hc. exists (length (hp_vars s)), (grow c s). split; [|split].
    - unfold copy_var. rewrite (read_ok _ _ _ Hx). cbn [obind]. destruct c as [[v|p|[] p] vp]; try reflexivity.
      exfalso. eapply Hc. reflexivity.
    - destruct (healthy_copy s x c c) as [Hh Ho]; auto.
      + intros k o b vp ->. split; [|eauto]. intros ->. eapply Hc. reflexivity.
      + apply evolves_grow_only; auto.
    - apply look_grow_new.
  Qed.

  Lemma write_same s x c : look s x = Some c -> write x (Some c) s = s.
  Proof.
    intros H. destruct s as [l a]. unfold write. simpl. f_equal. apply list_insert_id.
    unfold look in H. simpl in H. destruct (l !! x) as [[c'|]|]; congruence.
  Qed.

  (* Does the cast leave nothing behind? *)
  Definition takes (k : ownership) (rvalue : bool) : bool :=
    match k with Shared => rvalue && cxx20 | Unique => true | Intrusive => false end.

  Lemma cast_smart_ok s k rvalue ot o b x vp :
    healthy s -> look s x = Some (Content (HSmart k (Some (o, b))) vp) ->
    isa o (ot_class ot) = true -> (k = Unique -> rvalue = true) ->
    cast_smart isa cxx20 k rvalue ot (Some (o, b)) s =
      Ok (Some (o, b), if takes k rvalue then None else Some (o, b)).
  Proof.
    intros H Hx Hi Hr.
    assert (Ha : hp_alive s o = true) by (eapply he_alive; [exact H|eexists _, _, _; exact Hx]).
    assert (Hb : k <> Shared -> b = 0) by (eapply he_token; eauto).
    destruct k; simpl; unfold cast_object; rewrite Ha, Hi; simpl.
    - reflexivity.
    - rewrite Hr, Hb by congruence. reflexivity.
    - rewrite Hb by congruence. destruct (ot_dynamic ot); reflexivity.
  Qed.

  Lemma cast_var_step k rvalue ot x s o b vp :
    healthy s -> look s x = Some (Content (HSmart k (Some (o, b))) vp) ->
    isa o (ot_class ot) = true -> (k = Unique -> rvalue = true) ->
    exists y s', cast_var isa cxx20 k rvalue ot x s = Ok (y, s') /\
      evolves (fun z => rvalue = true /\ z = x) s s' [y] /\
      look s' y = Some (Content (HSmart k (Some (o, b))) None) /\
      look s' x = Some (Content (HSmart k (if takes k rvalue then None else Some (o, b))) vp).
  Proof.
    intros H Hx Hi Hr. pose proof (look_some_lt _ _ _ Hx) as Hlt.
    set (c' := Content (HSmart k (if takes k rvalue then None else Some (o, b))) vp).
    set (cn := Content (HSmart k (Some (o, b))) None).
    assert (E : cast_var isa cxx20 k rvalue ot x s = Ok (length (hp_vars s), grow cn (write x (Some c') s))).
    { unfold cast_var. rewrite (read_ok _ _ _ Hx). cbn [obind ct_handle]. rewrite decide_True by reflexivity.
      rewrite (cast_smart_ok s k rvalue ot o b x vp) by assumption. cbn [obind ct_vp].
      rewrite alloc_grow, length_write. reflexivity. }
    exists (length (hp_vars s)), (grow cn (write x (Some c') s)). split; [exact E|]. split; [|split].
    - destruct (takes k rvalue) eqn:Et.
      + assert (rvalue = true).
        { destruct k; simpl in Et; [apply andb_true_iff in Et; tauto|auto|discriminate]. }
        apply (evolves_mono (eq x)); [intros; subst; auto|].
        destruct (healthy_take s x _ c' cn H Hx) as [Hh Ho].
        * subst c'. reflexivity.
        * intros k0 o0 b0 vp0 [= <- <- <- <-]. eauto.
        * reflexivity.
        * apply evolves_grow; auto. congruence.
      + replace (write x (Some c') s) with s by (symmetry; apply write_same; exact Hx).
        apply (evolves_mono (fun _ => False)); [intros; contradiction|].
        destruct (healthy_copy s x _ cn H Hx) as [Hh Ho].
        * intros k0 o0 b0 vp0 [= <- <- <- <-]. split; [|eauto]. intros ->. discriminate.
        * apply evolves_grow_only; auto.
    - rewrite <- (length_write s x (Some c')). apply look_grow_new.
    - rewrite look_grow_ne by (rewrite length_write; lia). apply look_write_eq. exact Hlt.
  Qed.

  Lemma cast_vptr_step k rvalue ot x s o b vp :
    healthy s -> look s x = Some (Content (HSmart k (Some (o, b))) vp) ->
    isa o (ot_class ot) = true -> (k = Unique -> rvalue = true) ->
    exists y s', cast_vptr cf w isa cxx20 (Some k) rvalue ot x s = Ok (y, s') /\
      evolves (fun z => rvalue = true /\ z = x) s s' [y] /\
      look s' y = Some (Content (HSmart k (Some (o, b))) vp) /\
      look s' x = Some (Content (HSmart k (if takes k rvalue then None else Some (o, b))) vp).
  Proof.
    intros H Hx Hi Hr. pose proof (look_some_lt _ _ _ Hx) as Hlt.
    destruct (cast_var_step k rvalue ot x s o b vp H Hx Hi Hr) as (y & s1 & E & Ev & Hy & Hx1).
    pose proof (look_some_lt _ _ _ Hy) as Hylt.
    destruct (ev_locals _ _ _ _ Ev y ltac:(left)) as [Hyge _].
    pose proof (ev_healthy _ _ _ _ Ev) as Hh1.
    set (t := Content (HSmart k (Some (o, b))) None) in *.
    set (tz := Content (HSmart k (Some (o, b))) vp).
    set (s2 := grow tz (write y (Some (moved cf w t)) s1)).
    assert (Hlen : length (hp_vars (write y (Some (moved cf w t)) s1)) = length (hp_vars s1)) by apply length_write.
    assert (Ev2 : evolves (eq y) s1 s2 [length (hp_vars s1)]).
    { destruct (healthy_take s1 y t (moved cf w t) tz Hh1 Hy) as [Hh Ho].
      - apply owned_moved.
      - intros k0 o0 b0 vp0 [= <- <- <- <-]. unfold t. eauto.
      - reflexivity.
      - apply evolves_grow; auto. congruence. }
    assert (Hy2 : look s2 y = Some (moved cf w t)).
    { unfold s2. rewrite look_grow_ne by (rewrite Hlen; lia). apply look_write_eq. exact Hylt. }
    exists (length (hp_vars s1)), (write y None s2). split; [|split; [|split]].
    - unfold cast_vptr. rewrite (read_ok _ _ _ Hx). cbn [obind]. rewrite E. cbn [obind].
      rewrite (read_ok _ _ _ Hy). cbn [obind ct_handle ct_vp]. rewrite alloc_grow, Hlen.
      change (obind (destroy y s2) (fun s => Ok (length (hp_vars s1), s)) = Ok (length (hp_vars s1), write y None s2)).
      rewrite (destroy_empty y s2 _ Hy2 (owned_moved t)). reflexivity.
    - eapply evolves_drop; [|exact Hy2|apply owned_moved].
      eapply evolves_mono; [|exact (evolves_trans _ _ _ _ _ _ _ Ev Ev2)].
      intros z Hz [Hz'|Hz']; [exact Hz'|]. subst z. lia.
    - rewrite look_write_ne by lia. unfold s2. rewrite <- Hlen. apply look_grow_new.
    - rewrite look_write_ne by lia. unfold s2. rewrite look_grow_ne; [|rewrite Hlen; apply look_some_lt in Hx1; lia].
      rewrite look_write_ne by lia. exact Hx1.
  Qed.
End Steps.

(* ---- all the parameters ---- *)
Section Phase.
  Context {A : Type} (f : A -> heap -> outcome (parameter * list nat * heap)) (s0 : heap)
    (v : A -> option nat) (eats : A -> bool)
    (Q : A -> parameter -> option content -> Prop) (G : A -> nat -> option content -> Prop).

  (* The step of item [a] from a state where its variable is as in [s0]. *)
  Definition does (a : A) : Prop := forall s,
    healthy s -> hp_alive s = hp_alive s0 -> length (hp_vars s0) <= length (hp_vars s) ->
    (forall x, v a = Some x -> look s x = look s0 x) ->
    exists p ys s', f a s = Ok (p, ys, s') /\
      evolves (fun x => eats a = true /\ v a = Some x) s s' ys /\
      Q a p (param_content s' p) /\
      (forall x, place_of p = Some x -> x ∈ ys \/ (eats a = false /\ v a = Some x)) /\
      (forall x, x ∈ ys -> place_of p = Some x) /\
      (forall x, eats a = true -> v a = Some x -> G a x (look s' x)).

  Definition disjoint (l : list A) : Prop := forall i j a b x,
    l !! i = Some a -> eats a = true -> v a = Some x -> l !! j = Some b -> v b = Some x -> i = j.

  Lemma steps_ok l : forall s,
    (forall a, a ∈ l -> does a) -> disjoint l ->
    (forall a x, a ∈ l -> v a = Some x -> x < length (hp_vars s0) /\ look s x = look s0 x) ->
    healthy s -> hp_alive s = hp_alive s0 -> length (hp_vars s0) <= length (hp_vars s) ->
    exists ps ys s', steps f l s = Ok (ps, ys, s') /\
      evolves (fun x => exists a, a ∈ l /\ eats a = true /\ v a = Some x) s s' ys /\
      Forall2 (fun a p => Q a p (param_content s' p) /\
        forall x, place_of p = Some x -> x ∈ ys \/ (eats a = false /\ v a = Some x)) l ps /\
      (forall x, x ∈ ys -> exists i p, ps !! i = Some p /\ place_of p = Some x) /\
      (forall i j p q x, ps !! i = Some p -> ps !! j = Some q -> x ∈ ys ->
         place_of p = Some x -> place_of q = Some x -> i = j) /\
      (forall a x, a ∈ l -> eats a = true -> v a = Some x -> G a x (look s' x)).
  Proof.
    induction l as [|a l IH]; intros s Hd Hj Hv Hh Ha Hl.
    { exists [], [], s. split; [reflexivity|]. split; [apply evolves_refl; exact Hh|].
      split; [constructor|]. split; [intros x Hx; apply elem_of_nil in Hx; contradiction|].
      split; [intros; discriminate|]. intros b x Hb. apply elem_of_nil in Hb. contradiction. }
    destruct (Hd a ltac:(left) s Hh Ha Hl) as (p & xs & s1 & E & Ev & HQ & Hp & Hx & HG).
    { intros x Hx. apply (Hv a x); [left|exact Hx]. }
    assert (Hjl : disjoint l).
    { intros i j a1 b1 x H1 H2 H3 H4 H5.
      cut (Datatypes.S i = Datatypes.S j); [lia|]. eapply Hj; eauto. }
    assert (Hother : forall b x, b ∈ l -> v b = Some x -> ~ (eats a = true /\ v a = Some x)).
    { intros b x Hb Hbx [He Hax]. apply elem_of_list_lookup in Hb as (j & Hb).
      assert (0 = Datatypes.S j); [|lia]. eapply Hj; eauto; reflexivity. }
    destruct (IH s1) as (ps & ys & s2 & E2 & Ev2 & HF & Hys & Hdis & HG2).
    { intros b Hb. apply Hd. right. exact Hb. }
    { exact Hjl. }
    { intros b x Hb Hbx. destruct (Hv b x ltac:(right; exact Hb) Hbx) as [H1 H2]. split; [exact H1|].
      rewrite (ev_keep _ _ _ _ Ev); [exact H2|lia|]. eapply Hother; eauto. }
    { exact (ev_healthy _ _ _ _ Ev). }
    { rewrite (ev_alive _ _ _ _ Ev). exact Ha. }
    { pose proof (ev_len _ _ _ _ Ev). lia. }
    exists (p :: ps), (xs ++ ys), s2.
    assert (Hkeep : forall x, x < length (hp_vars s1) -> x ∈ xs \/ v a = Some x -> look s2 x = look s1 x).
    { intros x Hx1 Hx2. apply (ev_keep _ _ _ _ Ev2); [exact Hx1|]. intros (b & Hb & He & Hbx).
      destruct Hx2 as [Hx2|Hx2].
      - apply (ev_locals _ _ _ _ Ev) in Hx2 as [Hx2 _].
        destruct (Hv b x ltac:(right; exact Hb) Hbx). lia.
      - apply elem_of_list_lookup in Hb as (j & Hb).
        assert (Datatypes.S j = 0); [|lia]. eapply (Hj (Datatypes.S j) 0); eauto; reflexivity. }
    assert (Hfresh : forall x, x ∈ xs -> x < length (hp_vars s1)).
    { intros x Hx'. apply (ev_locals _ _ _ _ Ev) in Hx' as [_ Hx']. apply look_lt. exact Hx'. }
    split; [cbn [steps]; rewrite E; cbn [obind]; rewrite E2; reflexivity|].
    split; [eapply evolves_mono; [|exact (evolves_trans _ _ _ _ _ _ _ Ev Ev2)];
      intros x _ [[H1 H2]|(b & Hb & H1 & H2)]; [exists a; split; [left|auto]|exists b; split; [right; exact Hb|auto]]|].
    split; [|split; [|split]].
    - constructor.
      + split; [|intros x Hpx; destruct (Hp x Hpx) as [?|?]; [left; apply elem_of_app; auto|auto]].
        replace (param_content s2 p) with (param_content s1 p); [exact HQ|].
        unfold param_content. destruct (place_of p) as [x|] eqn:Epx; [|reflexivity]. simpl.
        symmetry. destruct (Hp x eq_refl) as [Hx'|[_ Hx']].
        * apply Hkeep; auto.
        * apply Hkeep; auto. destruct (Hv a x ltac:(left) Hx').
          pose proof (ev_len _ _ _ _ Ev). lia.
      + eapply Forall2_impl; [exact HF|]. intros b q [H1 H2]. split; [exact H1|].
        intros x Hqx. destruct (H2 x Hqx); [left; apply elem_of_app; auto|auto].
    - intros x [Hx'|Hx']%elem_of_app.
      + exists 0, p. split; [reflexivity|]. auto.
      + destruct (Hys x Hx') as (i & q & H1 & H2). exists (Datatypes.S i), q. auto.
    - assert (Hcross : forall j q x, x ∈ xs ++ ys -> place_of p = Some x -> ps !! j = Some q ->
        place_of q = Some x -> False).
      { intros j q x Hx' Hpx Hqj Hqx. destruct (Forall2_lookup_r _ _ _ _ _ HF Hqj) as (b & Hbj & _ & Hb).
        apply elem_of_list_lookup_2 in Hbj.
        assert (Hxx : x ∈ xs \/ x ∈ ys) by (apply elem_of_app; exact Hx').
        destruct (Hb x Hqx) as [Hin|[He Hbx]].
        - apply (ev_locals _ _ _ _ Ev2) in Hin as [Hin _].
          destruct (Hp x Hpx) as [Hp'|[_ Hp']]; [apply Hfresh in Hp'; lia|].
          destruct (Hv a x ltac:(left) Hp'). pose proof (ev_len _ _ _ _ Ev). lia.
        - destruct (Hv b x ltac:(right; exact Hbj) Hbx) as [Hlt _].
          destruct Hxx as [Hxx|Hxx]; [apply (ev_locals _ _ _ _ Ev) in Hxx|apply (ev_locals _ _ _ _ Ev2) in Hxx];
            pose proof (ev_len _ _ _ _ Ev); lia. }
      intros [|i] [|j] q q' x Hi Hj' Hx' Hqx Hqx'; simpl in Hi, Hj'.
      + reflexivity.
      + injection Hi as <-. exfalso. eauto.
      + injection Hj' as <-. exfalso. eauto.
      + f_equal. assert (Hin : x ∈ ys).
        { apply elem_of_app in Hx' as [Hx'|Hx']; [|exact Hx']. exfalso.
          destruct (Forall2_lookup_r _ _ _ _ _ HF Hi) as (b & Hbj & _ & Hb).
          apply elem_of_list_lookup_2 in Hbj. destruct (Hb x Hqx) as [Hin|[_ Hbx]].
          - apply (ev_locals _ _ _ _ Ev2) in Hin as [Hin _]. apply Hfresh in Hx'. lia.
          - destruct (Hv b x ltac:(right; exact Hbj) Hbx) as [Hlt _].
            apply (ev_locals _ _ _ _ Ev) in Hx' as [Hx' _]. lia. }
        eauto.
    - intros b x Hb He Hbx. apply elem_of_cons in Hb as [->|Hb]; [|eauto].
      rewrite Hkeep; auto. destruct (Hv a x ltac:(left) Hbx). pose proof (ev_len _ _ _ _ Ev). lia.
  Qed.
End Phase.
