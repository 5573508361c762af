(* Embedded v-table pointers follow the class of the object. *)
From stdpp Require Import base list numbers sets relations.
From Verif Require Import Base Registry ModelClasses ModelHash ModelWorld ModelCall ModelVirtualPtr ModelInplace
  Spec SpecCall SpecVirtualPtr SpecInplace ProofBehaviour.

(* ---- classes ---- *)
Lemma class_induction (P : class -> Prop) :
  (forall n v bs, (forall b, b ∈ bs -> P b) -> P (Class n v bs)) -> forall c, P c.
Proof.
  intros H. fix IH 1. intros [n v bs]. apply H.
  induction bs as [|b bs IHb]; intros x Hx; [inversion Hx|].
  apply elem_of_cons in Hx as [->|Hx]; [apply IH|apply IHb; exact Hx].
Qed.

Lemma elem_of_flat_map {A B} (f : A -> list B) l y : y ∈ flat_map f l <-> exists x, x ∈ l /\ y ∈ f x.
Proof.
  rewrite elem_of_list_In, in_flat_map. split; intros (x & H1 & H2); exists x;
    (split; [apply elem_of_list_In|apply elem_of_list_In]); assumption.
Qed.

Lemma NoDup_flat_map_app {A B} (f : A -> list B) l1 x l2 y r :
  NoDup (flat_map f (l1 ++ x :: l2)) -> y ∈ l1 \/ y ∈ l2 -> r ∈ f x -> r ∉ f y.
Proof.
  rewrite flat_map_app. simpl. intros H Hy Hx Hr.
  apply NoDup_app in H as (H1 & H2 & H3). destruct Hy as [Hy|Hy].
  - apply (H2 r); [apply elem_of_flat_map; eauto|]. apply elem_of_app. left. exact Hx.
  - apply NoDup_app in H3 as (_ & H3 & _). apply (H3 r Hx). apply elem_of_flat_map. eauto.
Qed.

Lemma NoDup_flat_map_elem {A B} (f : A -> list B) l x : NoDup (flat_map f l) -> x ∈ l -> NoDup (f x).
Proof.
  intros H Hx. apply elem_of_list_split in Hx as (l1 & l2 & ->). rewrite flat_map_app in H. simpl in H.
  apply NoDup_app in H as (_ & _ & H). apply NoDup_app in H as (H & _). exact H.
Qed.

(* ---- the pointers embedded in an object ---- *)
Fixpoint roots (p : loc) (c : class) : list loc :=
  match c with
  | Class _ _ bs => match bs with [] => [p] | _ => flat_map (fun b => roots (base_at p b) b) bs end
  end.

Fixpoint subs (p : loc) (c : class) : list loc :=
  match c with Class _ _ bs => p :: flat_map (fun b => subs (base_at p b) b) bs end.

Lemma roots_bases p n v bs r :
  bs <> [] -> r ∈ roots p (Class n v bs) <-> exists b, b ∈ bs /\ r ∈ roots (base_at p b) b.
Proof. intros H. destruct bs; [contradiction|]. apply elem_of_flat_map. Qed.

Lemma roots_subs c : forall p r, r ∈ roots p c -> r ∈ subs p c.
Proof.
  induction c as [n v bs IH] using class_induction. intros p r Hr. destruct bs as [|b0 bs'].
  - apply elem_of_list_singleton in Hr as ->. left.
  - apply roots_bases in Hr as (b & Hb & Hr); [|discriminate]. right. apply elem_of_flat_map. eauto.
Qed.

Lemma base_at_fst p b : fst (base_at p b) = fst p.
Proof. unfold base_at. destruct (cvirt b); reflexivity. Qed.

Lemma subs_fst c : forall p r, r ∈ subs p c -> fst r = fst p.
Proof.
  induction c as [n v bs IH] using class_induction. intros p r [->|Hr]%elem_of_cons; [reflexivity|].
  apply elem_of_flat_map in Hr as (b & Hb & Hr). rewrite (IH b Hb _ _ Hr). apply base_at_fst.
Qed.
Lemma roots_fst p c r : r ∈ roots p c -> fst r = fst p.
Proof. intros H. apply roots_subs in H. apply subs_fst in H. exact H. Qed.

Lemma within_roots p c path q b r : within p c path q b -> r ∈ roots q b -> r ∈ roots p c.
Proof.
  induction 1 as [|p [n v bs] i b path q d Hi _ IH]; intros Hr; [exact Hr|]. simpl in Hi.
  apply roots_bases; [intros ->; discriminate|]. exists b. split; [eapply elem_of_list_lookup_2; eauto|auto].
Qed.

Lemma subs_within c : forall p q, q ∈ subs p c <-> exists path b, within p c path q b.
Proof.
  induction c as [n v bs IH] using class_induction. intros p q. simpl. rewrite elem_of_cons, elem_of_flat_map.
  split.
  - intros [->|(b & Hb & Hq)]; [eexists [], _; constructor|].
    apply (IH b Hb) in Hq as (path & d & Hw). apply elem_of_list_lookup in Hb as [i Hi].
    exists (i :: path), d. econstructor; eauto.
  - intros (path & d & Hw). inversion Hw as [|p' c' i b path' q' d' Hi Hw']; subst; [left; reflexivity|].
    right. exists b. simpl in Hi. pose proof (elem_of_list_lookup_2 _ _ _ Hi) as Hb.
    split; [exact Hb|]. apply (IH b Hb). eauto.
Qed.

Lemma NoDup_flat_map {A B} (f : A -> list B) l :
  (forall x, x ∈ l -> NoDup (f x)) ->
  (forall i j x y r, l !! i = Some x -> l !! j = Some y -> r ∈ f x -> r ∈ f y -> i = j) ->
  NoDup (flat_map f l).
Proof.
  induction l as [|x l IH]; intros H1 H2; simpl; [constructor|]. apply NoDup_app. split; [|split].
  - apply H1. left.
  - intros r Hr Hr'. apply elem_of_flat_map in Hr' as (y & Hy & Hr').
    apply elem_of_list_lookup in Hy as [j Hj].
    specialize (H2 0 (S j) x y r eq_refl Hj Hr Hr'). discriminate.
  - apply IH.
    + intros y Hy. apply H1. right. exact Hy.
    + intros i j y z r Hi Hj Hy Hz. specialize (H2 (S i) (S j) y z r Hi Hj Hy Hz). lia.
Qed.

Lemma unshared_subs c : forall p,
  (forall path path' q b b', within p c path q b -> within p c path' q b' -> path = path') ->
  NoDup (subs p c).
Proof.
  induction c as [n v bs IH] using class_induction. intros p H. simpl. constructor.
  - intros Hp. apply elem_of_flat_map in Hp as (b & Hb & Hp). apply subs_within in Hp as (path & d & Hw).
    apply elem_of_list_lookup in Hb as [i Hi].
    assert (Hi' : within p (Class n v bs) (i :: path) p d) by (econstructor; eauto).
    specialize (H _ _ _ _ _ (within_self _ _) Hi'). discriminate.
  - apply NoDup_flat_map.
    + intros b Hb. apply (IH b Hb). intros path path' q d d' H1 H2.
      apply elem_of_list_lookup in Hb as [i Hi].
      assert (Hp : i :: path = i :: path').
      { apply (H _ _ q d d'); econstructor; eauto. }
      injection Hp. auto.
    + intros i j b b' r Hi Hj Hr Hr'.
      apply subs_within in Hr as (path & d & Hw). apply subs_within in Hr' as (path' & d' & Hw').
      assert (Hp : i :: path = j :: path').
      { apply (H _ _ r d d'); econstructor; eauto. }
      injection Hp. auto.
Qed.

Section Pointers.
  Context (cf : config) (w : world) (addr : N -> nat).
  Notation sbox := (static_box cf w addr).
  Notation update := (update_vptr cf w addr).

  (* All the pointers of the subobject designate class [n]: in their contents, and
     when they are read. *)
  Definition boxed (m : memory) (p : loc) (c : class) (n : N) : Prop :=
    forall r, r ∈ roots p c -> m r = Some (sbox n).
  Definition read (x : option box) : outcome vptr :=
    match x with
    | Some b => unbox_vptr w b
    | None => if cf_indirect cf then Undef else Ok VNull
    end.
  Definition right (m : memory) (p : loc) (c : class) (n : N) : Prop :=
    forall r, r ∈ roots p c -> read (m r) = Ok (w_static w (addr n)).

  Lemma boxed_right m p c n : boxed m p c n -> right m p c n.
  Proof.
    intros H r Hr. rewrite (H r Hr). simpl. unfold static_box, unbox_vptr.
    destruct (cf_indirect cf); reflexivity.
  Qed.

  Lemma right_dispatches m p c n : right m p c n -> dispatches_as cf w addr m p c n.
  Proof.
    intros H path q b Hw.
    assert (Hq : right m q b n) by (intros r Hr; apply H; eapply within_roots; eauto).
    clear path p c H Hw. revert q Hq. induction b as [k v bs IH] using class_induction. intros q Hq.
    destruct bs as [|b bs].
    - apply (Hq q). left.
    - change (vptr_fn cf w m q (Class k v (b :: bs))) with (vptr_fn cf w m (base_at q b) b).
      apply IH; [left|]. intros r Hr. apply Hq. apply roots_bases; [discriminate|].
      exists b. split; [left|exact Hr].
  Qed.

  Lemma roots_within c : forall p r, r ∈ roots p c -> exists path k v, within p c path r (Class k v []).
  Proof.
    induction c as [n v bs IH] using class_induction. intros p r Hr. destruct bs as [|b0 bs'].
    - apply elem_of_list_singleton in Hr as ->. exists [], n, v. constructor.
    - apply roots_bases in Hr as (b & Hb & Hr); [|discriminate].
      destruct (IH b Hb _ _ Hr) as (path & k & u & Hw). apply elem_of_list_lookup in Hb as [i Hi].
      exists (i :: path), k, u. econstructor; eauto.
  Qed.

  Lemma dispatches_right m p c n : dispatches_as cf w addr m p c n -> right m p c n.
  Proof.
    intros H r Hr. destruct (roots_within c p r Hr) as (path & k & v & Hw).
    exact (H _ _ _ Hw).
  Qed.

  Lemma set_mem_eq m p x : set_mem m p x p = x.
  Proof. unfold set_mem. rewrite decide_True; reflexivity. Qed.
  Lemma set_mem_ne m p x q : q <> p -> set_mem m p x q = m q.
  Proof. intros H. unfold set_mem. rewrite decide_False; [reflexivity|exact H]. Qed.

  Lemma update_spec to c : forall p m,
    (forall r, r ∈ roots p c -> update to p c m r = Some (sbox to)) /\
    (forall r, r ∉ roots p c -> update to p c m r = m r).
  Proof.
    induction c as [n v bs IH] using class_induction. intros p m. destruct bs as [|b0 bs'].
    - simpl. split; intros r Hr.
      + apply elem_of_list_singleton in Hr as ->. apply set_mem_eq.
      + apply set_mem_ne. set_solver.
    - set (bs := b0 :: bs') in *.
      change (update to p (Class n v bs) m) with
        (foldl (fun m b => update to (base_at p b) b m) m bs).
      change (roots p (Class n v bs)) with (flat_map (fun b => roots (base_at p b) b) bs).
      clearbody bs. clear b0 bs'. revert m. induction bs as [|b bs IHb]; intros m; simpl.
      + split; [set_solver|reflexivity].
      + destruct (IHb (fun x Hx => IH x (elem_of_list_further _ _ _ Hx)) (update to (base_at p b) b m))
          as [H1 H2].
        destruct (IH b (elem_of_list_here _ _) (base_at p b) m) as [H3 H4].
        split; intros r Hr.
        * destruct (decide (r ∈ flat_map (fun b => roots (base_at p b) b) bs)) as [Hin|Hout]; [auto|].
          rewrite (H2 r Hout). apply H3. apply elem_of_app in Hr as [Hr|Hr]; [exact Hr|contradiction].
        * rewrite elem_of_app in Hr. rewrite H2, H4 by tauto. reflexivity.
  Qed.

  Lemma update_boxed to p c m : boxed (update to p c m) p c to.
  Proof. intros r Hr. apply update_spec. exact Hr. Qed.
  Lemma update_right to p c m : right (update to p c m) p c to.
  Proof. apply boxed_right, update_boxed. Qed.

  Lemma mixin_ctor_spec p c m :
    boxed (mixin_ctor cf w addr p c m) p c (cname c) /\
    (forall r, r ∉ roots p c -> mixin_ctor cf w addr p c m r = m r).
  Proof.
    unfold mixin_ctor. destruct c as [n v bs]. simpl cbases.
    destruct bs as [|b bs]; (split; [apply update_boxed|]); intros r Hr.
    - etransitivity; [apply update_spec; exact Hr|]. apply set_mem_ne. set_solver.
    - apply update_spec. exact Hr.
  Qed.

  Definition good (e : event) : Prop :=
    right (ev_memory e) (ev_at e) (ev_class e) (cname (ev_class e)).

  (* ---- constructors ---- *)
  Lemma foldl_good {A} (f : state -> A -> state) l s :
    (forall s x, x ∈ l -> Forall good (snd s) -> Forall good (snd (f s x))) ->
    Forall good (snd s) -> Forall good (snd (foldl f s l)).
  Proof.
    revert s. induction l as [|x l IH]; intros s H Hs; simpl; [exact Hs|].
    apply IH; [intros s' y Hy; apply H; right; exact Hy|]. apply H; [left|exact Hs].
  Qed.

  Lemma construct_base_good c : forall p s,
    Forall good (snd s) -> Forall good (snd (construct_base cf w addr p c s)).
  Proof.
    induction c as [n v bs IH] using class_induction. intros p s Hs. simpl.
    apply Forall_app. split.
    - apply foldl_good; [|exact Hs]. intros s' b Hb Hs'. destruct (cvirt b); [exact Hs'|].
      apply (IH b Hb). exact Hs'.
    - apply Forall_singleton. unfold good. simpl. apply boxed_right, mixin_ctor_spec.
  Qed.

  Lemma construct_base_boxed p c s : boxed (fst (construct_base cf w addr p c s)) p c (cname c).
  Proof. destruct c as [n v bs]. simpl. apply mixin_ctor_spec. Qed.

  Lemma construct_base_frame c : forall p s r,
    r ∉ roots p c -> fst (construct_base cf w addr p c s) r = fst s r.
  Proof.
    induction c as [n v bs IH] using class_induction. intros p s r Hr. simpl.
    rewrite (proj2 (mixin_ctor_spec p (Class n v bs) _)) by exact Hr.
    destruct bs as [|b0 bs']; [reflexivity|]. set (bs := b0 :: bs') in *.
    assert (Hr' : forall b, b ∈ bs -> r ∉ roots (base_at p b) b).
    { intros b Hb Hin. apply Hr. apply roots_bases; [discriminate|]. eauto. }
    clear Hr. clearbody bs. revert s. induction bs as [|b bs IHb]; intros s; [reflexivity|].
    change (foldl ?f s (b :: bs)) with (foldl f (f s b) bs).
    rewrite IHb; [|intros; apply IH; [right|]; assumption|intros; apply Hr'; right; assumption].
    destruct (cvirt b); [reflexivity|]. apply IH; [left|]. apply Hr'. left.
  Qed.

  Theorem construct_good o c m : Forall good (snd (construct cf w addr o c (m, []))).
  Proof.
    unfold construct. apply construct_base_good. apply foldl_good; [|constructor].
    intros s b _ Hs. apply construct_base_good. exact Hs.
  Qed.

  (* ---- destructors ---- *)
  Lemma mixin_dtor_spec p n v bs m :
    NoDup (flat_map (fun b => subs (base_at p b) b) bs) -> bs <> [] ->
    (forall b, b ∈ bs -> right (mixin_dtor cf w addr p (Class n v bs) m) (base_at p b) b (cname b)) /\
    (forall r, r ∉ roots p (Class n v bs) -> mixin_dtor cf w addr p (Class n v bs) m r = m r).
  Proof.
    intros Hnd Hne. destruct bs as [|b0 bs']; [contradiction|]. set (bs := b0 :: bs') in *.
    change (mixin_dtor cf w addr p (Class n v bs) m) with
      (foldl (fun m b => update (cname b) (base_at p b) b m) m bs).
    change (roots p (Class n v bs)) with (flat_map (fun b => roots (base_at p b) b) bs).
    clearbody bs. clear Hne b0 bs'. revert m. induction bs as [|b bs IH]; intros m; simpl.
    - split; [set_solver|reflexivity].
    - pose proof Hnd as Hnd0. simpl in Hnd. apply NoDup_app in Hnd as (_ & Hd & Hnd).
      destruct (IH Hnd (update (cname b) (base_at p b) b m)) as [H1 H2]. split.
      + intros x [->|Hx]%elem_of_cons; [|auto]. intros r Hr.
        rewrite H2; [apply update_right; exact Hr|]. intros Hin.
        apply elem_of_flat_map in Hin as (y & Hy & Hin).
        apply (Hd r); [apply roots_subs; exact Hr|]. apply elem_of_flat_map. exists y.
        split; [exact Hy|apply roots_subs; exact Hin].
      + intros r Hr. rewrite elem_of_app in Hr. rewrite H2 by tauto. apply update_spec. tauto.
  Qed.

  (* The virtual bases that become the next to be destroyed. *)
  Fixpoint exposed (c : class) : list class :=
    match c with
    | Class _ _ bs => flat_map (fun b => if cvirt b then [b] else exposed b) bs
    end.

  Lemma exposed_roots c : forall p v r,
    v ∈ exposed c -> r ∈ roots (fst p, [cname v]) v -> r ∈ roots p c.
  Proof.
    induction c as [n u bs IH] using class_induction. intros p v r Hv Hr.
    simpl in Hv. apply elem_of_flat_map in Hv as (b & Hb & Hv).
    apply roots_bases; [intros ->; inversion Hb|]. exists b. split; [exact Hb|].
    destruct (cvirt b) eqn:Hvb.
    - apply elem_of_list_singleton in Hv as ->. unfold base_at. rewrite Hvb. exact Hr.
    - apply (IH b Hb _ v); [exact Hv|]. rewrite base_at_fst. exact Hr.
  Qed.

  Lemma virtual_roots c : forall p v r,
    v ∈ virtual_bases c -> r ∈ roots (fst p, [cname v]) v -> r ∈ roots p c.
  Proof.
    induction c as [n u bs IH] using class_induction. intros p v r Hv Hr.
    simpl in Hv. apply elem_of_flat_map in Hv as (b & Hb & Hv).
    apply roots_bases; [intros ->; inversion Hb|]. exists b. split; [exact Hb|].
    apply elem_of_app in Hv as [Hv|Hv].
    - apply (IH b Hb _ v); [exact Hv|]. rewrite base_at_fst. exact Hr.
    - destruct (cvirt b) eqn:Hvb; [|inversion Hv].
      apply elem_of_list_singleton in Hv as ->. unfold base_at. rewrite Hvb. exact Hr.
  Qed.

  (* What has to hold of [b] after its turn in the destruction of [p]. *)
  Definition done (m : memory) (p : loc) (b : class) : Prop :=
    if cvirt b then right m (base_at p b) b (cname b)
    else forall x, x ∈ exposed b -> right m (fst p, [cname x]) x (cname x).

  Lemma right_frame m m' p c n : right m p c n -> (forall r, r ∈ roots p c -> m' r = m r) -> right m' p c n.
  Proof. intros H He r Hr. rewrite He by exact Hr. apply H. exact Hr. Qed.

  Lemma done_frame m m' p b :
    done m p b -> (forall r, r ∈ roots (base_at p b) b -> m' r = m r) -> done m' p b.
  Proof.
    unfold done. intros H He. destruct (cvirt b) eqn:Hvb; [eapply right_frame; eauto|].
    intros x Hx. eapply right_frame; [apply H; exact Hx|]. intros r Hr. apply He.
    eapply exposed_roots; [exact Hx|]. rewrite base_at_fst. exact Hr.
  Qed.

  Lemma destroy_base_ok c : forall p s,
    NoDup (subs p c) -> right (fst s) p c (cname c) -> Forall good (snd s) ->
    let s' := destroy_base cf w addr p c s in
    Forall good (snd s') /\
    (forall r, r ∉ roots p c -> fst s' r = fst s r) /\
    (forall x, x ∈ exposed c -> right (fst s') (fst p, [cname x]) x (cname x)).
  Proof.
    induction c as [n v bs IH] using class_induction. intros p s Hnd Hr Hg. cbv zeta.
    set (c := Class n v bs) in *.
    set (s1 := (mixin_dtor cf w addr p c (fst s), snd s ++ [Event false p c (fst s)])).
    set (F := fun b (s : state) => if cvirt b then s else destroy_base cf w addr (base_at p b) b s).
    change (destroy_base cf w addr p c s) with (foldr F s1 bs).
    assert (Hg1 : Forall good (snd s1)).
    { simpl. apply Forall_app. split; [exact Hg|]. apply Forall_singleton. exact Hr. }
    destruct (decide (bs = [])) as [->|Hne].
    { simpl. split; [exact Hg1|]. split; [|set_solver].
      intros r Hnr. unfold c, mixin_dtor. simpl. apply set_mem_ne. set_solver. }
    change (subs p c) with (p :: flat_map (fun b => subs (base_at p b) b) bs) in Hnd.
    apply NoDup_cons in Hnd as [_ Hnd].
    destruct (mixin_dtor_spec p n v bs (fst s) Hnd Hne) as [Hb0 Hf0].
    assert (Hdisj : forall l1 x l2 y r, bs = l1 ++ x :: l2 -> y ∈ l1 \/ y ∈ l2 ->
      r ∈ roots (base_at p y) y -> r ∉ roots (base_at p x) x).
    { intros l1 x l2 y r -> Hy Hry Hrx.
      exact (NoDup_flat_map_app _ _ _ _ _ _ Hnd Hy (roots_subs _ _ _ Hrx) (roots_subs _ _ _ Hry)). }
    enough (G : forall l2 l1, bs = l1 ++ l2 ->
      let s' := foldr F s1 l2 in
      Forall good (snd s') /\ (forall r, r ∉ roots p c -> fst s' r = fst s r) /\
      (forall b, b ∈ l1 -> right (fst s') (base_at p b) b (cname b)) /\
      (forall b, b ∈ l2 -> done (fst s') p b)).
    { destruct (G bs [] eq_refl) as (G1 & G2 & _ & G4). split; [exact G1|]. split; [exact G2|].
      intros x Hx. unfold c in Hx. simpl in Hx. apply elem_of_flat_map in Hx as (b & Hb & Hx).
      specialize (G4 b Hb). unfold done in G4. destruct (cvirt b) eqn:Hvb; [|apply G4; exact Hx].
      apply elem_of_list_singleton in Hx as ->. unfold base_at in G4. rewrite Hvb in G4. exact G4. }
    induction l2 as [|b l2 IHl]; intros l1 Hbs; cbv zeta.
    { simpl. split; [exact Hg1|]. split; [exact Hf0|]. split; [|set_solver].
      intros b Hb. apply Hb0. rewrite Hbs, app_nil_r. exact Hb. }
    destruct (IHl (l1 ++ [b])) as (G1 & G2 & G3 & G4); [rewrite <- app_assoc; exact Hbs|].
    cbn [foldr]. set (s2 := foldr F s1 l2) in *. unfold F.
    assert (Hbin : b ∈ bs) by (rewrite Hbs; set_solver).
    assert (Hrb : right (fst s2) (base_at p b) b (cname b)) by (apply G3; set_solver).
    destruct (cvirt b) eqn:Hvb.
    - split; [exact G1|]. split; [exact G2|]. split; [intros x Hx; apply G3; set_solver|].
      intros x [->|Hx]%elem_of_cons; [|auto]. unfold done. rewrite Hvb. exact Hrb.
    - destruct (IH b Hbin (base_at p b) s2 (NoDup_flat_map_elem _ _ _ Hnd Hbin) Hrb G1) as (I1 & I2 & I3).
      split; [exact I1|]. split; [|split].
      + intros r Hnr. rewrite I2; [auto|]. intros Hin. apply Hnr. apply roots_bases; [exact Hne|]. eauto.
      + intros x Hx. eapply right_frame; [apply G3; set_solver|]. intros r Hin. apply I2.
        eapply Hdisj; eauto.
      + intros x [->|Hx]%elem_of_cons.
        * unfold done. rewrite Hvb. intros y Hy. rewrite <- (base_at_fst p b). apply I3. exact Hy.
        * eapply done_frame; [apply G4; exact Hx|]. intros r Hin. apply I2. eapply Hdisj; eauto.
  Qed.

  (* The virtual bases, in the reverse order. *)
  Lemma destroy_virtual_ok c : forall p s,
    NoDup (subs p c) -> (forall x, x ∈ exposed c -> right (fst s) (fst p, [cname x]) x (cname x)) ->
    Forall good (snd s) ->
    let s' := foldr (fun b s => destroy_base cf w addr (fst p, [cname b]) b s) s (virtual_bases c) in
    Forall good (snd s') /\ (forall r, r ∉ roots p c -> fst s' r = fst s r).
  Proof.
    induction c as [n v bs IH] using class_induction. intros p s Hnd Hx Hg. cbv zeta.
    set (c := Class n v bs) in *.
    destruct (decide (bs = [])) as [->|Hne]; [split; [exact Hg|reflexivity]|].
    change (subs p c) with (p :: flat_map (fun b => subs (base_at p b) b) bs) in Hnd.
    apply NoDup_cons in Hnd as [_ Hnd].
    assert (Hdisj : forall l1 x l2 y r, bs = l1 ++ x :: l2 -> y ∈ l1 \/ y ∈ l2 ->
      r ∈ roots (base_at p y) y -> r ∉ roots (base_at p x) x).
    { intros l1 x l2 y r -> Hy Hry Hrx.
      exact (NoDup_flat_map_app _ _ _ _ _ _ Hnd Hy (roots_subs _ _ _ Hrx) (roots_subs _ _ _ Hry)). }
    set (vb := fun b => virtual_bases b ++ if cvirt b then [b] else []).
    change (virtual_bases c) with (flat_map vb bs).
    set (F := fun b s => destroy_base cf w addr (fst p, [cname b]) b s).
    enough (G : forall l2 l1, bs = l1 ++ l2 ->
      let s' := foldr F s (flat_map vb l2) in
      Forall good (snd s') /\ (forall r, r ∉ roots p c -> fst s' r = fst s r) /\
      (forall b, b ∈ l1 -> done (fst s') p b)).
    { destruct (G bs [] eq_refl) as (G1 & G2 & _). split; [exact G1|exact G2]. }
    induction l2 as [|b l2 IHl]; intros l1 Hbs; cbv zeta.
    { simpl. split; [exact Hg|]. split; [reflexivity|]. intros b Hb. rewrite app_nil_r in Hbs. subst l1.
      unfold done. destruct (cvirt b) eqn:Hvb.
      - unfold base_at. rewrite Hvb. apply Hx. apply elem_of_flat_map. exists b.
        split; [exact Hb|]. rewrite Hvb. left.
      - intros x Hxb. apply Hx. apply elem_of_flat_map. exists b. split; [exact Hb|]. rewrite Hvb. exact Hxb. }
    destruct (IHl (l1 ++ [b])) as (G1 & G2 & G3); [rewrite <- app_assoc; exact Hbs|].
    cbn [flat_map]. rewrite foldr_app.
    set (s2 := foldr F s (flat_map vb l2)) in *.
    assert (Hbin : b ∈ bs) by (rewrite Hbs; set_solver).
    assert (Hd : done (fst s2) p b) by (apply G3; set_solver).
    assert (Hndb : NoDup (subs (base_at p b) b)) by exact (NoDup_flat_map_elem _ _ _ Hnd Hbin).
    (* the destruction of [b] itself, if virtual *)
    assert (exists s3, foldr F s2 (vb b) = foldr F s3 (virtual_bases b) /\ Forall good (snd s3) /\
      (forall r, r ∉ roots (base_at p b) b -> fst s3 r = fst s2 r) /\
      (forall x, x ∈ exposed b -> right (fst s3) (fst p, [cname x]) x (cname x)))
      as (s3 & -> & J1 & J2 & J3).
    { unfold vb. rewrite foldr_app. unfold done in Hd. destruct (cvirt b) eqn:Hvb.
      - exists (F b s2). simpl. split; [reflexivity|].
        assert (Hp : base_at p b = (fst p, [cname b])) by (unfold base_at; rewrite Hvb; reflexivity).
        destruct (destroy_base_ok b (base_at p b) s2 Hndb Hd G1) as (I1 & I2 & I3).
        unfold F. rewrite <- Hp. split; [exact I1|]. split; [exact I2|].
        intros x Hxb. rewrite <- (base_at_fst p b). apply I3. exact Hxb.
      - exists s2. simpl. auto. }
    destruct (IH b Hbin (base_at p b) s3 Hndb) as (K1 & K2).
    { intros x Hxb. rewrite base_at_fst. apply J3. exact Hxb. }
    { exact J1. }
    rewrite base_at_fst in K1, K2. fold F in K1, K2.
    split; [exact K1|]. split.
    - intros r Hnr. assert (Hnb : r ∉ roots (base_at p b) b).
      { intros Hin. apply Hnr. apply roots_bases; [exact Hne|]. eauto. }
      rewrite K2, J2, G2 by assumption. reflexivity.
    - intros x Hxl. eapply done_frame; [apply G3; set_solver|]. intros r Hin.
      assert (Hnb : r ∉ roots (base_at p b) b) by (eapply Hdisj; eauto).
      rewrite K2, J2 by assumption. reflexivity.
  Qed.

  Lemma once_id seen l : NoDup (map cname l) -> (forall c, c ∈ l -> cname c ∉ seen) -> once seen l = l.
  Proof.
    revert seen. induction l as [|c l IH]; intros seen Hnd Hs; simpl; [reflexivity|].
    rewrite decide_False by (apply Hs; left). f_equal. simpl in Hnd. apply NoDup_cons in Hnd as [Hc Hnd].
    apply IH; [exact Hnd|]. intros d Hd. rewrite elem_of_cons. intros [He|Hin].
    - apply Hc. rewrite <- He. apply elem_of_list_fmap. eauto.
    - apply (Hs d); [right; exact Hd|exact Hin].
  Qed.

  Lemma virtual_subs c : forall p v, v ∈ virtual_bases c -> (fst p, [cname v]) ∈ subs p c.
  Proof.
    induction c as [n u bs IH] using class_induction. intros p v Hv.
    simpl in Hv. apply elem_of_flat_map in Hv as (b & Hb & Hv). simpl. right. apply elem_of_flat_map.
    exists b. split; [exact Hb|]. apply elem_of_app in Hv as [Hv|Hv].
    - rewrite <- (base_at_fst p b). apply (IH b Hb). exact Hv.
    - destruct (cvirt b) eqn:Hvb; [|inversion Hv]. apply elem_of_list_singleton in Hv as ->.
      unfold base_at. rewrite Hvb. destruct b. left.
  Qed.

  Lemma virtual_nodup c : forall p, NoDup (subs p c) -> NoDup (map cname (virtual_bases c)) /\
    (forall v, v ∈ virtual_bases c -> (fst p, [cname v]) <> p).
  Proof.
    induction c as [n u bs IH] using class_induction. intros p Hnd. simpl in Hnd.
    apply NoDup_cons in Hnd as [Hp Hnd].
    assert (Hsub : forall b v, b ∈ bs -> v ∈ virtual_bases b ++ (if cvirt b then [b] else []) ->
      (fst p, [cname v]) ∈ subs (base_at p b) b).
    { intros b v Hb Hv. apply elem_of_app in Hv as [Hv|Hv].
      - rewrite <- (base_at_fst p b). apply virtual_subs. exact Hv.
      - destruct (cvirt b) eqn:Hvb; [|inversion Hv]. apply elem_of_list_singleton in Hv as ->.
        unfold base_at. rewrite Hvb. destruct b. left. }
    split.
    - simpl. clear Hp. induction bs as [|b bs IHb]; simpl; [constructor|].
      pose proof Hnd as Hnd0. simpl in Hnd. apply NoDup_app in Hnd as (H1 & H2 & H3).
      rewrite map_app. apply NoDup_app. split; [|split].
      + destruct (IH b (elem_of_list_here _ _) _ H1) as [I1 I2]. rewrite map_app. apply NoDup_app.
        split; [exact I1|]. destruct (cvirt b) eqn:Hvb; (split; [|apply NoDup_singleton || constructor]); [|set_solver].
        intros x Hx Hxb. apply elem_of_list_singleton in Hxb as ->.
        apply elem_of_list_fmap in Hx as (v & He & Hv). apply (I2 v Hv).
        rewrite base_at_fst. unfold base_at. rewrite Hvb, He. reflexivity.
      + intros x Hx Hx'. apply elem_of_list_fmap in Hx as (v & -> & Hv).
        apply elem_of_list_fmap in Hx' as (v' & He & Hv').
        apply elem_of_flat_map in Hv' as (b' & Hb' & Hv').
        apply (H2 (fst p, [cname v])); [apply Hsub; [left|exact Hv]|].
        apply elem_of_flat_map. exists b'. split; [exact Hb'|]. rewrite He.
        apply Hsub; [right; exact Hb'|exact Hv'].
      + apply IHb; [|exact H3|].
        * intros b' Hb'. apply IH. right. exact Hb'.
        * intros b' v Hb' Hv. apply Hsub; [right; exact Hb'|exact Hv].
    - intros v Hv He. simpl in Hv. apply elem_of_flat_map in Hv as (b & Hb & Hv).
      apply Hp. apply elem_of_flat_map. exists b. split; [exact Hb|]. rewrite <- He at 1. apply Hsub; assumption.
  Qed.

  Theorem destroy_good o c m :
    unshared o c -> right m (complete_at o c) c (cname c) ->
    Forall good (snd (destroy cf w addr o c (m, []))).
  Proof.
    intros Hu Hr. pose proof (unshared_subs c _ Hu) as Hnd. unfold destroy.
    rewrite once_id; [|apply (virtual_nodup c _ Hnd)|set_solver].
    destruct (destroy_base_ok c (complete_at o c) (m, []) Hnd Hr) as (H1 & _ & H3); [constructor|].
    apply (destroy_virtual_ok c (complete_at o c)); assumption.
  Qed.

  (* ---- which bodies run ---- *)
  Fixpoint bodies (p : loc) (c : class) : list (loc * class) :=
    match c with
    | Class _ _ bs => (p, c) :: flat_map (fun b => if cvirt b then [] else bodies (base_at p b) b) bs
    end.

  Definition runs (ctor : bool) (s : state) (q : loc) (b : class) : Prop :=
    exists e, e ∈ snd s /\ ev_ctor e = ctor /\ ev_at e = q /\ ev_class e = b.

  Lemma within_bodies p c path q b :
    within p c path q b ->
    (q, b) ∈ bodies p c \/ exists x, x ∈ virtual_bases c /\ (q, b) ∈ bodies (fst p, [cname x]) x.
  Proof.
    induction 1 as [p [n v bs]|p [n v bs] i b path q d Hi _ IH]; [left; left|]. simpl in Hi.
    apply elem_of_list_lookup_2 in Hi. rewrite base_at_fst in IH. destruct IH as [IH|(x & Hx & IH)].
    - destruct (cvirt b) eqn:Hvb.
      + right. exists b. split.
        * apply elem_of_flat_map. exists b. rewrite Hvb. split; [exact Hi|]. apply elem_of_app. right. left.
        * unfold base_at in IH. rewrite Hvb in IH. exact IH.
      + left. simpl. right. apply elem_of_flat_map. exists b. rewrite Hvb. auto.
    - right. exists x. split; [|exact IH]. apply elem_of_flat_map. exists b. split; [exact Hi|].
      apply elem_of_app. left. exact Hx.
  Qed.

  Lemma construct_base_runs c : forall p s q b,
    runs true s q b \/ (q, b) ∈ bodies p c -> runs true (construct_base cf w addr p c s) q b.
  Proof.
    induction c as [n v bs IH] using class_induction. intros p s q b H. simpl.
    set (F := fun (s : state) b => if cvirt b then s else construct_base cf w addr (base_at p b) b s).
    assert (G : forall l s, (forall x, x ∈ l -> x ∈ bs) ->
      runs true s q b \/ (q, b) ∈ flat_map (fun b => if cvirt b then [] else bodies (base_at p b) b) l ->
      runs true (foldl F s l) q b).
    { induction l as [|x l IHl]; intros s0 Hl H0; simpl in *.
      - destruct H0 as [H0|H0]; [exact H0|inversion H0].
      - apply IHl; [intros y Hy; apply Hl; right; exact Hy|]. rewrite elem_of_app in H0. unfold F.
        destruct (cvirt x) eqn:Hvx; [destruct H0 as [?|[H0|?]]; [auto|inversion H0|auto]|].
        destruct H0 as [H0|[H0|H0]]; [|left|auto]; [left|];
          (apply IH; [apply Hl; left|]; auto). }
    simpl in H. rewrite elem_of_cons in H. destruct H as [H|[[= -> ->]|H]].
    - destruct (G bs s (fun x Hx => Hx) (or_introl H)) as (e & He & Hk). exists e.
      split; [apply elem_of_app; left; exact He|exact Hk].
    - exists (Event true p (Class n v bs) (mixin_ctor cf w addr p (Class n v bs) (fst (foldl F s bs)))).
      split; [apply elem_of_app; right; left|auto].
    - destruct (G bs s (fun x Hx => Hx) (or_intror H)) as (e & He & Hk). exists e.
      split; [apply elem_of_app; left; exact He|exact Hk].
  Qed.

  Lemma destroy_base_runs c : forall p s q b,
    runs false s q b \/ (q, b) ∈ bodies p c -> runs false (destroy_base cf w addr p c s) q b.
  Proof.
    induction c as [n v bs IH] using class_induction. intros p s q b H.
    set (c := Class n v bs) in *.
    set (s1 := (mixin_dtor cf w addr p c (fst s), snd s ++ [Event false p c (fst s)]) : state).
    set (F := fun b (s : state) => if cvirt b then s else destroy_base cf w addr (base_at p b) b s).
    change (destroy_base cf w addr p c s) with (foldr F s1 bs).
    assert (G : forall l, (forall x, x ∈ l -> x ∈ bs) ->
      runs false s1 q b \/ (q, b) ∈ flat_map (fun b => if cvirt b then [] else bodies (base_at p b) b) l ->
      runs false (foldr F s1 l) q b).
    { induction l as [|x l IHl]; intros Hl H0; simpl in *.
      - destruct H0 as [H0|H0]; [exact H0|inversion H0].
      - specialize (IHl (fun y Hy => Hl y (elem_of_list_further _ _ _ Hy))).
        rewrite elem_of_app in H0. unfold F at 1. destruct (cvirt x) eqn:Hvx.
        + apply IHl. destruct H0 as [?|[H0|?]]; [auto|inversion H0|auto].
        + apply IH; [apply Hl; left|]. tauto. }
    apply (G bs (fun x Hx => Hx)). unfold c in H. simpl in H. rewrite elem_of_cons in H.
    destruct H as [(e & He & Hk)|[[= -> ->]|H]]; [left|left|right; exact H].
    - exists e. split; [apply elem_of_app; left; exact He|exact Hk].
    - exists (Event false p c (fst s)). split; [apply elem_of_app; right; left|auto].
  Qed.

  Theorem every_body o c m path q b :
    unshared o c -> within (complete_at o c) c path q b ->
    runs true (construct cf w addr o c (m, [])) q b /\ runs false (destroy cf w addr o c (m, [])) q b.
  Proof.
    intros Hu Hw. pose proof (unshared_subs c _ Hu) as Hnd. apply within_bodies in Hw. simpl in Hw.
    unfold construct, destroy. rewrite once_id; [|apply (virtual_nodup c _ Hnd)|set_solver].
    split.
    - apply construct_base_runs. destruct Hw as [Hw|(x & Hx & Hw)]; [right; exact Hw|left].
      generalize ((m, []) : state). induction (virtual_bases c) as [|y l IH]; [inversion Hx|].
      intros s. simpl. apply elem_of_cons in Hx as [->|Hx]; [|apply IH; exact Hx].
      clear IH. assert (Hr : runs true (construct_base cf w addr (o, [cname y]) y s) q b)
        by (apply construct_base_runs; right; exact Hw).
      revert Hr. generalize (construct_base cf w addr (o, [cname y]) y s).
      induction l as [|z l IH]; intros s' Hr; [exact Hr|]. simpl. apply IH.
      apply construct_base_runs. left. exact Hr.
    - destruct Hw as [Hw|(x & Hx & Hw)].
      + assert (Hr : runs false (destroy_base cf w addr (complete_at o c) c (m, [])) q b)
          by (apply destroy_base_runs; right; exact Hw).
        induction (virtual_bases c) as [|y l IH]; [exact Hr|]. simpl. apply destroy_base_runs. left. exact IH.
      + induction (virtual_bases c) as [|y l IH]; [inversion Hx|]. simpl. apply destroy_base_runs.
        apply elem_of_cons in Hx as [->|Hx]; [right; exact Hw|left; apply IH; exact Hx].
  Qed.

  Theorem constructors_dispatch o c m e :
    e ∈ snd (construct cf w addr o c (m, [])) ->
    dispatches_as cf w addr (ev_memory e) (ev_at e) (ev_class e) (cname (ev_class e)).
  Proof.
    intros He. apply right_dispatches. pose proof (construct_good o c m) as H.
    rewrite Forall_forall in H. apply H. exact He.
  Qed.

  Theorem destructors_dispatch o c m e :
    unshared o c -> dispatches_as cf w addr m (complete_at o c) c (cname c) ->
    e ∈ snd (destroy cf w addr o c (m, [])) ->
    dispatches_as cf w addr (ev_memory e) (ev_at e) (ev_class e) (cname (ev_class e)).
  Proof.
    intros Hu Hm He. apply right_dispatches.
    pose proof (destroy_good o c m Hu (dispatches_right _ _ _ _ Hm)) as H.
    rewrite Forall_forall in H. apply H. exact He.
  Qed.

  Theorem every_body_runs o c m path q b :
    unshared o c -> within (complete_at o c) c path q b ->
    (exists e, e ∈ snd (construct cf w addr o c (m, [])) /\ ev_at e = q /\ ev_class e = b) /\
    (exists e, e ∈ snd (destroy cf w addr o c (m, [])) /\ ev_at e = q /\ ev_class e = b).
  Proof.
    intros Hu Hw. destruct (every_body o c m path q b Hu Hw) as [(e & He & _ & H) (e' & He' & _ & H')].
    eauto 10.
  Qed.

  (* ---- other objects ---- *)
  Lemma construct_boxed o c s : boxed (fst (construct cf w addr o c s)) (complete_at o c) c (cname c).
  Proof. apply construct_base_boxed. Qed.

  Lemma construct_frame o c s r : fst r <> o -> fst (construct cf w addr o c s) r = fst s r.
  Proof.
    intros Hr. unfold construct. rewrite construct_base_frame; [|intros Hin; apply Hr; apply roots_fst in Hin; exact Hin].
    generalize (once [] (virtual_bases c)). intros l. revert s. induction l as [|b l IH]; intros s; [reflexivity|].
    simpl. rewrite IH. apply construct_base_frame. intros Hin. apply Hr. apply roots_fst in Hin. exact Hin.
  Qed.

  Lemma mixin_dtor_frame p c m r : fst r <> fst p -> mixin_dtor cf w addr p c m r = m r.
  Proof.
    intros Hr. unfold mixin_dtor. destruct (cbases c) as [|b0 bs'] eqn:Hbs.
    - apply set_mem_ne. congruence.
    - generalize (b0 :: bs'). intros bs. revert m. induction bs as [|b bs IH]; intros m; [reflexivity|].
      simpl. rewrite IH. apply update_spec. intros Hin. apply roots_fst in Hin.
      rewrite base_at_fst in Hin. contradiction.
  Qed.

  Lemma destroy_base_frame c : forall p s r,
    fst r <> fst p -> fst (destroy_base cf w addr p c s) r = fst s r.
  Proof.
    induction c as [n v bs IH] using class_induction. intros p s r Hr.
    set (c := Class n v bs) in *.
    set (s1 := (mixin_dtor cf w addr p c (fst s), snd s ++ [Event false p c (fst s)]) : state).
    set (F := fun b (s : state) => if cvirt b then s else destroy_base cf w addr (base_at p b) b s).
    change (destroy_base cf w addr p c s) with (foldr F s1 bs).
    transitivity (fst s1 r); [|apply mixin_dtor_frame; exact Hr].
    clearbody s1. clear c. induction bs as [|b bs IHb]; [reflexivity|]. simpl.
    specialize (IHb (fun x Hx => IH x (elem_of_list_further _ _ _ Hx))). unfold F at 1.
    destruct (cvirt b); [exact IHb|]. rewrite IH; [exact IHb|left|]. rewrite base_at_fst. exact Hr.
  Qed.

  Lemma destroy_frame o c s r : fst r <> o -> fst (destroy cf w addr o c s) r = fst s r.
  Proof.
    intros Hr. unfold destroy. rewrite <- (destroy_base_frame c (complete_at o c) s r Hr).
    generalize (once [] (virtual_bases c)), (destroy_base cf w addr (complete_at o c) c s).
    intros l s'. induction l as [|b l IH]; [reflexivity|]. simpl. rewrite destroy_base_frame; [exact IH|exact Hr].
  Qed.
End Pointers.

Lemma copy_spec (P : option box -> Prop) c : forall p q m,
  (forall r, r ∈ roots q c -> P (m r)) ->
  (forall r, r ∈ roots p c -> P (copy p q c m r)) /\
  (forall r, r ∉ roots p c -> copy p q c m r = m r).
Proof.
  induction c as [n v bs IH] using class_induction. intros p q m Hq. destruct bs as [|b0 bs'].
  - simpl. split; intros r Hr.
    + apply elem_of_list_singleton in Hr as ->. rewrite set_mem_eq. apply Hq. left.
    + apply set_mem_ne. set_solver.
  - set (bs := b0 :: bs') in *.
    change (copy p q (Class n v bs) m) with (foldl (fun m b => copy (base_at p b) (base_at q b) b m) m bs).
    change (roots p (Class n v bs)) with (flat_map (fun b => roots (base_at p b) b) bs).
    change (roots q (Class n v bs)) with (flat_map (fun b => roots (base_at q b) b) bs) in Hq.
    clearbody bs. clear b0 bs'. revert m Hq. induction bs as [|b bs IHb]; intros m Hq; simpl.
    + split; [set_solver|reflexivity].
    + destruct (IH b (elem_of_list_here _ _) (base_at p b) (base_at q b) m) as [H3 H4].
      { intros r Hr. apply Hq. simpl. apply elem_of_app. left. exact Hr. }
      destruct (IHb (fun x Hx => IH x (elem_of_list_further _ _ _ Hx)) (copy (base_at p b) (base_at q b) b m))
        as [H1 H2].
      { intros r Hr. destruct (decide (r ∈ roots (base_at p b) b)) as [Hin|Hout]; [auto|].
        rewrite (H4 r Hout). apply Hq. simpl. apply elem_of_app. right. exact Hr. }
      split; intros r Hr.
      * destruct (decide (r ∈ flat_map (fun b => roots (base_at p b) b) bs)) as [Hin|Hout]; [auto|].
        rewrite (H2 r Hout). apply H3. apply elem_of_app in Hr as [Hr|Hr]; [exact Hr|contradiction].
      * rewrite elem_of_app in Hr. rewrite H2, H4 by tauto. reflexivity.
Qed.

(* A copy designates what the original designates. *)
Lemma copy_boxed cf w addr p q c n m :
  boxed cf w addr m q c n -> boxed cf w addr (copy p q c m) p c n.
Proof. intros H r Hr. apply (copy_spec (fun x => x = Some (static_box cf w addr n)) c p q m H). exact Hr. Qed.

Theorem copy_designates cf w addr p q c n m :
  dispatches_as cf w addr m q c n -> dispatches_as cf w addr (copy p q c m) p c n.
Proof.
  intros H. apply right_dispatches. intros r Hr.
  apply (copy_spec (fun x => read cf w x = Ok (w_static w (addr n))) c p q m); [|exact Hr].
  apply dispatches_right. exact H.
Qed.

(* ---- programs with objects ---- *)
Record objects_ok (cf : config) (addr : N -> nat) (s : objects) : Prop := {
  ob_nodup : NoDup (map fst (os_live s));
  ob_boxed : forall o c, (o, c) ∈ os_live s ->
    boxed cf (os_world s) addr (os_memory s) (complete_at o c) c (cname c)
}.

Lemma live_unique (l : list (nat * class)) o c c' :
  NoDup (map fst l) -> (o, c) ∈ l -> (o, c') ∈ l -> c = c'.
Proof.
  induction l as [|[o0 c0] l IH]; intros Hnd H1 H2; [inversion H1|]. simpl in Hnd.
  apply NoDup_cons in Hnd as [Hn Hnd].
  apply elem_of_cons in H1. apply elem_of_cons in H2.
  destruct H1 as [H1|H1], H2 as [H2|H2]; [congruence| | |auto]; exfalso; apply Hn;
    apply elem_of_list_fmap; [exists (o, c')|exists (o, c)]; (split; [simpl; congruence|assumption]).
Qed.

Lemma boxed_frame cf w addr m m' o c n :
  boxed cf w addr m (complete_at o c) c n ->
  (forall r, fst r = o -> m' r = m r) -> boxed cf w addr m' (complete_at o c) c n.
Proof. intros H He r Hr. rewrite He; [apply H; exact Hr|]. apply roots_fst in Hr. exact Hr. Qed.

Lemma object_step_ok cf addr s s' : object_step cf addr s s' -> objects_ok cf addr s -> objects_ok cf addr s'.
Proof.
  intros Hstep [Hnd Hb]. destruct Hstep as [w m l o c Ho|w m l o c Ho|w m l o o' c Ho Ho'|w m l o o' c Ho Ho'|w w' m l Hw];
    simpl in *.
  - split; simpl; [constructor; assumption|]. intros o1 c1 [[= -> ->]|H1]%elem_of_cons.
    + apply construct_boxed.
    + eapply boxed_frame; [apply Hb; exact H1|]. intros r Hr. apply construct_frame.
      rewrite Hr. intros ->. apply Ho. apply elem_of_list_fmap. exists (o, c1). auto.
  - split; simpl.
    + clear -Hnd. induction l as [|[o1 c1] l IH]; [constructor|].
      apply NoDup_cons in Hnd as [Hn Hnd]. rewrite filter_cons. destruct (decide _) as [Hd|Hd]; [|exact (IH Hnd)].
      constructor; [|exact (IH Hnd)]. intros Hin. apply Hn. apply elem_of_list_fmap in Hin as (y & -> & Hy).
      apply elem_of_list_filter in Hy as [_ Hy]. apply elem_of_list_fmap. eauto.
    + intros o1 c1 H1. apply elem_of_list_filter in H1 as [Hne H1]. simpl in Hne.
      eapply boxed_frame; [apply Hb; exact H1|]. intros r Hr. apply destroy_frame. congruence.
  - assert (Hne : o <> o').
    { intros ->. apply Ho. apply elem_of_list_fmap. exists (o', c). auto. }
    split; simpl; [constructor; assumption|]. intros o1 c1 [[= -> ->]|H1]%elem_of_cons.
    + apply copy_boxed. apply (Hb o' c Ho').
    + eapply boxed_frame; [apply Hb; exact H1|]. intros r Hr.
      apply (copy_spec (fun x => x = Some (static_box cf w addr (cname c))) c _ _ m (Hb o' c Ho')).
      intros Hin. apply roots_fst in Hin. simpl in Hin.
      apply Ho. apply elem_of_list_fmap. exists (o1, c1). split; [simpl; congruence|exact H1].
  - split; simpl; [exact Hnd|]. intros o1 c1 H1. destruct (decide (o1 = o)) as [->|Hne].
    + assert (c1 = c) as -> by (eapply live_unique; eauto). apply copy_boxed. apply (Hb o' c Ho').
    + eapply boxed_frame; [apply Hb; exact H1|]. intros r Hr.
      apply (copy_spec (fun x => x = Some (static_box cf w addr (cname c))) c _ _ m (Hb o' c Ho')).
      intros Hin. apply roots_fst in Hin. simpl in Hin. congruence.
  - split; simpl; [exact Hnd|]. intros o1 c1 H1. destruct Hw as [Hw| ->]; [|inversion H1].
    intros r Hr. rewrite (Hb o1 c1 H1 r Hr). unfold static_box. rewrite Hw. reflexivity.
Qed.

Theorem live_dispatch cf addr w m s :
  rtc (object_step cf addr) (Objects w m []) s ->
  forall o c, (o, c) ∈ os_live s ->
  dispatches_as cf (os_world s) addr (os_memory s) (complete_at o c) c (cname c).
Proof.
  intros H o c Hin. apply right_dispatches, boxed_right.
  assert (H0 : objects_ok cf addr (Objects w m [])) by (split; simpl; [constructor|intros ? ? Hx; inversion Hx]).
  assert (Hs : objects_ok cf addr s).
  { clear -H H0. induction H as [|x y z Hxy _ IH]; [exact H0|]. apply IH. eapply object_step_ok; eauto. }
  apply Hs. exact Hin.
Qed.

(* ---- calls from constructors and destructors ---- *)
Lemma call_designated cf X R w addr m p c n path q b mid mr cr :
  program_ok cf (r_env X) R -> bases_first (e_ti (r_env X)) R -> initialized_by cf X false R w ->
  first_record (e_ti (r_env X)) R (e_ti (r_env X) n) = Some cr -> cr_static_vptr cr = addr n ->
  dispatches_as cf w addr m p c n -> within p c path q b ->
  mr ∈ reg_methods R -> length (mr_vp mr) = 1 ->
  valid_args (e_ti (r_env X)) R mr [e_ti (r_env X) n] -> functions_ok mr ->
  exists v sel, vptr_fn cf w m q b = Ok v /\
    selects (e_ti (r_env X)) R (mr_overriders mr) [e_ti (r_env X) n] sel /\
    behaves mr sel (call cf w mid mr [APtr v n]).
Proof.
  intros HP HB Hi Hcr Haddr Hd Hw Hm Hlen Hva Hf. exists (w_static w (addr n)).
  destruct (call_selects_uni cf X R w HP HB mid mr [APtr (w_static w (addr n)) n] [e_ti (r_env X) n])
    as (sel & Hsel & _ & Hb); auto.
  - split; [exact Hm| |exact Hva]. constructor; [|constructor]. econstructor; [exact Hcr|]. congruence.
  - exists sel. split; [exact (Hd _ _ _ Hw)|]. auto.
Qed.

Theorem body_calls cf X R w addr o c m e path q b mid mr cr :
  program_ok cf (r_env X) R -> bases_first (e_ti (r_env X)) R -> initialized_by cf X false R w ->
  e ∈ snd (construct cf w addr o c (m, [])) \/
  (unshared o c /\ dispatches_as cf w addr m (complete_at o c) c (cname c) /\
   e ∈ snd (destroy cf w addr o c (m, []))) ->
  let n := cname (ev_class e) in
  first_record (e_ti (r_env X)) R (e_ti (r_env X) n) = Some cr -> cr_static_vptr cr = addr n ->
  within (ev_at e) (ev_class e) path q b ->
  mr ∈ reg_methods R -> length (mr_vp mr) = 1 ->
  valid_args (e_ti (r_env X)) R mr [e_ti (r_env X) n] -> functions_ok mr ->
  exists v sel, vptr_fn cf w (ev_memory e) q b = Ok v /\
    selects (e_ti (r_env X)) R (mr_overriders mr) [e_ti (r_env X) n] sel /\
    behaves mr sel (call cf w mid mr [APtr v n]).
Proof.
  intros HP HB Hi He n Hcr Haddr Hw Hm Hlen Hva Hf.
  eapply call_designated; eauto. destruct He as [He|(Hu & Hd & He)].
  - eapply constructors_dispatch; eauto.
  - eapply destructors_dispatch; eauto.
Qed.
