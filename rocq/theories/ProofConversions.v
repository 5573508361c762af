(* Overload resolution for virtual_ptr, case by case. *)
From stdpp Require Import base list numbers.
From Verif Require Import Base Registry ModelArguments ModelConversions SpecConversions.

Section Proofs.
  Context (derives : N -> N -> bool) (polymorphic : N -> vtype -> bool).
  Notation init := (initialize_from derives polymorphic).
  Notation assign := (assign_from derives polymorphic).
  Notation conv := (converts derives).

  Lemma converts_spec from to : conv from to = true <-> fits derives from to.
  Proof.
    unfold converts, fits. destruct (derives _ _), (pt_const from), (pt_const to); simpl; naive_solver.
  Qed.

  Lemma converts_refl p : (forall c, derives c c = true) -> conv p p = true.
  Proof. intros Hr. unfold converts. rewrite Hr. by destruct (pt_const p). Qed.

  (* What initialization selects. *)
  Definition init_table (implicit : bool) (self : vtype) (x : expression) : resolution :=
    let lc := x_lvalue x || x_const x in
    match self, x_type x with
    | VPlain to r, VObject c =>
        if lc && polymorphic r (VObject c) && conv (Pointee c (x_const x)) to
        then Selected Address Acquire else NotViable
    | VPlain to r, VPointer p =>
        if polymorphic r (VObject (pt_class to)) && conv p to
        then Selected Value Acquire else NotViable
    | VPlain to r, VPlain p r' | VPlain to r, VWide _ p r' =>
        if bool_decide (r' = r) && conv p to then Selected Value CopyVptr else NotViable
    | VWide k to r, VSmart k' p =>
        if bool_decide (k' = k) && polymorphic r (VObject (pt_class p)) && conv p to then
          if lc then if bool_decide (k = Unique) then NotViable else Selected CopyObject AcquireOrNull
          else Selected MoveObject AcquireOrNull
        else NotViable
    | VWide k to r, VWide k' p r' =>
        if bool_decide (r' = r) && bool_decide (k' = k) && conv p to then
          if lc then
            if bool_decide (k = Unique) then
              if bool_decide (p = to) then DeletedFunction else NotViable
            else Selected CopyObject CopyVptr
          else Selected MoveObject ExchangeVptr
        else NotViable
    | VPlain _ _, VNull | VWide _ _ _, VNull =>
        if implicit then NotViable else Selected ToNull NullVptr
    | _, _ => NotViable
    end.

  Ltac calc :=
    cbv [initialize_from assign_from converted viable deduce virtual_argument virtual_const
      plain_constructors smart_constructors plain_assignments smart_assignments not_copyable
      plain_function element_type same_smart_ptr polymorphic_element pointer_from element_from smart_from
      init_table
      ca_parameter ca_explicit ca_deleted ca_condition ca_object ca_vptr
      x_type x_const x_lvalue d_type d_const d_ref pt_class pt_const
      List.filter mbind option_bind negb andb orb Nat.add Nat.mul].

  Lemma omap_app_cons (f : candidate -> option (nat * candidate)) c l :
    omap f (c :: l) = option_list (f c) ++ omap f l.
  Proof. cbn. by destruct (f c). Qed.

  Lemma decide_true (P : Prop) (d : Decision P) : P -> bool_decide P = true.
  Proof. apply bool_decide_eq_true_2. Qed.
  Lemma decide_false (P : Prop) (d : Decision P) : ~ P -> bool_decide P = false.
  Proof. apply bool_decide_eq_false_2. Qed.

  (* The equalities are decided by the hypotheses or by the constructors. *)
  Ltac decides :=
    repeat match goal with
      | |- context [@bool_decide ?P ?d] =>
          first [ rewrite (decide_true P d) by reflexivity
                | rewrite (decide_false P d) by first [discriminate | congruence] ]
      end.

  Ltac cases :=
    cbv [initialize_from assign_from plain_constructors smart_constructors plain_assignments
      smart_assignments List.filter ca_explicit negb andb]; rewrite !omap_app_cons;
    calc; decides; calc;
    repeat match goal with
      | |- context [polymorphic ?r ?t] => destruct (polymorphic r t) eqn:?
      | |- context [conv ?p ?q] => destruct (conv p q) eqn:?
      end; try reflexivity;
    try match goal with H : conv ?p ?p = false |- _ => by rewrite converts_refl in H end.

  (* Only the construction from nullptr is explicit. *)
  Lemma init_implicit self x : x_type x <> VNull -> init true self x = init false self x.
  Proof.
    intros Hx. unfold initialize_from.
    destruct self as [| | |to r|k to r|]; [done..| | |done]; f_equal; destruct x as [[] q l];
      try reflexivity; by destruct Hx.
  Qed.

  Lemma init_spec (Hrefl : forall c, derives c c = true) implicit self x :
    init implicit self x = init_table implicit self x.
  Proof.
    pose proof (fun p => converts_refl p Hrefl) as Hc.
    destruct (decide (x_type x = VNull)) as [Hx|Hx].
    { destruct x as [t q l]. simpl in Hx. subst t.
      destruct self, implicit, q, l; try reflexivity; cases. }
    replace (init implicit self x) with (init false self x)
      by (destruct implicit; [by rewrite init_implicit|done]).
    replace (init_table implicit self x) with (init_table false self x)
      by (by destruct self, x as [[] ? ?]).
    destruct self as [| | |to r|k to r|]; try done;
      destruct x as [[c|p|k' p|p r'|k' p r'|] q l]; try done; clear Hx.
    - destruct to, q, l; cases.
    - destruct to, p, q, l; cases.
    - destruct q, l; cases.
    - destruct (decide (r' = r)) as [->|], (decide (p = to)) as [->|]; destruct to; try destruct p; destruct q, l; cases.
    - destruct (decide (r' = r)) as [->|]; destruct to, p, q, l; cases.
    - destruct q, l; cases.
    - destruct q, l; cases.
    - destruct (decide (k' = k)) as [->|]; [destruct k|]; destruct q, l; cases.
    - destruct (decide (r' = r)) as [->|]; destruct q, l; cases.
    - destruct (decide (r' = r)) as [->|]; [|by destruct q, l; cases].
      destruct (decide (k' = k)) as [->|]; [|by destruct q, l; cases].
      destruct (decide (p = to)) as [->|]; destruct k, q, l; cases.
  Qed.

  (* What assignment selects. *)
  Definition assign_table (self : vtype) (x : expression) : resolution :=
    match self, x_type x with
    | VWide k to r, VSmart k' p =>
        if bool_decide (k' = k) && polymorphic r (VObject (pt_class p)) && conv p to then
          if x_lvalue x || x_const x then
            if bool_decide (k = Unique) then NotViable else Selected CopyObject Acquire
          else Selected MoveObject AcquireOrNull
        else NotViable
    | VPlain _ _, VNull | VWide _ _ _, VNull => Selected ToNull NullVptr
    | _, _ => init_table true self x
    end.

  Lemma converted_spec (Hrefl : forall c, derives c c = true) self r x cs :
    omap (converted derives polymorphic self r x) cs =
    match init_table true self x with
    | Selected o v =>
        if bool_decide (x_type x = self) then []
        else omap (fun c =>
          '(_, n) ← deduce self r (ca_parameter c) (Expression self false false);
          match ca_parameter c with
          | PSelfConstRef | PSelfMove =>
              Some (16 + n, Candidate (ca_parameter c) false (ca_deleted c) (ca_condition c) o v)
          | _ => None
          end) cs
    | _ => []
    end.
  Proof.
    unfold converted. rewrite init_spec by done.
    destruct (init_table true self x); try destruct (bool_decide _); try done; by induction cs.
  Qed.

  Ltac assigns :=
    cbv [assign_from]; rewrite converted_spec by done;
    cbv [plain_assignments smart_assignments]; rewrite !omap_app_cons; calc; decides; calc;
    repeat match goal with
      | |- context [polymorphic ?r ?t] => destruct (polymorphic r t) eqn:?
      | |- context [conv ?p ?q] => destruct (conv p q) eqn:?
      end; try reflexivity;
    try match goal with H : conv ?p ?p = false |- _ => by rewrite converts_refl in H end.

  Lemma assign_spec self x : classes_ok derives polymorphic -> assign self x = assign_table self x.
  Proof.
    intros [Hrefl Hp].
    assert (Hp' : forall r d q to, conv (Pointee d q) to = true -> polymorphic r (VObject (pt_class to)) = true ->
      polymorphic r (VObject d) = true).
    { intros r d q to Hc Ht. apply converts_spec in Hc as [Hc _]. exact (Hp _ _ _ Hc Ht). }
    destruct self as [| | |to r|k to r|]; try done;
      destruct x as [[c|p|k' p|p r'|k' p r'|] q l]; try done; unfold assign_table.
    - destruct to, q, l; assigns;
        match goal with Hd : conv _ _ = true, Ht : polymorphic _ _ = true |- _ =>
          by pose proof (Hp' _ _ _ _ Hd Ht); congruence end.
    - destruct to, p, q, l; assigns.
    - destruct q, l; assigns.
    - destruct (decide (r' = r)) as [->|], (decide (p = to)) as [->|]; destruct to; try destruct p; destruct q, l; assigns.
    - destruct (decide (r' = r)) as [->|]; destruct to, p, q, l; assigns.
    - destruct q, l; assigns.
    - destruct q, l; assigns.
    - destruct q, l; assigns.
    - destruct (decide (k' = k)) as [->|]; [destruct k|]; destruct q, l; assigns.
    - destruct (decide (r' = r)) as [->|]; destruct q, l; assigns.
    - destruct (decide (r' = r)) as [->|]; [|by destruct q, l; assigns].
      destruct (decide (k' = k)) as [->|]; [|by destruct q, l; assigns].
      destruct (decide (p = to)) as [->|]; destruct k, q, l; assigns.
    - destruct k, q, l; assigns.
  Qed.

  Ltac table_cases :=
    repeat match goal with
      | H : context [if ?b then _ else _] |- _ => destruct b eqn:?
      end; simplify_eq; rewrite ?andb_true_iff, ?bool_decide_eq_true, ?bool_decide_eq_false in *;
    destruct_and?; subst.

  Lemma init_table_meant implicit self x o v : classes_ok derives polymorphic ->
    init_table implicit self x = Selected o v ->
    exists m, carries_out o v m /\ meant derives polymorphic self x m.
  Proof.
    intros [Hrefl Hp] H. destruct self as [| | |to r|k to r|]; try discriminate H;
      destruct x as [[c|p|k' p|p r'|k' p r'|] q l]; try discriminate H; cbn in H; table_cases;
      repeat match goal with Hc : conv _ _ = true |- _ => apply converts_spec in Hc end.
    all: try (eexists; split; [by constructor|by constructor]).
    - eexists; split; [by constructor|]. constructor; [done|].
      match goal with Hf : fits _ _ _ |- _ => destruct Hf as [Hf _] end. by eapply Hp.
    - eexists; split; [by constructor; right|]. constructor; [done..|]. destruct l, q; naive_solver.
    - destruct l, q; try done. eexists; split; by constructor.
    - eexists; split; [by constructor|]. constructor; [done..|]. destruct l, q; naive_solver.
    - destruct l, q; try done. eexists; split; by constructor.
  Qed.

  Lemma meant_unique self x m m' :
    meant derives polymorphic self x m -> meant derives polymorphic self x m' -> m' = m.
  Proof. intros H H'. destruct H; inversion H'; naive_solver. Qed.

  Lemma init_meant implicit self x o v : classes_ok derives polymorphic ->
    init implicit self x = Selected o v ->
    exists m, carries_out o v m /\ meant derives polymorphic self x m /\
      forall m', meant derives polymorphic self x m' -> m' = m.
  Proof.
    intros Hok. rewrite init_spec by apply Hok. intros H.
    apply init_table_meant in H as (m & Hc & Hm); [|done]. exists m.
    split; [done|]. split; [done|]. intros m'. by apply meant_unique.
  Qed.

  Lemma assign_table_meant self x o v : classes_ok derives polymorphic ->
    assign_table self x = Selected o v ->
    exists m, carries_out o v m /\ meant derives polymorphic self x m.
  Proof.
    intros Hok H.
    destruct self as [| | |to r|k to r|]; try discriminate H;
      destruct x as [[c|p|k' p|p r'|k' p r'|] q l];
      try exact (init_table_meant true _ _ _ _ Hok H); cbn in H; table_cases.
    - eexists; split; constructor.
    - eexists; split; [by constructor; left|]. constructor; [by apply converts_spec|done|done|].
      destruct l, q; naive_solver.
    - destruct l, q; try done. eexists; split; constructor; [by apply converts_spec|done].
    - eexists; split; constructor.
  Qed.

  Lemma assign_meant self x o v : classes_ok derives polymorphic ->
    assign self x = Selected o v ->
    exists m, carries_out o v m /\ meant derives polymorphic self x m /\
      forall m', meant derives polymorphic self x m' -> m' = m.
  Proof.
    intros Hok. rewrite assign_spec by done. intros H.
    apply assign_table_meant in H as (m & Hc & Hm); [|done]. exists m.
    split; [done|]. split; [done|]. intros m'. by apply meant_unique.
  Qed.

  Lemma init_table_unambiguous implicit self x : init_table implicit self x <> Ambiguous.
  Proof.
    intros H. destruct self as [| | |to r|k to r|]; try discriminate H;
      destruct x as [[c|p|k' p|p r'|k' p r'|] q l]; try discriminate H; cbn in H; by table_cases.
  Qed.

  Lemma never_ambiguous implicit self x : classes_ok derives polymorphic ->
    init implicit self x <> Ambiguous /\ assign self x <> Ambiguous.
  Proof.
    intros Hok. rewrite init_spec by apply Hok. rewrite assign_spec by done.
    split; [apply init_table_unambiguous|]. intros H.
    destruct self as [| | |to r|k to r|]; try discriminate H;
      destruct x as [[c|p|k' p|p r'|k' p r'|] q l]; try discriminate H;
      try exact (init_table_unambiguous true _ _ H); cbn in H; by table_cases.
  Qed.

  (* What is documented is accepted. *)
  Lemma meant_init_table implicit self x m : meant derives polymorphic self x m ->
    (temporary x -> x_const x = true) -> (x_type x = VNull -> implicit = false) ->
    pointer_ok polymorphic self x ->
    exists o v, init_table implicit self x = Selected o v /\ carries_out o v m.
  Proof.
    intros Hm Ht Hn Hp. destruct Hm as [to r c q l Hf Hc|to r p q l Hf Hc|to r p q l Hf|to r k p q l Hf
      |k to r p q l Hf Hc Hk Hq|k to r p Hf Hc|k to r p q l Hf Hk Hq|k to r p Hf| |]; cbn;
      try apply converts_spec in Hf; unfold is_polymorphic in *.
    - rewrite Hf, Hc. assert (l || q = true) as ->.
      { destruct l, q; try done. apply Ht. split; [done|]. by exists c. }
      do 2 eexists. split; [done|]. constructor.
    - rewrite Hf, (Hp to r p eq_refl eq_refl). do 2 eexists. split; [done|]. constructor.
    - rewrite Hf, bool_decide_eq_true_2 by done. do 2 eexists. split; [done|]. constructor.
    - rewrite Hf, bool_decide_eq_true_2 by done. do 2 eexists. split; [done|]. constructor.
    - rewrite Hf, Hc, bool_decide_eq_true_2, bool_decide_eq_false_2 by done.
      assert (l || q = true) as -> by (destruct l, q; naive_solver).
      do 2 eexists. split; [done|]. constructor. by right.
    - rewrite Hf, Hc, bool_decide_eq_true_2 by done. do 2 eexists. split; [done|]. constructor.
    - rewrite Hf, !bool_decide_eq_true_2, bool_decide_eq_false_2 by done.
      assert (l || q = true) as -> by (destruct l, q; naive_solver).
      do 2 eexists. split; [done|]. constructor.
    - rewrite Hf, !bool_decide_eq_true_2 by done. do 2 eexists. split; [done|]. constructor.
    - rewrite Hn by done. do 2 eexists. split; [done|]. constructor.
    - rewrite Hn by done. do 2 eexists. split; [done|]. constructor.
  Qed.

  Lemma meant_init implicit self x m : classes_ok derives polymorphic ->
    meant derives polymorphic self x m ->
    (temporary x -> x_const x = true) -> (x_type x = VNull -> implicit = false) ->
    pointer_ok polymorphic self x ->
    exists o v, init implicit self x = Selected o v /\ carries_out o v m.
  Proof. intros Hok. rewrite init_spec by apply Hok. apply meant_init_table. Qed.

  Lemma meant_assign self x m : classes_ok derives polymorphic ->
    meant derives polymorphic self x m -> (temporary x -> x_const x = true) ->
    pointer_ok polymorphic self x ->
    exists o v, assign self x = Selected o v /\ carries_out o v m.
  Proof.
    intros Hok Hm Ht Hp. rewrite assign_spec by done.
    destruct (decide (x_type x = VNull)) as [Hx|Hx].
    { destruct Hm; try discriminate Hx; cbn; do 2 eexists; (split; [done|constructor]). }
    pose proof Hm as Hm'. apply (meant_init_table true) in Hm as (o & v & Hi & Hc); [|done..].
    destruct Hm'; try (exists o, v; by split); clear o v Hi Hc; cbn.
    - match goal with Hf : fits _ _ _ |- _ => apply converts_spec in Hf; rewrite Hf end.
      unfold is_polymorphic in *. match goal with Hc : polymorphic _ _ = true |- _ => rewrite Hc end.
      rewrite bool_decide_eq_true_2, bool_decide_eq_false_2 by done.
      assert (l || q = true) as -> by (destruct l, q; naive_solver).
      do 2 eexists. split; [done|]. constructor. by left.
  Qed.

  (* A temporary object that is not const is rejected. *)
  Lemma temporary_rejected implicit self x : classes_ok derives polymorphic ->
    temporary x -> x_const x = false ->
    init implicit self x = NotViable /\ assign self x = NotViable.
  Proof.
    intros Hok [Hl [c Hc]] Hq. rewrite init_spec by apply Hok. rewrite assign_spec by done.
    destruct x as [t q l]; simpl in *; subst. by destruct self.
  Qed.
End Proofs.
