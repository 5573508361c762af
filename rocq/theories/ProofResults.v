(* The results of calls. *)
From stdpp Require Import base list numbers.
From Verif Require Import Base Registry ModelArguments ModelConversions SpecConversions ProofConversions
  ModelResults SpecResults.

Section Proofs.
  Context (derives : N -> N -> bool) (polymorphic : N -> vtype -> bool) (vtable : N -> nat -> nat).
  Hypothesis Hok : classes_ok derives polymorphic.
  Notation cinit := (copy_initialize derives polymorphic vtable).
  Notation rets := (returns derives polymorphic vtable).
  Notation calls := (call_returns derives polymorphic vtable).

  Lemma returns_same r got : rets r r got = Some got.
  Proof. unfold returns. by rewrite bool_decide_eq_true_2. Qed.

  (* operator(), the forwarding function and next change nothing. *)
  Lemma calls_returns r q got : calls r q got = rets r q got.
  Proof.
    unfold call_returns. destruct (rets r q got) as [res|]; [|done]. simpl.
    rewrite returns_same. simpl. by rewrite returns_same.
  Qed.

  Ltac table_cases :=
    repeat match goal with
      | H : context [if ?b then _ else _] |- _ => destruct b eqn:?
      end; simplify_eq; rewrite ?andb_true_iff, ?bool_decide_eq_true, ?bool_decide_eq_false in *;
    destruct_and?; subst.

  Lemma cinit_type t x v o : has_type vtable (x_type x) v -> cinit t x v = Some o ->
    match o with
    | Ok v' => has_type vtable t v' /\
        ((forall c d, t = VObject c -> x_type x = VObject d -> c = d) ->
         same_value v v' \/
         exists o c u, x_lvalue x || x_const x = true /\ v = AnObject o c /\ v' = APointer (Some o) u)
    | _ => exists p r p', t = VPlain p r /\ x_type x = VPointer p' /\ v = APointer None None
    end.
  Proof.
    destruct x as [xt c l]. intros Hv H. simpl in Hv. unfold copy_initialize in H.
    destruct t as [d|p|k p|p r|k p r|]; rewrite ?init_spec in H by apply Hok;
      destruct Hv; cbn in H; try discriminate H;
      table_cases; try discriminate H; simplify_eq; cbn;
      try (match goal with y : option nat |- _ => destruct y end); cbn;
      try (by do 3 eexists).
    all: split; [try constructor|intros Hcd; try (left; by constructor)].
    all: try (by apply (has_plain vtable _ _ (Some _))).
    all: try (by apply (has_plain vtable _ _ None)).
    all: try (by apply (has_wide vtable _ _ _ (Some _))).
    all: try (by apply (has_wide vtable _ _ _ None)).
    all: try (specialize (Hcd _ _ eq_refl eq_refl) as ->; left; constructor).
    all: right; by do 3 eexists.
  Qed.

  (* The classes that a value is of, when it is copied. *)
  Lemma related_spec t x : reference_related derives t x = true <->
    t = x_type x \/ exists c d, t = VObject c /\ x_type x = VObject d /\ derives d c = true.
  Proof.
    unfold reference_related. rewrite orb_true_iff, bool_decide_eq_true.
    split; (intros [H|H]; [by left|right]).
    - destruct t; try discriminate H. destruct (x_type x); try discriminate H. by do 2 eexists.
    - destruct H as (c & d & -> & -> & H). done.
  Qed.

  Lemma seen_type t x v : reference_related derives t x = true -> has_type vtable (x_type x) v ->
    has_type vtable t (seen_as t v) /\ same_referent v (seen_as t v).
  Proof.
    intros Hr Hv. apply related_spec in Hr as [->|(c & d & -> & Hx & _)].
    - destruct Hv; simpl; split; constructor.
    - rewrite Hx in Hv. inversion Hv; subst. simpl. split; constructor.
  Qed.

  (* A reference, bound to the result. *)
  Lemma bind_spec t c b x got v res : has_type vtable (x_type x) v ->
    got = Fresh v \/ (exists y, got = Refers y v) ->
    bind derives polymorphic vtable t c b x got = Some res ->
    (res = Dangling /\ (got = Fresh v \/ reference_related derives t x = false) /\
     ~ (v = APointer None None /\ exists p r p', t = VPlain p r /\ x_type x = VPointer p')) \/
    (res = Undefined /\ v = APointer None None /\ exists p r p', t = VPlain p r /\ x_type x = VPointer p') \/
    (exists y, got = Refers y v /\ res = Refers y (seen_as t v) /\ reference_related derives t x = true).
  Proof.
    intros Hv Hgot H. unfold bind in H.
    destruct (reference_related derives t x) eqn:Hr.
    - assert (Hn : ~ (v = APointer None None /\ exists p r p', t = VPlain p r /\ x_type x = VPointer p')).
      { intros (_ & p & r & p' & -> & Hx). apply related_spec in Hr as [Hr|(? & ? & ? & _)]; [|done].
        by rewrite Hx in Hr. }
      assert (Some res = match got with
                         | Refers y v => Some (Refers y (seen_as t v))
                         | Fresh _ | Dangling => Some Dangling
                         | Nothing | Undefined => None
                         end) as Hd
        by (destruct (x_const x && negb c), b, (x_lvalue x), c; simpl in H; done).
      destruct Hgot as [->|[y ->]]; simplify_eq.
      + left. split; [done|]. split; [by left|done].
      + right; right. by exists y.
    - assert (exists o, cinit t x v = Some o /\
        res = match o with Ok _ => Dangling | _ => Undefined end) as (o & Hc & ->).
      { destruct (b || c); [|discriminate H].
        destruct Hgot as [->|[y ->]]; destruct (cinit t x v) as [o|]; simplify_eq/=; by exists o. }
      pose proof (cinit_type t x v o Hv Hc) as Ho. destruct o as [v'| | |].
      2-4: right; left; split; [done|]; destruct Ho as (p & r & p' & -> & Hp & ->);
        split; [done|]; by do 3 eexists.
      left. split; [done|]. split; [by right|]. intros (-> & p & r & p' & -> & Hp).
      unfold copy_initialize in Hc. rewrite init_spec in Hc by apply Hok.
      destruct x as [xt cc l]. simpl in *. subst xt. cbn in Hc. by table_cases.
  Qed.

  Lemma related_covariant r q t x : type_of r = Some t -> call_expression q = Some x ->
    (same_or_derived derives r q <-> reference_related derives t x = true).
  Proof.
    intros Hr Hx. assert (Hq : type_of q = Some (x_type x)) by (by destruct q; simplify_eq/=).
    rewrite related_spec. unfold same_or_derived. rewrite Hr, Hq.
    split; (intros [H|(c & d & H1 & H2 & H3)]; [left; congruence|right; exists c, d]; split_and!; congruence).
  Qed.

  (* Any call, any result. *)
  Lemma call_spec r q got res : gives vtable q got -> calls r q got = Some res ->
    (res = Dangling /\ reference r /\ ~ covariant derives r q /\ ~ null_pointer r q got) \/
    (res = Undefined /\ null_pointer r q got) \/
    (gives vtable r res /\ ~ null_pointer r q got /\ (reference r -> covariant derives r q) /\
     (~ slices r q -> preserved got res)).
  Proof.
    rewrite calls_returns. intros Hg H. unfold returns in H.
    destruct (bool_decide (r = q)) eqn:E.
    { apply bool_decide_eq_true in E. subst r. simplify_eq. right; right. split; [done|].
      split; [intros (p & r' & u & H1 & (p' & H2) & _); rewrite H1 in H2; discriminate H2|].
      split.
      - intros Hr. split; [done|]. left. done.
      - intros _. destruct Hg as [| |t v Hv|t c x v Hv|t c x v Hv];
          constructor; try constructor; destruct Hv; constructor. }
    apply bool_decide_eq_false in E.
    destruct (call_expression q) as [x|] eqn:Hx; [|discriminate H]. simpl in H.
    assert (Hq : type_of q = Some (x_type x)) by (by destruct q; simplify_eq/=).
    (* From the value. *)
    assert (exists v, has_type vtable (x_type x) v /\
      ((got = Fresh v /\ x_lvalue x || x_const x = false /\ ~ reference q) \/
       exists y, got = Refers y v /\ reference q)) as (v & Hv & Hgot).
    { destruct Hg as [| |t v Hv|t c y v Hv|t c y v Hv]; simplify_eq/=; exists v; (split; [done|]).
      - left. split; [done|]. split; [by rewrite <-Hx|]. by intros (? & ? & [?|?]).
      - right. exists y. split; [done|]. do 2 eexists. by left.
      - right. exists y. split; [done|]. do 2 eexists. by right. }
    assert (Hnull : null_pointer r q got <->
      v = APointer None None /\ exists p r' p', type_of r = Some (VPlain p r') /\ x_type x = VPointer p').
    { split.
      - intros (p & r' & u & H1 & (p' & H2) & H3). rewrite Hq in H2. simplify_eq.
        assert (v = APointer None u) as ->
          by (destruct Hgot as [(-> & _)|(y & -> & _)]; destruct H3 as [H3|[? H3]]; by simplify_eq).
        rewrite H2 in Hv. inversion Hv; subst. split; [done|]. by do 3 eexists.
      - intros (-> & p & r' & p' & H1 & H2). exists p, r', None. split; [done|].
        split; [exists p'; by rewrite Hq, H2|].
        destruct Hgot as [(-> & _)|(y & -> & _)]; [by left|right; by exists y]. }
    destruct r as [| |t|t c|t c]; try discriminate H.
    { (* by value *)
      assert (Hnr : ~ reference (RValue t)) by (by intros (? & ? & [?|?])).
      assert (exists o, cinit t x v = Some o /\
        res = match o with Ok v' => Fresh v' | _ => Undefined end) as (o & Hc & ->).
      { destruct Hgot as [(-> & _ & _)|(y & -> & _)]; destruct (cinit t x v) as [o|];
          simplify_eq/=; by exists o. }
      pose proof (cinit_type t x v o Hv Hc) as Ho.
      destruct o as [v'| | |].
      2-4: right; left; split; [done|]; apply Hnull; destruct Ho as (p & r & p' & -> & Hp & ->);
        split; [done|]; by do 3 eexists.
      right; right. destruct Ho as [Ht Hs]. split; [by constructor|].
      split.
      { intros (-> & p & r' & p' & H1 & H2)%Hnull. simpl in H1. simplify_eq.
        unfold copy_initialize in Hc. rewrite init_spec in Hc by apply Hok.
        destruct x as [xt b l]. simpl in *. subst xt. cbn in Hc. by table_cases. }
      split; [done|]. intros Hsl.
      assert (Hcd : forall c d, t = VObject c -> x_type x = VObject d -> c = d).
      { intros c d -> Hd. destruct (decide (c = d)) as [|n]; [done|]. destruct Hsl.
        exists c, d. by rewrite Hq, Hd. }
      destruct (Hs Hcd) as [Hs'|(o & c & u & Hl & -> & ->)].
      - destruct Hgot as [(-> & _)|(y & -> & _)]; by constructor.
      - destruct Hgot as [(-> & Hl' & _)|(y & -> & _)]; [by rewrite Hl in Hl'|apply preserved_pointer]. }
    all: match goal with H : bind _ _ _ _ _ _ _ _ = _ |- context [reference ?r'] =>
           set (r := r') in *; assert (Hr : reference r) by (exists t, c; auto) end.
    all: assert (Hrel : type_of r = Some t) by done.
    all: pose proof (related_covariant r q t x Hrel Hx) as Hcov.
    all: apply (bind_spec t c _ x got v) in H; [|done|destruct Hgot as [(-> & _)|(y & -> & _)]; eauto].
    all: assert (Hnull' : null_pointer r q got <->
      v = APointer None None /\ exists p r' p', t = VPlain p r' /\ x_type x = VPointer p')
      by (rewrite Hnull, Hrel; naive_solver).
    all: rewrite Hnull'.
    all: destruct H as [(-> & Hd & Hn)|[(-> & Hn)|(y & -> & -> & Hd)]].
    2,5: right; left; done.
    1,3: left; split; [done|]; split; [done|]; split; [|done]; intros [Hrq Hsd]; apply Hcov in Hsd;
      destruct Hd as [->|Hd]; [|by rewrite Hd in Hsd];
      destruct Hgot as [(_ & _ & Hnq)|(y & ? & _)]; done.
    all: right; right; pose proof (seen_type t x v Hd Hv) as [Hst Hsr].
    all: split; [by constructor|].
    all: split; [intros (_ & p & r' & p' & -> & Hp); apply related_spec in Hd as [Hd|(? & ? & ? & _)];
      [by rewrite Hp in Hd|done]|].
    all: split; [intros _; split; [by destruct Hgot as [(? & _)|(? & _ & ?)]|by apply Hcov]|].
    all: intros _; by constructor.
  Qed.

  Lemma result_kept r q got res : gives vtable q got -> calls r q got = Some res ->
    (reference r -> covariant derives r q) -> ~ null_pointer r q got ->
    gives vtable r res /\ (~ slices r q -> preserved got res).
  Proof.
    intros Hg H Hc Hn. destruct (call_spec r q got res Hg H) as [(_ & Hr & Hnc & _)|[(_ & ?)|(Hr & _ & _ & Hp)]];
      [by destruct (Hnc (Hc Hr))|done|done].
  Qed.

  Lemma dangling_iff r q got res : gives vtable q got -> calls r q got = Some res ->
    ~ null_pointer r q got ->
    (res = Dangling <-> reference r /\ ~ covariant derives r q).
  Proof.
    intros Hg H Hn. destruct (call_spec r q got res Hg H) as [(-> & Hr & Hnc & _)|[(_ & ?)|(Hr & _ & Hc & _)]];
      [done|done|].
    split; [intros ->; inversion Hr|]. intros [Hr' Hnc]. by destruct (Hnc (Hc Hr')).
  Qed.

  Lemma undefined_iff r q got res : gives vtable q got -> calls r q got = Some res ->
    (res = Undefined <-> null_pointer r q got).
  Proof.
    intros Hg H. destruct (call_spec r q got res Hg H) as [(-> & _ & _ & Hn)|[(-> & ?)|(Hr & Hn & _)]];
      [done..|]. split; [intros ->; inversion Hr|done].
  Qed.

  Lemma owner_kept r q got res : gives vtable q got -> calls r q got = Some res ->
    owns q -> ~ reference r -> ~ (exists p n, r = RValue (VPlain p n)) -> owns r.
  Proof.
    rewrite calls_returns. intros Hg H (k & p & n & Hq) Hr Hp. unfold returns in H.
    destruct (bool_decide (r = q)) eqn:E.
    { apply bool_decide_eq_true in E. subst r. by exists k, p, n. }
    destruct r as [| |t|t c|t c]; try (by destruct Hr; exists t, c; auto).
    1,2: by destruct Hq as [-> | ->].
    destruct Hq as [-> | ->]; inversion Hg as [| |t' v Hv| |]; subst; simpl in H; unfold copy_initialize in H;
      destruct t as [d|p'|k' p'|p' r'|k' p' r'|]; try (by destruct Hp; exists p', r');
      try (by exists k', p', 0%N; auto); try (by exists k', p', r'; auto); inversion Hv; subst;
      simpl in H; try discriminate H; by destruct k'.
  Qed.

  Lemma smart_typed a k p c l t p' :
    smart_from derives a k p c l (Deduced t false false) = true ->
    (forall d, t <> VObject d) -> pointee_of (RValue t) = Some p' -> fits derives p' p.
  Proof.
    intros H Ht Hp. apply converts_spec.
    destruct k, t as [d|pt|[] pt|pt r|k' pt r|]; simplify_eq/=; try discriminate H; try done;
      destruct a, c, l; simpl in H; done.
  Qed.

  Lemma init_typed t x o u q p' p : initialize_from derives polymorphic true t x = Selected o u ->
    call_expression q = Some x -> pointee_of q = Some p' -> pointee_of (RValue t) = Some p ->
    fits derives p' p.
  Proof.
    rewrite init_spec by apply Hok. intros H Hx Hq Ht. apply converts_spec.
    destruct x as [u' c l].
    assert (match u' with VObject d => p' = Pointee d c | _ => pointee_of (RValue u') = Some p' end) as Hp'.
    { destruct q as [| |w|w b|w b]; simplify_eq/=; destruct u'; by simplify_eq. }
    destruct t as [d|pt|k pt|pt r|k pt r|]; try discriminate H;
      destruct u' as [d'|pu|k' pu|pu r'|k' pu r'|]; cbn in H; try discriminate H; simplify_eq/=;
      table_cases; done.
  Qed.

  (* Copy-initialization is type-safe. *)
  Lemma cinit_typed t x v o : cinit t x v = Some o ->
    forall q p' p, call_expression q = Some x -> pointee_of q = Some p' -> pointee_of (RValue t) = Some p ->
    derives (pt_class p') (pt_class p) = true /\
    (pt_const p' = true -> pt_const p = true \/ exists c, t = VObject c).
  Proof.
    intros H q p' p Hx Hq Ht.
    assert (Hp' : match x_type x with
                  | VObject d => pt_class p' = d
                  | _ => pointee_of (RValue (x_type x)) = Some p'
                  end).
    { destruct q as [| |w|w b|w b]; simplify_eq/=; destruct w; by simplify_eq/=. }
    assert (Hfits : fits derives p' p -> derives (pt_class p') (pt_class p) = true /\
      (pt_const p' = true -> pt_const p = true \/ exists c, t = VObject c))
      by (intros [? ?]; split; auto).
    unfold copy_initialize in H.
    destruct t as [d|pt|k pt|pt r|k pt r|].
    - simplify_eq/=. split; [|intros _; right; by exists d].
      destruct (x_type x); try discriminate H. subst. destruct v; try discriminate H.
      by destruct (derives _ d).
    - simplify_eq/=. apply Hfits, converts_spec.
      destruct (x_type x); simplify_eq/=. destruct v; try discriminate H. by destruct (converts _ _ _).
    - simplify_eq/=. apply Hfits.
      destruct (smart_from _ _ _ _ _ _ _) eqn:Hs; [|discriminate H].
      destruct (x_type x) eqn:Hxt; try by (eapply smart_typed; [exact Hs|done|done]).
      by destruct k.
    - apply Hfits. destruct (initialize_from _ _ _ _ _) eqn:Hi; try discriminate H.
      by eapply init_typed.
    - apply Hfits. destruct (initialize_from _ _ _ _ _) eqn:Hi; try discriminate H.
      by eapply init_typed.
    - discriminate Ht.
  Qed.

  Lemma typed r q got res p' p : gives vtable q got -> calls r q got = Some res -> gives vtable r res ->
    pointee_of q = Some p' -> pointee_of r = Some p ->
    derives (pt_class p') (pt_class p) = true /\
    (pt_const p' = true -> pt_const p = true \/ exists c, r = RValue (VObject c)).
  Proof.
    rewrite calls_returns. intros Hg H Hres Hq Hr. unfold returns in H.
    destruct (bool_decide (r = q)) eqn:E.
    { apply bool_decide_eq_true in E. subst r. simplify_eq. split; [apply Hok|by left]. }
    destruct (call_expression q) as [x|] eqn:Hx; [|discriminate H]. simpl in H.
    assert (Hc : forall t v o, cinit t x v = Some o -> forall p, pointee_of (RValue t) = Some p ->
      derives (pt_class p') (pt_class p) = true /\
      (pt_const p' = true -> pt_const p = true \/ exists c, t = VObject c)).
    { intros t v o Hi p0 Hp0. exact (cinit_typed t x v o Hi q p' p0 Hx Hq Hp0). }
    assert (Hbind : forall t b rv, bind derives polymorphic vtable t b rv x got = Some res ->
      pointee_of r = pointee_of (RLref t b) ->
      derives (pt_class p') (pt_class p) = true /\
      (pt_const p' = true -> pt_const p = true \/ exists c, r = RValue (VObject c))).
    { intros t b rv Hb Hp. rewrite Hr in Hp. symmetry in Hp. unfold bind in Hb.
      destruct (reference_related derives t x) eqn:Hrel.
      - destruct (x_const x && negb b) eqn:Hcb; [discriminate Hb|].
        apply related_spec in Hrel as [Ht|(c & d & -> & Hd & Hdc)].
        + destruct q as [| |u|u b'|u b']; simplify_eq/=; destruct u; simplify_eq/=;
            (split; [apply Hok|]); destruct b; auto; destruct b'; simpl in Hcb; auto; discriminate.
        + destruct q as [| |u|u b'|u b']; simplify_eq/=; (split; [done|]);
            destruct b; auto; destruct b'; simpl in Hcb; auto; discriminate.
      - destruct (rv || b); [|discriminate Hb].
        destruct Hg as [| |u v Hv|u b' y v Hv|u b' y v Hv]; try discriminate Hx;
          destruct (cinit t x v) as [[]|] eqn:Hi; simplify_eq/=; inversion Hres. }
    destruct r as [| |t|t b|t b]; try discriminate H.
    - destruct Hg as [| |u v Hv|u b' y v Hv|u b' y v Hv]; try discriminate Hx;
        destruct (cinit t x v) as [o|] eqn:Hi; simplify_eq/=;
        destruct (Hc _ _ _ Hi p Hr) as [? Hcc]; (split; [done|]); intros Hp'; destruct (Hcc Hp') as [|[c ->]]; eauto.
    - by apply (Hbind t b false).
    - by apply (Hbind t b true).
  Qed.

  Lemma const_kept r q got res : calls r q got = Some res ->
    reference r -> covariant derives r q -> const_reference q -> const_reference r.
  Proof.
    rewrite calls_returns. intros H Hr [_ Hcov] (u & Hu). unfold returns in H.
    destruct (bool_decide (r = q)) eqn:E.
    { apply bool_decide_eq_true in E. subst r. by exists u. }
    destruct (call_expression q) as [x|] eqn:Hx; [|discriminate H]. simpl in H.
    assert (x_const x = true) as Hc by (destruct Hu as [-> | ->]; by simplify_eq/=).
    destruct Hr as (t & b & Hr).
    assert (type_of r = Some t) as Ht by (by destruct Hr as [-> | ->]).
    apply (related_covariant r q t x Ht Hx) in Hcov.
    exists t. destruct Hr as [-> | ->]; unfold bind in H; rewrite Hcov, Hc in H;
      destruct b; auto; discriminate H.
  Qed.

  Lemma registry_kept r q got res n n' : calls r q got = Some res ->
    gives vtable q got -> gives vtable r res ->
    registry_of q = Some n -> registry_of r = Some n' -> n' = n.
  Proof.
    rewrite calls_returns. intros H Hg Hres Hq Hr. unfold returns in H.
    destruct (bool_decide (r = q)) eqn:E.
    { apply bool_decide_eq_true in E. subst r. congruence. }
    destruct (call_expression q) as [x|] eqn:Hx; [|discriminate H]. simpl in H.
    assert (Hqx : match x_type x with VPlain _ m | VWide _ _ m => m = n | _ => False end).
    { unfold registry_of in Hq. destruct q as [| |u|u b|u b]; simplify_eq/=; destruct u; by simplify_eq/=. }
    assert (Hc : forall t v o, cinit t x v = Some o ->
      match t with VPlain _ m | VWide _ _ m => m = n | _ => True end).
    { intros t v o Hi. unfold copy_initialize in Hi. destruct x as [u c l]. simpl in Hqx.
      destruct t; try done; rewrite init_spec in Hi by apply Hok; destruct u; try done; subst;
        cbn in Hi; table_cases; done. }
    assert (Hbind : forall t b rv, bind derives polymorphic vtable t b rv x got = Some res ->
      type_of r = Some t -> n' = n).
    { intros t b rv Hb Hp. unfold registry_of in Hr. rewrite Hp in Hr. unfold bind in Hb.
      destruct (reference_related derives t x) eqn:Hrel.
      - apply related_spec in Hrel as [->|(c & d & -> & _)]; [|discriminate Hr].
        destruct (x_type x); try done; by simplify_eq/=.
      - destruct (rv || b); [|discriminate Hb].
        destruct Hg as [| |u v Hv|u b' y v Hv|u b' y v Hv]; try discriminate Hx;
          destruct (cinit t x v) as [[]|] eqn:Hi; simplify_eq/=; inversion Hres. }
    destruct r as [| |t|t b|t b]; try discriminate H.
    - destruct Hg as [| |u v Hv|u b' y v Hv|u b' y v Hv]; try discriminate Hx;
        destruct (cinit t x v) as [o|] eqn:Hi; simplify_eq/=; apply Hc in Hi;
        unfold registry_of in Hr; destruct t; by simplify_eq/=.
    - by apply (Hbind t b false).
    - by apply (Hbind t b true).
  Qed.

  Lemma types_kept r q got res : gives vtable q got -> calls r q got = Some res -> gives vtable r res ->
    (forall p' p, pointee_of q = Some p' -> pointee_of r = Some p ->
       derives (pt_class p') (pt_class p) = true /\
       (pt_const p' = true -> pt_const p = true \/ exists c, r = RValue (VObject c))) /\
    (reference r -> covariant derives r q -> const_reference q -> const_reference r) /\
    (forall n n', registry_of q = Some n -> registry_of r = Some n' -> n' = n).
  Proof.
    intros Hg H Hres. split; [intros p' p; by apply (typed r q got res)|].
    split; [by apply (const_kept r q got res)|]. intros n n'. by apply (registry_kept r q got res).
  Qed.

  Lemma unique_kept r q got res : calls r q got = Some res -> gives vtable q got ->
    unique q -> owns r ->
    (exists t, q = RValue t) \/ (exists t, q = RRref t false).
  Proof.
    rewrite calls_returns. intros H Hg (p & n & Hu) (k & pt & m & Hr). unfold returns in H.
    destruct (bool_decide (r = q)) eqn:E.
    { apply bool_decide_eq_true in E. subst r. destruct Hr as [-> | ->]; left; eauto. }
    destruct (call_expression q) as [x|] eqn:Hx; [|discriminate H]. simpl in H.
    assert (x_lvalue x || x_const x = false -> (exists t, q = RValue t) \/ (exists t, q = RRref t false)) as Hq
      by (destruct q as [| |t|t []|t []]; simplify_eq/=; eauto; done).
    apply Hq. assert (type_of q = Some (x_type x)) as Htq by (by destruct q; simplify_eq/=).
    rewrite Htq in Hu. clear Hq Htq.
    assert (exists v o, cinit (match r with RValue t => t | _ => VNull end) x v = Some o) as (v & o & Hi).
    { destruct Hr as [-> | ->]; destruct Hg as [| |u v Hv|u b' y v Hv|u b' y v Hv]; try discriminate Hx;
        match type of H with (?c ≫= _ = _) => destruct c eqn:Hc; [|discriminate H] end; eauto. }
    destruct x as [t c l]. simpl in *.
    destruct Hr as [-> | ->]; unfold copy_initialize in Hi; rewrite ?init_spec in Hi by apply Hok;
      destruct Hu as [Hu|Hu]; simplify_eq; cbn in Hi; destruct k, c, l; simpl in Hi; try done;
      table_cases; done.
  Qed.

  Lemma returnable_compiles r q got : returnable derives polymorphic r q -> gives vtable q got ->
    exists res, calls r q got = Some res.
  Proof.
    rewrite calls_returns. intros Hr Hg. unfold returns.
    destruct (bool_decide (r = q)) eqn:E; [by eexists|].
    destruct Hok as [Hrefl Hpoly].
    destruct Hr as [r|c d b b' Hd Hb|c d b b' Hd Hb|p p' q Hf Hq|k p p' Hf|p p' r q Hf Hq|k p p' r Hf|k p p' r Hf Hp].
    - by rewrite bool_decide_eq_true_2 in E.
    - inversion Hg; subst. simpl. unfold bind, reference_related. simpl. rewrite Hd, orb_true_r.
      destruct b, b'; simpl; eauto; by specialize (Hb eq_refl).
    - inversion Hg; subst. simpl. unfold bind, reference_related. simpl. rewrite Hd, orb_true_r.
      destruct b, b'; simpl; eauto; by specialize (Hb eq_refl).
    - apply converts_spec in Hf.
      destruct Hg as [| |t v Hv|t c x v Hv|t c x v Hv]; simplify_eq/=; inversion Hv; subst; simpl;
        rewrite Hf; eauto.
    - apply converts_spec in Hf. inversion Hg as [| |t v Hv| |]; subst. inversion Hv; subst. simpl.
      destruct k; simpl; rewrite Hf; simpl; eauto.
    - apply converts_spec in Hf.
      assert (Hin : forall x, type_of q = Some (x_type x) ->
        initialize_from derives polymorphic true (VPlain p r) x = Selected Value CopyVptr).
      { intros [t c l] Ht. rewrite init_spec by done. simpl in Ht.
        destruct Hq as [Hq|[k Hq]]; rewrite Hq in Ht; simplify_eq; simpl;
          by rewrite bool_decide_eq_true_2, Hf. }
      destruct Hg as [| |t v Hv|t c x v Hv|t c x v Hv]; try (by destruct Hq as [?|[??]]); cbn [call_expression mbind option_bind];
        unfold copy_initialize; rewrite Hin by done; simpl; eauto.
    - apply converts_spec in Hf. inversion Hg as [| |t v Hv| |]; subst. cbn [call_expression mbind option_bind].
      unfold copy_initialize. rewrite init_spec by done. cbn. rewrite !bool_decide_eq_true_2 by done.
      rewrite Hf. simpl. eauto.
    - apply converts_spec in Hf. inversion Hg as [| |t v Hv| |]; subst. cbn [call_expression mbind option_bind].
      unfold copy_initialize. rewrite init_spec by done. cbn. rewrite !bool_decide_eq_true_2 by done.
      unfold is_polymorphic in Hp. rewrite Hp, Hf. simpl. eauto.
  Qed.
End Proofs.
