(* The three stages of a call: the caller makes the parameters of operator(), which
   forwards them, then the thunk casts them. *)
From stdpp Require Import base list numbers.
From Verif Require Import Base Registry Spec ModelClasses ModelHash ModelWorld ModelCall ModelErrors
  SpecCall ModelVirtualPtr ModelArguments SpecArguments ProofBase ProofArguments.

(* A parameter of the right kind, with something in it. *)
Inductive made (s : heap) : ptype -> parameter -> Prop :=
  | made_object o : hp_alive s o = true -> made s TObject (PObject o)
  | made_ref t x c : by_value t = false -> look s x = Some c -> holds s t c -> made s t (PRef x)
  | made_var t x c : by_value t = true -> look s x = Some c -> holds s t c -> made s t (PVar x).

(* Parameters [ps] are the arguments; their variables are [ys]. *)
Record stage (s : heap) (ts : list ptype) (es : list expression) (s' : heap) (ps : list parameter)
    (ys : list nat) : Prop := {
  st_len : length ps = length ts;
  st_made : forall i t p, ts !! i = Some t -> ps !! i = Some p -> made s' t p;
  st_content : forall i e p, es !! i = Some e -> ps !! i = Some p -> param_content s' p = arg_content s e;
  st_object : forall i e p, es !! i = Some e -> ps !! i = Some p -> forall o, p = PObject o <-> e = EObject o;
  st_same : forall i e x, es !! i = Some e -> ps !! i = Some (PRef x) -> e = EVar x;
  st_fresh : forall x, x ∈ ys <-> exists i, ps !! i = Some (PVar x);
  st_once : forall i j q x, ps !! i = Some (PVar x) -> ps !! j = Some q -> place_of q = Some x -> i = j
}.

Lemma holds_alive s s' t c : hp_alive s' = hp_alive s -> holds s t c -> holds s' t c.
Proof. intros H. destruct 1; constructor; congruence. Qed.

Lemma zip_lookup {A B} (l : list A) (k : list B) i a b :
  zip l k !! i = Some (a, b) <-> l !! i = Some a /\ k !! i = Some b.
Proof.
  rewrite lookup_zip_with_Some. split.
  - intros (a' & b' & [= -> ->] & H1 & H2). auto.
  - intros [H1 H2]. eauto.
Qed.

Definition is_move (e : expression) : bool := match e with EMove _ => true | _ => false end.
Definition is_var (p : parameter) : bool := match p with PVar _ => true | _ => false end.

Section Stages.
  Context (cf : config) (w : world) (isa : nat -> N -> bool) (cxx20 : bool).

  Definition empty_after (c : option content) : Prop :=
    match c with Some c => owned (ct_handle c) = None | None => True end.

  Lemma arg_ok_content s t e : arg_ok s t e ->
    (exists o, t = TObject /\ e = EObject o /\ hp_alive s o = true) \/
    (exists x c, variable_of e = Some x /\ look s x = Some c /\ holds s t c /\ (forall o, e <> EObject o)).
  Proof. destruct 1; [left; eauto|right..]; exists x, c; repeat split; auto; discriminate. Qed.

  (* Stage 1. *)
  Lemma pass_does s0 t e :
    arg_ok s0 t e ->
    does (fun te : ptype * expression => pass cf w te.1 te.2) s0 (fun te => variable_of te.2) (fun te => is_move te.2)
      (fun te p c => c = arg_content s0 te.2 /\ made s0 te.1 (match p with PVar x => match te.2 with ECopy y | EMove y => PVar y | _ => p end | _ => p end) /\
         (forall o, p = PObject o <-> te.2 = EObject o) /\ (forall x, p = PRef x -> te.2 = EVar x) /\
         (forall x, p = PVar x -> by_value te.1 = true /\ length (hp_vars s0) <= x))
      (fun _ _ c => empty_after c) (t, e).
  Proof.
    intros Hok s Hh Ha Hl Hs. simpl in *.
    destruct Hok as [o Ho|t x c Ht Hx Hc|t x c Ht Hx Hc|t x c Ht Hx Hc Hu].
    - exists (PObject o), [], s. split; [reflexivity|]. split; [apply evolves_refl; exact Hh|].
      split; [|split; [discriminate|split; [|discriminate]]].
      + repeat split; try discriminate; try congruence. constructor. exact Ho.
      + intros y Hy. apply elem_of_nil in Hy. contradiction.
    - exists (PRef x), [], s. split; [unfold pass; simpl; rewrite Ht; reflexivity|]. split; [apply evolves_refl; exact Hh|].
      split; [|split; [|split; [|discriminate]]].
      + repeat split; try discriminate; try congruence.
        * unfold param_content, arg_content. simpl. apply Hs. reflexivity.
        * eapply made_ref; eauto.
      + intros y [= <-]. right. auto.
      + intros y Hy. apply elem_of_nil in Hy. contradiction.
    - destruct (move_step cf w x s c Hh) as (y & s' & E & Ev & Hy & Hx'); [rewrite Hs by reflexivity; exact Hx|].
      exists (PVar y), [y], s'. split; [unfold pass; simpl; rewrite Ht, E; reflexivity|].
      split; [eapply evolves_mono; [|exact Ev]; simpl; intros; split; congruence|].
      split; [|split; [|split]].
      + repeat split; try discriminate; try congruence.
        * unfold param_content, arg_content. simpl. congruence.
        * eapply made_var; eauto.
        * injection H as <-. destruct (ev_locals _ _ _ _ Ev y ltac:(left)). lia.
      + intros z [= <-]. left. left.
      + intros z ->%elem_of_list_singleton. reflexivity.
      + intros z _ [= <-]. rewrite Hx'. apply owned_moved.
    - destruct (copy_step x s c Hh) as (y & s' & E & Ev & Hy); [rewrite Hs by reflexivity; exact Hx|exact Hu|].
      exists (PVar y), [y], s'. split; [unfold pass; simpl; rewrite Ht, E; reflexivity|].
      split; [eapply evolves_mono; [|exact Ev]; simpl; intros; contradiction|].
      split; [|split; [|split]].
      + repeat split; try discriminate; try congruence.
        * unfold param_content, arg_content. simpl. congruence.
        * eapply made_var; eauto.
        * injection H as <-. destruct (ev_locals _ _ _ _ Ev y ltac:(left)). lia.
      + intros z [= <-]. left. left.
      + intros z ->%elem_of_list_singleton. reflexivity.
      + discriminate.
  Qed.

  Lemma pass_stage s ts es :
    Forall2 (arg_ok s) ts es -> apart es -> healthy s ->
    exists ps l s', pass_all cf w ts es s = Ok (ps, l, s') /\
      evolves (moves es) s s' l /\ stage s ts es s' ps l /\
      (forall x, moves es x -> empty_after (look s' x)).
  Proof.
    intros Hok Hap Hh. pose proof (Forall2_length _ _ _ Hok) as Hlen.
    assert (Hit : forall a, a ∈ zip ts es -> arg_ok s a.1 a.2).
    { intros [t e] Ha. apply elem_of_list_lookup in Ha as (i & Ha). apply zip_lookup in Ha as [H1 H2].
      exact (Forall2_lookup_lr _ _ _ _ _ _ Hok H1 H2). }
    assert (Hlive : forall a x, a ∈ zip ts es -> variable_of a.2 = Some x -> exists c, look s x = Some c).
    { intros a x Ha Hx. apply Hit in Ha. destruct (arg_ok_content _ _ _ Ha) as [(o & _ & E & _)|(y & c & E & Hc & _)].
      - rewrite E in Hx. discriminate.
      - exists c. congruence. }
    destruct (steps_ok (fun te : ptype * expression => pass cf w te.1 te.2) s (fun te => variable_of te.2) (fun te => is_move te.2) _
      (fun _ _ c => empty_after c) (zip ts es) s
      (fun a Ha => match a as a0 return arg_ok s a0.1 a0.2 -> does _ _ _ _ _ _ a0 with (t, e) => pass_does s t e end (Hit a Ha)))
      as (ps & ys & s' & E & Ev & HF & Hys & Hdis & HG); auto.
    { intros i j [t e] [t' e'] x Hi He Hx Hj Hx'. apply zip_lookup in Hi as [_ Hi], Hj as [_ Hj]. simpl in *.
      destruct e; try discriminate. injection Hx as ->. eapply Hap; eauto. }
    { intros a x Ha Hx. split; [|reflexivity]. destruct (Hlive a x Ha Hx) as (c & Hc). eapply look_some_lt; eauto. }
    exists ps, ys, s'. split; [exact E|].
    assert (Hpl : length ps = length ts).
    { apply Forall2_length in HF. rewrite zip_with_length in HF. lia. }
    assert (HFi : forall i t e p, ts !! i = Some t -> es !! i = Some e -> ps !! i = Some p -> _)
      by (intros i t e p Ht He Hp; exact (Forall2_lookup_lr _ _ _ i (t, e) p HF (proj2 (zip_lookup _ _ _ _ _) (conj Ht He)) Hp)).
    simpl in HFi.
    assert (Hget : forall i p, ps !! i = Some p -> exists t e, ts !! i = Some t /\ es !! i = Some e).
    { intros i p Hp. apply lookup_lt_Some in Hp. destruct (lookup_lt_is_Some_2 ts i) as [t Ht]; [lia|].
      destruct (lookup_lt_is_Some_2 es i) as [e He]; [lia|]. eauto. }
    split; [|split].
    - eapply evolves_mono; [|exact Ev]. intros x _ ([t e] & Ha & He & Hx). simpl in *.
      destruct e; try discriminate. injection Hx as ->. apply elem_of_list_lookup in Ha as (i & Ha).
      apply zip_lookup in Ha as [_ Ha]. eapply elem_of_list_lookup_2; eauto.
    - split.
      + exact Hpl.
      + intros i t p Ht Hp. destruct (Hget i p Hp) as (t' & e & Ht' & He).
        destruct (HFi i t e p Ht He Hp) as [(Hc & Hm & Ho & Hr & Hb) Hpl'].
        destruct p as [o|x|x].
        * inversion Hm; subst; constructor. rewrite (ev_alive _ _ _ _ Ev). assumption.
        * inversion Hm; subst. pose proof (Hr x eq_refl) as ->.
          unfold param_content, arg_content in Hc. simpl in Hc.
          eapply made_ref; [assumption|rewrite Hc; eassumption|].
          eapply holds_alive; [exact (ev_alive _ _ _ _ Ev)|assumption].
        * assert (Hok1 : arg_ok s t e) by exact (Forall2_lookup_lr _ _ _ _ _ _ Hok Ht He).
          destruct (arg_ok_content _ _ _ Hok1) as [(o & -> & -> & _)|(y & c & Ey & Hy & Hh' & _)].
          { destruct (Hb x eq_refl). discriminate. }
          eapply made_var; [exact (proj1 (Hb x eq_refl))| |eapply holds_alive; [exact (ev_alive _ _ _ _ Ev)|exact Hh']].
          unfold param_content, arg_content in Hc. rewrite Ey in Hc. simpl in Hc. congruence.
      + intros i e p He Hp. destruct (Hget i p Hp) as (t & e' & Ht & He'). apply (HFi i t e p Ht He Hp).
      + intros i e p He Hp. destruct (Hget i p Hp) as (t & e' & Ht & He'). apply (HFi i t e p Ht He Hp).
      + intros i e x He Hp. destruct (Hget i _ Hp) as (t & e' & Ht & He').
        destruct (HFi i t e _ Ht He Hp) as [(_ & _ & _ & Hr & _) _]. auto.
      + intros x. split.
        * intros Hx. destruct (Hys x Hx) as (i & p & Hp & Hpx). exists i.
          destruct (Hget i p Hp) as (t & e & Ht & He).
          destruct (HFi i t e p Ht He Hp) as [(_ & _ & _ & Hr & _) _].
          destruct p as [o|y|y]; [discriminate| |injection Hpx as ->; exact Hp].
          injection Hpx as ->. specialize (Hr x eq_refl). subst e. exfalso.
          destruct (Hlive (t, EVar x) x) as (c & Hc); [|reflexivity|].
          { eapply elem_of_list_lookup_2. apply zip_lookup. eauto. }
          apply look_some_lt in Hc. apply (ev_locals _ _ _ _ Ev) in Hx as [Hx _]. lia.
        * intros (i & Hp). destruct (Hget i _ Hp) as (t & e & Ht & He).
          destruct (HFi i t e _ Ht He Hp) as [(_ & _ & _ & _ & Hb) Hpl'].
          destruct (Hb x eq_refl) as [_ Hge]. destruct (Hpl' x eq_refl) as [?|[Hmv Hv]]; [assumption|]. exfalso.
          destruct (Hlive (t, e) x) as (c & Hc); [|exact Hv|apply look_some_lt in Hc; lia].
          eapply elem_of_list_lookup_2. apply zip_lookup. eauto.
      + intros i j q x Hi Hj Hq.
        assert (Hx : x ∈ ys).
        { destruct (Hget i _ Hi) as (t & e & Ht & He).
          destruct (HFi i t e _ Ht He Hi) as [(_ & _ & _ & _ & Hb) Hpl'].
          destruct (Hb x eq_refl) as [_ Hge]. destruct (Hpl' x eq_refl) as [?|[Hmv Hv]]; [assumption|]. exfalso.
          destruct (Hlive (t, e) x) as (c & Hc); [|exact Hv|apply look_some_lt in Hc; lia].
          eapply elem_of_list_lookup_2. apply zip_lookup. eauto. }
        eapply Hdis; eauto.
    - intros x Hx. apply elem_of_list_lookup in Hx as (i & Hi).
      destruct (lookup_lt_is_Some_2 ts i) as [t Ht]; [apply lookup_lt_Some in Hi; lia|].
      apply (HG (t, EMove x)); try reflexivity. eapply elem_of_list_lookup_2. apply zip_lookup. eauto.
  Qed.

  (* Stage 2. *)
  Lemma forward_does s0 t p :
    made s0 t p ->
    does (fun tp : ptype * parameter => forward cf w tp.1 tp.2) s0 (fun tp => place_of tp.2) (fun tp => is_var tp.2)
      (fun tp q c => c = param_content s0 tp.2 /\
         match tp.2 with PVar _ => exists y, q = PVar y /\ length (hp_vars s0) <= y | p => q = p end)
      (fun _ _ c => empty_after c) (t, p).
  Proof.
    intros Hm s Hh Ha Hl Hs. simpl in *.
    assert (Hplain : is_var p = false -> exists q ys s', forward cf w t p s = Ok (q, ys, s') /\
      evolves (fun x => is_var p = true /\ place_of p = Some x) s s' ys /\
      (param_content s' q = param_content s0 p /\
         match p with PVar _ => exists y, q = PVar y /\ length (hp_vars s0) <= y | p => q = p end) /\
      (forall x, place_of q = Some x -> x ∈ ys \/ (is_var p = false /\ place_of p = Some x)) /\
      (forall x, x ∈ ys -> place_of q = Some x) /\
      (forall x, is_var p = true -> place_of p = Some x -> empty_after (look s' x))).
    { intros Hp. exists p, [], s. split; [destruct p; try discriminate; reflexivity|].
      split; [apply evolves_refl; exact Hh|]. split; [|split; [auto|split; [|congruence]]].
      - split; [|destruct p; try discriminate; reflexivity].
        unfold param_content. destruct (place_of p) as [x|]; [simpl; auto|reflexivity].
      - intros x Hx. apply elem_of_nil in Hx. contradiction. }
    destruct Hm as [o Ho|t x c Ht Hx Hc|t x c Ht Hx Hc]; try (apply Hplain; reflexivity).
    destruct (move_step cf w x s c Hh) as (y & s' & E & Ev & Hy & Hx'); [rewrite Hs by reflexivity; exact Hx|].
    exists (PVar y), [y], s'. split; [unfold forward; rewrite E; reflexivity|].
    split; [eapply evolves_mono; [|exact Ev]; simpl; intros; split; congruence|].
    split; [|split; [|split]].
    - split; [unfold param_content; simpl; congruence|]. exists y. split; [reflexivity|].
      destruct (ev_locals _ _ _ _ Ev y ltac:(left)). lia.
    - intros z [= <-]. left. left.
    - intros z ->%elem_of_list_singleton. reflexivity.
    - intros z _ [= <-]. rewrite Hx'. apply owned_moved.
  Qed.

  Lemma stage_live s ts es s1 ps l i p x :
    stage s ts es s1 ps l -> ps !! i = Some p -> place_of p = Some x -> exists c, look s1 x = Some c.
  Proof.
    intros St Hp Hx. destruct (lookup_lt_is_Some_2 ts i) as [t Ht].
    { apply lookup_lt_Some in Hp. rewrite (st_len _ _ _ _ _ _ St) in Hp. exact Hp. }
    destruct (st_made _ _ _ _ _ _ St i t p Ht Hp); [discriminate|..]; injection Hx as <-; eauto.
  Qed.

  Lemma forward_stage s ts es s1 ps1 l1 :
    stage s ts es s1 ps1 l1 -> healthy s1 -> length es = length ts ->
    exists ps l s', forward_all cf w ts ps1 s1 = Ok (ps, l, s') /\
      evolves (fun x => x ∈ l1) s1 s' l /\ stage s ts es s' ps l /\
      (forall x, x ∈ l1 -> empty_after (look s' x)).
  Proof.
    intros St Hh Hes. pose proof (st_len _ _ _ _ _ _ St) as Hlen.
    assert (Hit : forall a, a ∈ zip ts ps1 -> made s1 a.1 a.2).
    { intros [t e] Ha. apply elem_of_list_lookup in Ha as (i & Ha). apply zip_lookup in Ha as [H1 H2].
      eapply st_made; eauto. }
    assert (Hlive : forall a x, a ∈ zip ts ps1 -> place_of a.2 = Some x -> exists c, look s1 x = Some c).
    { intros [t p] x Ha Hx. apply elem_of_list_lookup in Ha as (i & Ha). apply zip_lookup in Ha as [H1 H2].
      eapply stage_live; eauto. }
    destruct (steps_ok (fun tp : ptype * parameter => forward cf w tp.1 tp.2) s1 (fun tp => place_of tp.2) (fun tp => is_var tp.2) _
      (fun _ _ c => empty_after c) (zip ts ps1) s1
      (fun a Ha => match a as a0 return made s1 a0.1 a0.2 -> does _ _ _ _ _ _ a0 with (t, e) => forward_does s1 t e end (Hit a Ha)))
      as (ps & ys & s' & E & Ev & HF & Hys & Hdis & HG); auto.
    { intros i j [t e] [t' e'] x Hi He Hx Hj Hx'. apply zip_lookup in Hi as [_ Hi], Hj as [_ Hj]. simpl in *.
      destruct e; try discriminate. injection Hx as ->. eapply st_once; eauto. }
    { intros a x Ha Hx. split; [|reflexivity]. destruct (Hlive a x Ha Hx) as (c & Hc). eapply look_some_lt; eauto. }
    exists ps, ys, s'. split; [exact E|].
    assert (Hpl : length ps = length ts).
    { apply Forall2_length in HF. rewrite zip_with_length in HF. lia. }
    assert (HFi : forall i t e p, ts !! i = Some t -> ps1 !! i = Some e -> ps !! i = Some p -> _)
      by (intros i t e p Ht He Hp; exact (Forall2_lookup_lr _ _ _ i (t, e) p HF (proj2 (zip_lookup _ _ _ _ _) (conj Ht He)) Hp)).
    simpl in HFi.
    assert (Hget : forall i p, ps !! i = Some p -> exists t e q, ts !! i = Some t /\ es !! i = Some e /\ ps1 !! i = Some q).
    { intros i p Hp. apply lookup_lt_Some in Hp. destruct (lookup_lt_is_Some_2 ts i) as [t Ht]; [lia|].
      destruct (lookup_lt_is_Some_2 es i) as [e He]; [lia|].
      destruct (lookup_lt_is_Some_2 ps1 i) as [q Hq]; [lia|]. eauto 10. }
    assert (Hfr : forall i x, ps !! i = Some (PVar x) -> x ∈ ys).
    { intros i x Hi. destruct (Hget i _ Hi) as (t & e & q & Ht & He & Hq).
      destruct (HFi i t q _ Ht Hq Hi) as [(_ & Hb) Hpl'].
      destruct (Hpl' x eq_refl) as [?|[Hmv Hv]]; [assumption|]. destruct q; discriminate. }
    split; [|split].
    - eapply evolves_mono; [|exact Ev]. intros x _ ([t e] & Ha & He & Hx). simpl in *.
      destruct e; try discriminate. injection Hx as ->. apply elem_of_list_lookup in Ha as (i & Ha).
      apply zip_lookup in Ha as [_ Ha]. apply (st_fresh _ _ _ _ _ _ St). eauto.
    - split.
      + exact Hpl.
      + intros i t p Ht Hp. destruct (Hget i p Hp) as (t' & e & q & Ht' & He & Hq).
        destruct (HFi i t q p Ht Hq Hp) as [(Hc & Hm) _].
        pose proof (st_made _ _ _ _ _ _ St i t q Ht Hq) as Hmq.
        destruct Hmq as [o Ho|t x c Hb Hx Hc'|t x c Hb Hx Hc'].
        * subst p. constructor. rewrite (ev_alive _ _ _ _ Ev). assumption.
        * subst p. unfold param_content in Hc. simpl in Hc.
          eapply made_ref; [assumption|rewrite Hc; eassumption|].
          eapply holds_alive; [exact (ev_alive _ _ _ _ Ev)|assumption].
        * destruct Hm as (y & -> & _). unfold param_content in Hc. simpl in Hc.
          eapply made_var; [assumption|rewrite Hc; eassumption|].
          eapply holds_alive; [exact (ev_alive _ _ _ _ Ev)|assumption].
      + intros i e p He Hp. destruct (Hget i p Hp) as (t & e' & q & Ht & He' & Hq).
        destruct (HFi i t q p Ht Hq Hp) as [(Hc & Hm) _]. rewrite Hc. eapply st_content; eauto.
      + intros i e p He Hp o. destruct (Hget i p Hp) as (t & e' & q & Ht & He' & Hq).
        destruct (HFi i t q p Ht Hq Hp) as [(Hc & Hm) _].
        rewrite <- (st_object _ _ _ _ _ _ St i e q He Hq o).
        destruct q as [o'|x|x]; [subst p; reflexivity..|]. destruct Hm as (y & -> & _). split; discriminate.
      + intros i e x He Hp. destruct (Hget i _ Hp) as (t & e' & q & Ht & He' & Hq).
        destruct (HFi i t q _ Ht Hq Hp) as [(Hc & Hm) _].
        destruct q as [o'|x'|x']; [discriminate| |destruct Hm as (y & ? & _); discriminate].
        injection Hm as ->. eapply st_same; eauto.
      + intros x. split; [|intros (i & Hi); eauto].
        intros Hx. destruct (Hys x Hx) as (i & p & Hp & Hpx). exists i.
        destruct (Hget i p Hp) as (t & e & q & Ht & He & Hq).
        destruct (HFi i t q p Ht Hq Hp) as [(_ & Hm) _].
        destruct q as [o|y|y]; [subst p; discriminate| |destruct Hm as (y' & -> & _); injection Hpx as ->; exact Hp].
        subst p. injection Hpx as ->. exfalso.
        destruct (stage_live _ _ _ _ _ _ i (PRef x) x St Hq eq_refl) as (c & Hc).
        apply look_some_lt in Hc. apply (ev_locals _ _ _ _ Ev) in Hx as [Hx _]. lia.
      + intros i j q x Hi Hj Hq. eapply Hdis; eauto.
    - intros x Hx. apply (st_fresh _ _ _ _ _ _ St) in Hx as (i & Hi).
      destruct (lookup_lt_is_Some_2 ts i) as [t Ht]; [apply lookup_lt_Some in Hi; lia|].
      apply (HG (t, PVar x)); try reflexivity. eapply elem_of_list_lookup_2. apply zip_lookup. eauto.
  Qed.

  (* Stage 3. *)
  Definition left_by (t : ptype) (c c' : option content) : Prop :=
    match t, c with
    | TSmart k, Some c | TVptr (Some k), Some c =>
        (c' = Some (Content (HSmart k None) (ct_vp c)) /\ takes cxx20 k true = true) \/
        (c' = Some c /\ takes cxx20 k true = false)
    | _, _ => empty_after c'
    end.

  Lemma cast_does s0 t ot p :
    made s0 t p ->
    (is_virtual_type t = true -> forall o, param_object s0 p = Some o -> isa o (ot_class ot) = true) ->
    does (fun top : (ptype * otype) * parameter => cast cf w isa cxx20 top.1.1 top.1.2 top.2) s0
      (fun top => place_of top.2) (fun top => is_var top.2)
      (fun top q c => c = param_content s0 top.2 /\ (forall o, q = PObject o <-> top.2 = PObject o) /\
         (top.1.1 = TRef -> q = top.2))
      (fun top x c => left_by top.1.1 (look s0 x) c) ((t, ot), p).
  Proof.
    intros Hm Hi s Hh Ha Hl Hs. simpl in *.
    destruct Hm as [o Ho|t x c Ht Hx Hc|t x c Ht Hx Hc]; simpl in *.
    - exists (PObject o), [], s. unfold cast_object. rewrite Ha, Ho, Hi by reflexivity. simpl.
      split; [reflexivity|]. split; [apply evolves_refl; exact Hh|].
      split; [|split; [discriminate|split; [|discriminate]]].
      + repeat split; auto.
      + intros y Hy. apply elem_of_nil in Hy. contradiction.
    - (* a reference *)
      assert (Hx1 : look s x = Some c) by (rewrite Hs by reflexivity; exact Hx).
      assert (Hid : exists q ys s', Ok (PRef x, @nil nat, s) = Ok (q, ys, s') /\
        evolves (fun x0 => false = true /\ Some x = Some x0) s s' ys /\
        (param_content s' q = param_content s0 (PRef x) /\ (forall o, q = PObject o <-> PRef x = PObject o) /\
         (t = TRef -> q = PRef x)) /\
        (forall x0, place_of q = Some x0 -> x0 ∈ ys \/ (false = false /\ Some x = Some x0)) /\
        (forall x0, x0 ∈ ys -> place_of q = Some x0) /\
        (forall x0, false = true -> Some x = Some x0 -> left_by t (look s0 x0) (look s' x0))).
      { exists (PRef x), [], s. split; [reflexivity|]. split; [apply evolves_refl; exact Hh|].
        split; [|split; [auto|split; [|discriminate]]].
        - repeat split; auto; try discriminate. unfold param_content. simpl. congruence.
        - intros y Hy. apply elem_of_nil in Hy. contradiction. }
      assert (Hnew : forall (r : outcome (nat * heap)) (R : bool), (exists y s', r = Ok (y, s') /\
          evolves (fun z => false = true /\ z = x) s s' [y] /\ look s' y = Some c) -> t <> TRef ->
        exists q ys s', (let* '(y, s') := r in Ok (if R then PRef y else PVar y, [y], s')) = Ok (q, ys, s') /\
        evolves (fun x0 => false = true /\ Some x = Some x0) s s' ys /\
        (param_content s' q = param_content s0 (PRef x) /\ (forall o, q = PObject o <-> PRef x = PObject o) /\
         (t = TRef -> q = PRef x)) /\
        (forall x0, place_of q = Some x0 -> x0 ∈ ys \/ (false = false /\ Some x = Some x0)) /\
        (forall x0, x0 ∈ ys -> place_of q = Some x0) /\
        (forall x0, false = true -> Some x = Some x0 -> left_by t (look s0 x0) (look s' x0))).
      { intros r R (y & s' & -> & Ev & Hy) Hnt. exists (if R then PRef y else PVar y), [y], s'. simpl.
        assert (Hpl : place_of (if R then PRef y else PVar y) = Some y) by (destruct R; reflexivity).
        split; [reflexivity|]. split; [eapply evolves_mono; [|exact Ev]; simpl; intros z _ [? _]; discriminate|].
        split; [|split; [|split; [|discriminate]]].
        - repeat split; try (destruct R; discriminate); try congruence; try discriminate.
          unfold param_content. rewrite Hpl. simpl. congruence.
        - intros z Hz. left. rewrite Hpl in Hz. injection Hz as <-. left.
        - intros z ->%elem_of_list_singleton. exact Hpl. }
      destruct Hc; try discriminate; simpl.
      + apply Hid.
      + destruct (ot_same ot); [exact Hid|]. apply (Hnew _ (ot_ref ot)); [|discriminate].
        destruct (cast_var_step isa cxx20 k false ot x s o b None Hh Hx1) as (y & s' & E & Ev & Hy & _);
          [apply Hi; [reflexivity|]; unfold param_content; simpl; rewrite Hx; reflexivity|congruence|].
        exists y, s'. auto.
      + apply (Hnew _ true); [|discriminate]. unfold cast_vptr. rewrite (read_ok _ _ _ Hx1). simpl. unfold cast_object.
        assert (Hio : isa o (ot_class ot) = true).
        { apply Hi; [reflexivity|]. unfold param_object, param_content. simpl. rewrite Hx. reflexivity. }
        rewrite (eq_trans (f_equal (fun f => f o) Ha) H), Hio. simpl. rewrite alloc_grow. eexists _, _. split; [reflexivity|].
        split; [|apply look_grow_new].
        eapply evolves_mono; [|apply evolves_grow_only; [exact Hh|..]]; [intros; contradiction|..];
          eapply healthy_copy; eauto; intros; discriminate.
      + apply (Hnew _ true); [|discriminate].
        destruct (cast_vptr_step cf w isa cxx20 k false ot x s o b (Some vp) Hh Hx1) as (y & s' & E & Ev & Hy & _);
          [apply Hi; [reflexivity|]; unfold param_content; simpl; rewrite Hx; reflexivity|congruence|].
        exists y, s'. auto.
    - (* a variable *)
      assert (Hx1 : look s x = Some c) by (rewrite Hs by reflexivity; exact Hx).
      pose proof (look_some_lt _ _ _ Hx1) as Hxlt.
      assert (Hnew : forall (r : outcome (nat * heap)) (R : bool), (exists y s', r = Ok (y, s') /\
          evolves (fun z => true = true /\ z = x) s s' [y] /\ look s' y = Some c /\ left_by t (Some c) (look s' x)) ->
        exists q ys s', (let* '(y, s') := r in Ok (if R then PRef y else PVar y, [y], s')) = Ok (q, ys, s') /\
        evolves (fun x0 => true = true /\ Some x = Some x0) s s' ys /\
        (param_content s' q = param_content s0 (PVar x) /\ (forall o, q = PObject o <-> PVar x = PObject o) /\
         (t = TRef -> q = PVar x)) /\
        (forall x0, place_of q = Some x0 -> x0 ∈ ys \/ (true = false /\ Some x = Some x0)) /\
        (forall x0, x0 ∈ ys -> place_of q = Some x0) /\
        (forall x0, true = true -> Some x = Some x0 -> left_by t (look s0 x0) (look s' x0))).
      { intros r R (y & s' & -> & Ev & Hy & Hleft). exists (if R then PRef y else PVar y), [y], s'. simpl.
        assert (Hpl : place_of (if R then PRef y else PVar y) = Some y) by (destruct R; reflexivity).
        split; [reflexivity|]. split; [eapply evolves_mono; [|exact Ev]; simpl; intros z _ [_ ->]; auto|].
        split; [|split; [|split]].
        - repeat split; try (destruct R; discriminate); try discriminate.
          + unfold param_content. rewrite Hpl. simpl. congruence.
          + intros ->. discriminate.
        - intros z Hz. left. rewrite Hpl in Hz. injection Hz as <-. left.
        - intros z ->%elem_of_list_singleton. exact Hpl.
        - intros z _ [= <-]. rewrite Hx. exact Hleft. }
      assert (Hio : is_virtual_type t = true -> forall o, target c = Some o -> isa o (ot_class ot) = true).
      { intros Hv o Ho. apply Hi; [exact Hv|]. unfold param_object, param_content. simpl. rewrite Hx. exact Ho. }
      assert (Hplain : forall p cn, ct_handle cn = HRaw p -> c = cn -> evolves (fun z => true = true /\ z = x) s (grow cn s) [length (hp_vars s)] /\
        look (grow cn s) (length (hp_vars s)) = Some c /\ look (grow cn s) x = Some c).
      { intros p cn Ecn ->. split; [|split; [apply look_grow_new|rewrite look_grow_ne by lia; exact Hx1]].
        eapply evolves_mono; [|apply evolves_grow_only; [exact Hh|..]]; [intros; contradiction|..];
          eapply healthy_copy; eauto; intros ? ? ? ? ->; discriminate. }
      destruct Hc; try discriminate; simpl; simpl in Hio; specialize (Hio eq_refl) || idtac.
      + (* a value: two moves *)
        destruct (move_step cf w x s _ Hh Hx1) as (y & s1 & E1 & Ev1 & Hy1 & Hx1').
        destruct (move_step cf w y s1 _ (ev_healthy _ _ _ _ Ev1) Hy1) as (z & s2 & E2 & Ev2 & Hz2 & Hy2).
        rewrite E1. cbn [obind]. rewrite E2. cbn [obind].
        rewrite (destroy_empty _ _ _ Hy2 (owned_moved cf w _)). cbn [obind].
        apply (Hnew (Ok (z, write y None s2)) false).
        destruct (ev_locals _ _ _ _ Ev1 y ltac:(left)) as [Hyge Hyl]. apply look_lt in Hyl.
        destruct (ev_locals _ _ _ _ Ev2 z ltac:(left)) as [Hzge Hzl].
        exists z, (write y None s2). split; [reflexivity|]. split; [|split].
        * eapply evolves_drop; [|exact Hy2|apply owned_moved].
          eapply evolves_mono; [|exact (evolves_trans _ _ _ _ _ _ _ Ev1 Ev2)].
          intros u Hu [<-|<-]; [auto|lia].
        * rewrite look_write_ne by lia. exact Hz2.
        * rewrite look_write_ne by lia. rewrite (ev_keep _ _ _ _ Ev2); [rewrite Hx1'; reflexivity| |lia].
          apply look_some_lt in Hx1'. exact Hx1'.
      + rewrite (read_ok _ _ _ Hx1). simpl. unfold cast_object. rewrite (eq_trans (f_equal (fun f => f o) Ha) H), (Hio o) by reflexivity. simpl.
        destruct (Hplain _ (Content (HRaw (Some o)) None) eq_refl eq_refl) as (Ev & Hy & Hx2).
        apply (Hnew (Ok (alloc (Content (HRaw (Some o)) None) s)) false). rewrite alloc_grow.
        eexists _, _. split; [reflexivity|]. split; [exact Ev|]. split; [exact Hy|]. rewrite Hx2. reflexivity.
      + apply (Hnew _ (ot_ref ot)).
        destruct (cast_var_step isa cxx20 k true ot x s o b None Hh Hx1) as (y & s' & E & Ev & Hy & Hx2); auto.
        exists y, s'. rewrite Hx2. split; [exact E|]. split; [exact Ev|]. split; [exact Hy|].
        simpl. destruct (takes cxx20 k true) eqn:Etk; [left|right]; auto.
      + apply (Hnew _ false). unfold cast_vptr. rewrite (read_ok _ _ _ Hx1). simpl. unfold cast_object.
        rewrite (eq_trans (f_equal (fun f => f o) Ha) H), (Hio o) by reflexivity. simpl. rewrite alloc_grow.
        destruct (Hplain _ (Content (HRaw (Some o)) (Some vp)) eq_refl eq_refl) as (Ev & Hy & Hx2).
        eexists _, _. split; [reflexivity|]. split; [exact Ev|]. split; [exact Hy|]. rewrite Hx2. reflexivity.
      + apply (Hnew _ false).
        destruct (cast_vptr_step cf w isa cxx20 k true ot x s o b (Some vp) Hh Hx1) as (y & s' & E & Ev & Hy & Hx2); auto.
        exists y, s'. rewrite Hx2. split; [exact E|]. split; [exact Ev|]. split; [exact Hy|].
        simpl. destruct (takes cxx20 k true) eqn:Etk; [left|right]; auto.
  Qed.
End Stages.
