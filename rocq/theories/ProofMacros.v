(* Proofs about the macros (C50). *)
From stdpp Require Import base list numbers.
From stdpp Require Import list_numbers.
From Verif Require Import Base Registry Spec ModelClasses ModelHash ModelWorld ModelCall SpecCall
  ModelSignature SpecSignature ModelMacros SpecMacros ProofSignature.

(* ---- lists ---- *)
Lemma filter_singleton {A} (P : A -> Prop) `{!forall x, Decision (P x)} (l : list A) x : NoDup l ->
  filter P l = [x] <-> (x ∈ l /\ P x /\ forall y, y ∈ l -> P y -> y = x).
Proof.
  intros Hl. split.
  - intros Hf. assert (Hx : x ∈ filter P l) by (rewrite Hf; constructor).
    apply elem_of_list_filter in Hx as [Hx Hin]. split; [exact Hin|]. split; [exact Hx|].
    intros y Hy HP. assert (y ∈ filter P l) as Hyl by (by apply elem_of_list_filter).
    rewrite Hf in Hyl. by apply elem_of_list_singleton in Hyl.
  - intros (Hin & Hx & Hu).
    assert (Hn : NoDup (filter P l)) by (by apply stdpp.list.NoDup_filter).
    assert (Hi : x ∈ filter P l) by (by apply elem_of_list_filter).
    assert (Ha : forall y, y ∈ filter P l -> y = x).
    { intros y [H1 H2]%elem_of_list_filter. by apply Hu. }
    destruct (filter P l) as [|y l']; [inversion Hi|].
    rewrite (Ha y) by constructor. f_equal. destruct l' as [|z l']; [reflexivity|].
    exfalso. inversion Hn as [|? ? H1 H2]; subst. apply H1.
    rewrite (Ha y) by constructor. rewrite <- (Ha z) by (right; constructor). constructor.
Qed.

Lemma suffix_both {A} (l k : list A) : l `suffix_of` k -> k `suffix_of` l -> l = k.
Proof.
  intros [x ->] [y H]. apply (f_equal length) in H. rewrite !app_length in H.
  destruct x; [reflexivity|simpl in H; lia].
Qed.

Lemma sorted_snoc (js : list nat) (b : nat) :
  (forall n n' j j', n < n' -> js !! n = Some j -> js !! n' = Some j' -> j < j') ->
  (forall j, j ∈ js -> j < b) ->
  forall n n' j j', n < n' -> (js ++ [b]) !! n = Some j -> (js ++ [b]) !! n' = Some j' -> j < j'.
Proof.
  intros Hs Hb n n' j j' Hn H1 H2.
  apply lookup_app_Some in H2 as [H2|[Hl H2]].
  - pose proof (lookup_lt_Some _ _ _ H2). rewrite lookup_app_l in H1 by lia. eauto.
  - apply list_lookup_singleton_Some in H2 as [Hz <-].
    rewrite lookup_app_l in H1 by lia. apply Hb. by eapply elem_of_list_lookup_2.
Qed.

Lemma suffix_of_cons {A} (l k : list A) x : l `suffix_of` x :: k -> l = x :: k \/ l `suffix_of` k.
Proof. destruct l as [|y l]; [right; apply suffix_nil|apply suffix_cons_inv]. Qed.

Lemma in_concat_map {A B} (f : A -> list B) l x : x ∈ concat (map f l) <-> exists y, y ∈ l /\ x ∈ f y.
Proof.
  rewrite elem_of_list_In, in_concat. split.
  - intros (k & (y & <- & Hy)%in_map_iff & Hx). exists y. by rewrite !elem_of_list_In.
  - intros (y & Hy & Hx). exists (f y). rewrite in_map_iff, <- elem_of_list_In. split; [|exact Hx].
    exists y. by rewrite <- elem_of_list_In.
Qed.

Section Macros.
  Context (polymorphic : ty -> bool) (base_of convertible : ty -> ty -> bool).
  Context (associated : ty -> list namespace).
  Notation takes := (takes convertible).
  Notation can_mean := (can_mean convertible associated).
  Notation means := (means convertible associated).
  Notation overrides := (overrides convertible associated).
  Notation registered_as := (registered_as convertible associated).
  Notation locate := (locate convertible associated).
  Notation declare := (declare polymorphic base_of convertible associated).
  Notation translate := (translate polymorphic base_of convertible associated).

  Lemma undecorated_is p p' : undecorated p p' <-> p' = remove_virtual p.
  Proof.
    split.
    - intros [t|t Ht]; [reflexivity|]. destruct t; try reflexivity. exfalso. by eapply Ht.
    - intros ->. destruct p; try (apply undecorated_other; discriminate). constructor.
  Qed.

  Lemma callable_takes ps qs : callable convertible ps qs = true <-> takes ps qs.
  Proof.
    unfold callable, SpecMacros.takes. rewrite andb_true_iff, bool_decide_eq_true. split.
    - intros [Hl Hf]. revert qs Hl Hf. induction ps as [|p ps IH]; intros [|q qs] Hl Hf; try discriminate; constructor.
      + simpl in Hf. apply andb_prop in Hf as [H _]. exists (remove_virtual p). by rewrite undecorated_is.
      + simpl in Hf. apply andb_prop in Hf as [_ H]. apply IH; [simpl in Hl; lia|exact H].
    - intros HF. split; [by eapply Forall2_length|].
      induction HF as [|p q ps qs (p' & Hu & Hc) HF IH]; [reflexivity|]. simpl.
      apply undecorated_is in Hu as ->. by rewrite Hc, IH.
  Qed.

  (* ---- lookup ---- *)
  Definition has (ms : list method_decl) (ns : namespace) (name : N) : Prop :=
    exists m, m ∈ ms /\ md_scope m = ns /\ md_name m = name.

  Lemma has_existsb ms ns name :
    existsb (fun m => bool_decide (md_scope m = ns) && bool_decide (md_name m = name)) ms = true <->
    has ms ns name.
  Proof.
    rewrite existsb_exists. split; intros (m & Hm & H).
    - apply andb_prop in H as [H1%bool_decide_eq_true H2%bool_decide_eq_true].
      exists m. by rewrite elem_of_list_In.
    - exists m. destruct H as [<- <-]. rewrite !bool_decide_true by reflexivity.
      by rewrite <- elem_of_list_In.
  Qed.

  Lemma nearest_is ns name ms ns' :
    nearest_scope ns name ms = Some ns' <->
    (ns' `suffix_of` ns /\ has ms ns' name /\
     forall ns'', has ms ns'' name -> ns'' `suffix_of` ns -> ns'' `suffix_of` ns').
  Proof.
    revert ns'. induction ns as [|x up IH]; intros ns'; cbn [nearest_scope].
    - match goal with |- context [existsb ?f ms] => destruct (existsb f ms) eqn:He end.
      + apply has_existsb in He. split.
        * intros [= <-]. split; [reflexivity|]. split; [exact He|]. auto.
        * intros (Hs & _ & _). by apply suffix_nil_inv in Hs as ->.
      + assert (Hn : ~ has ms [] name) by (rewrite <- has_existsb; congruence).
        split; [discriminate|]. intros (Hs & H & _). apply suffix_nil_inv in Hs as ->. contradiction.
    - match goal with |- context [existsb ?f ms] => destruct (existsb f ms) eqn:He end.
      + apply has_existsb in He. split.
        * intros [= <-]. split; [reflexivity|]. split; [exact He|]. auto.
        * intros (Hs & _ & Hu). f_equal. symmetry. apply suffix_both; [exact Hs|]. by apply Hu.
      + assert (Hn : ~ has ms (x :: up) name) by (rewrite <- has_existsb; congruence).
        rewrite IH. split.
        * intros (Hs & Hh & Hu). split; [by apply suffix_cons_r|]. split; [exact Hh|].
          intros ns'' H1 [->|H2]%suffix_of_cons; [contradiction|]. by apply Hu.
        * intros ([->|Hs]%suffix_of_cons & Hh & Hu); [contradiction|].
          split; [exact Hs|]. split; [exact Hh|]. intros ns'' H1 H2. apply Hu; [exact H1|by apply suffix_cons_r].
  Qed.

  (* [ms] are the methods of [ds], with numbers [js]. *)
  Definition heads (ds : list declaration) (js : list nat) (ms : list method_decl) : Prop :=
    Forall2 (fun j m => method_at ds j (md_scope m) (md_name m) (ms_parameters (md_source m))) js ms.

  Lemma method_at_fun ds j ns name ps ns' name' ps' :
    method_at ds j ns name ps -> method_at ds j ns' name' ps' -> ns = ns' /\ name = name' /\ ps = ps'.
  Proof. intros (r & ret & fns & H) (r' & ret' & fns' & H'). rewrite H in H'. by injection H'. Qed.

  Lemma numbers_inj ds js n n' j : numbers ds js -> js !! n = Some j -> js !! n' = Some j -> n = n'.
  Proof.
    intros [Hs _] H1 H2. destruct (Nat.lt_trichotomy n n') as [H|[H|H]]; [|exact H|];
      [pose proof (Hs _ _ _ _ H H1 H2)|pose proof (Hs _ _ _ _ H H2 H1)]; lia.
  Qed.

  Section Lookup.
    Context ds js ms (HN : numbers ds js) (HH : heads ds js ms).

    Lemma has_method ns name : has ms ns name <-> exists j ps, method_at ds j ns name ps.
    Proof.
      split.
      - intros (m & Hm & <- & <-). apply elem_of_list_lookup in Hm as [n Hn].
        destruct (Forall2_lookup_r _ _ _ _ _ HH Hn) as (j & _ & Hj). eauto.
      - intros (j & ps & Hj).
        assert (Hin : j ∈ js) by (apply HN; eauto). apply elem_of_list_lookup in Hin as [n Hn].
        destruct (Forall2_lookup_l _ _ _ _ _ HH Hn) as (m & Hm & Hjm).
        destruct (method_at_fun _ _ _ _ _ _ _ _ Hj Hjm) as (-> & -> & _).
        exists m. split; [by eapply elem_of_list_lookup_2|auto].
    Qed.

    Lemma viable_means ns name qs n m j : ms !! n = Some m -> js !! n = Some j ->
      viable convertible associated ns name qs ms m = true <-> can_mean ds ns name qs j.
    Proof.
      intros Hm Hj. destruct (Forall2_lookup_lr _ _ _ _ _ _ HH Hj Hm) as (r & ret & fns & Hd).
      assert (Hat : method_at ds j (md_scope m) (md_name m) (ms_parameters (md_source m)))
        by (red; eauto).
      unfold viable. rewrite !andb_true_iff, orb_true_iff, !bool_decide_eq_true, callable_takes.
      rewrite nearest_is. split.
      - intros [[<- Hv] Ht]. exists (md_scope m), (ms_parameters (md_source m)).
        split; [exact Hat|]. split; [exact Ht|]. destruct Hv as [(Hs & _ & Hu)|Hv].
        + left. split; [exact Hs|]. intros j' ns'' ps' Hj' Hsf. apply Hu; [|exact Hsf].
          apply has_method. eauto.
        + right. by apply in_concat_map.
      - intros (ns' & ps & Hj' & Ht & Hv).
        destruct (method_at_fun _ _ _ _ _ _ _ _ Hj' Hat) as (-> & -> & ->).
        split; [|exact Ht]. split; [reflexivity|]. destruct Hv as [[Hs Hu]|(q & Hq & Hns)].
        + left. split; [exact Hs|]. split; [apply has_method; eauto|].
          intros ns'' (j'' & ps'' & H)%has_method Hsf. eauto.
        + right. apply in_concat_map. eauto.
    Qed.

    Theorem locate_means ns name qs n :
      locate ns name qs ms = Some n <-> exists j, js !! n = Some j /\ means ds ns name qs j.
    Proof.
      set (P := fun n => match ms !! n with
                         | Some m => viable convertible associated ns name qs ms m
                         | None => false end = true).
      assert (HL : locate ns name qs ms = Some n <-> filter P (seq 0 (length ms)) = [n]).
      { unfold ModelMacros.locate. fold P. destruct (filter P (seq 0 (length ms))) as [|x [|y l]];
          split; congruence. }
      rewrite HL, (filter_singleton P _ _ (NoDup_seq _ _)).
      assert (HP : forall k, P k <-> exists j, js !! k = Some j /\ can_mean ds ns name qs j).
      { intros k. unfold P. split.
        - destruct (ms !! k) as [m|] eqn:Hm; [|discriminate]. intros Hv.
          destruct (Forall2_lookup_r _ _ _ _ _ HH Hm) as (j & Hj & _). exists j.
          split; [exact Hj|]. by apply (viable_means _ _ _ k m).
        - intros (j & Hj & Hc). destruct (Forall2_lookup_l _ _ _ _ _ HH Hj) as (m & Hm & _).
          rewrite Hm. by apply (viable_means _ _ _ k m j). }
      assert (HI : forall k, P k -> k ∈ seq 0 (length ms)).
      { intros k Hk. apply elem_of_seq. unfold P in Hk. destruct (ms !! k) eqn:Hm; [|discriminate].
        apply lookup_lt_Some in Hm. lia. }
      split.
      - intros (_ & Hn & Hu). apply HP in Hn as (j & Hj & Hc). exists j. split; [exact Hj|].
        split; [exact Hc|]. intros j' Hc'.
        assert (Hin : j' ∈ js) by (apply HN; destruct Hc' as (ns' & ps & H & _); eauto).
        apply elem_of_list_lookup in Hin as [n' Hn'].
        assert (n' = n) as -> by (apply Hu; [apply HI|]; apply HP; eauto). congruence.
      - intros (j & Hj & Hc & Hu). assert (HPn : P n) by (apply HP; eauto).
        split; [by apply HI|]. split; [exact HPn|]. intros n' _ (j' & Hj' & Hc')%HP.
        rewrite (Hu _ Hc') in Hj'. eapply numbers_inj; eauto.
    Qed.
  End Lookup.

  (* ---- growing translation units ---- *)
  Lemma method_at_snoc ds d j ns name ps :
    method_at (ds ++ [d]) j ns name ps <->
    method_at ds j ns name ps \/ (j = length ds /\ exists r ret fns, d = Method ns name r ps ret fns).
  Proof.
    unfold method_at. split.
    - intros (r & ret & fns & [H|[Hl H]]%lookup_app_Some); [left; eauto|].
      apply list_lookup_singleton_Some in H as [H ->]. right. split; [lia|eauto].
    - intros [(r & ret & fns & H)|[-> (r & ret & fns & ->)]]; exists r, ret, fns.
      + by apply lookup_app_l_Some.
      + by rewrite lookup_app_r, Nat.sub_diag.
  Qed.

  Lemma method_at_lt ds j ns name ps : method_at ds j ns name ps -> j < length ds.
  Proof. intros (r & ret & fns & H). by eapply lookup_lt_Some. Qed.

  Lemma means_lt ds ns name qs j : means ds ns name qs j -> j < length ds.
  Proof. intros [(ns' & ps & H & _) _]. by eapply method_at_lt. Qed.

  Lemma lookup_snoc_Some {A} (l : list A) (d : A) i x :
    (l ++ [d]) !! i = Some x <-> l !! i = Some x \/ (i = length l /\ x = d).
  Proof.
    rewrite lookup_app_Some, list_lookup_singleton_Some. split.
    - intros [H|(H1 & H2 & <-)]; [auto|]. right. split; [lia|reflexivity].
    - intros [H|[-> ->]]; [auto|]. right. split; [lia|]. split; [lia|reflexivity].
  Qed.

  Lemma take_snoc {A} (l : list A) d k : k <= length l -> take k (l ++ [d]) = take k l.
  Proof. intros H. by apply take_app_le. Qed.

  Lemma overrides_old ds d i j : i < length ds -> overrides (ds ++ [d]) i j <-> overrides ds i j.
  Proof.
    intros Hi. split; intros (ns & name & qs & ret & pf & next & k & H1 & H2 & H3 & H4);
      exists ns, name, qs, ret, pf, next, k.
    - rewrite lookup_app_l in H1, H2 by lia. rewrite take_snoc in H4 by lia. auto.
    - rewrite !lookup_app_l, take_snoc by lia. auto.
  Qed.

  Lemma overrides_lt ds i j : overrides ds i j -> i < length ds /\ j < i.
  Proof.
    intros (ns & name & qs & ret & pf & next & k & H1 & H2 & H3 & H4).
    split; [by eapply lookup_lt_Some|]. apply means_lt in H4. rewrite take_length in H4. lia.
  Qed.

  Lemma overrides_other ds d i j : (forall ns name qs ret pf next, d <> Define ns name qs ret pf next) ->
    overrides (ds ++ [d]) i j <-> overrides ds i j.
  Proof.
    intros Hd. destruct (decide (i < length ds)) as [Hi|Hi]; [by apply overrides_old|]. split.
    - intros (ns & name & qs & ret & pf & next & k & H1 & _).
      apply lookup_snoc_Some in H1 as [H1|[_ H1]]; [apply lookup_lt_Some in H1; lia|].
      exfalso. by eapply Hd.
    - intros H%overrides_lt. lia.
  Qed.

  Lemma defines_snoc ds d i o : defines ds i o -> defines (ds ++ [d]) i o.
  Proof. intros (ns & name & H). exists ns, name. by apply lookup_app_l_Some. Qed.

  Lemma registered_snoc ds d j m :
    (forall i, overrides (ds ++ [d]) i j <-> overrides ds i j) ->
    registered_as ds j m -> registered_as (ds ++ [d]) j m.
  Proof.
    intros Ho (os & Hj & Hd & Hs & Hi). exists os. split; [by apply lookup_app_l_Some|].
    split; [eapply Forall2_impl; [exact Hd|]; intros; by apply defines_snoc|]. split; [exact Hs|].
    intros i. by rewrite Hi, Ho.
  Qed.

  Record inv (ds : list declaration) (us : unit_state) (js : list nat) : Prop := {
    in_numbers : numbers ds js;
    in_methods : Forall2 (registered_as ds) js (us_methods us);
    in_compile : forall m, m ∈ us_methods us ->
      method_source_compiles (md_registry m) polymorphic base_of convertible (md_source m) = true;
    in_containers : forall c, c ∈ us_containers us -> exists k j,
      ds !! k = Some (Declare (ct_scope c) (ct_name c) (ct_parameters c) (ct_return c)) /\
      js !! ct_method c = Some j /\
      means (take k ds) (ct_scope c) (ct_name c) (ct_parameters c) j /\
      (ct_defined c = true <-> exists i pf next,
         ds !! i = Some (Define (ct_scope c) (ct_name c) (ct_parameters c) (ct_return c) pf next));
    in_declared : forall k ns name qs ret, ds !! k = Some (Declare ns name qs ret) ->
      exists c, c ∈ us_containers us /\ ct_scope c = ns /\ ct_name c = name /\ ct_parameters c = qs /\
        ct_return c = ret;
    in_once : forall k k' ns name qs ret, ds !! k = Some (Declare ns name qs ret) ->
      ds !! k' = Some (Declare ns name qs ret) -> k = k';
    in_defined : forall i ns name qs ret pf next, ds !! i = Some (Define ns name qs ret pf next) ->
      exists k, k < i /\ ds !! k = Some (Declare ns name qs ret);
    in_keys : forall n n' c c', us_containers us !! n = Some c -> us_containers us !! n' = Some c' ->
      ct_scope c = ct_scope c' -> ct_name c = ct_name c' -> ct_parameters c = ct_parameters c' ->
      ct_return c = ct_return c' -> n = n'
  }.

  Lemma inv_heads ds us js : inv ds us js -> heads ds js (us_methods us).
  Proof.
    intros HI. eapply Forall2_impl; [apply (in_methods _ _ _ HI)|].
    intros j m (os & Hj & _). red. eauto.
  Qed.

  Lemma same_container_is ns name qs ret c : same_container ns name qs ret c = true <->
    ct_scope c = ns /\ ct_name c = name /\ ct_parameters c = qs /\ ct_return c = ret.
  Proof. unfold same_container. rewrite !andb_true_iff, !bool_decide_eq_true. tauto. Qed.

  Lemma inv_start : inv [] (UnitState [] []) [].
  Proof.
    split.
    - split; [discriminate|]. intros j. split; [intros H; inversion H|].
      intros (ns & name & ps & H%method_at_lt). simpl in H. lia.
    - constructor.
    - intros m H. inversion H.
    - intros c H. inversion H.
    - discriminate.
    - discriminate.
    - discriminate.
    - discriminate.
  Qed.

  Lemma inv_method ds us js ns name r ps ret fns us' : inv ds us js ->
    declare us (Method ns name r ps ret fns) = Some us' ->
    inv (ds ++ [Method ns name r ps ret fns]) us' (js ++ [length ds]).
  Proof.
    intros HI Hd. simpl in Hd. destruct fns as [[ni amb] ss].
    destruct (existsb _ _); [discriminate|].
    destruct (method_compiles r polymorphic ps) eqn:Hc; [|discriminate]. simpl in Hd. injection Hd as <-.
    pose proof (in_numbers _ _ _ HI) as [Hs Hin].
    set (d := Method ns name r ps ret (ni, amb, ss)).
    assert (Ho : forall i j, overrides (ds ++ [d]) i j <-> overrides ds i j)
      by (intros; apply overrides_other; discriminate).
    split.
    - split.
      + apply sorted_snoc; [exact Hs|]. intros j (ns' & name' & ps' & H)%Hin. by eapply method_at_lt.
      + intros j. rewrite elem_of_app, elem_of_list_singleton, Hin. split.
        * intros [(ns' & name' & ps' & H)| ->].
          -- exists ns', name', ps'. apply method_at_snoc. auto.
          -- exists ns, name, ps. apply method_at_snoc. right. unfold d. eauto.
        * intros (ns' & name' & ps' & [H|[-> _]]%method_at_snoc); [left; eauto|auto].
    - simpl. apply Forall2_app.
      + eapply Forall2_impl; [apply (in_methods _ _ _ HI)|]. intros j m. by apply registered_snoc.
      + constructor; [|constructor]. exists []. simpl. split; [by rewrite lookup_app_r, Nat.sub_diag|].
        split; [constructor|]. split; [discriminate|]. intros i. split; [intros H; inversion H|].
        rewrite Ho. intros [H1 H2]%overrides_lt. lia.
    - simpl. intros m [Hm|Hm%elem_of_list_singleton]%elem_of_app; [by apply (in_compile _ _ _ HI)|].
      subst m. unfold method_source_compiles. simpl. by rewrite Hc.
    - simpl. intros c Hcc. destruct (in_containers _ _ _ HI c Hcc) as (k & j & H1 & H2 & H3 & H4).
      exists k, j. split; [by apply lookup_app_l_Some|]. split; [by apply lookup_app_l_Some|].
      pose proof (lookup_lt_Some _ _ _ H1). rewrite take_snoc by lia. split; [exact H3|].
      rewrite H4. split; intros (i & pf & next & H5); exists i, pf, next.
      + by apply lookup_app_l_Some.
      + by apply lookup_snoc_Some in H5 as [H5|[_ H5]].
    - simpl. intros k ns' name' qs' ret' [H|[_ H]]%lookup_snoc_Some; [|discriminate].
      by apply (in_declared _ _ _ HI k).
    - intros k k' ns' name' qs' ret' [H|[_ H]]%lookup_snoc_Some [H'|[_ H']]%lookup_snoc_Some; try discriminate.
      by eapply (in_once _ _ _ HI).
    - intros i ns' name' qs' ret' pf next [H|[_ H]]%lookup_snoc_Some; [|discriminate].
      destruct (in_defined _ _ _ HI _ _ _ _ _ _ _ H) as (k & Hk & H'). exists k.
      split; [exact Hk|by apply lookup_app_l_Some].
    - simpl. apply (in_keys _ _ _ HI).
  Qed.

  Lemma inv_declare ds us js ns name qs ret us' : inv ds us js ->
    declare us (Declare ns name qs ret) = Some us' ->
    inv (ds ++ [Declare ns name qs ret]) us' js.
  Proof.
    intros HI Hd. simpl in Hd.
    destruct (existsb (same_container ns name qs ret) (us_containers us)) eqn:He; [discriminate|].
    destruct (locate ns name qs (us_methods us)) as [n|] eqn:Hl; [|discriminate]. injection Hd as <-.
    apply (locate_means ds js _ (in_numbers _ _ _ HI) (inv_heads _ _ _ HI)) in Hl as (j & Hj & Hm).
    assert (Hno : forall c, c ∈ us_containers us -> ~ (ct_scope c = ns /\ ct_name c = name /\
        ct_parameters c = qs /\ ct_return c = ret)).
    { intros c Hc Heq. apply same_container_is in Heq.
      assert (existsb (same_container ns name qs ret) (us_containers us) = true); [|congruence].
      apply existsb_exists. exists c. split; [by apply elem_of_list_In|exact Heq]. }
    assert (Hnd : forall k, ds !! k <> Some (Declare ns name qs ret)).
    { intros k Hk. destruct (in_declared _ _ _ HI _ _ _ _ _ Hk) as (c & Hc & Heq). by apply (Hno c). }
    set (d := Declare ns name qs ret).
    assert (Ho : forall i j, overrides (ds ++ [d]) i j <-> overrides ds i j)
      by (intros; apply overrides_other; discriminate).
    split.
    - destruct (in_numbers _ _ _ HI) as [Hs Hin]. split; [exact Hs|]. intros j'. rewrite Hin.
      split; intros (ns' & name' & ps' & H); exists ns', name', ps'.
      + apply method_at_snoc. auto.
      + apply method_at_snoc in H as [H|(_ & r & rt & fns & H)]; [exact H|discriminate].
    - eapply Forall2_impl; [apply (in_methods _ _ _ HI)|]. intros j' m. by apply registered_snoc.
    - apply (in_compile _ _ _ HI).
    - simpl. intros c [Hc|Hc%elem_of_list_singleton]%elem_of_app.
      + destruct (in_containers _ _ _ HI c Hc) as (k & j' & H1 & H2 & H3 & H4).
        exists k, j'. split; [by apply lookup_app_l_Some|]. split; [exact H2|].
        pose proof (lookup_lt_Some _ _ _ H1). rewrite take_snoc by lia. split; [exact H3|].
        rewrite H4. split; intros (i & pf & next & H5); exists i, pf, next.
        * by apply lookup_app_l_Some.
        * by apply lookup_snoc_Some in H5 as [H5|[_ H5]].
      + subst c. simpl. exists (length ds), j. split; [by rewrite lookup_app_r, Nat.sub_diag|].
        split; [exact Hj|]. rewrite take_app. split; [exact Hm|]. split; [discriminate|].
        intros (i & pf & next & [H|[_ H]]%lookup_snoc_Some); [|discriminate].
        destruct (in_defined _ _ _ HI _ _ _ _ _ _ _ H) as (k & _ & Hk). exfalso. by eapply Hnd.
    - simpl. intros k ns' name' qs' ret' [H|[_ H]]%lookup_snoc_Some.
      + destruct (in_declared _ _ _ HI _ _ _ _ _ H) as (c & Hc & Heq). exists c.
        split; [|exact Heq]. apply elem_of_app. auto.
      + injection H as -> -> -> ->. exists (Container ns name qs ret n false).
        split; [apply elem_of_app; right; constructor|auto].
    - intros k k' ns' name' qs' ret' [H|[-> H]]%lookup_snoc_Some [H'|[-> H']]%lookup_snoc_Some.
      + by eapply (in_once _ _ _ HI).
      + injection H' as -> -> -> ->. exfalso. by eapply Hnd.
      + injection H as -> -> -> ->. exfalso. by eapply Hnd.
      + reflexivity.
    - intros i ns' name' qs' ret' pf next [H|[_ H]]%lookup_snoc_Some; [|discriminate].
      destruct (in_defined _ _ _ HI _ _ _ _ _ _ _ H) as (k & Hk & H'). exists k.
      split; [exact Hk|by apply lookup_app_l_Some].
    - simpl. intros i i' c c' [H|[-> H]]%lookup_snoc_Some [H'|[-> H']]%lookup_snoc_Some E1 E2 E3 E4.
      + by eapply (in_keys _ _ _ HI).
      + subst c'. simpl in *. exfalso. apply (Hno c); [by eapply elem_of_list_lookup_2|auto].
      + subst c. simpl in *. exfalso. apply (Hno c'); [by eapply elem_of_list_lookup_2|auto].
      + reflexivity.
  Qed.

  Lemma inv_define ds us js ns name qs ret pf next us' : inv ds us js ->
    declare us (Define ns name qs ret pf next) = Some us' ->
    inv (ds ++ [Define ns name qs ret pf next]) us' js.
  Proof.
    intros HI Hd. simpl in Hd.
    destruct (list_find _ (us_containers us)) as [[p c]|] eqn:Hf; [|discriminate].
    apply list_find_Some in Hf as (Hp & Hkey & _). apply same_container_is in Hkey as (E1 & E2 & E3 & E4).
    destruct (ct_defined c) eqn:Hdef; [discriminate|].
    destruct (us_methods us !! ct_method c) as [m|] eqn:Hm; [|discriminate].
    destruct (overrider_compiles _ _ _ _ _) eqn:Hcomp; [|discriminate]. injection Hd as <-.
    destruct (in_containers _ _ _ HI c (elem_of_list_lookup_2 _ _ _ Hp)) as (k & j & H1 & H2 & H3 & H4).
    set (d := Define ns name qs ret pf next).
    assert (Hk : k < length ds) by (by eapply lookup_lt_Some).
    assert (Hov : overrides (ds ++ [d]) (length ds) j).
    { exists ns, name, qs, ret, pf, next, k. split; [by rewrite lookup_app_r, Nat.sub_diag|].
      split; [apply lookup_app_l_Some; congruence|]. split; [exact Hk|].
      rewrite take_snoc by lia. congruence. }
    assert (Hov' : forall j', overrides (ds ++ [d]) (length ds) j' -> j' = j).
    { intros j' (ns' & name' & qs' & ret' & pf' & next' & k' & F1 & F2 & F3 & F4).
      rewrite lookup_app_r, Nat.sub_diag in F1 by lia. injection F1 as <- <- <- <- <- <-.
      rewrite lookup_app_l in F2 by lia. rewrite take_snoc in F4 by lia.
      assert (k' = k) as -> by (eapply (in_once _ _ _ HI); [exact F2|congruence]).
      apply H3. rewrite E1, E2, E3. apply F4. }
    assert (Hone : forall j', j' <> j -> forall i, overrides (ds ++ [d]) i j' <-> overrides ds i j').
    { intros j' Hj' i. destruct (Nat.lt_trichotomy i (length ds)) as [Hi|[->|Hi]].
      - by apply overrides_old.
      - split; [intros H; by apply Hov' in H|]. intros [H _]%overrides_lt. lia.
      - split; intros [H _]%overrides_lt; [rewrite app_length in H; simpl in H|]; lia. }
    split.
    - destruct (in_numbers _ _ _ HI) as [Hs Hin]. split; [exact Hs|]. intros j'. rewrite Hin.
      split; intros (ns' & name' & ps' & H); exists ns', name', ps'.
      + apply method_at_snoc. auto.
      + apply method_at_snoc in H as [H|(_ & r & rt & fns & H)]; [exact H|discriminate].
    - simpl. apply Forall2_same_length_lookup. split.
      { rewrite insert_length. by eapply Forall2_length, (in_methods _ _ _ HI). }
      intros n j' m' Hj' Hm'. apply list_lookup_insert_Some in Hm' as [(<- & <- & _)|[Hne Hm']].
      + assert (j' = j) as -> by congruence.
        destruct (Forall2_lookup_lr _ _ _ _ _ _ (in_methods _ _ _ HI) Hj' Hm) as (os & G1 & G2 & G3 & G4).
        exists (os ++ [length ds]). simpl. split; [by apply lookup_app_l_Some|]. split.
        { apply Forall2_app; [eapply Forall2_impl; [exact G2|]; intros; by apply defines_snoc|].
          constructor; [|constructor]. exists ns, name. by rewrite lookup_app_r, Nat.sub_diag. }
        split.
        { apply sorted_snoc; [exact G3|]. intros i Hi%G4. apply (overrides_lt _ _ _ Hi). }
        intros i. rewrite elem_of_app, elem_of_list_singleton, G4. split.
        * intros [H| ->]; [|exact Hov]. apply overrides_old; [apply (overrides_lt _ _ _ H)|exact H].
        * intros H. destruct (decide (i = length ds)) as [->|Hi]; [auto|]. left.
          pose proof (overrides_lt _ _ _ H) as [Hl _]. rewrite app_length in Hl. simpl in Hl.
          apply (overrides_old ds d i j); [lia|exact H].
      + apply registered_snoc;
          [|exact (Forall2_lookup_lr _ _ _ _ _ _ (in_methods _ _ _ HI) Hj' Hm')].
        apply Hone. intros ->. apply Hne. eapply numbers_inj; [apply (in_numbers _ _ _ HI)| |]; eauto.
    - simpl. intros m' Hm'. apply elem_of_list_lookup in Hm' as [n Hn].
      apply list_lookup_insert_Some in Hn as [(_ & <- & _)|[_ Hn]];
        [|by apply (in_compile _ _ _ HI), elem_of_list_lookup_2 with n].
      pose proof (in_compile _ _ _ HI m (elem_of_list_lookup_2 _ _ _ Hm)) as Hc.
      unfold method_source_compiles in *. simpl. rewrite forallb_app. simpl.
      apply andb_prop in Hc as [-> ->]. by rewrite Hcomp.
    - simpl. intros c' Hc'. apply elem_of_list_lookup in Hc' as [n Hn].
      apply list_lookup_insert_Some in Hn as [(<- & <- & _)|[Hne Hn]].
      + simpl. exists k, j. split; [by apply lookup_app_l_Some|]. split; [exact H2|].
        rewrite take_snoc by lia. split; [exact H3|]. split; [|reflexivity].
        intros _. exists (length ds), pf, next. rewrite lookup_app_r, Nat.sub_diag by lia.
        unfold d. simpl. congruence.
      + destruct (in_containers _ _ _ HI c' (elem_of_list_lookup_2 _ _ _ Hn)) as (k' & j' & F1 & F2 & F3 & F4).
        exists k', j'. split; [by apply lookup_app_l_Some|]. split; [exact F2|].
        pose proof (lookup_lt_Some _ _ _ F1). rewrite take_snoc by lia. split; [exact F3|].
        rewrite F4. split; intros (i & pf' & next' & F5); exists i, pf', next'.
        * by apply lookup_app_l_Some.
        * apply lookup_snoc_Some in F5 as [F5|[_ F5]]; [exact F5|]. injection F5 as G1 G2 G3 G4 _ _.
          exfalso. apply Hne. eapply (in_keys _ _ _ HI); [exact Hp|exact Hn|..]; congruence.
    - simpl. intros k' ns' name' qs' ret' [H|[_ H]]%lookup_snoc_Some; [|discriminate].
      destruct (in_declared _ _ _ HI _ _ _ _ _ H) as (c' & Hc' & F1 & F2 & F3 & F4).
      apply elem_of_list_lookup in Hc' as [n Hn]. destruct (decide (n = p)) as [->|Hne].
      + assert (c' = c) as -> by congruence. eexists. split.
        { eapply elem_of_list_lookup_2, list_lookup_insert. by eapply lookup_lt_Some. }
        simpl. auto.
      + exists c'. split; [|auto]. apply (elem_of_list_lookup_2 _ n).
        rewrite list_lookup_insert_ne; [exact Hn|congruence].
    - intros k1 k2 ns' name' qs' ret' [H|[_ H]]%lookup_snoc_Some [H'|[_ H']]%lookup_snoc_Some; try discriminate.
      by eapply (in_once _ _ _ HI).
    - intros i ns' name' qs' ret' pf' next' [H|[-> H]]%lookup_snoc_Some.
      + destruct (in_defined _ _ _ HI _ _ _ _ _ _ _ H) as (k' & Hk' & H'). exists k'.
        split; [exact Hk'|by apply lookup_app_l_Some].
      + injection H as -> -> -> -> -> ->. exists k. split; [exact Hk|]. apply lookup_app_l_Some. congruence.
    - simpl. intros n n' c1 c2 Hn Hn' F1 F2 F3 F4.
      assert (G : forall n c1, <[p := Container (ct_scope c) (ct_name c) (ct_parameters c) (ct_return c)
          (ct_method c) true]> (us_containers us) !! n = Some c1 -> exists c0,
          us_containers us !! n = Some c0 /\ ct_scope c0 = ct_scope c1 /\ ct_name c0 = ct_name c1 /\
          ct_parameters c0 = ct_parameters c1 /\ ct_return c0 = ct_return c1).
      { intros x y [(<- & <- & _)|[_ Hx]]%list_lookup_insert_Some; eauto 10. }
      destruct (G _ _ Hn) as (a & Ha & ? & ? & ? & ?). destruct (G _ _ Hn') as (b & Hb & ? & ? & ? & ?).
      eapply (in_keys _ _ _ HI); [exact Ha|exact Hb|..]; congruence.
  Qed.

  Lemma translate_snoc ds d us' : translate (ds ++ [d]) = Some us' <->
    exists us, translate ds = Some us /\ declare us d = Some us'.
  Proof.
    unfold ModelMacros.translate. rewrite foldl_app. simpl.
    match goal with |- context [foldl ?f ?a ds] => destruct (foldl f a ds) as [us|] end; simpl.
    - split; [eauto|]. intros (us0 & [= <-] & H). exact H.
    - split; [discriminate|]. by intros (us0 & H & _).
  Qed.

  Lemma translate_inv ds : forall us, translate ds = Some us -> exists js, inv ds us js.
  Proof.
    induction ds as [|d ds IH] using rev_ind; intros us Ht.
    - injection Ht as <-. exists []. apply inv_start.
    - apply translate_snoc in Ht as (us0 & H0 & Hd). destruct (IH _ H0) as [js HI]. destruct d.
      + eexists. by eapply inv_method.
      + eexists. by eapply inv_declare.
      + eexists. by eapply inv_define.
  Qed.

  (* ---- the theorems ---- *)
  Theorem translate_registered ds us : translate ds = Some us ->
    (exists js, numbers ds js /\ Forall2 (registered_as ds) js (us_methods us)) /\
    (forall i ns name qs ret pf next, ds !! i = Some (Define ns name qs ret pf next) ->
       exists j, overrides ds i j /\ forall j', overrides ds i j' -> j' = j) /\
    (forall m, m ∈ us_methods us ->
       method_source_compiles (md_registry m) polymorphic base_of convertible (md_source m) = true).
  Proof.
    intros Ht. destruct (translate_inv ds us Ht) as [js HI]. split; [|split].
    - exists js. split; [apply (in_numbers _ _ _ HI)|apply (in_methods _ _ _ HI)].
    - intros i ns name qs ret pf next Hi.
      destruct (in_defined _ _ _ HI _ _ _ _ _ _ _ Hi) as (k & Hk & Hd).
      destruct (in_declared _ _ _ HI _ _ _ _ _ Hd) as (c & Hc & <- & <- & <- & <-).
      destruct (in_containers _ _ _ HI c Hc) as (k' & j & H1 & _ & H3 & _).
      assert (k' = k) as -> by (eapply (in_once _ _ _ HI); [exact H1|exact Hd]).
      exists j. split.
      + do 6 eexists. exists k. eauto.
      + intros j' (ns' & name' & qs' & ret' & pf' & next' & k' & F1 & F2 & F3 & F4).
        rewrite Hi in F1. injection F1 as <- <- <- <- <- <-.
        assert (k' = k) as -> by (eapply (in_once _ _ _ HI); [exact F2|exact Hd]).
        apply H3, F4.
    - apply (in_compile _ _ _ HI).
  Qed.

  Theorem translate_calls ds us : translate ds = Some us ->
    exists js, numbers ds js /\
      forall ns name qs n, call_located convertible associated us ns name qs = Some n <->
        exists j, js !! n = Some j /\ means ds ns name qs j.
  Proof.
    intros Ht. destruct (translate_inv ds us Ht) as [js HI]. exists js.
    split; [apply (in_numbers _ _ _ HI)|]. intros. apply locate_means; [apply (in_numbers _ _ _ HI)|].
    by apply inv_heads.
  Qed.

  Lemma translate_prefix ds d post us' : translate (ds ++ d :: post) = Some us' ->
    exists us us1, translate ds = Some us /\ declare us d = Some us1.
  Proof.
    revert us'. induction post as [|d' post IH] using rev_ind; intros us' H.
    - apply translate_snoc in H as (us & H1 & H2). eauto.
    - rewrite app_comm_cons, app_assoc in H. apply translate_snoc in H as (us & H & _). eauto.
  Qed.

  Theorem undeclared_rejected ds ns name qs ret post :
    (forall j, ~ means ds ns name qs j) -> translate (ds ++ Declare ns name qs ret :: post) = None.
  Proof.
    intros Hno. destruct (translate _) as [us'|] eqn:Ht; [|reflexivity]. exfalso.
    apply translate_prefix in Ht as (us & us1 & H1 & H2). destruct (translate_inv ds us H1) as [js HI].
    simpl in H2. destruct (existsb _ _); [discriminate|].
    destruct (locate ns name qs (us_methods us)) as [n|] eqn:Hl; [|discriminate].
    apply (locate_means ds js _ (in_numbers _ _ _ HI) (inv_heads _ _ _ HI)) in Hl as (j & _ & Hm).
    by apply (Hno j).
  Qed.

  Theorem define_undeclared_rejected ds ns name qs ret pf next post :
    Declare ns name qs ret ∉ ds -> translate (ds ++ Define ns name qs ret pf next :: post) = None.
  Proof.
    intros Hno. destruct (translate _) as [us'|] eqn:Ht; [|reflexivity]. exfalso.
    apply translate_prefix in Ht as (us & us1 & H1 & H2). destruct (translate_inv ds us H1) as [js HI].
    simpl in H2. destruct (list_find _ (us_containers us)) as [[p c]|] eqn:Hf; [|discriminate].
    apply list_find_Some in Hf as (Hp & Hkey & _). apply same_container_is in Hkey as (<- & <- & <- & <-).
    destruct (in_containers _ _ _ HI c (elem_of_list_lookup_2 _ _ _ Hp)) as (k & j & H & _).
    apply Hno. by eapply elem_of_list_lookup_2.
  Qed.

  Lemma same_method_is ns name r ps ret m : same_method ns name r ps ret m = true <->
    md_scope m = ns /\ md_name m = name /\ md_registry m = r /\ ms_parameters (md_source m) = ps /\
    ms_return (md_source m) = ret.
  Proof. unfold same_method. rewrite !andb_true_iff, !bool_decide_eq_true. tauto. Qed.

  Theorem method_accepted ds us ns name r ps ret fns cs : translate ds = Some us ->
    (forall fns', Method ns name r ps ret fns' ∉ ds) ->
    method_classes r ps cs -> cs <> [] ->
    (forall t c, TyVirtual t ∈ ps -> refers t c -> polymorphic (TyName c) = true) ->
    (forall t, TyLRef (TyShared t) ∉ ps) ->
    exists us', translate (ds ++ [Method ns name r ps ret fns]) = Some us'.
  Proof.
    intros Ht Hno H1 H2 H3 H4. destruct (translate_inv ds us Ht) as [js HI].
    destruct fns as [[ni amb] ss]. eexists. apply translate_snoc. exists us. split; [exact Ht|]. simpl.
    rewrite (method_accepts r polymorphic ps cs H1 H2 H3 H4). simpl.
    destruct (existsb _ _) eqn:He; [|reflexivity]. exfalso.
    apply existsb_exists in He as (m & Hm%elem_of_list_In & (<- & <- & <- & <- & <-)%same_method_is).
    apply elem_of_list_lookup in Hm as [n Hn].
    destruct (Forall2_lookup_r _ _ _ _ _ (in_methods _ _ _ HI) Hn) as (j & _ & os & Hj & _).
    eapply Hno, elem_of_list_lookup_2, Hj.
  Qed.

  Theorem redeclared_rejected ds ns name r ps ret fns fns' post :
    Method ns name r ps ret fns ∈ ds -> translate (ds ++ Method ns name r ps ret fns' :: post) = None.
  Proof.
    intros Hin. destruct (translate _) as [us'|] eqn:Ht; [|reflexivity]. exfalso.
    apply translate_prefix in Ht as (us & us1 & H1 & H2). destruct (translate_inv ds us H1) as [js HI].
    apply elem_of_list_lookup in Hin as [j Hj].
    assert (Hjs : j ∈ js) by (apply (in_numbers _ _ _ HI); do 3 eexists; red; eauto).
    apply elem_of_list_lookup in Hjs as [n Hn].
    destruct (Forall2_lookup_l _ _ _ _ _ (in_methods _ _ _ HI) Hn) as (m & Hnm & os & Hjm & _).
    rewrite Hj in Hjm. injection Hjm as -> -> -> -> -> _.
    simpl in H2. destruct fns' as [[ni amb] ss]. destruct (existsb _ _) eqn:He; [discriminate|].
    assert (Ht : existsb (same_method (md_scope m) (md_name m) (md_registry m)
      (ms_parameters (md_source m)) (ms_return (md_source m))) (us_methods us) = true); [|congruence].
    apply existsb_exists. exists m.
    split; [by eapply elem_of_list_In, elem_of_list_lookup_2|by apply same_method_is].
  Qed.

  Theorem overrider_accepted ds us ns name qs ret pf next j ns' r ps ret' fns :
    translate ds = Some us -> Declare ns name qs ret ∉ ds ->
    means ds ns name qs j -> ds !! j = Some (Method ns' name r ps ret' fns) ->
    overrider_compiles r base_of convertible ps qs = true ->
    exists us', translate (ds ++ [Declare ns name qs ret; Define ns name qs ret pf next]) = Some us' /\
      overrides (ds ++ [Declare ns name qs ret; Define ns name qs ret pf next]) (S (length ds)) j.
  Proof.
    intros Ht Hnd Hm Hj Hc. destruct (translate_inv ds us Ht) as [js HI].
    assert (Hjs : j ∈ js) by (apply (in_numbers _ _ _ HI); do 3 eexists; red; eauto).
    apply elem_of_list_lookup in Hjs as [n Hn].
    destruct (Forall2_lookup_l _ _ _ _ _ (in_methods _ _ _ HI) Hn) as (m & Hnm & os & Hjm & _).
    rewrite Hj in Hjm. injection Hjm as -> -> -> -> -> ->.
    assert (Hl : locate ns (md_name m) qs (us_methods us) = Some n).
    { apply (locate_means ds js _ (in_numbers _ _ _ HI) (inv_heads _ _ _ HI)). eauto. }
    assert (Hno : forall c, c ∈ us_containers us -> same_container ns (md_name m) qs ret c = false).
    { intros c Hcc. apply not_true_is_false. intros (<- & E & <- & <-)%same_container_is.
      destruct (in_containers _ _ _ HI c Hcc) as (k & j' & H & _). apply Hnd. rewrite <- E.
      by eapply elem_of_list_lookup_2. }
    set (us1 := UnitState (us_methods us) (us_containers us ++ [Container ns (md_name m) qs ret n false])).
    assert (H1 : translate (ds ++ [Declare ns (md_name m) qs ret]) = Some us1).
    { apply translate_snoc. exists us. split; [exact Ht|]. simpl.
      destruct (existsb _ _) eqn:He.
      - apply existsb_exists in He as (c & Hcc%elem_of_list_In & H). by rewrite Hno in H.
      - by rewrite Hl. }
    eexists. split.
    - change [?a; ?b] with ([a] ++ [b]). rewrite app_assoc. apply translate_snoc. exists us1.
      split; [exact H1|]. simpl.
      assert (Hf : list_find (fun c => same_container ns (md_name m) qs ret c = true)
          (us_containers us ++ [Container ns (md_name m) qs ret n false]) =
          Some (length (us_containers us), Container ns (md_name m) qs ret n false)).
      { apply list_find_Some. split; [by rewrite lookup_app_r, Nat.sub_diag|].
        split; [by apply same_container_is|]. intros p c Hp Hlt.
        rewrite lookup_app_l in Hp by exact Hlt. rewrite Hno; [discriminate|].
        by eapply elem_of_list_lookup_2. }
      rewrite Hf. simpl. rewrite Hnm, Hc. reflexivity.
    - exists ns, (md_name m), qs, ret, pf, next, (length ds). split.
      { rewrite lookup_app_r by lia. by replace (S (length ds) - length ds) with 1 by lia. }
      split; [by rewrite lookup_app_r, Nat.sub_diag|]. split; [lia|]. by rewrite take_app.
  Qed.

  Theorem documented_accepted ds us ns name qs ret pf next j ns' r ps ret' fns :
    translate ds = Some us -> Declare ns name qs ret ∉ ds ->
    means ds ns name qs j -> ds !! j = Some (Method ns' name r ps ret' fns) ->
    Forall2 (may_override r base_of convertible) ps qs ->
    Forall2 (fun p q => (forall t r', p = TyLRef (TyConst (TyVptr t r')) -> q <> p) /\
                        (forall t, p <> TyRRef t)) ps qs ->
    exists us', translate (ds ++ [Declare ns name qs ret; Define ns name qs ret pf next]) = Some us' /\
      overrides (ds ++ [Declare ns name qs ret; Define ns name qs ret pf next]) (S (length ds)) j.
  Proof. intros. eapply overrider_accepted; eauto using documented_compiles. Qed.

  Lemma sorted_inj (os : list nat) n n' i :
    (forall n n' i i', n < n' -> os !! n = Some i -> os !! n' = Some i' -> i < i') ->
    os !! n = Some i -> os !! n' = Some i -> n = n'.
  Proof.
    intros Hs H1 H2. destruct (Nat.lt_trichotomy n n') as [H|[H|H]]; [|exact H|];
      [pose proof (Hs _ _ _ _ H H1 H2)|pose proof (Hs _ _ _ _ H H2 H1)]; lia.
  Qed.

  Theorem macro_dispatch (r : N) (static_type : ty -> N) (static_void : N) (R : registrations)
      ds us cf X w mid ns name qs k m all args j ns' ps ret fns i ns1 name1 qs1 ret1 pf next cs :
    translate ds = Some us -> documented convertible associated r ds ->
    Forall2 (fun d m => method_registered r static_type static_void (md_source d) = Ok m)
      (us_methods us) (reg_methods R) ->
    env_ok (r_env X) -> acyclic (e_ti (r_env X)) R -> ids_ok R ->
    hash_size_ok cf (length (reg_classes R)) -> addresses_ok (e_ti (r_env X)) R ->
    bases_first (e_ti (r_env X)) R -> initialized_by cf X false R w ->
    call_located convertible associated us ns name qs = Some k -> reg_methods R !! k = Some m ->
    call_ok cf (e_ti (r_env X)) R w m all args -> functions_ok m ->
    length args = 1 \/ together all ->
    means ds ns name qs j -> ds !! j = Some (Method ns' name r ps ret fns) ->
    overrides ds i j -> ds !! i = Some (Define ns1 name1 qs1 ret1 pf next) ->
    overrider_classes r ps qs1 cs ->
    accepts (e_ti (r_env X)) R (fun c => static_type (TyName c)) args cs ->
    (forall i' ns2 name2 qs2 ret2 pf2 next2 cs', overrides ds i' j -> i' <> i ->
       ds !! i' = Some (Define ns2 name2 qs2 ret2 pf2 next2) -> overrider_classes r ps qs2 cs' ->
       accepts (e_ti (r_env X)) R (fun c => static_type (TyName c)) args cs' ->
       better (e_ti (r_env X)) R (fun c => static_type (TyName c)) cs cs') ->
    call cf w mid m all = Ok (Calls pf).
  Proof.
    intros Ht Hdoc HR He Ha Hids Hh Hadd Hbf Hinit Hl Hm Hcall Hf Htog Hmeans Hj Hov Hi Hcs Hacc Hbest.
    destruct (translate_inv ds us Ht) as [js HI].
    apply (locate_means ds js _ (in_numbers _ _ _ HI) (inv_heads _ _ _ HI)) in Hl as (j' & Hj' & Hmeans').
    assert (j' = j) as -> by (apply Hmeans, Hmeans').
    destruct (Forall2_lookup_l _ _ _ _ _ (in_methods _ _ _ HI) Hj') as (d & Hd & os & Hdj & Hdef & Hs & Hos).
    rewrite Hj in Hdj. injection Hdj as -> -> -> -> -> ->.
    apply Hos in Hov as Hin. apply elem_of_list_lookup in Hin as [p Hp].
    destruct (Forall2_lookup_l _ _ _ _ _ Hdef Hp) as (o & Ho & ns3 & name3 & H3).
    rewrite Hi in H3. injection H3 as -> -> -> -> -> ->.
    apply (source_dispatch (md_registry d) polymorphic base_of convertible static_type static_void R
      (map md_source (us_methods us))) with (X := X) (k := k) (s := md_source d) (args := args) (i := p)
      (ds := cs); try assumption.
    - by apply Forall2_fmap_l.
    - intros s Hsin. apply elem_of_list_fmap in Hsin as (d' & -> & Hd').
      apply elem_of_list_lookup in Hd' as [k' Hk'].
      destruct (Forall2_lookup_r _ _ _ _ _ (in_methods _ _ _ HI) Hk') as (j' & Hjk & os' & F1 & F2 & F3 & F4).
      destruct (Hdoc _ _ _ _ _ _ _ F1) as (Er & Hmc & Hoc). split.
      + rewrite <- Er. apply (in_compile _ _ _ HI). by eapply elem_of_list_lookup_2.
      + exact Hmc.
      + intros o' Ho'. apply elem_of_list_lookup in Ho' as [p' Hp'].
        destruct (Forall2_lookup_r _ _ _ _ _ F2 Hp') as (i' & Hi' & ns4 & name4 & H4).
        eapply Hoc; [|exact H4]. apply F4. by eapply elem_of_list_lookup_2.
    - rewrite list_lookup_fmap, Hd. reflexivity.
    - intros p' o' cs' Hp' Hne Hc' Ha'.
      destruct (Forall2_lookup_r _ _ _ _ _ Hdef Hp') as (i' & Hi' & ns4 & name4 & H4).
      eapply Hbest; [| |exact H4|exact Hc'|exact Ha'].
      + apply Hos. by eapply elem_of_list_lookup_2.
      + intros ->. apply Hne. eapply sorted_inj; eauto.
  Qed.
End Macros.
