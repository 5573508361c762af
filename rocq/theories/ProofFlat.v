(* The arithmetic of a call on a 64-bit machine gives the same result as with numbers that do not wrap
   around, and every pointer that it computes exists if the v-table pointers do. *)
From stdpp Require Import base list numbers relations.
From Verif Require Import Base Registry Spec ModelClasses ModelMethods ModelSlots ModelTables
  ModelHash ModelWorld ModelCall SpecCall ModelFlat SpecFlat
  ProofBase ProofClasses ProofGraph ProofMethods ProofWrite ProofHash ProofWorld ProofCall ProofDispatch
  ProofTables ProofErrors ProofEntries ProofCompile ProofReinit ProofSafety.

Lemma wrap_small x : (0 <= x < 2 ^ 64)%Z -> wrap x = x.
Proof. apply Z.mod_small. Qed.

Lemma wrap_add x y : wrap (wrap x + y) = wrap (x + y).
Proof. unfold wrap. apply Z.add_mod_idemp_l. lia. Qed.

Lemma wrap_add_r x y : wrap (x + wrap y) = wrap (x + y).
Proof. unfold wrap. apply Z.add_mod_idemp_r. lia. Qed.

Lemma wrap_mul x y : wrap (wrap x * y) = wrap (x * y).
Proof. unfold wrap. apply Z.mul_mod_idemp_l. lia. Qed.

Lemma wrap_mul_r x y : wrap (x * wrap y) = wrap (x * y).
Proof. unfold wrap. apply Z.mul_mod_idemp_r. lia. Qed.

Lemma wrap_wrap x : wrap (wrap x) = wrap x.
Proof. unfold wrap. apply Z.mod_mod. lia. Qed.

Lemma element_wrap p i : element (wrap p) (wrap i) = wrap (p + 8 * i).
Proof.
  unfold element. rewrite wrap_add, <- wrap_add_r, wrap_mul_r, wrap_add_r. reflexivity.
Qed.

(* The machine words of a list of numbers. *)
Definition words (l : list nat) : list Z := map (fun n => wrap (Z.of_nat n)) l.

Lemma words_at l i x : at_ l i = Ok x -> at_ (words l) i = Ok (wrap (Z.of_nat x)).
Proof.
  intros H. apply at_ok. apply at_ok in H. unfold words. change (map ?f ?l) with (f <$> l).
  rewrite list_lookup_fmap, H. reflexivity.
Qed.

Lemma flat_strides_loop_words stride sizes :
  flat_strides_loop (wrap (Z.of_nat stride)) (words sizes) = words (strides_loop stride sizes).
Proof.
  revert stride. induction sizes as [|s sizes IH]; intros stride; [reflexivity|]. cbn.
  assert (H : wrap (wrap (Z.of_nat stride) * wrap (Z.of_nat s)) = wrap (Z.of_nat (stride * s))).
  { rewrite wrap_mul, wrap_mul_r. f_equal. lia. }
  rewrite H, IH. reflexivity.
Qed.

Lemma flat_strides_words sizes : flat_strides (words sizes) = words (strides sizes).
Proof.
  unfold flat_strides, strides. rewrite <- flat_strides_loop_words. f_equal.
  unfold words. rewrite map_length. change (map ?f ?l) with (f <$> l). rewrite fmap_take. reflexivity.
Qed.

Theorem strides_flat sizes k : S k < length sizes ->
  flat_strides (map (fun n => (Z.of_nat n mod 2 ^ 64)%Z) sizes) !! k =
    Some (Z.of_nat (foldr Nat.mul 1%nat (take (S k) sizes)) mod 2 ^ 64)%Z.
Proof.
  intros Hk. change (map _ sizes) with (words sizes). rewrite flat_strides_words. unfold words.
  change (map ?f ?l) with (f <$> l). rewrite list_lookup_fmap, strides_lookup by lia. reflexivity.
Qed.

Section Flat.
  Context (cf : config) (w : world) (at_base : nat -> Z) (mem : Z -> Z).
  Context (Hh : holds at_base mem w).

  Lemma read_flat p i x :
    read_word w p i = Ok x ->
    bytes_of at_base x (mem (element (address at_base p) (wrap (Z.of_nat i)))).
  Proof.
    intros H. destruct p as [|b o]; [discriminate|]. unfold read_word in H.
    destruct (w_heap w b) as [ws|] eqn:Hws; [|discriminate]. cbn in H.
    case_decide as Hneg; [discriminate|]. apply at_ok in H.
    destruct (Hh b ws Hws) as (H0 & H1 & H2). cbn [address]. rewrite element_wrap.
    specialize (H2 _ _ H). apply lookup_lt_Some in H.
    rewrite Z2Nat.id in H2 by lia.
    replace (at_base b + 8 * o + 8 * Z.of_nat i)%Z with (at_base b + 8 * (o + Z.of_nat i))%Z by lia.
    rewrite wrap_small; [exact H2|]. split; [lia|]. lia.
  Qed.

  Lemma next_flat ss arity va p args x :
    resolve_multi_next cf w ss arity va p args = Ok x ->
    exists z, flat_multi_next cf w at_base mem (words ss) arity va (address at_base p) args = Ok z /\
      bytes_of at_base x z.
  Proof.
    revert va p. induction args as [|a args IH]; intros va p H; [discriminate|].
    cbn [resolve_multi_next flat_multi_next] in *.
    apply obind_ok in H as (q & Hq & H).
    assert (Hflat : (if is_virtual_arg a
             then let* vtbl := arg_vptr cf w a in
                  let* slot := at_ (words ss) va in
                  let* stride := at_ (words ss) (arity + va - 1) in
                  Ok (element (address at_base p) (wrap (mem (element (address at_base vtbl) slot) * stride)))
             else Ok (address at_base p)) = Ok (address at_base q) \/ q = VNull).
    { destruct (is_virtual_arg a); [|left; congruence].
      apply obind_ok in Hq as (v & Hv & Hq). apply obind_ok in Hq as (slot & Hslot & Hq).
      apply obind_ok in Hq as (stride & Hstride & Hq). apply obind_ok in Hq as (y & Hy & Hq).
      apply obind_ok in Hq as (i & Hi & Hq). destruct y; cbn in Hi; try discriminate. injection Hi as ->.
      destruct p as [|b o]; cbn [vptr_add] in Hq.
      { destruct (decide (i * stride = 0)); [|discriminate]. injection Hq as <-. right. reflexivity. }
      injection Hq as <-. left.
      rewrite Hv. cbn [obind]. rewrite (words_at _ _ _ Hslot). cbn [obind].
      rewrite (words_at _ _ _ Hstride). cbn [obind].
      pose proof (read_flat _ _ _ Hy) as Hb. inversion Hb as [| | | |i' Hi' Hm]. subst i'.
      cbn [address]. fold (wrap (Z.of_nat i)).
      rewrite wrap_mul, wrap_mul_r, element_wrap. do 2 f_equal. lia. }
    destruct Hflat as [Hflat| ->].
    - rewrite Hflat. cbn [obind]. case_decide.
      + eexists. split; [reflexivity|]. pose proof (read_flat _ _ _ H) as Hb.
        destruct q as [|b o]; [discriminate|]. cbn [address] in *.
        rewrite element_wrap in Hb. replace (at_base b + 8 * o + 8 * Z.of_nat 0)%Z with (at_base b + 8 * o)%Z in Hb by lia.
        exact Hb.
      + apply IH. exact H.
    - exfalso. clear -H. case_decide; [discriminate|]. revert H.
      generalize (va + 1). induction args as [|a' args IH]; intros va'; [discriminate|].
      cbn [resolve_multi_next]. intros H. apply obind_ok in H as (q & Hq & H).
      assert (q = VNull) as ->.
      { destruct (is_virtual_arg a'); [|congruence].
        apply obind_ok in Hq as (v & _ & Hq). apply obind_ok in Hq as (slot & _ & Hq).
        apply obind_ok in Hq as (stride & _ & Hq). apply obind_ok in Hq as (y & _ & Hq).
        apply obind_ok in Hq as (i & _ & Hq). cbn [vptr_add] in Hq.
        destruct (decide (i * stride = 0)); congruence. }
      case_decide; [discriminate|]. eapply IH; eauto.
  Qed.

  Lemma first_flat ss arity args x :
    resolve_multi_first cf w ss arity args = Ok x ->
    exists z, flat_multi_first cf w at_base mem (words ss) arity args = Ok z /\ bytes_of at_base x z.
  Proof.
    induction args as [|a args IH]; intros H; [discriminate|]. cbn [resolve_multi_first flat_multi_first] in *.
    destruct (is_virtual_arg a); [|auto].
    apply obind_ok in H as (v & Hv & H). apply obind_ok in H as (slot & Hslot & H).
    apply obind_ok in H as (y & Hy & H). apply obind_ok in H as (p & Hp & H).
    destruct y; cbn in Hp; try discriminate. injection Hp as ->.
    rewrite Hv. cbn [obind]. rewrite (words_at _ _ _ Hslot). cbn [obind].
    pose proof (read_flat _ _ _ Hy) as Hb.
    replace (mem (element (address at_base v) (wrap (Z.of_nat slot)))) with (address at_base p).
    - apply next_flat. exact H.
    - inversion Hb; reflexivity.
  Qed.

  Lemma uni_flat ss args x :
    resolve_uni cf w ss args = Ok x ->
    exists z, flat_uni cf w at_base mem (words ss) args = Ok z /\ bytes_of at_base x z.
  Proof.
    induction args as [|a args IH]; intros H; [discriminate|]. cbn [resolve_uni flat_uni] in *.
    destruct (is_virtual_arg a); [|auto].
    apply obind_ok in H as (v & Hv & H). apply obind_ok in H as (slot & Hslot & H).
    rewrite Hv. cbn [obind]. rewrite (words_at _ _ _ Hslot). cbn [obind].
    eexists. split; [reflexivity|]. apply read_flat. exact H.
  Qed.

  Lemma resolve_flat m args f :
    resolve cf w m args = Ok f ->
    flat_resolve cf w at_base mem (words (w_ss w (mr_slots_strides m))) m args = Ok (wrap (Z.of_N f)).
  Proof.
    unfold resolve, flat_resolve. intros H. apply obind_ok in H as (u & Hu & H). rewrite Hu. cbn [obind].
    apply obind_ok in H as (x & Hx & H). destruct x; cbn in H; try discriminate. injection H as ->.
    assert (G : forall z, bytes_of at_base (WPf f) z -> z = wrap (Z.of_N f)) by (intros z Hz; inversion Hz; reflexivity).
    case_decide.
    - destruct (uni_flat _ _ _ Hx) as (z & -> & Hz). f_equal. auto.
    - destruct (first_flat _ _ _ _ Hx) as (z & -> & Hz). f_equal. auto.
  Qed.
End Flat.

(* Pointers. *)
Section Strict.
  Context (cf : config) (w : world).

  Lemma pointer_exists_iff v : pointer_exists w v = true <-> in_array w v.
  Proof.
    unfold in_array. destruct v as [|b o]; cbn.
    { split; [discriminate|]. intros (b & ws & i & [=] & _). }
    destruct (w_heap w b) as [ws|] eqn:Hws.
    - rewrite bool_decide_eq_true. split.
      + intros [H0 H1]. exists b, ws, (Z.to_nat o). rewrite Z2Nat.id by lia. repeat split; auto. lia.
      + intros (b' & ws' & i & [= <- ->] & Hws' & Hi). rewrite Hws in Hws'. injection Hws' as <-. lia.
    - split; [discriminate|]. intros (b' & ws' & i & [= <- ->] & Hws' & _). congruence.
  Qed.

  Lemma read_in_array p i x :
    read_word w p i = Ok x -> exists b o ws, p = VPtr b o /\ w_heap w b = Some ws /\
      (0 <= o + Z.of_nat i < Z.of_nat (length ws))%Z.
  Proof.
    intros H. destruct p as [|b o]; [discriminate|]. unfold read_word in H.
    destruct (w_heap w b) as [ws|] eqn:Hws; [|discriminate]. cbn in H.
    case_decide as Hneg; [discriminate|]. apply at_ok in H. apply lookup_lt_Some in H.
    exists b, o, ws. split; [reflexivity|]. split; [exact Hws|]. lia.
  Qed.

  (* The arguments of the call. *)
  Definition args_in_array (args : list arg) : Prop :=
    forall a v, a ∈ args -> is_virtual_arg a = true -> arg_vptr cf w a = Ok v -> in_array w v.

  Lemma strict_read_ok p i : in_array w p -> strict_read w p i = read_word w p i.
  Proof. intros H. unfold strict_read. apply pointer_exists_iff in H. rewrite H. reflexivity. Qed.

  Theorem checks p i x q :
    (strict_read w p i = Ok x -> in_array w p /\ exists b o, p = VPtr b o /\ in_array w (VPtr b (o + Z.of_nat i))) /\
    (strict_add w p i = Ok q -> in_array w p /\ in_array w q /\
       exists b o, p = VPtr b o /\ q = VPtr b (o + Z.of_nat i)).
  Proof.
    split.
    - unfold strict_read. destruct (pointer_exists w p) eqn:Hp; [|discriminate]. intros H.
      split; [apply pointer_exists_iff; exact Hp|]. apply read_in_array in H as (b & o & ws & -> & Hws & Hr).
      exists b, o. split; [reflexivity|]. exists b, ws, (Z.to_nat (o + Z.of_nat i)).
      rewrite Z2Nat.id by lia. repeat split; auto. lia.
    - unfold strict_add. intros H. apply obind_ok in H as (q' & Hq & H).
      destruct (pointer_exists w p) eqn:H1; [|discriminate]. destruct (pointer_exists w q') eqn:H2; [|discriminate].
      injection H as <-. split; [apply pointer_exists_iff; exact H1|]. split; [apply pointer_exists_iff; exact H2|].
      destruct p as [|b o]; [discriminate|]. cbn in Hq. injection Hq as <-. eauto.
  Qed.

  (* The final pointer is not before the one at the beginning. *)
  Lemma next_ends ss arity va b o args x :
    resolve_multi_next cf w ss arity va (VPtr b o) args = Ok x ->
    exists ws, w_heap w b = Some ws /\ (o < Z.of_nat (length ws))%Z.
  Proof.
    revert va o. induction args as [|a args IH]; intros va o H; [discriminate|].
    cbn [resolve_multi_next] in H. apply obind_ok in H as (q & Hq & H).
    assert (exists o', q = VPtr b o' /\ (o <= o')%Z) as (o' & -> & Ho).
    { destruct (is_virtual_arg a).
      - apply obind_ok in Hq as (v & _ & Hq). apply obind_ok in Hq as (slot & _ & Hq).
        apply obind_ok in Hq as (stride & _ & Hq). apply obind_ok in Hq as (y & _ & Hq).
        apply obind_ok in Hq as (i & _ & Hq). cbn [vptr_add] in Hq. injection Hq as <-.
        eexists. split; [reflexivity|]. lia.
      - injection Hq as <-. exists o. split; [reflexivity|]. lia. }
    case_decide.
    - apply read_in_array in H as (b' & o2 & ws & [= <- <-] & Hws & Hr). exists ws. split; [exact Hws|]. lia.
    - destruct (IH _ _ H) as (ws & Hws & Hlt). exists ws. split; [exact Hws|]. lia.
  Qed.

  Lemma next_strict ss arity va b o args x :
    args_in_array args -> (0 <= o)%Z ->
    resolve_multi_next cf w ss arity va (VPtr b o) args = Ok x ->
    strict_multi_next cf w ss arity va (VPtr b o) args = Ok x.
  Proof.
    revert va o. induction args as [|a args IH]; intros va o Hin Ho H; [discriminate|].
    assert (Hin' : args_in_array args) by (intros a' v' Ha'; apply Hin; right; exact Ha').
    destruct (next_ends _ _ _ _ _ _ _ H) as (ws & Hws & Hlt).
    assert (Hp : in_array w (VPtr b o)).
    { exists b, ws, (Z.to_nat o). rewrite Z2Nat.id by lia. repeat split; auto. lia. }
    cbn [resolve_multi_next strict_multi_next] in *. apply obind_ok in H as (q & Hq & H).
    assert (Hend : exists o', q = VPtr b o' /\ (o <= o' < Z.of_nat (length ws))%Z).
    { assert (exists o', q = VPtr b o' /\ (o <= o')%Z) as (o' & -> & Ho').
      { destruct (is_virtual_arg a).
        - apply obind_ok in Hq as (v & _ & Hq). apply obind_ok in Hq as (slot & _ & Hq).
          apply obind_ok in Hq as (stride & _ & Hq). apply obind_ok in Hq as (y & _ & Hq).
          apply obind_ok in Hq as (i & _ & Hq). cbn [vptr_add] in Hq. injection Hq as <-.
          eexists. split; [reflexivity|]. lia.
        - injection Hq as <-. exists o. split; [reflexivity|]. lia. }
      exists o'. split; [reflexivity|]. split; [exact Ho'|]. case_decide.
      - apply read_in_array in H as (b' & o2 & ws' & [= <- <-] & Hws' & Hr). rewrite Hws in Hws'.
        injection Hws' as <-. lia.
      - destruct (next_ends _ _ _ _ _ _ _ H) as (ws' & Hws' & Hlt'). rewrite Hws in Hws'.
        injection Hws' as <-. exact Hlt'. }
    destruct Hend as (o' & -> & Ho').
    assert (Hq' : in_array w (VPtr b o')).
    { exists b, ws, (Z.to_nat o'). rewrite Z2Nat.id by lia. repeat split; auto. lia. }
    assert (Hsame : (if is_virtual_arg a
             then let* vtbl := arg_vptr cf w a in
                  let* slot := at_ ss va in
                  let* stride := at_ ss (arity + va - 1) in
                  let* x := strict_read w vtbl slot in
                  let* i := word_i x in
                  strict_add w (VPtr b o) (i * stride)
             else Ok (VPtr b o)) = Ok (VPtr b o')).
    { destruct (is_virtual_arg a) eqn:Hva; [|exact Hq].
      apply obind_ok in Hq as (v & Hv & Hq). apply obind_ok in Hq as (slot & Hslot & Hq).
      apply obind_ok in Hq as (stride & Hstride & Hq). apply obind_ok in Hq as (y & Hy & Hq).
      apply obind_ok in Hq as (i & Hi & Hq). rewrite Hv. cbn [obind]. rewrite Hslot. cbn [obind].
      rewrite Hstride. cbn [obind].
      rewrite strict_read_ok by (apply (Hin a v); [left|exact Hva|exact Hv]).
      rewrite Hy. cbn [obind]. rewrite Hi. cbn [obind]. unfold strict_add. rewrite Hq. cbn [obind].
      apply pointer_exists_iff in Hp. apply pointer_exists_iff in Hq'. rewrite Hp, Hq'. reflexivity. }
    rewrite Hsame. cbn [obind]. case_decide.
    - rewrite strict_read_ok by exact Hq'. exact H.
    - apply IH; [exact Hin'|lia|exact H].
  Qed.

  Lemma first_strict ss arity args x :
    args_in_array args ->
    (forall a v slot p, a ∈ args -> is_virtual_arg a = true -> arg_vptr cf w a = Ok v ->
       read_word w v slot = Ok (WPw p) -> exists b o, p = VPtr b o /\ (0 <= o)%Z) ->
    resolve_multi_first cf w ss arity args = Ok x -> strict_multi_first cf w ss arity args = Ok x.
  Proof.
    induction args as [|a args IH]; intros Hin He H; [discriminate|].
    cbn [resolve_multi_first strict_multi_first] in *. destruct (is_virtual_arg a) eqn:Hva.
    - apply obind_ok in H as (v & Hv & H). apply obind_ok in H as (slot & Hslot & H).
      apply obind_ok in H as (y & Hy & H). apply obind_ok in H as (p & Hp & H).
      destruct y; cbn in Hp; try discriminate. injection Hp as ->.
      rewrite Hv. cbn [obind]. rewrite Hslot. cbn [obind].
      rewrite strict_read_ok by (apply (Hin a v); [left|exact Hva|exact Hv]). rewrite Hy. cbn [obind word_pw].
      destruct (He a v slot p) as (b & o & -> & Ho); [left|exact Hva|exact Hv|exact Hy|].
      apply next_strict; [|exact Ho|exact H]. intros a' v' Ha'. apply Hin. right. exact Ha'.
    - apply IH; [intros a' v' Ha'; apply Hin; right; exact Ha'| |exact H].
      intros a' v' slot p Ha'. apply He. right. exact Ha'.
  Qed.

  Lemma uni_strict ss args x :
    args_in_array args -> resolve_uni cf w ss args = Ok x -> strict_uni cf w ss args = Ok x.
  Proof.
    induction args as [|a args IH]; intros Hin H; [discriminate|].
    cbn [resolve_uni strict_uni] in *. destruct (is_virtual_arg a) eqn:Hva.
    - apply obind_ok in H as (v & Hv & H). apply obind_ok in H as (slot & Hslot & H).
      rewrite Hv. cbn [obind]. rewrite Hslot. cbn [obind].
      rewrite strict_read_ok by (apply (Hin a v); [left|exact Hva|exact Hv]). exact H.
    - apply IH; [intros a' v' Ha'; apply Hin; right; exact Ha'|exact H].
  Qed.

  Lemma resolve_strict m args f :
    args_in_array args ->
    (forall a v slot p, a ∈ args -> is_virtual_arg a = true -> arg_vptr cf w a = Ok v ->
       read_word w v slot = Ok (WPw p) -> exists b o, p = VPtr b o /\ (0 <= o)%Z) ->
    resolve cf w m args = Ok f -> strict_resolve cf w m args = Ok f.
  Proof.
    unfold resolve, strict_resolve. intros Hin He H. apply obind_ok in H as (u & Hu & H). rewrite Hu. cbn [obind].
    apply obind_ok in H as (x & Hx & H). destruct (decide (length (mr_vp m) = 1)).
    - rewrite (uni_strict _ _ _ Hin Hx). exact H.
    - rewrite (first_strict _ _ _ _ Hin He Hx). exact H.
  Qed.
End Strict.

(* The pointers that write_global_data stores in v-tables are not before the array. *)
Definition words_after (buf : nat) (ws : list word) : Prop :=
  forall p, WPw p ∈ ws -> exists i : nat, p = VPtr buf (Z.of_nat i).

Lemma put_after buf x a a' :
  put x a = Ok a' -> (forall p, x = WPw p -> exists i : nat, p = VPtr buf (Z.of_nat i)) ->
  words_after buf (fst a) -> words_after buf (fst a').
Proof.
  destruct a as [ws it]. unfold put. case_decide; [|discriminate]. intros [= <-] Hx Hw p Hp. cbn in *.
  apply elem_of_list_lookup in Hp as [i Hi]. apply list_lookup_insert_Some in Hi as [(-> & E & _)|[_ Hi]].
  - apply Hx. exact E.
  - apply Hw. eapply elem_of_list_lookup_2; eauto.
Qed.

Lemma write_tables_after buf cp w wr :
  write_tables buf cp w = Ok wr -> words_after buf (wr_words wr).
Proof.
  unfold write_tables. intros H. apply obind_ok in H as (st & Hm & H). apply obind_ok in H as (nx & _ & H).
  apply obind_ok in H as ([[ws it] stat] & H & E). injection E as <-. cbn.
  assert (H0 : words_after buf (gv_words st)).
  { apply (foldM_inv_ok (fun s => words_after buf (gv_words s)) _ _ _ _ Hm).
    - intros p Hp. apply elem_of_list_In, repeat_spec in Hp. discriminate.
    - intros [mi [m t]] s1 s2 _ Hs Hr. unfold write_method in Hr. case_decide.
      + apply obind_ok in Hr as (sl & _ & E). injection E as <-. exact Hs.
      + case_decide; [|discriminate]. apply obind_ok in Hr as ([ws1 it1] & Hf & E). injection E as <-. cbn.
        change ws1 with (fst (ws1, it1)).
        apply (foldM_inv_ok (fun a => words_after buf (fst a)) _ _ _ _ Hf); [exact Hs|].
        intros c a a' _ Ha Hp. apply obind_ok in Hp as (pf & _ & Hp).
        eapply put_after; [exact Hp| |exact Ha]. discriminate. }
  apply (foldM_inv_ok (fun s => words_after buf (fst (fst s))) _ _ _ _ H); [exact H0|].
  intros [c e] [[ws1 it1] st1] [[ws2 it2] st2] _ Hs Hc. unfold write_class in Hc.
  apply obind_ok in Hc as ([ws3 it3] & Hf & E). injection E as <- <- <-. cbn.
  change ws3 with (fst (ws3, it3)).
  apply (foldM_inv_ok (fun a => words_after buf (fst a)) _ _ _ _ Hf); [exact Hs|].
  intros en a a' _ Ha Hp. unfold write_entry in Hp. apply obind_ok in Hp as ([m t] & _ & Hp).
  case_decide.
  - apply obind_ok in Hp as (cl & _ & Hp). apply obind_ok in Hp as (pf & _ & Hp).
    eapply put_after; [exact Hp|discriminate|exact Ha].
  - case_decide.
    + apply obind_ok in Hp as (gv & _ & Hp). eapply put_after; [exact Hp| |exact Ha].
      intros p [= <-]. eauto.
    + eapply put_after; [exact Hp|discriminate|exact Ha].
Qed.

(* From the registrations to the memory. *)
Section Program.
  Context (cf : config) (X : run) (n2216 : bool) (R : registrations) (w0 w : world) (rep : method_report).
  Notation E := (r_env X).
  Context (HP : program_ok cf E R) (Hw : world_ok w0) (Hinit : initialize cf X n2216 R w0 = (w, Ok rep)).

  Lemma program_written : exists cp buf wr gvt,
    compile E n2216 R = Ok cp /\ installed cf cp w0 w /\ written_ok cp buf w0 wr gvt /\
    w_heap w buf = Some (wr_words wr) /\ w_static w = wr_static wr /\ words_after buf (wr_words wr).
  Proof.
    destruct HP as [HE Hac Har Hids Hn HA].
    destruct (initialize_ok_inv cf X n2216 R w0 HE Hac Har w rep Hids Hn Hw Hinit) as (cp & Hcp & _ & HI & _).
    destruct (initialize_written _ _ _ _ _ _ _ Hinit Hw) as (cp' & wr & Hcp' & Hwr & Hheap & Hst & _).
    assert (cp' = cp) as -> by congruence.
    destruct (write_tables_ok E R HE Hac Har n2216 cp Hcp (w_fresh w0) w0) as (wr' & gvt & Hwr' & Hok).
    assert (wr' = wr) as -> by congruence.
    exists cp, (w_fresh w0), wr, gvt. split; [exact Hcp|]. split; [exact HI|]. split; [exact Hok|].
    split; [exact Hheap|]. split; [exact Hst|]. eapply write_tables_after. exact Hwr.
  Qed.

  (* The v-table pointer of an argument is that of its class. *)
  Lemma arg_static a k :
    passes cf (e_ti E) R w a k -> registered (e_ti E) R k -> exists cr, first_record (e_ti E) R k = Some cr /\
      arg_vptr cf w a = Ok (w_static w (cr_static_vptr cr)).
  Proof.
    intros Hp Hk. destruct HP as [HE Hac Har Hids Hn HA].
    destruct program_written as (cp & buf & wr & gvt & Hcp & HI & _).
    pose proof (go_classes _ _ _ (co_graph _ _ _ _ (compile_inv E R HE Hac n2216 cp Hcp))) as HC.
    destruct Hp as [t Hn' Ht|v t cr Hcr ->]; [|exists cr; split; [exact Hcr|reflexivity]].
    apply elem_of_list_fmap in Ht as (cr & Ht & Hin).
    destruct (type_id_class _ _ _ HC t cr Hin (eq_sym Ht)) as (c & e & Hc & He & Hid).
    destruct (co_entry _ _ _ _ HC _ _ He) as (a & cr' & M & F & S & _).
    rewrite (co_inj _ _ _ _ HC _ _ _ M Hc) in F. exists cr'. split; [exact F|].
    destruct (in_vptr _ _ _ _ HI Hn' e t) as (r & Hr & Hv & _).
    { eapply elem_of_list_lookup_2; eauto. }
    { exact Hid. }
    unfold arg_vptr, acquire_vptr, require_initialized. rewrite (in_init _ _ _ _ HI).
    rewrite decide_False by (intros [_ ?]; discriminate). cbn [obind]. rewrite Hr. simpl.
    rewrite Hv, S. reflexivity.
  Qed.

  Lemma class_static_vptr k cr : first_record (e_ti E) R k = Some cr ->
    forall cp buf wr gvt, compile E n2216 R = Ok cp -> written_ok cp buf w0 wr gvt -> w_static w = wr_static wr ->
    exists c it, g_map (cp_graph cp) k = Some c /\ it <= length (wr_words wr) /\
      w_static w (cr_static_vptr cr) = VPtr buf (Z.of_nat it - Z.of_nat (s_first (cp_slots cp) c)).
  Proof.
    intros Hcr cp buf wr gvt Hcp Hok Hst. destruct HP as [HE Hac Har Hids Hn HA].
    pose proof (go_classes _ _ _ (co_graph _ _ _ _ (compile_inv E R HE Hac n2216 cp Hcp))) as HC.
    assert (Hc : exists c, g_map (cp_graph cp) k = Some c).
    { apply (co_dom _ _ _ _ HC). exists cr. unfold first_record in Hcr.
      apply head_filter in Hcr as [H1 H2]. split; [exact H1|]. exact H2. }
    destruct Hc as [c Hc].
    destruct (lookup_lt_is_Some_2 (g_classes (cp_graph cp)) c) as [e He];
      [apply (co_lt _ _ _ _ HC _ _ Hc)|].
    destruct (wr_class _ _ _ _ _ Hok c e He) as (it & Hit & Hs & _).
    specialize (Hs (static_nodup _ R HE Hac n2216 cp Hcp HA)).
    exists c, it. split; [exact Hc|]. split; [lia|].
    rewrite <- (class_static _ R HE Hac n2216 cp Hcp k c e cr Hc He Hcr), Hst. exact Hs.
  Qed.

  Lemma call_strict m all args f :
    call_ok cf (e_ti E) R w m all args -> vptrs_in_array (e_ti E) R w ->
    resolve cf w m all = Ok f -> strict_resolve cf w m all = Ok f.
  Proof.
    intros [Hm Hvs Hva] Hin Hr.
    assert (G : forall a v, a ∈ all -> is_virtual_arg a = true -> arg_vptr cf w a = Ok v ->
      exists k cr, first_record (e_ti E) R k = Some cr /\ v = w_static w (cr_static_vptr cr)).
    { intros a v Ha Hv Hav. assert (Ha' : a ∈ virtual_args all) by (apply elem_of_list_filter; auto).
      apply elem_of_list_lookup in Ha' as [i Hi].
      destruct (Forall2_lookup_l _ _ _ _ _ Hvs Hi) as (k & Hk & Hp).
      destruct (Forall2_lookup_l _ _ _ _ _ Hva Hk) as (vp & _ & Hreg & _).
      destruct (arg_static a k Hp Hreg) as (cr & Hcr & Hst). exists k, cr. split; [exact Hcr|congruence]. }
    destruct program_written as (cp & buf & wr & gvt & Hcp & HI & Hok & Hheap & Hst & Haft).
    apply (resolve_strict cf w); [| |exact Hr].
    - intros a v Ha Hv Hav. destruct (G a v Ha Hv Hav) as (k & cr & Hcr & ->). eapply Hin. exact Hcr.
    - intros a v slot p Ha Hv Hav Hread. destruct (G a v Ha Hv Hav) as (k & cr & Hcr & ->).
      destruct (class_static_vptr k cr Hcr cp buf wr gvt Hcp Hok Hst) as (c & it & _ & _ & Hs).
      rewrite Hs in Hread. unfold read_word in Hread. rewrite Hheap in Hread. cbn in Hread.
      destruct (decide _); [discriminate|]. apply at_ok, elem_of_list_lookup_2, Haft in Hread as [i ->].
      exists buf, (Z.of_nat i). split; [reflexivity|lia].
  Qed.
End Program.

Theorem calls_flat cf X n2216 R w m all args at_base mem :
  program_ok cf (r_env X) R -> bases_first (e_ti (r_env X)) R ->
  initialized_by cf X n2216 R w -> call_ok cf (e_ti (r_env X)) R w m all args ->
  (length (mr_vp m) = 1 \/ together all) -> holds at_base mem w ->
  exists f, resolve cf w m all = Ok f /\
    flat_resolve cf w at_base mem (map (fun n => (Z.of_nat n mod 2 ^ 64)%Z) (w_ss w (mr_slots_strides m))) m all =
      Ok (Z.of_N f mod 2 ^ 64)%Z.
Proof.
  intros HP HB HI Hc Htog Hh.
  destruct (call_defined cf X R w n2216 0%N m all args HP HB HI Hc Htog) as [(f & Hf & _) _].
  exists f. split; [exact Hf|]. apply (resolve_flat cf w at_base mem Hh m all f Hf).
Qed.

Theorem calls_strict cf X n2216 R w m all args :
  program_ok cf (r_env X) R -> bases_first (e_ti (r_env X)) R ->
  initialized_by cf X n2216 R w -> call_ok cf (e_ti (r_env X)) R w m all args ->
  (length (mr_vp m) = 1 \/ together all) -> vptrs_in_array (e_ti (r_env X)) R w ->
  exists f, resolve cf w m all = Ok f /\ strict_resolve cf w m all = Ok f.
Proof.
  intros HP HB HI Hc Htog Hin.
  destruct (call_defined cf X R w n2216 0%N m all args HP HB HI Hc Htog) as [(f & Hf & _) _].
  exists f. split; [exact Hf|]. destruct HI as (w0 & rep & Hw & Hinit).
  eapply call_strict; eauto.
Qed.
