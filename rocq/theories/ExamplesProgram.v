(* A program of two translation units, for the theorems of PropProgram. *)
From stdpp Require Import base list numbers sets.
From Verif Require Import Base Registry Spec ModelClasses ModelHash ModelWorld ModelCall SpecCall
  ModelTables ExamplesModel ExamplesDispatch ModelSignature SpecSignature ProofSignature ExamplesSignature
  ModelMacros SpecMacros ProofMacros ExamplesMacros ModelUseClasses SpecUseClasses ExamplesUseClasses
  ModelProgram SpecProgram ProofProgramCalls.

(* encounter(virtual_ptr<Animal>, virtual_<const std::shared_ptr<Animal>&>, std::ostream&) *)
Definition enc_ps : list ty := [TyVptr animal 7; TyVirtual (TyLRef (TyConst (TyShared animal))); stream].
Definition enc_qs (t u : ty) : list ty := [TyVptr t 7; TyLRef (TyConst (TyShared u)); stream].

Lemma enc_classes : method_classes 7 enc_ps [1; 1]%N.
Proof. by_form. Qed.
Lemma enc_overrider n k : overrider_classes 7 enc_ps (enc_qs (TyName n) (TyName k)) [n; k].
Proof. by_form. Qed.

(* The header, with an inline overrider; in unit 0, overriders for dogs; in unit 1, others. *)
Definition header5 : list declaration :=
  [Method [] 100 7 poke_ps nothing (1001%N, 2001%N, 1); Method [] 101 7 enc_ps nothing (1002%N, 2002%N, 2)]
  ++ override2 [] 101 (enc_qs animal animal) 21.
Definition units5 : program :=
  [header5 ++ override2 canis 101 (enc_qs dog animal) 22 ++ override2 canis 100 (poke_qs dog) 12;
   header5 ++ override2 [] 101 (enc_qs animal cat) 23 ++ override2 [] 101 (enc_qs dog dog) 24].
Definition compiled5 : list unit_state :=
  map (fun ds => default (UnitState [] []) (translate polymorphic0 base0 convertible2 associated2 ds)) units5.

Definition poke5 : method_type := MethodType [] 100 7 poke_ps nothing.
Definition enc5 : method_type := MethodType [] 101 7 enc_ps nothing.

Lemma compiled5_units :
  Forall2 (fun ds u => translate polymorphic0 base0 convertible2 associated2 ds = Some u) units5 compiled5.
Proof. repeat constructor; vm_compute; reflexivity. Qed.

(* ---- methods and overriders of the program ---- *)
Lemma declared5 M fns : declared units5 M fns ->
  (M = poke5 /\ fns = (1001%N, 2001%N, 1)) \/ (M = enc5 /\ fns = (1002%N, 2002%N, 2)).
Proof.
  intros (ds & j & Hds & Hj). unfold is_method in Hj. destruct M as [ns name r ps ret]. simpl in Hj.
  unfold units5 in Hds. repeat (apply elem_of_cons in Hds as [->|Hds]); [..|by apply elem_of_nil in Hds];
    (do 8 (destruct j as [|j]; [try discriminate Hj; injection Hj as <- <- <- <- <- <-; auto|])); discriminate Hj.
Qed.

Definition functions5 : list (method_type * function * fptr * nat) :=
  [(enc5, Function [] 101 (enc_qs animal animal) nothing, 21%N, 21);
   (enc5, Function canis 101 (enc_qs dog animal) nothing, 22%N, 22);
   (poke5, Function canis 100 (poke_qs dog) nothing, 12%N, 12);
   (enc5, Function [] 101 (enc_qs animal cat) nothing, 23%N, 23);
   (enc5, Function [] 101 (enc_qs dog dog) nothing, 24%N, 24)].

Lemma unit5_method ds j ns name ps : ds ∈ units5 -> method_at ds j ns name ps ->
  (j = 0 /\ ns = [] /\ name = 100%N /\ ps = poke_ps) \/ (j = 1 /\ ns = [] /\ name = 101%N /\ ps = enc_ps).
Proof.
  intros Hds (r & ret & fns & H).
  unfold units5 in Hds. repeat (apply elem_of_cons in Hds as [->|Hds]); [..|by apply elem_of_nil in Hds];
    (do 8 (destruct j as [|j]; [try discriminate H; injection H as <- <- _ <- _ _; auto|])); discriminate H.
Qed.

Lemma unit5_prefix k ds j ns name ps : method_at (take k ds) j ns name ps -> method_at ds j ns name ps.
Proof.
  intros (r & ret & fns & H). exists r, ret, fns. apply lookup_take_Some in H. apply H.
Qed.

Lemma overridden5_only M F pf next : overridden convertible2 associated2 units5 M F pf next ->
  (M, F, pf, next) ∈ functions5.
Proof.
  intros (ds & i & j & fns & Hds & Hj & Hov & Hi).
  destruct Hov as (ns & name & qs & ret & pf' & next' & k & Hi' & _ & _ & Hmean).
  rewrite Hi in Hi'. injection Hi' as <- <- <- <- <- <-.
  destruct Hmean as [(ns' & ps & Hat%unit5_prefix & _) _].
  apply (unit5_method ds j _ _ _ Hds) in Hat as Hat'.
  assert (Hdec : declared units5 M fns) by (exists ds, j; auto).
  apply declared5 in Hdec.
  assert (HM : M = if decide (fn_name F = 100%N) then poke5 else enc5).
  { destruct Hat as (r & ret & fns' & Hat). unfold is_method in Hj. rewrite Hat in Hj. injection Hj as _ E _ _ _ _.
    rewrite E. destruct Hdec as [[-> _]|[-> _]]; reflexivity. }
  rewrite HM. clear -Hds Hi. destruct F as [fns fname fps fret]. simpl in Hi.
  unfold units5 in Hds. repeat (apply elem_of_cons in Hds as [->|Hds]); [..|by apply elem_of_nil in Hds];
    (do 8 (destruct i as [|i]; [try discriminate Hi; injection Hi as <- <- <- <- <- <-; simpl;
       unfold functions5; set_solver|])); discriminate Hi.
Qed.

Lemma enc_takes n k : (n = 1 \/ n = 2)%N -> (k = 1 \/ k = 2 \/ k = 3 \/ k = 4)%N ->
  SpecMacros.takes convertible2 enc_ps (enc_qs (TyName n) (TyName k)).
Proof.
  intros Hn Hk. constructor; [|constructor; [|constructor; [|constructor]]].
  - eexists. split; [by constructor|]. destruct Hn as [-> | ->]; vm_compute; reflexivity.
  - eexists. split; [by constructor|]. destruct Hk as [-> |[-> |[-> | ->]]]; vm_compute; reflexivity.
  - eexists. split; [by constructor|]. vm_compute. reflexivity.
Qed.
Lemma poke_takes n : (n = 1 \/ n = 2 \/ n = 3)%N ->
  SpecMacros.takes convertible2 poke_ps (poke_qs (TyName n)).
Proof.
  intros Hn. constructor; [|constructor; [|constructor]].
  - eexists. split; [by constructor|]. destruct Hn as [-> |[-> | ->]]; vm_compute; reflexivity.
  - eexists. split; [by constructor|]. vm_compute. reflexivity.
Qed.

Lemma unit5_means ds k j name ps qs ns : ds ∈ units5 -> 1 < k ->
  (j = 0 /\ name = 100%N /\ ps = poke_ps \/ j = 1 /\ name = 101%N /\ ps = enc_ps) ->
  SpecMacros.takes convertible2 ps qs -> means convertible2 associated2 (take k ds) ns name qs j.
Proof.
  intros Hds Hk Hj Hq. split.
  - exists [], ps. split.
    + unfold units5 in Hds. repeat (apply elem_of_cons in Hds as [->|Hds]); [..|by apply elem_of_nil in Hds];
        (destruct Hj as [(-> & -> & ->)|(-> & -> & ->)]; unfold method_at; do 3 eexists;
         (rewrite lookup_take by lia); reflexivity).
    + split; [exact Hq|]. left. split; [apply suffix_nil|].
      intros j' ns'' ps' H%unit5_prefix Hs. apply (unit5_method ds _ _ _ _ Hds) in H.
      destruct H as [(_ & -> & _)|(_ & -> & _)]; reflexivity.
  - intros j' (ns' & ps' & H%unit5_prefix & _). apply (unit5_method ds _ _ _ _ Hds) in H. naive_solver.
Qed.

Lemma overridden5 M F pf next : (M, F, pf, next) ∈ functions5 ->
  overridden convertible2 associated2 units5 M F pf next.
Proof.
  intros H.
  assert (Hx : exists ds k j fns, ds ∈ units5 /\ 1 < k /\ is_method ds j M fns /\
    ds !! S k = Some (Define (fn_scope F) (fn_name F) (fn_parameters F) (fn_return F) pf next) /\
    ds !! k = Some (Declare (fn_scope F) (fn_name F) (fn_parameters F) (fn_return F)) /\
    (j = 0 /\ fn_name F = 100%N /\ SpecMacros.takes convertible2 poke_ps (fn_parameters F) \/
     j = 1 /\ fn_name F = 101%N /\ SpecMacros.takes convertible2 enc_ps (fn_parameters F))).
  { pose proof (elem_of_list_lookup_2 units5 0 _ eq_refl) as H0.
    pose proof (elem_of_list_lookup_2 units5 1 _ eq_refl) as H1.
    unfold functions5 in H. repeat (apply elem_of_cons in H as [[= -> -> -> ->]|H]); [..|by apply elem_of_nil in H].
    - eexists _, 2, 1, _. split; [exact H0|]. split; [lia|]. do 3 (split; [reflexivity|]). right.
      split; [reflexivity|]. split; [reflexivity|]. apply enc_takes; auto.
    - eexists _, 4, 1, _. split; [exact H0|]. split; [lia|]. do 3 (split; [reflexivity|]). right.
      split; [reflexivity|]. split; [reflexivity|]. apply enc_takes; auto.
    - eexists _, 6, 0, _. split; [exact H0|]. split; [lia|]. do 3 (split; [reflexivity|]). left.
      split; [reflexivity|]. split; [reflexivity|]. apply poke_takes; auto.
    - eexists _, 4, 1, _. split; [exact H1|]. split; [lia|]. do 3 (split; [reflexivity|]). right.
      split; [reflexivity|]. split; [reflexivity|]. apply enc_takes; auto.
    - eexists _, 6, 1, _. split; [exact H1|]. split; [lia|]. do 3 (split; [reflexivity|]). right.
      split; [reflexivity|]. split; [reflexivity|]. apply enc_takes; auto. }
  destruct Hx as (ds & k & j & fns & Hds & Hk & Hj & Hi & Hd & Hq). exists ds, (S k), j, fns.
  split; [exact Hds|]. split; [exact Hj|]. split; [|exact Hi].
  do 7 eexists. split; [exact Hi|]. split; [exact Hd|]. split; [lia|].
  destruct Hq as [(-> & -> & Hq)|(-> & -> & Hq)].
  - eapply unit5_means; [exact Hds|exact Hk|left; auto|exact Hq].
  - eapply unit5_means; [exact Hds|exact Hk|right; auto|exact Hq].
Qed.

Lemma one_definition5 : one_definition convertible2 associated2 units5.
Proof.
  split.
  - intros M fns fns' H H'. apply declared5 in H, H'. naive_solver.
  - intros M F F' pf pf' next next' H H'. apply overridden5_only in H, H'. unfold functions5 in H, H'.
    repeat (apply elem_of_cons in H as [H|H]; [injection H as -> -> -> ->|]); [..|by apply elem_of_nil in H];
      repeat (apply elem_of_cons in H' as [H'|H']; [first [injection H' as -> -> ->|discriminate H']|]);
      first [by apply elem_of_nil in H'|split; intros E; first [reflexivity|discriminate E]].
  - intros M ni amb ss H. apply declared5 in H. split; [naive_solver|]. intros F pf next HF.
    apply overridden5_only in HF. unfold functions5 in HF.
    repeat (apply elem_of_cons in HF as [HF|HF]; [injection HF as -> -> -> ->|]); [..|by apply elem_of_nil in HF];
      destruct H as [[E H]|[E H]]; injection H as -> -> ->; split; discriminate.
  - intros M M' ni ni' amb amb' ss H H'. apply declared5 in H, H'. naive_solver.
  - intros M M' F F' pf pf' next next' H H'. apply overridden5_only in H, H'. unfold functions5 in H, H'.
    repeat (apply elem_of_cons in H as [H|H]; [injection H as -> -> -> ->|]); [..|by apply elem_of_nil in H];
      repeat (apply elem_of_cons in H' as [H'|H']; [injection H' as -> -> -> ->|]);
      first [by apply elem_of_nil in H'
            |split; [intros [_ E]|intros E]; first [reflexivity|split; reflexivity|discriminate E]].
Qed.

Lemma documented5 : documented_program convertible2 associated2 units5 7.
Proof.
  intros M fns Hr H. apply declared5 in H. split.
  { destruct H as [[-> _]|[-> _]]; eexists; [apply poke_classes|apply enc_classes]. }
  intros F pf next HF. apply overridden5_only in HF. unfold functions5 in HF.
  repeat (apply elem_of_cons in HF as [HF|HF]; [injection HF as -> -> -> ->|]); [..|by apply elem_of_nil in HF];
    eexists; first [apply poke_overrider|apply enc_overrider].
Qed.

(* ---- what is registered ---- *)
(* Each unit has its own type ids; the ids of a class have the same type_index. *)
Definition static5 (u : nat) (t : ty) : N := match t with TyName c => unit_type u c | _ => 0%N end.
Definition void5 (u : nat) : N := 0%N.
Definition env5 : env := Env (fun t => t / 10)%N 0 (fun _ l => l) sort_desc.
Definition run5 : run := Run env5 (r_rnd run0).

Definition lists5 : list listing :=
  [Listing 1 [2; 1] (use_classes pets no_abstract N.to_nat unit_type 1 [2; 1]);
   Listing 0 [1; 2; 3; 4] (rev (use_classes pets no_abstract N.to_nat unit_type 0 [1; 2; 3; 4]))]%N.

(* The overriders of unit 1 are constructed first, then those of unit 0, the inline one being
   the second of its copies; encounter before poke. *)
Definition enc_record5 : method_record :=
  MethodRecord [11; 11]%N 0%N
    [OverriderRecord [11; 31]%N 0%N 23%N 23; OverriderRecord [21; 21]%N 0%N 24%N 24;
     OverriderRecord [10; 10]%N 0%N 21%N 21; OverriderRecord [20; 10]%N 0%N 22%N 22] 1002%N 2002%N 2.
Definition poke_record5 : method_record :=
  MethodRecord [10]%N 0%N [OverriderRecord [20]%N 0%N 12%N 12] 1001%N 2001%N 1.
Definition R5 : registrations := Registrations (flat_map li_records lists5) [enc_record5; poke_record5].
Definition w5 : world := fst (initialize cf0 run5 false R5 world0).

Definition poke_linked5 : method_decl :=
  MethodDecl [] 100 7 (MethodSource poke_ps nothing [ovs (poke_qs dog) 12] 1001%N 2001%N 1).
Definition enc_linked5 : method_decl :=
  MethodDecl [] 101 7 (MethodSource enc_ps nothing [ovs (enc_qs animal animal) 21; ovs (enc_qs dog animal) 22;
     ovs (enc_qs animal cat) 23; ovs (enc_qs dog dog) 24] 1002%N 2002%N 2).

Lemma linked5 : link compiled5 = [poke_linked5; enc_linked5].
Proof. vm_compute. reflexivity. Qed.

Lemma loads5 : loads 7 static5 void5 (link compiled5) R5.
Proof.
  rewrite linked5. exists [enc_linked5; poke_linked5]. split.
  { apply Permutation_submseteq. simpl. apply Permutation_swap. }
  constructor; [|constructor; [|constructor]].
  - exists 1, [ovs (enc_qs animal cat) 23; ovs (enc_qs dog dog) 24; ovs (enc_qs animal animal) 21;
      ovs (enc_qs dog animal) 22]. do 2 eexists. split; [|split; [reflexivity|split; [|reflexivity]]].
    + simpl. apply (Permutation_app_comm [_; _] [_; _]).
    + constructor; [by exists 1|]. constructor; [by exists 1|]. constructor; [by exists 0|].
      constructor; [by exists 0|constructor].
  - exists 0, [ovs (poke_qs dog) 12]. do 2 eexists. split; [|split; [reflexivity|split; [|reflexivity]]].
    + reflexivity.
    + constructor; [by exists 0|constructor].
Qed.

Lemma listed5 c : listed lists5 c <-> (c = 1 \/ c = 2 \/ c = 3 \/ c = 4)%N.
Proof.
  unfold listed, lists5. split.
  - intros (l & Hl & Hc). repeat (apply elem_of_cons in Hl as [->|Hl]); [..|inversion Hl]; simpl in Hc; set_solver.
  - intros H. eexists. split; [right; left|]. simpl. set_solver.
Qed.

Lemma complete5 : complete pets lists5.
Proof.
  intros l c b Hl Hc Hb Hp. apply listed5 in Hb. unfold lists5 in Hl.
  repeat (apply elem_of_cons in Hl as [->|Hl]); [..|inversion Hl]; simpl in *;
    repeat (apply elem_of_cons in Hc as [->|Hc]); try (inversion Hc; fail);
    destruct Hb as [->|[->|[->| ->]]]; first [discriminate Hp | set_solver].
Qed.

Lemma initialized5 : initialized_by cf0 run5 false R5 w5.
Proof.
  assert (H : match snd (initialize cf0 run5 false R5 world0) with Ok _ => true | _ => false end = true)
    by by_compute.
  unfold w5, initialized_by. destruct (initialize cf0 run5 false R5 world0) as [w [rep| | |]] eqn:Hi;
    try discriminate H.
  exists world0, rep. split; [apply world0_start|exact Hi].
Qed.

Lemma started5 : started polymorphic0 base0 convertible2 associated2 units5 compiled5 7 static5 void5
  pets no_abstract N.to_nat id lists5 cf0 run5 R5.
Proof.
  split.
  - exact compiled5_units.
  - exact one_definition5.
  - exact documented5.
  - exact loads5.
  - exact pets_hierarchy.
  - exact unit_identifies.
  - split; [reflexivity|]. intros l Hl. unfold lists5 in Hl.
    repeat (apply elem_of_cons in Hl as [->|Hl]); [..|inversion Hl]; [reflexivity|].
    symmetry. apply Permutation_rev.
  - exact complete5.
  - intros c d. apply N2Nat.inj.
  - intros u c H. apply listed5 in H. simpl. unfold unit_type.
    assert (u mod 10 < 10) by (apply Nat.mod_upper_bound; lia).
    destruct H as [->|[->|[->| ->]]]; lia.
  - destruct env0_ok as [H1 H2]. split; assumption.
  - intros _. apply N.leb_le. by_compute.
Qed.

(* ---- in unit 0, encounter(dog, chimera, os) with a virtual_ptr and a shared_ptr ---- *)
Definition enc_args5 : list arg := [APtr (w_static w5 2) 21%N; AObject 40%N; AOther 900%N].

Lemma call5 : call_in convertible2 associated2 units5 compiled5 7 pets id lists5 cf0 run5 R5 w5
  0 canis 101 (enc_qs dog (TyName 4)) enc5 enc_record5 enc_args5 [2; 4]%N.
Proof.
  split.
  - eexists _, 1, _. split; [reflexivity|]. split; [|reflexivity].
    rewrite <- (firstn_all (header5 ++ _)). eapply unit5_means; [by left|simpl; lia|right; auto|].
    apply enc_takes; auto.
  - reflexivity.
  - eexists. split; [reflexivity|]. exists 1. eexists. split; [vm_compute; reflexivity|]. split; [vm_compute; reflexivity|].
    reflexivity.
  - by left.
  - constructor; [|constructor; [|constructor]].
    + change (id 2%N) with (e_ti (r_env run5) 21%N). eapply passes_ptr; [vm_compute; reflexivity|reflexivity].
    + change (id 4%N) with (e_ti (r_env run5) 40%N). apply passes_object; [discriminate|]. apply elem_of_list_In. vm_compute. tauto.
  - repeat constructor; apply listed5; auto.
  - exists [1; 1]%N. split; [apply enc_classes|]. repeat constructor.
Qed.

Lemma together5 : together enc_args5.
Proof.
  exists [], [AOther 900%N]. split; [reflexivity|]. split; [constructor|]. repeat constructor.
Qed.

(* All four overriders accept a dog and a chimera; (Dog, Dog) is more specialized than the others. *)
Notation accepted5 := (accepted convertible2 associated2 units5 pets).
Notation better5 := (more_specialized convertible2 associated2 units5 pets).

Lemma takes5 n k pf ns : (enc5, Function ns 101 (enc_qs (TyName n) (TyName k)) nothing, pf, N.to_nat pf) ∈ functions5 ->
  takes_classes convertible2 associated2 units5 enc5 pf [n; k].
Proof.
  intros H. eexists _, _. split; [apply overridden5, H|]. apply enc_overrider.
Qed.

Lemma takes_21 : takes_classes convertible2 associated2 units5 enc5 21%N [1; 1]%N.
Proof. apply (takes5 1 1 21%N []). unfold functions5. set_solver. Qed.
Lemma takes_22 : takes_classes convertible2 associated2 units5 enc5 22%N [2; 1]%N.
Proof. apply (takes5 2 1 22%N canis). unfold functions5. set_solver. Qed.
Lemma takes_23 : takes_classes convertible2 associated2 units5 enc5 23%N [1; 3]%N.
Proof. apply (takes5 1 3 23%N []). unfold functions5. set_solver. Qed.
Lemma takes_24 : takes_classes convertible2 associated2 units5 enc5 24%N [2; 2]%N.
Proof. apply (takes5 2 2 24%N []). unfold functions5. set_solver. Qed.

Lemma accepted_24 : accepted5 enc5 [2; 4]%N 24%N.
Proof. exists [2; 2]%N. split; [exact takes_24|]. repeat constructor. Qed.

Lemma pair_specialized a1 a2 b1 b2 : proper_in_some pets [a1; a2] [b1; b2] <->
  pets b1 a1 && negb (a1 =? b1)%N || pets b2 a2 && negb (a2 =? b2)%N = true.
Proof.
  rewrite orb_true_iff, !andb_true_iff, !negb_true_iff, !N.eqb_neq. split.
  - intros (i & x & y & Ha & Hb' & H). destruct i as [|[|i]]; simpl in *; [| |discriminate];
      injection Ha as <-; injection Hb' as <-; auto.
  - intros [H|H]; [exists 0, a1, b1|exists 1, a2, b2]; auto.
Qed.

Ltac more pf := exists [2; 2]%N; eexists; split; [exact takes_24|]; split; [exact pf|];
  rewrite !pair_specialized; split; [reflexivity|apply not_true_iff_false; reflexivity].

Lemma best_24 pf : accepted5 enc5 [2; 4]%N pf -> pf <> 24%N -> better5 enc5 24%N pf.
Proof.
  intros (cs & (F & next & HF & _) & _) Hne. apply overridden5_only in HF. unfold functions5 in HF.
  repeat (apply elem_of_cons in HF as [HF|HF]; [first [discriminate HF|injection HF as -> -> ->]|]);
    [..|by apply elem_of_nil in HF].
  - more takes_21.
  - more takes_22.
  - more takes_23.
  - congruence.
Qed.

(* The dispatch of an encounter of a dog and a cat is ambiguous between (Dog, Animal) and
   (Animal, Cat). *)
Definition cat_args5 : list arg := [APtr (w_static w5 2) 21%N; AObject 30%N; AOther 900%N].

Lemma call5_cat : call_in convertible2 associated2 units5 compiled5 7 pets id lists5 cf0 run5 R5 w5
  1 [] 101 (enc_qs dog cat) enc5 enc_record5 cat_args5 [2; 3]%N.
Proof.
  split.
  - eexists _, 1, _. split; [reflexivity|]. split; [|reflexivity].
    rewrite <- (firstn_all (header5 ++ _)). eapply unit5_means; [right; by left|simpl; lia|right; auto|].
    apply enc_takes; auto.
  - reflexivity.
  - eexists. split; [reflexivity|]. exists 1. eexists. split; [vm_compute; reflexivity|].
    split; [vm_compute; reflexivity|]. reflexivity.
  - by left.
  - constructor; [|constructor; [|constructor]].
    + change (id 2%N) with (e_ti (r_env run5) 21%N). eapply passes_ptr; [vm_compute; reflexivity|reflexivity].
    + change (id 3%N) with (e_ti (r_env run5) 30%N). apply passes_object; [discriminate|].
      apply elem_of_list_In. vm_compute. tauto.
  - repeat constructor; apply listed5; auto.
  - exists [1; 1]%N. split; [apply enc_classes|]. repeat constructor.
Qed.

Lemma together5_cat : together cat_args5.
Proof. exists [], [AOther 900%N]. split; [reflexivity|]. split; [constructor|]. repeat constructor. Qed.

Example ambiguous5 : exists ts, call cf0 w5 2%N enc_record5 cat_args5 = Err (EAmbiguousCall 2%N 3 ts).
Proof. eexists. vm_compute. reflexivity. Qed.

Lemma takes5_only pf cs : takes_classes convertible2 associated2 units5 enc5 pf cs ->
  (pf = 21 /\ cs = [1; 1] \/ pf = 22 /\ cs = [2; 1] \/ pf = 23 /\ cs = [1; 3] \/ pf = 24 /\ cs = [2; 2])%N.
Proof.
  intros (F & next & HF & Hc). apply overridden5_only in HF. unfold functions5 in HF.
  assert (Hfun : forall n k,
    overrider_compiles 7 base0 convertible2 enc_ps (enc_qs (TyName n) (TyName k)) = true -> overrider_classes 7 enc_ps (enc_qs (TyName n) (TyName k)) cs -> cs = [n; k]).
  { intros n k Hc' H. exact (classes_fun base0 convertible2 7 _ _ _ _ Hc' H (enc_overrider n k)). }
  repeat (apply elem_of_cons in HF as [HF|HF]; [first [discriminate HF|injection HF as -> -> ->]|]);
    [..|by apply elem_of_nil in HF]; (apply Hfun in Hc; [auto 8|vm_compute; reflexivity]).
Qed.

Lemma unbeaten_22 : unbeaten convertible2 associated2 units5 pets enc5 [2; 3]%N 22%N.
Proof.
  split; [exists [2; 1]%N; split; [exact takes_22|repeat constructor]|].
  intros pf (cs0 & Ht & Hacc) (cs & cs' & Hc & Hc' & H1 & H2). apply takes5_only in Ht, Hc, Hc'.
  destruct Hc' as [[[=] _]|[[_ ->]|[[[=] _]|[[=] _]]]].
  destruct Hc as [[-> ->]|[[-> ->]|[[-> ->]|[-> ->]]]]; rewrite pair_specialized in H1, H2;
    try discriminate H1; try (by apply H2).
  destruct Ht as [[[=] _]|[[[=] _]|[[[=] _]|[_ ->]]]].
  apply Forall2_cons in Hacc as [_ [Hacc _]%Forall2_cons]. discriminate Hacc.
Qed.

Lemma settled5 : program_settled convertible2 associated2 units5 pets enc5 [2; 3]%N.
Proof.
  intros pf pf' (cs1 & Ht & Hacc) (cs1' & Ht' & Hacc') (cs & cs' & Hc' & Hc & H1 & H2).
  exists 22%N. split; [exact unbeaten_22|].
  clear Ht Hacc. apply takes5_only in Ht', Hc, Hc'.
  assert (Hne : pf' <> 24%N).
  { intros ->. destruct Ht' as [[[=] _]|[[[=] _]|[[[=] _]|[_ ->]]]].
    apply Forall2_cons in Hacc' as [_ [Hacc' _]%Forall2_cons]. discriminate Hacc'. }
  clear Ht' Hacc'.
  destruct Hc as [[-> ->]|[[-> ->]|[[-> ->]|[-> ->]]]].
  - exists [2; 1]%N, [1; 1]%N. split; [exact takes_22|]. split; [exact takes_21|].
    rewrite !pair_specialized. split; [reflexivity|apply not_true_iff_false; reflexivity].
  - exfalso. destruct Hc' as [[-> ->]|[[-> ->]|[[-> ->]|[-> ->]]]]; rewrite pair_specialized in H1, H2;
      first [discriminate H1|by apply H2|by apply Hne].
  - exfalso. destruct Hc' as [[-> ->]|[[-> ->]|[[-> ->]|[-> ->]]]]; rewrite pair_specialized in H1, H2;
      first [discriminate H1|by apply H2|by apply Hne].
  - exists [2; 1]%N, [2; 2]%N. exfalso. destruct Hc' as [[-> ->]|[[-> ->]|[[-> ->]|[-> ->]]]];
      rewrite pair_specialized in H1, H2; first [discriminate H1|by apply H2|by apply Hne].
Qed.

(* ---- in unit 1, poke(cat, os): the only overrider of poke is for dogs, in unit 0 ---- *)
Definition poke_args5 : list arg := [AObject 30%N; AOther 900%N].

Lemma call5_poke : call_in convertible2 associated2 units5 compiled5 7 pets id lists5 cf0 run5 R5 w5
  1 felis 100 (poke_qs cat) poke5 poke_record5 poke_args5 [3]%N.
Proof.
  split.
  - eexists _, 0, _. split; [reflexivity|]. split; [|reflexivity].
    rewrite <- (firstn_all (header5 ++ _)). eapply unit5_means; [right; by left|simpl; lia|left; auto|].
    apply poke_takes; auto.
  - reflexivity.
  - eexists. split; [reflexivity|]. exists 0. eexists. split; [vm_compute; reflexivity|].
    split; [vm_compute; reflexivity|]. reflexivity.
  - right. by left.
  - constructor; [|constructor].
    change (id 3%N) with (e_ti (r_env run5) 30%N). apply passes_object; [discriminate|].
    apply elem_of_list_In. vm_compute. tauto.
  - repeat constructor; apply listed5; auto.
  - exists [1]%N. split; [apply poke_classes|]. repeat constructor.
Qed.

Lemma none5 pf : ~ accepted5 poke5 [3]%N pf.
Proof.
  intros (cs & (F & next & HF & Hc) & Hacc). apply overridden5_only in HF. unfold functions5 in HF.
  repeat (apply elem_of_cons in HF as [HF|HF]; [first [discriminate HF|injection HF as -> -> ->]|]);
    [..|by apply elem_of_nil in HF].
  assert (cs = [2]%N) as ->.
  { refine (classes_fun base0 convertible2 7 _ _ _ _ _ Hc (poke_overrider 2)). vm_compute. reflexivity. }
  apply Forall2_cons in Hacc as [Hacc _]. discriminate Hacc.
Qed.

Lemma program_example :
  started polymorphic0 base0 convertible2 associated2 units5 compiled5 7 static5 void5
    pets no_abstract N.to_nat id lists5 cf0 run5 R5 /\
  initialized_by cf0 run5 false R5 w5.
Proof. exact (conj started5 initialized5). Qed.

Lemma program_best_example :
  (started polymorphic0 base0 convertible2 associated2 units5 compiled5 7 static5 void5
     pets no_abstract N.to_nat id lists5 cf0 run5 R5 /\
   initialized_by cf0 run5 false R5 w5) /\
  call_in convertible2 associated2 units5 compiled5 7 pets id lists5 cf0 run5 R5 w5
    0 canis 101 (enc_qs dog (TyName 4)) enc5 enc_record5 enc_args5 [2; 4]%N /\
  together enc_args5 /\
  accepted convertible2 associated2 units5 pets enc5 [2; 4]%N 24%N /\
  (forall pf', accepted convertible2 associated2 units5 pets enc5 [2; 4]%N pf' -> pf' <> 24%N ->
     more_specialized convertible2 associated2 units5 pets enc5 24%N pf').
Proof.
  split; [exact program_example|]. split; [exact call5|]. split; [exact together5|].
  split; [exact accepted_24|exact best_24].
Qed.

Lemma program_none_example :
  (started polymorphic0 base0 convertible2 associated2 units5 compiled5 7 static5 void5
     pets no_abstract N.to_nat id lists5 cf0 run5 R5 /\
   initialized_by cf0 run5 false R5 w5) /\
  call_in convertible2 associated2 units5 compiled5 7 pets id lists5 cf0 run5 R5 w5
    1 felis 100 (poke_qs cat) poke5 poke_record5 poke_args5 [3]%N /\
  length [3]%N = 1 /\ (forall pf, ~ accepted convertible2 associated2 units5 pets poke5 [3]%N pf).
Proof.
  split; [exact program_example|]. split; [exact call5_poke|]. split; [reflexivity|exact none5].
Qed.

Lemma program_calls_example :
  (started polymorphic0 base0 convertible2 associated2 units5 compiled5 7 static5 void5
     pets no_abstract N.to_nat id lists5 cf0 run5 R5 /\
   initialized_by cf0 run5 false R5 w5) /\
  call_in convertible2 associated2 units5 compiled5 7 pets id lists5 cf0 run5 R5 w5
    1 [] 101 (enc_qs dog cat) enc5 enc_record5 cat_args5 [2; 3]%N /\
  together cat_args5 /\ program_settled convertible2 associated2 units5 pets enc5 [2; 3]%N /\
  exists ts, call cf0 w5 2%N enc_record5 cat_args5 = Err (EAmbiguousCall 2%N 3 ts).
Proof.
  split; [exact program_example|]. split; [exact call5_cat|]. split; [exact together5_cat|].
  split; [exact settled5|exact ambiguous5].
Qed.

Lemma registered_example :
  Forall2 (fun ds u => translate polymorphic0 base0 convertible2 associated2 ds = Some u) units5 compiled5 /\
  one_definition convertible2 associated2 units5 /\ declared units5 enc5 (1002%N, 2002%N, 2) /\
  overridden convertible2 associated2 units5 enc5 (Function canis 101 (enc_qs dog animal) nothing) 22%N 22 /\
  overridden convertible2 associated2 units5 enc5 (Function [] 101 (enc_qs dog dog) nothing) 24%N 24.
Proof.
  split; [exact compiled5_units|]. split; [exact one_definition5|]. split.
  { eexists _, 1. split; [by left|reflexivity]. }
  split; apply overridden5; unfold functions5; set_solver.
Qed.
