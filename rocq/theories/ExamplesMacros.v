(* Translation units, for the theorems of PropMacros.  test_namespaces.cpp, and two overloads. *)
From stdpp Require Import base list numbers.
From Verif Require Import Base Registry Spec ModelClasses ModelHash ModelWorld ModelCall SpecCall
  ModelTables ExamplesModel ExamplesDispatch ProofSignature ExamplesSignature
  ModelSignature SpecSignature ModelMacros SpecMacros ProofMacros.

(* interfaces::Animal 1, canis::Dog 2, canis::Bulldog 4, felis::Cat 3; int 91, double 92,
   std::string 81. *)
Definition interfaces : namespace := [10%N].
Definition canis : namespace := [11%N].
Definition felis : namespace := [12%N].
Definition bases1 (n : N) : list N :=
  match n with 1 => [1] | 2 => [2; 1] | 3 => [3; 1] | 4 => [4; 2; 1] | _ => [] end%N.
Definition base1 (b d : ty) : bool :=
  match b, d with TyName b, TyName d => bool_decide (b ∈ bases1 d) | _, _ => false end.
Definition polymorphic1 (t : ty) : bool := match t with TyName n => (n <? 10)%N | _ => false end.
Definition convertible1 (q p : ty) : bool :=
  bool_decide (q = p) ||
  match q, p with
  | TyLRef (TyName d), TyLRef (TyName b) => bool_decide (b ∈ bases1 d)
  | TyName 91, TyName 92 | TyName 92, TyName 91 => true
  | _, _ => false
  end.
Definition home (n : N) : list namespace :=
  match n with 1 => [interfaces] | 2 => [canis] | 3 => [felis] | 4 => [canis] | _ => [] end%N.
Definition associated1 (t : ty) : list namespace :=
  match t with TyLRef (TyName n) => concat (map home (bases1 n)) | _ => [] end.

Definition ref (n : N) : ty := TyLRef (TyName n).
Definition string := TyName 81.
Definition virtual_animal := TyVirtual (ref 1).
Definition fns1 (n : N) : fptr * fptr * nat := ((1000 + n)%N, (2000 + n)%N, N.to_nat n).

(* BOOST_OPENMETHOD_OVERRIDE *)
Definition override1 (ns : namespace) (name : N) (qs : list ty) (pf : N) : list declaration :=
  [Declare ns name qs string; Define ns name qs string pf (N.to_nat pf)].

(* Names: poke 100, meet 101, feed 102, describe 103. *)
Definition unit1 : list declaration :=
  [Method [] 100 7 [virtual_animal] string (fns1 1)]
  ++ override1 canis 100 [ref 2] 11 ++ override1 canis 100 [ref 4] 12
  ++ [Method [] 101 7 [virtual_animal; virtual_animal] string (fns1 2)]
  ++ override1 [] 101 [ref 1; ref 1] 21 ++ override1 [] 101 [ref 2; ref 2] 22
  ++ override1 [] 101 [ref 2; ref 3] 23 ++ override1 [] 101 [ref 3; ref 2] 24
  (* a method of namespace interfaces, overridden elsewhere *)
  ++ [Method interfaces 102 7 [virtual_animal; TyName 91] string (fns1 3)]
  ++ override1 canis 102 [ref 2; TyName 91] 31 ++ override1 felis 102 [ref 3; TyName 91] 32.

Definition registered1 (us : unit_state) : list (N * list fptr) :=
  map (fun m => (md_name m, map os_pf (ms_overriders (md_source m)))) (us_methods us).

Example unit1_translated : exists us,
  translate polymorphic1 base1 convertible1 associated1 unit1 = Some us /\
  registered1 us = [(100, [11; 12]); (101, [21; 22; 23; 24]); (102, [31; 32])]%N /\
  call_located convertible1 associated1 us [] 100 [ref 3] = Some 0 /\
  call_located convertible1 associated1 us canis 101 [ref 4; ref 3] = Some 1 /\
  call_located convertible1 associated1 us felis 102 [ref 3; TyName 91] = Some 2 /\
  call_located convertible1 associated1 us [] 102 [TyName 91; TyName 91] = None.
Proof.
  exists (default (UnitState [] []) (translate polymorphic1 base1 convertible1 associated1 unit1)).
  split; [vm_compute; reflexivity|]. split; [vm_compute; reflexivity|].
  repeat split; vm_compute; reflexivity.
Qed.

(* ---- a documented overrider ---- *)
Definition unit2 : list declaration :=
  [Method [] 100 7 [virtual_animal] string (fns1 1);
   Method interfaces 102 7 [virtual_animal; TyName 91] string (fns1 3)].

Lemma unit2_translated : exists us,
  translate polymorphic1 base1 convertible1 associated1 unit2 = Some us.
Proof.
  exists (default (UnitState [] []) (translate polymorphic1 base1 convertible1 associated1 unit2)).
  vm_compute. reflexivity.
Qed.

Lemma int_ordinary n : ordinary (TyName n).
Proof. split; [discriminate|]. repeat split; discriminate. Qed.

Lemma unit2_means : means convertible1 associated1 unit2 canis 102 [ref 2; TyName 91] 1.
Proof.
  split.
  - exists interfaces, [virtual_animal; TyName 91]. split; [by do 3 eexists|]. split.
    + constructor; [exists (ref 1); split; [constructor|reflexivity]|].
      constructor; [exists (TyName 91); split; [by constructor|reflexivity]|constructor].
    + right. exists (ref 2). split; [constructor|]. by apply elem_of_list_In; right; left.
  - intros [|[|j]] (ns & ps & (r & ret & fns & H) & _); [discriminate H|reflexivity|discriminate H].
Qed.

Lemma unit2_fresh : Declare canis 102 [ref 2; TyName 91] string ∉ unit2.
Proof. intros H. repeat (apply elem_of_cons in H as [H|H]; [discriminate H|]). inversion H. Qed.

Lemma unit2_may : Forall2 (may_override 7 base1 convertible1) [virtual_animal; TyName 91] [ref 2; TyName 91].
Proof.
  constructor; [apply may_virtual; econstructor; constructor|].
  constructor; [apply may_ordinary, int_ordinary|constructor].
Qed.

Lemma unit2_forms : Forall2 (fun p q => (forall t r, p = TyLRef (TyConst (TyVptr t r)) -> q <> p) /\
    (forall t, p <> TyRRef t)) [virtual_animal; TyName 91] [ref 2; TyName 91].
Proof. repeat constructor; discriminate. Qed.

(* ---- overloads: describe(virtual_<Animal&>, int), describe(virtual_<Animal&>, double) ---- *)
Definition unit3 : list declaration :=
  [Method [] 103 7 [virtual_animal; TyName 91] string (fns1 1);
   Method [] 103 7 [virtual_animal; TyName 92] string (fns1 2)].

Lemma unit3_exact j ps : method_at unit3 j [] 103 ps ->
  Forall2 undecorated ps [ref 1; TyName 91] -> j = 0.
Proof.
  intros (r & ret & fns & H) Hu. destruct j as [|[|j]]; [reflexivity| |discriminate H].
  injection H as _ <- _ _. inversion Hu as [|? ? ? ? _ H2]; subst.
  inversion H2 as [|? ? ? ? H3 _]; subst. inversion H3.
Qed.

Lemma unit3_undecorated : Forall2 undecorated [virtual_animal; TyName 91] [ref 1; TyName 91].
Proof. constructor; [constructor|]. constructor; [by constructor|constructor]. Qed.

Lemma unit3_may : Forall2 (may_override 7 base1 convertible1) [virtual_animal; TyName 91] [ref 1; TyName 91].
Proof.
  constructor; [apply may_virtual; econstructor; constructor|].
  constructor; [apply may_ordinary, int_ordinary|constructor].
Qed.

Lemma convertible1_self q : convertible1 q q = true.
Proof. unfold convertible1. by rewrite bool_decide_eq_true_2. Qed.

Lemma unit3_can j q : j < 2 -> q = TyName 91 \/ q = TyName 92 ->
  can_mean convertible1 associated1 unit3 [] 103 [ref 1; q] j.
Proof.
  intros Hj Hq.
  assert (Hm : method_at unit3 j [] 103 [virtual_animal; TyName (if j =? 0 then 91 else 92)]).
  { destruct j as [|[|j]]; [by do 3 eexists|by do 3 eexists|lia]. }
  exists [], [virtual_animal; TyName (if j =? 0 then 91 else 92)]. split; [exact Hm|]. split.
  - constructor; [exists (ref 1); split; [constructor|reflexivity]|].
    constructor; [|constructor]. eexists. split; [by constructor|].
    destruct j as [|[|j]]; [| |lia]; destruct Hq as [-> | ->]; reflexivity.
  - left. split; [reflexivity|]. intros j' ns'' ps' _ H. exact H.
Qed.

Lemma unit3_not j : ~ means convertible1 associated1 unit3 [] 103 [ref 1; TyName 91] j.
Proof.
  intros [_ Hu].
  assert (0 = j) by (apply Hu, unit3_can; [lia|auto]).
  assert (1 = j) by (apply Hu, unit3_can; [lia|auto]). lia.
Qed.

Lemma exact_call_witness : exists polymorphic base_of convertible associated ds us ns name r ps ret fns qs,
  translate polymorphic base_of convertible associated ds = Some us /\
  ds !! 0 = Some (Method ns name r ps ret fns) /\ Forall2 undecorated ps qs /\
  (forall j ps', method_at ds j ns name ps' -> Forall2 undecorated ps' qs -> j = 0) /\
  (forall q, convertible q q = true) /\
  call_located convertible associated us ns name qs = None.
Proof.
  exists polymorphic1, base1, convertible1, associated1, unit3.
  exists (default (UnitState [] []) (translate polymorphic1 base1 convertible1 associated1 unit3)).
  exists [], 103%N, 7%N, [virtual_animal; TyName 91], string, (fns1 1), [ref 1; TyName 91].
  split; [vm_compute; reflexivity|]. split; [reflexivity|]. split; [exact unit3_undecorated|].
  split; [exact unit3_exact|]. split; [exact convertible1_self|]. vm_compute. reflexivity.
Qed.

Lemma exact_overrider_witness :
  exists polymorphic base_of convertible associated ds us ns name r ps ret fns qs,
  translate polymorphic base_of convertible associated ds = Some us /\
  ds !! 0 = Some (Method ns name r ps ret fns) /\ Forall2 undecorated ps qs /\
  Forall2 (may_override r base_of convertible) ps qs /\
  (forall j ps', method_at ds j ns name ps' -> Forall2 undecorated ps' qs -> j = 0) /\
  (forall q, convertible q q = true) /\
  (forall post, translate polymorphic base_of convertible associated
     (ds ++ Declare ns name qs ret :: post) = None).
Proof.
  exists polymorphic1, base1, convertible1, associated1, unit3.
  exists (default (UnitState [] []) (translate polymorphic1 base1 convertible1 associated1 unit3)).
  exists [], 103%N, 7%N, [virtual_animal; TyName 91], string, (fns1 1), [ref 1; TyName 91].
  split; [vm_compute; reflexivity|]. split; [reflexivity|]. split; [exact unit3_undecorated|].
  split; [exact unit3_may|]. split; [exact unit3_exact|]. split; [exact convertible1_self|].
  intros post. apply undeclared_rejected. exact unit3_not.
Qed.

(* compile_fail_override_method_not_found.cpp *)
Lemma nothing_means j : ~ means convertible1 associated1 [] [] 104 [ref 2] j.
Proof. intros [(ns & ps & (r & ret & fns & H) & _) _]. discriminate H. Qed.

(* ---- poke and meet of ExamplesSignature, in the diamond; registry 7 ---- *)
Definition convertible2 (q p : ty) : bool :=
  bool_decide (q = p) || convertible0 q p ||
  match q, p with
  | TyLRef (TyConst (TyName d)), TyLRef (TyConst (TyName b))
  | TyLRef (TyConst (TyShared (TyName d))), TyLRef (TyConst (TyShared (TyName b))) =>
      bool_decide (b ∈ bases0 d)
  | _, _ => false
  end.
Definition associated2 (t : ty) : list namespace := [].

Definition override2 (ns : namespace) (name : N) (qs : list ty) (pf : N) : list declaration :=
  [Declare ns name qs nothing; Define ns name qs nothing pf (N.to_nat pf)].

Definition unit4 : list declaration :=
  [Method [] 100 7 poke_ps nothing (1001%N, 2001%N, 1)]
  ++ override2 [] 100 (poke_qs animal) 11 ++ override2 canis 100 (poke_qs dog) 12
  ++ override2 felis 100 (poke_qs cat) 13
  ++ [Method [] 101 7 meet_ps nothing (1002%N, 2002%N, 2)]
  ++ override2 [] 101 (meet_qs animal animal) 21 ++ override2 canis 101 (meet_qs dog animal) 22
  ++ override2 [] 101 (meet_qs animal cat) 23 ++ override2 [] 101 (meet_qs dog dog) 24.

Lemma unit4_translated : exists us,
  translate polymorphic0 base0 convertible2 associated2 unit4 = Some us /\
  map md_source (us_methods us) = [poke_source; meet_source] /\
  call_located convertible2 associated2 us canis 101 (meet_qs dog (TyName 4)) = Some 1.
Proof.
  exists (default (UnitState [] []) (translate polymorphic0 base0 convertible2 associated2 unit4)).
  repeat split; vm_compute; reflexivity.
Qed.

(* Which declarations of unit4 are methods. *)
Lemma unit4_methods j ns name ps : method_at unit4 j ns name ps ->
  (j = 0 /\ ns = [] /\ name = 100%N /\ ps = poke_ps) \/ (j = 7 /\ ns = [] /\ name = 101%N /\ ps = meet_ps).
Proof.
  intros (r & ret & fns & H).
  do 16 (destruct j as [|j]; [try discriminate H; injection H as <- <- _ <- _ _; auto|]).
  discriminate H.
Qed.

Lemma unit4_prefix k j ns name ps : method_at (take k unit4) j ns name ps -> method_at unit4 j ns name ps.
Proof.
  intros (r & ret & fns & H). exists r, ret, fns. apply lookup_take_Some in H. apply H.
Qed.

Lemma unit4_only k ns name qs j : means convertible2 associated2 (take k unit4) ns name qs j ->
  (j = 0 /\ name = 100%N) \/ (j = 7 /\ name = 101%N).
Proof.
  intros [(ns' & ps & H%unit4_prefix%unit4_methods & _) _]. naive_solver.
Qed.

Lemma unit4_documented : documented convertible2 associated2 7 unit4.
Proof.
  intros j ns name r ps ret fns Hj.
  assert (Hr : r = 7%N).
  { do 16 (destruct j as [|j]; [try discriminate Hj; by injection Hj as _ _ <- _ _ _|]). discriminate Hj. }
  split; [exact Hr|].
  assert (Hat : method_at unit4 j ns name ps) by (do 3 eexists; exact Hj).
  apply unit4_methods in Hat as [(-> & -> & -> & ->)|(-> & -> & -> & ->)]; split.
  - exists [1%N]. apply poke_classes.
  - intros i ns' name' qs ret' pf next (? & ? & ? & ? & ? & ? & k & H1 & H2 & H3 & H4) Hi.
    rewrite Hi in H1. injection H1 as <- <- <- <- <- <-. apply unit4_only in H4 as [[_ ->]|[H _]]; [|discriminate H].
    do 16 (destruct i as [|i]; [try discriminate Hi; injection Hi as _ <- _ _ _; eexists; apply poke_overrider|]).
    discriminate Hi.
  - exists [1; 1]%N. apply meet_classes.
  - intros i ns' name' qs ret' pf next (? & ? & ? & ? & ? & ? & k & H1 & H2 & H3 & H4) Hi.
    rewrite Hi in H1. injection H1 as <- <- <- <- <- <-. apply unit4_only in H4 as [[H _]|[_ ->]]; [discriminate H|].
    do 16 (destruct i as [|i]; [try discriminate Hi; injection Hi as _ <- _ _ _; eexists; apply meet_overrider|]).
    discriminate Hi.
Qed.

Lemma unit4_means k qs : 7 < k -> takes convertible2 meet_ps qs ->
  forall ns, means convertible2 associated2 (take k unit4) ns 101 qs 7.
Proof.
  intros Hk Hq ns. split.
  - exists [], meet_ps. split.
    { exists 7%N, nothing, (1002%N, 2002%N, 2). rewrite lookup_take by exact Hk. reflexivity. }
    split; [exact Hq|]. left. split; [apply suffix_nil|].
    intros j' ns'' ps' H%unit4_prefix%unit4_methods Hs.
    destruct H as [(_ & -> & _)|(_ & -> & _)]; reflexivity.
  - intros j' (ns' & ps & H%unit4_prefix%unit4_methods & _).
    destruct H as [(_ & _ & H & _)|(H & _)]; [discriminate H|exact H].
Qed.

Lemma meet_takes n k : (n = 1 \/ n = 2)%N -> (k = 1 \/ k = 2 \/ k = 3 \/ k = 4)%N ->
  takes convertible2 meet_ps (meet_qs (TyName n) (TyName k)).
Proof.
  intros Hn Hk. constructor; [|constructor; [|constructor; [|constructor]]].
  - eexists. split; [by constructor|]. destruct Hn as [-> | ->]; vm_compute; reflexivity.
  - eexists. split; [by constructor|]. vm_compute. reflexivity.
  - eexists. split; [by constructor|]. destruct Hk as [-> |[-> |[-> | ->]]]; vm_compute; reflexivity.
Qed.

Lemma unit4_calls : means convertible2 associated2 unit4 canis 101 (meet_qs dog (TyName 4)) 7.
Proof.
  rewrite <- (firstn_all unit4). apply unit4_means; [simpl; lia|]. apply meet_takes; auto.
Qed.

Lemma unit4_overrides : overrides convertible2 associated2 unit4 15 7.
Proof.
  exists [], 101%N, (meet_qs dog dog), nothing, 24%N, 24, 14. split; [reflexivity|].
  split; [reflexivity|]. split; [lia|]. apply unit4_means; [lia|]. apply meet_takes; auto.
Qed.

Lemma unit4_best i ns name qs ret pf next cs :
  overrides convertible2 associated2 unit4 i 7 -> i <> 15 ->
  unit4 !! i = Some (Define ns name qs ret pf next) -> overrider_classes 7 meet_ps qs cs ->
  accepts id R0 (fun c => static0 (TyName c)) [2; 4]%N cs ->
  better id R0 (fun c => static0 (TyName c)) [2; 2]%N cs.
Proof.
  intros (? & ? & ? & ? & ? & ? & k & H1 & H2 & H3 & H4) Hne Hi Hcs Hacc.
  rewrite Hi in H1. injection H1 as <- <- <- <- <- <-.
  apply unit4_only in H4 as [[H _]|[_ ->]]; [discriminate H|].
  destruct meet_source_call as (_ & _ & _ & _ & _ & _ & _ & _ & Hb).
  assert (Hin : exists j o, ms_overriders meet_source !! j = Some o /\ j <> 3 /\ os_parameters o = qs).
  { do 16 (destruct i as [|i];
      [first [discriminate Hi|lia|injection Hi as _ <- _ _ _;
         first [by exists 0; eexists|by exists 1; eexists|by exists 2; eexists]]|]).
    discriminate Hi. }
  destruct Hin as (j & o & Ho & Hj & <-). exact (Hb j o cs Ho Hj Hcs Hacc).
Qed.

Lemma macro_dispatch_example :
  (exists us, translate polymorphic0 base0 convertible2 associated2 unit4 = Some us /\
     Forall2 (fun d m => method_registered 7 static0 0 (md_source d) = Ok m) (us_methods us) (reg_methods R0) /\
     call_located convertible2 associated2 us canis 101 (meet_qs dog (TyName 4)) = Some 1) /\
  documented convertible2 associated2 7 unit4 /\
  (program_ok cf0 env0 R0 /\ bases_first id R0 /\ initialized_by cf0 run0 false R0 w0) /\
  reg_methods R0 !! 1 = Some meet /\
  call_ok cf0 id R0 w0 meet (map AObject [2; 4]%N) [2; 4]%N /\ functions_ok meet /\
  together (map AObject [2; 4]%N) /\
  means convertible2 associated2 unit4 canis 101 (meet_qs dog (TyName 4)) 7 /\
  unit4 !! 7 = Some (Method [] 101 7 meet_ps nothing (1002%N, 2002%N, 2)) /\
  overrides convertible2 associated2 unit4 15 7 /\
  unit4 !! 15 = Some (Define [] 101 (meet_qs dog dog) nothing 24%N 24) /\
  overrider_classes 7 meet_ps (meet_qs dog dog) [2; 2]%N /\
  accepts id R0 (fun c => static0 (TyName c)) [2; 4]%N [2; 2]%N /\
  (forall i ns name qs ret pf next cs,
     overrides convertible2 associated2 unit4 i 7 -> i <> 15 ->
     unit4 !! i = Some (Define ns name qs ret pf next) -> overrider_classes 7 meet_ps qs cs ->
     accepts id R0 (fun c => static0 (TyName c)) [2; 4]%N cs ->
     better id R0 (fun c => static0 (TyName c)) [2; 2]%N cs).
Proof.
  destruct dispatch_example as ((Hreg & _) & HP & _ & Hm & Hc & Hf & Ht & _ & Hcl & Hacc & _).
  split.
  { destruct unit4_translated as (us & H1 & H2 & H3). exists us. split; [exact H1|]. split; [|exact H3].
    rewrite <- H2 in Hreg. by apply Forall2_fmap_l in Hreg. }
  split; [exact unit4_documented|]. split; [exact HP|]. split; [exact Hm|]. split; [exact Hc|].
  split; [exact Hf|]. split; [exact Ht|]. split; [exact unit4_calls|]. split; [reflexivity|].
  split; [exact unit4_overrides|]. split; [reflexivity|]. split; [exact Hcl|]. split; [exact Hacc|].
  exact unit4_best.
Qed.

Lemma unit4_declares : Method [] 101 7 meet_ps nothing (1002%N, 2002%N, 2) ∈ unit4.
Proof. apply (elem_of_list_lookup_2 _ 7). reflexivity. Qed.

Lemma unit4_other_return :
  (exists us, translate polymorphic0 base0 convertible2 associated2 unit4 = Some us) /\
  (forall fns', Method [] 101 7 meet_ps string fns' ∉ unit4) /\
  (exists ret fns', Method [] 101 7 meet_ps ret fns' ∈ unit4) /\
  method_classes 7 meet_ps [1; 1]%N /\ [1; 1]%N <> [] /\
  (forall t c, TyVirtual t ∈ meet_ps -> refers t c -> polymorphic0 (TyName c) = true) /\
  (forall t, TyLRef (TyShared t) ∉ meet_ps).
Proof.
  split; [destruct unit4_translated as (us & H & _); eauto|]. split.
  { intros fns' H. repeat (apply elem_of_cons in H as [H|H]; [discriminate H|]). by apply elem_of_nil in H. }
  split; [do 2 eexists; exact unit4_declares|]. exact accepts_methods_example.
Qed.
