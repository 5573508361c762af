(* Methods and overriders as written, for the theorems of PropSignature. *)
From stdpp Require Import base list numbers.
From Verif Require Import Base Registry Spec ModelClasses ModelHash ModelWorld ModelCall SpecCall Decide
  ModelTables ExamplesModel ExamplesDispatch ExamplesNext ExamplesReport ProofDispatch ProofFindings ModelSignature SpecSignature ProofSignature.

(* The diamond, classes 1 to 4; registry 7; 0 is the type id of void. *)
Definition static0 (t : ty) : N := match t with TyName n => n | TyVptr _ r => (500 + r)%N | _ => 777%N end.
Definition bases0 (n : N) : list N :=
  match n with 1 => [1] | 2 => [2; 1] | 3 => [3; 1] | 4 => [4; 2; 3; 1] | _ => [] end%N.
Definition base0 (b d : ty) : bool :=
  match b, d with TyName b, TyName d => bool_decide (b ∈ bases0 d) | _, _ => false end.
Definition convertible0 (d b : ty) : bool :=
  match d, b with
  | TyVptr t r, TyVptr u r' => bool_decide (r = r') && base0 (remove_cv (element_type u)) (remove_cv (element_type t))
  | _, _ => false
  end.
Definition polymorphic0 (t : ty) : bool := match t with TyName n => (n <? 10)%N | _ => false end.

Definition animal := TyName 1. Definition dog := TyName 2. Definition cat := TyName 3.
Definition stream := TyLRef (TyName 90). Definition nothing := TyName 80.

(* poke(virtual_<const Animal&>, std::ostream&) *)
Definition poke_ps : list ty := [TyVirtual (TyLRef (TyConst animal)); stream].
Definition poke_qs (t : ty) : list ty := [TyLRef (TyConst t); stream].
(* meet(virtual_ptr<Animal>, std::ostream&, virtual_<const std::shared_ptr<Animal>&>) *)
Definition meet_ps : list ty :=
  [TyVptr animal 7; stream; TyVirtual (TyLRef (TyConst (TyShared animal)))].
Definition meet_qs (t u : ty) : list ty := [TyVptr t 7; stream; TyLRef (TyConst (TyShared u))].

Definition ovs (qs : list ty) (pf : N) := OverriderSource qs nothing pf (N.to_nat pf).
Definition poke_source : method_source :=
  MethodSource poke_ps nothing [ovs (poke_qs animal) 11; ovs (poke_qs dog) 12; ovs (poke_qs cat) 13]
    1001%N 2001%N 1.
Definition meet_source : method_source :=
  MethodSource meet_ps nothing
    [ovs (meet_qs animal animal) 21; ovs (meet_qs dog animal) 22; ovs (meet_qs animal cat) 23;
     ovs (meet_qs dog dog) 24] 1002%N 2002%N 2.

(* They register the methods of the examples. *)
Example sources_registered :
  Forall2 (fun s m => method_registered 7 static0 0 s = Ok m) [poke_source; meet_source] (reg_methods R0).
Proof. repeat constructor. Qed.

Lemma stream_ordinary : ordinary stream.
Proof. split; [discriminate|]. repeat split; discriminate. Qed.

Ltac by_form :=
  repeat (first [ apply stream_ordinary | apply mc_nil | apply oc_nil
                | apply mc_ordinary; [apply stream_ordinary|] | apply mc_virtual
                | apply oc_ordinary; [apply stream_ordinary|] | apply oc_virtual
                | eapply oc_pointer
                | apply vp_virtual | apply vp_pointer; apply vptr_value
                | apply vptr_value | apply vptr_ref
                | apply refers_shared_ref | apply refers_lref
                | left; constructor | constructor ]).

Example poke_classes : method_classes 7 poke_ps [1%N].
Proof. by_form. Qed.
Example meet_classes : method_classes 7 meet_ps [1; 1]%N.
Proof. by_form. Qed.
Lemma poke_overrider n : overrider_classes 7 poke_ps (poke_qs (TyName n)) [n].
Proof. by_form. Qed.
Lemma meet_overrider n k : overrider_classes 7 meet_ps (meet_qs (TyName n) (TyName k)) [n; k].
Proof. by_form. Qed.

(* virtual_ptr by reference to const, to a shared pointer: greet(const virtual_ptr<std::shared_ptr<Animal>>&) *)
Definition greet_ps : list ty := [TyLRef (TyConst (TyVptr (TyShared animal) 7))].
Definition greet_qs (t : ty) : list ty := [TyLRef (TyConst (TyVptr (TyShared t) 7))].
Lemma greet_overrider n : overrider_classes 7 greet_ps (greet_qs (TyName n)) [n].
Proof. apply (oc_pointer 7 _ _ 1%N); repeat constructor; right; repeat constructor. Qed.

Example sources_compile :
  method_compiles 7 polymorphic0 meet_ps = true /\ method_compiles 7 polymorphic0 greet_ps = true /\
  overrider_compiles 7 base0 convertible0 meet_ps (meet_qs dog cat) = true /\
  overrider_compiles 7 base0 convertible0 greet_ps (greet_qs dog) = true.
Proof. repeat split; by_compute. Qed.

Lemma sources_ok s : s ∈ [poke_source; meet_source] -> source_ok 7 polymorphic0 base0 convertible0 s.
Proof.
  intros Hs. apply elem_of_cons in Hs as [->|Hs]; [|apply elem_of_list_singleton in Hs as ->]; split.
  - by_compute.
  - exists [1%N]. exact poke_classes.
  - simpl. intros o Ho.
    repeat (apply elem_of_cons in Ho as [->|Ho]; [eexists; apply poke_overrider|]).
    by apply elem_of_nil in Ho.
  - by_compute.
  - exists [1; 1]%N. exact meet_classes.
  - simpl. intros o Ho.
    repeat (apply elem_of_cons in Ho as [->|Ho]; [eexists; apply meet_overrider|]).
    by apply elem_of_nil in Ho.
Qed.

Example documented_meet :
  Forall2 (may_override 7 base0 convertible0) meet_ps (meet_qs dog cat) /\
  Forall2 (fun p q => (forall t r, p = TyLRef (TyConst (TyVptr t r)) -> q <> p) /\ (forall t, p <> TyRRef t))
    meet_ps (meet_qs dog cat) /\
  Forall2 (may_override 7 base0 convertible0) greet_ps (greet_qs dog) /\
  Forall2 (fun p q => (forall t r, p = TyLRef (TyConst (TyVptr t r)) -> q <> p) /\ (forall t, p <> TyRRef t))
    greet_ps (greet_qs dog).
Proof.
  repeat split.
  - constructor; [|constructor; [|constructor; [|constructor]]].
    + apply (may_vptr _ _ _ _ _ 1 2); try by_compute; left; constructor.
    + apply may_ordinary. apply stream_ordinary.
    + apply may_virtual. constructor.
  - repeat constructor; discriminate.
  - constructor; [|constructor].
    apply (may_vptr_ref _ _ _ _ _ 1 2); try by_compute; right; repeat constructor.
  - constructor; [split; discriminate|constructor].
Qed.

Example pointers_meet : pointers_match meet_ps (meet_qs dog cat).
Proof.
  intros [|[|[|i]]] q t r Hq Hv; simpl in Hq; try (injection Hq as <-; discriminate).
  - exists (TyVptr animal 7), animal, 7%N. done.
  - by rewrite lookup_nil in Hq.
Qed.

(* The same const reference in the overrider. *)
Example same_reference :
  Forall2 (may_override 7 base0 convertible0) greet_ps greet_ps /\
  method_compiles 7 polymorphic0 greet_ps = true /\
  overrider_compiles 7 base0 convertible0 greet_ps greet_ps = false.
Proof.
  split; [|split; by_compute]. constructor; [|constructor].
  apply (may_vptr_ref _ _ _ _ _ 1 1); try by_compute; right; repeat constructor.
Qed.

(* A reference to a virtual_ptr that is not const, and a reference to a virtual_ptr of another
   registry.  The overrider has the type of the method. *)
Definition odd_source (p : ty) : method_source := MethodSource [p] nothing [ovs [p] 11] 1001%N 2001%N 1.
Definition odd_method (p : ty) : method_record :=
  match method_registered 7 static0 0 (odd_source p) with Ok m => m | _ => mth 0 [] [] end.
Definition odd_outcome (p : ty) : outcome method_report :=
  snd (initialize cf0 run0 false (Registrations diamond [odd_method p]) world0).

Example odd_reference :
  let p := TyLRef (TyVptr animal 7) in
  method_source_compiles 7 polymorphic0 base0 convertible0 (odd_source p) = true /\
  method_registered 7 static0 0 (odd_source p) = Ok (odd_method p) /\
  odd_outcome p = Err (EMissingClass 507%N) /\ (507 ∉ [1; 2; 3; 4])%N.
Proof.
  repeat split; try by_compute. rewrite !elem_of_cons, elem_of_nil. lia.
Qed.
(* meet called with a Dog and a Chimera. *)
Lemma names_of ds ns : map (fun c => static0 (TyName c)) ds = ns -> ds = ns.
Proof. intros <-. simpl. by rewrite map_id. Qed.

Example meet_source_call :
  [poke_source; meet_source] !! 1 = Some meet_source /\ reg_methods R0 !! 1 = Some meet /\
  call_ok cf0 id R0 w0 meet (map AObject [2; 4]%N) [2; 4]%N /\ functions_ok meet /\
  together (map AObject [2; 4]%N) /\
  ms_overriders meet_source !! 3 = Some (ovs (meet_qs dog dog) 24) /\
  overrider_classes 7 meet_ps (meet_qs dog dog) [2; 2]%N /\
  accepts id R0 (fun c => static0 (TyName c)) [2; 4]%N [2; 2]%N /\
  (forall j o' ds', ms_overriders meet_source !! j = Some o' -> j <> 3 ->
     overrider_classes 7 meet_ps (os_parameters o') ds' ->
     accepts id R0 (fun c => static0 (TyName c)) [2; 4]%N ds' ->
     better id R0 (fun c => static0 (TyName c)) [2; 2]%N ds').
Proof.
  destruct meet_best as (Hm & Ha & Hb).
  split; [reflexivity|]. split; [reflexivity|]. split; [apply meet_call; simpl; auto|].
  split; [apply meet_functions|]. split; [apply objects_together|]. split; [reflexivity|].
  split; [apply meet_overrider|]. split; [exact Ha|].
  assert (G : forall n k ds', overrider_compiles 7 base0 convertible0 meet_ps (meet_qs (TyName n) (TyName k)) = true ->
            overrider_classes 7 meet_ps (meet_qs (TyName n) (TyName k)) ds' -> ds' = [n; k]).
  { intros n k ds' Hc Hd. apply names_of.
    pose proof (overrider_registers 7 base0 convertible0 static0 _ _ _ Hd Hc) as H1.
    rewrite (overrider_registers 7 base0 convertible0 static0 _ _ _ (meet_overrider n k) Hc) in H1.
    injection H1 as H1. symmetry. exact H1. }
  intros j o' ds' Ho Hj Hd Hacc.
  destruct j as [|[|[|[|j]]]]; simpl in Ho; try discriminate; [..|contradiction];
    injection Ho as <-; apply G in Hd as ->; try by_compute.
  - exact (Hb 0 (ovr [1; 1] 21)%N eq_refl Hj Hacc).
  - exact (Hb 1 (ovr [2; 1] 22)%N eq_refl Hj Hacc).
  - exact (Hb 2 (ovr [1; 3] 23)%N eq_refl Hj Hacc).
Qed.

Lemma overrider_example :
  (overrider_classes 7 meet_ps (meet_qs dog cat) [2; 3]%N /\
   overrider_compiles 7 base0 convertible0 meet_ps (meet_qs dog cat) = true) /\
  (overrider_classes 7 greet_ps (greet_qs dog) [2%N] /\
   overrider_compiles 7 base0 convertible0 greet_ps (greet_qs dog) = true).
Proof.
  repeat split; try by_compute; [apply meet_overrider|apply greet_overrider].
Qed.

Lemma arity_example :
  method_classes 7 meet_ps [1; 1]%N /\
  overrider_compiles 7 base0 convertible0 meet_ps (meet_qs dog cat) = true /\
  pointers_match meet_ps (meet_qs dog cat).
Proof. split; [exact meet_classes|]. split; [by_compute|exact pointers_meet]. Qed.

Lemma dispatch_example :
  (Forall2 (fun s m => method_registered 7 static0 0 s = Ok m) [poke_source; meet_source] (reg_methods R0) /\
   (forall s, s ∈ [poke_source; meet_source] -> source_ok 7 polymorphic0 base0 convertible0 s)) /\
  (program_ok cf0 env0 R0 /\ bases_first id R0 /\ initialized_by cf0 run0 false R0 w0) /\
  [poke_source; meet_source] !! 1 = Some meet_source /\ reg_methods R0 !! 1 = Some meet /\
  call_ok cf0 id R0 w0 meet (map AObject [2; 4]%N) [2; 4]%N /\ functions_ok meet /\
  together (map AObject [2; 4]%N) /\
  ms_overriders meet_source !! 3 = Some (ovs (meet_qs dog dog) 24) /\
  overrider_classes 7 meet_ps (meet_qs dog dog) [2; 2]%N /\
  accepts id R0 (fun c => static0 (TyName c)) [2; 4]%N [2; 2]%N /\
  (forall j o' ds', ms_overriders meet_source !! j = Some o' -> j <> 3 ->
     overrider_classes 7 meet_ps (os_parameters o') ds' ->
     accepts id R0 (fun c => static0 (TyName c)) [2; 4]%N ds' ->
     better id R0 (fun c => static0 (TyName c)) [2; 2]%N ds').
Proof.
  split; [exact (conj sources_registered sources_ok)|].
  split; [exact (conj R0_program (conj R0_bases_first R0_initialized))|]. exact meet_source_call.
Qed.

Lemma same_reference_witness :
  exists (r : N) polymorphic base_of convertible ps qs,
    method_compiles r polymorphic ps = true /\
    Forall2 (may_override r base_of convertible) ps qs /\
    overrider_compiles r base_of convertible ps qs = false.
Proof.
  exists 7%N, polymorphic0, base0, convertible0, greet_ps, greet_ps.
  destruct same_reference as (H1 & H2 & H3). auto.
Qed.

Lemma odd_reference_witness :
  exists (r : N) polymorphic base_of convertible (static_type : ty -> N) (static_void : N)
         p R s m cf X w t,
    ms_parameters s = [TyLRef (TyVptr p r)] /\
    method_source_compiles r polymorphic base_of convertible s = true /\
    method_registered r static_type static_void s = Ok m /\ m ∈ reg_methods R /\
    static_type p ∈ map cr_type (reg_classes R) /\
    snd (initialize cf X false R w) = Err (EMissingClass t) /\ t <> static_type p.
Proof.
  exists 7%N, polymorphic0, base0, convertible0, static0, 0%N, animal.
  eexists (Registrations diamond [odd_method (TyLRef (TyVptr animal 7))]),
    (odd_source (TyLRef (TyVptr animal 7))), (odd_method (TyLRef (TyVptr animal 7))), cf0, run0, world0, 507%N.
  destruct odd_reference as (H1 & H2 & H3 & _).
  split; [reflexivity|]. split; [exact H1|]. split; [exact H2|]. split; [left|]. split; [left|].
  split; [exact H3|discriminate].
Qed.

Lemma odd_registry_witness :
  exists (r r' : N) polymorphic base_of convertible (static_type : ty -> N) (static_void : N) p,
    r' <> r /\ method_compiles r polymorphic [TyLRef (TyConst (TyVptr p r'))] = true /\
    method_ids r static_type static_void [TyLRef (TyConst (TyVptr p r'))] <> Ok [static_type p] /\
    forall qs, overrider_compiles r base_of convertible [TyLRef (TyConst (TyVptr p r'))] qs = false.
Proof.
  exists 7%N, 8%N, polymorphic0, base0, convertible0, static0, 0%N, animal.
  split; [discriminate|]. split; [by_compute|]. split; [vm_compute; discriminate|].
  intros qs. by apply (other_registry_rejected 7 base0 convertible0 animal 8 _ _ 0).
Qed.

(* void push(virtual_<Animal&>, std::string&&) *)
Lemma rvalue_witness :
  exists (r : N) polymorphic base_of convertible ps qs,
    method_compiles r polymorphic ps = true /\ Forall2 (may_override r base_of convertible) ps qs /\
    (forall qs', overrider_compiles r base_of convertible ps qs' = false) /\
    ps !! 1 = Some (TyRRef (TyName 91)).
Proof.
  exists 7%N, polymorphic0, base0, convertible0,
    [TyVirtual (TyLRef animal); TyRRef (TyName 91)], [TyLRef dog; TyRRef (TyName 91)].
  split; [by_compute|]. split.
  - repeat constructor; try discriminate. apply (form_lref _ _ 1 2); constructor.
  - split; [|reflexivity]. intros qs'. by apply (rvalue_rejected 7 base0 convertible0 (TyName 91) _ _ 1).
Qed.

(* meet called with a Dog and a Cat: two overriders, neither better than the other. *)
Lemma resolves_example :
  (Forall2 (fun s m => method_registered 7 static0 0 s = Ok m) [poke_source; meet_source] (reg_methods R0) /\
   (forall s, s ∈ [poke_source; meet_source] -> source_ok 7 polymorphic0 base0 convertible0 s)) /\
  (program_ok cf0 env0 R0 /\ bases_first id R0 /\ initialized_by cf0 run0 false R0 w0) /\
  [poke_source; meet_source] !! 1 = Some meet_source /\ reg_methods R0 !! 1 = Some meet /\
  call_ok cf0 id R0 w0 meet (map AObject [2; 3]%N) [2; 3]%N /\ together (map AObject [2; 3]%N) /\
  settled id R0 (mr_overriders meet) (candidate id R0 (mr_overriders meet) [2; 3]%N) /\
  selects id R0 (mr_overriders meet) [2; 3]%N SAmbiguous /\ source_fn meet_source SAmbiguous = Some 2002%N.
Proof.
  split; [exact (conj sources_registered sources_ok)|].
  split; [exact (conj R0_program (conj R0_bases_first R0_initialized))|].
  split; [reflexivity|]. split; [reflexivity|]. split; [apply meet_call; simpl; auto|].
  split; [apply objects_together|].
  split; [apply candidates_settled, (transitive_compute id R0 4); by_compute|].
  split; [apply (selects_check id R0 4); by_compute|reflexivity].
Qed.

Lemma source_next_example :
  (Forall2 (fun s m => method_registered 7 static0 0 s = Ok m) [poke_source; meet_source] (reg_methods R0) /\
   (forall s, s ∈ [poke_source; meet_source] -> source_ok 7 polymorphic0 base0 convertible0 s)) /\
  (program_ok cf0 env0 R0 /\ bases_first id R0 /\ initialized_by cf0 run0 false R0 w0) /\
  [poke_source; meet_source] !! 0 = Some poke_source /\ reg_methods R0 !! 0 = Some poke /\
  ms_overriders poke_source !! 2 = Some (ovs (poke_qs cat) 13) /\
  unique_signature id (mr_overriders poke) 2 /\
  (forall args, valid_args id R0 poke args ->
     pointwise id R0 (mr_overriders poke) (candidate id R0 (mr_overriders poke) args)) /\
  selects_next id R0 (mr_overriders poke) 2 (SOverrider 0) /\
  source_fn poke_source (SOverrider 0) = Some 11%N.
Proof.
  split; [exact (conj sources_registered sources_ok)|].
  split; [exact (conj R0_program (conj R0_bases_first R0_initialized))|].
  split; [reflexivity|]. split; [reflexivity|]. split; [reflexivity|].
  split; [apply signatures_uniqueb_spec; by_compute|].
  split; [intros args _; apply (pointwiseb_spec id R0 4); by_compute|].
  split; [apply (selects_next_check id R0 4); by_compute|reflexivity].
Qed.

(* virtual_ptr<Animal> clone(virtual_<const Animal&>), with an overrider that returns a
   std::unique_ptr<Dog>, and void poke(...). *)
Definition clone_source : method_source :=
  MethodSource [TyVirtual (TyLRef (TyConst animal))] (TyVptr animal 7)
    [OverriderSource [TyLRef (TyConst dog)] (TyUnique dog) 31%N 31] 1003%N 2003%N 3.
Lemma returns_example :
  (exists m, method_registered 7 static0 0 clone_source = Ok m) /\
  returns 7 (ms_return clone_source) (Some 1%N) /\
  ms_overriders clone_source !! 0 = Some (OverriderSource [TyLRef (TyConst dog)] (TyUnique dog) 31%N 31) /\
  returns 7 (TyUnique dog) (Some 2%N) /\
  method_registered 7 static0 0 poke_source = Ok poke /\ returns 7 (ms_return poke_source) None.
Proof.
  split; [eexists; vm_compute; reflexivity|].
  split; [apply returns_pointer; constructor; left; constructor|]. split; [reflexivity|].
  split; [apply returns_refers, refers_smart; constructor; constructor|].
  split; [reflexivity|constructor].
Qed.

(* poke(virtual_<const Animal&>, std::shared_ptr<Log>&) *)
Lemma shared_reference_witness :
  exists (r : N) polymorphic ps cs,
    method_classes r ps cs /\ cs <> [] /\
    (forall t c, TyVirtual t ∈ ps -> refers t c -> polymorphic (TyName c) = true) /\
    method_compiles r polymorphic ps = false.
Proof.
  exists 7%N, polymorphic0, [TyVirtual (TyLRef (TyConst animal)); TyLRef (TyShared (TyName 90))], [1%N].
  split.
  { apply mc_virtual; [apply vp_virtual; apply refers_lref; constructor|].
    apply mc_ordinary; [|constructor]. split; [discriminate|]. repeat split; discriminate. }
  split; [discriminate|]. split; [|reflexivity].
  intros t c [Ht|[Ht|Ht%elem_of_nil]%elem_of_cons]%elem_of_cons Hc; [|discriminate Ht|done].
  injection Ht as ->. inversion Hc as [? ? H| | |? ? H| |]; subst; [by inversion H|by inversion H].
Qed.

Lemma virtual_references_poly ps t c : ps = meet_ps \/ ps = poke_ps -> TyVirtual t ∈ ps -> refers t c ->
  polymorphic0 (TyName c) = true.
Proof.
  intros [-> | ->] Ht Hc.
  - apply elem_of_cons in Ht as [Ht|Ht]; [discriminate Ht|].
    apply elem_of_cons in Ht as [Ht|Ht]; [discriminate Ht|].
    apply elem_of_cons in Ht as [Ht|Ht%elem_of_nil]; [|done]. injection Ht as ->.
    inversion Hc as [? ? H| | |? ? H|? ? H|]; subst; [by inversion H|by inversion H|by inversion H].
  - apply elem_of_cons in Ht as [Ht|Ht].
    + injection Ht as ->. inversion Hc as [? ? H| | |? ? H| |]; subst; [by inversion H|by inversion H].
    + apply elem_of_cons in Ht as [Ht|Ht%elem_of_nil]; [discriminate Ht|done].
Qed.

Lemma no_shared_reference t : TyLRef (TyShared t) ∉ meet_ps.
Proof.
  intros H. repeat (apply elem_of_cons in H as [H|H]; [discriminate H|]). by apply elem_of_nil in H.
Qed.

Lemma accepts_methods_example :
  method_classes 7 meet_ps [1; 1]%N /\ [1; 1]%N <> [] /\
  (forall t c, TyVirtual t ∈ meet_ps -> refers t c -> polymorphic0 (TyName c) = true) /\
  (forall t, TyLRef (TyShared t) ∉ meet_ps).
Proof.
  split; [exact meet_classes|]. split; [discriminate|]. split; [|exact no_shared_reference].
  intros t c. apply virtual_references_poly. by left.
Qed.
