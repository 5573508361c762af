(* C50: what the macros declare.  [polymorphic], [base_of] and [convertible] are type traits;
   [associated] gives the namespaces of argument dependent lookup. *)
From stdpp Require Import base list numbers.
From Verif Require Import Base Registry Spec ModelClasses ModelHash ModelWorld ModelCall SpecCall
  ModelTables ExamplesModel ExamplesDispatch ModelSignature SpecSignature ExamplesSignature ModelMacros SpecMacros
  ProofMacros ExamplesMacros.

(* The methods of a translation unit are registered, each with the overriders defined for it,
   in their order, and no others.  Every overrider is for exactly one method, and its
   parameters were checked against those of that method. *)
Theorem C50_registered :
  forall polymorphic base_of convertible associated ds us,
    translate polymorphic base_of convertible associated ds = Some us ->
    (exists js, numbers ds js /\
       Forall2 (registered_as convertible associated ds) js (us_methods us)) /\
    (forall i ns name qs ret pf next, ds !! i = Some (Define ns name qs ret pf next) ->
       exists j, overrides convertible associated ds i j /\
         forall j', overrides convertible associated ds i j' -> j' = j) /\
    (forall m, m ∈ us_methods us ->
       method_source_compiles (md_registry m) polymorphic base_of convertible (md_source m) = true).
Proof. exact translate_registered. Qed.
Print Assumptions C50_registered.

Example C50_registered_example : exists us,
  translate polymorphic1 base1 convertible1 associated1 unit1 = Some us /\
  registered1 us = [(100, [11; 12]); (101, [21; 22; 23; 24]); (102, [31; 32])]%N.
Proof. destruct unit1_translated as (us & H1 & H2 & _). exact (ex_intro _ us (conj H1 H2)). Qed.

(* A call of a method by its name is a call of the one method that it can mean. *)
Theorem C50_calls :
  forall polymorphic base_of convertible associated ds us,
    translate polymorphic base_of convertible associated ds = Some us ->
    exists js, numbers ds js /\
      forall ns name qs n, call_located convertible associated us ns name qs = Some n <->
        exists j, js !! n = Some j /\ means convertible associated ds ns name qs j.
Proof. exact translate_calls. Qed.
Print Assumptions C50_calls.

Example C50_calls_example : exists us,
  translate polymorphic1 base1 convertible1 associated1 unit1 = Some us /\
  call_located convertible1 associated1 us [] 100 [ref 3] = Some 0 /\
  call_located convertible1 associated1 us canis 101 [ref 4; ref 3] = Some 1 /\
  call_located convertible1 associated1 us felis 102 [ref 3; TyName 91] = Some 2 /\
  call_located convertible1 associated1 us [] 102 [TyName 91; TyName 91] = None.
Proof. destruct unit1_translated as (us & H1 & _ & H2). exact (ex_intro _ us (conj H1 H2)). Qed.

(* An overrider of nothing, or of one of several methods, is rejected. *)
Theorem C50_rejects :
  forall polymorphic base_of convertible associated ds ns name qs ret post,
    (forall j, ~ means convertible associated ds ns name qs j) ->
    translate polymorphic base_of convertible associated (ds ++ Declare ns name qs ret :: post) = None.
Proof. exact undeclared_rejected. Qed.
Print Assumptions C50_rejects.

Example C50_rejects_example :
  (forall j, ~ means convertible1 associated1 [] [] 104 [ref 2] j) /\
  (forall j, ~ means convertible1 associated1 unit3 [] 103 [ref 1; TyName 91] j).
Proof. exact (conj nothing_means unit3_not). Qed.

(* So is the definition of an overrider that is not declared. *)
Theorem C50_undeclared :
  forall polymorphic base_of convertible associated ds ns name qs ret pf next post,
    Declare ns name qs ret ∉ ds ->
    translate polymorphic base_of convertible associated
      (ds ++ Define ns name qs ret pf next :: post) = None.
Proof. exact define_undeclared_rejected. Qed.
Print Assumptions C50_undeclared.

Example C50_undeclared_example : Declare canis 102 [ref 2; TyName 91] string ∉ unit2.
Proof. exact unit2_fresh. Qed.

(* A method that is not declared yet, with this name, these parameters and this return type in this
   namespace and registry, is accepted.  Missing: those of C44_shared_reference_refuted. *)
Theorem C50_methods_partial :
  forall polymorphic base_of convertible associated ds us ns name r ps ret fns cs,
    translate polymorphic base_of convertible associated ds = Some us ->
    (forall fns', Method ns name r ps ret fns' ∉ ds) ->
    method_classes r ps cs -> cs <> [] ->
    (forall t c, TyVirtual t ∈ ps -> refers t c -> polymorphic (TyName c) = true) ->
    (forall t, TyLRef (TyShared t) ∉ ps) ->
    exists us', translate polymorphic base_of convertible associated
      (ds ++ [Method ns name r ps ret fns]) = Some us'.
Proof. exact method_accepted. Qed.
Print Assumptions C50_methods_partial.

(* unit4 declares it with another return type *)
Example C50_methods_example :
  (exists us, translate polymorphic0 base0 convertible2 associated2 unit4 = Some us) /\
  (forall fns', Method [] 101 7 meet_ps string fns' ∉ unit4) /\
  (exists ret fns', Method [] 101 7 meet_ps ret fns' ∈ unit4) /\
  method_classes 7 meet_ps [1; 1]%N /\ [1; 1]%N <> [] /\
  (forall t c, TyVirtual t ∈ meet_ps -> refers t c -> polymorphic0 (TyName c) = true) /\
  (forall t, TyLRef (TyShared t) ∉ meet_ps).
Proof. exact unit4_other_return. Qed.

(* A method that is declared is rejected. *)
Theorem C50_redeclared :
  forall polymorphic base_of convertible associated ds ns name r ps ret fns fns' post,
    Method ns name r ps ret fns ∈ ds ->
    translate polymorphic base_of convertible associated
      (ds ++ Method ns name r ps ret fns' :: post) = None.
Proof. exact redeclared_rejected. Qed.
Print Assumptions C50_redeclared.

Example C50_redeclared_example : Method [] 101 7 meet_ps nothing (1002%N, 2002%N, 2) ∈ unit4.
Proof. exact unit4_declares. Qed.

(* The documented overriders are accepted, for the method they mean.  Missing: those that several
   methods accept, although one has their very parameters (C50_overrider_refuted); and the
   parameters of C44_accepts_refuted and C44_rvalue_refuted. *)
Theorem C50_accepts_partial :
  forall polymorphic base_of convertible associated ds us ns name qs ret pf next j ns' r ps ret' fns,
    translate polymorphic base_of convertible associated ds = Some us ->
    Declare ns name qs ret ∉ ds ->
    means convertible associated ds ns name qs j ->
    ds !! j = Some (Method ns' name r ps ret' fns) ->
    Forall2 (may_override r base_of convertible) ps qs ->
    Forall2 (fun p q => (forall t r', p = TyLRef (TyConst (TyVptr t r')) -> q <> p) /\
                        (forall t, p <> TyRRef t)) ps qs ->
    exists us', translate polymorphic base_of convertible associated
        (ds ++ [Declare ns name qs ret; Define ns name qs ret pf next]) = Some us' /\
      overrides convertible associated
        (ds ++ [Declare ns name qs ret; Define ns name qs ret pf next]) (S (length ds)) j.
Proof. exact documented_accepted. Qed.
Print Assumptions C50_accepts_partial.

Example C50_accepts_example :
  (exists us, translate polymorphic1 base1 convertible1 associated1 unit2 = Some us) /\
  Declare canis 102 [ref 2; TyName 91] string ∉ unit2 /\
  means convertible1 associated1 unit2 canis 102 [ref 2; TyName 91] 1 /\
  unit2 !! 1 = Some (Method interfaces 102 7 [virtual_animal; TyName 91] string (fns1 3)) /\
  Forall2 (may_override 7 base1 convertible1) [virtual_animal; TyName 91] [ref 2; TyName 91] /\
  Forall2 (fun p q => (forall t r', p = TyLRef (TyConst (TyVptr t r')) -> q <> p) /\
                      (forall t, p <> TyRRef t)) [virtual_animal; TyName 91] [ref 2; TyName 91].
Proof.
  exact (conj unit2_translated (conj unit2_fresh (conj unit2_means
    (conj eq_refl (conj unit2_may unit2_forms))))).
Qed.

(* From the source to the call: name(...) calls the best of the overriders defined for the method
   that it means. *)
Theorem C50_dispatch :
  forall polymorphic base_of convertible associated (r : N) (static_type : ty -> N) (static_void : N)
      (R : registrations) ds us cf X w mid ns name qs k m all args j ns' ps ret fns
      i ns1 name1 qs1 ret1 pf next cs,
    translate polymorphic base_of convertible associated ds = Some us ->
    documented convertible associated r ds ->
    Forall2 (fun d m => method_registered r static_type static_void (md_source d) = Ok m)
      (us_methods us) (reg_methods R) ->
    env_ok (r_env X) -> acyclic (e_ti (r_env X)) R -> ids_ok R ->
    hash_size_ok cf (length (reg_classes R)) -> addresses_ok (e_ti (r_env X)) R ->
    bases_first (e_ti (r_env X)) R -> initialized_by cf X false R w ->
    call_located convertible associated us ns name qs = Some k -> reg_methods R !! k = Some m ->
    call_ok cf (e_ti (r_env X)) R w m all args -> functions_ok m ->
    length args = 1 \/ together all ->
    means convertible associated ds ns name qs j -> ds !! j = Some (Method ns' name r ps ret fns) ->
    overrides convertible associated ds i j -> ds !! i = Some (Define ns1 name1 qs1 ret1 pf next) ->
    overrider_classes r ps qs1 cs ->
    accepts (e_ti (r_env X)) R (fun c => static_type (TyName c)) args cs ->
    (forall i' ns2 name2 qs2 ret2 pf2 next2 cs', overrides convertible associated ds i' j -> i' <> i ->
       ds !! i' = Some (Define ns2 name2 qs2 ret2 pf2 next2) -> overrider_classes r ps qs2 cs' ->
       accepts (e_ti (r_env X)) R (fun c => static_type (TyName c)) args cs' ->
       better (e_ti (r_env X)) R (fun c => static_type (TyName c)) cs cs') ->
    call cf w mid m all = Ok (Calls pf).
Proof. exact macro_dispatch. Qed.
Print Assumptions C50_dispatch.

Example C50_dispatch_example :
  (exists us, translate polymorphic0 base0 convertible2 associated2 unit4 = Some us /\
     Forall2 (fun d m => method_registered 7 static0 0 (md_source d) = Ok m) (us_methods us) (reg_methods R0) /\
     call_located convertible2 associated2 us canis 101 (meet_qs dog (TyName 4)) = Some 1) /\
  documented convertible2 associated2 7 unit4 /\
  (program_ok cf0 env0 R0 /\ bases_first id R0 /\ initialized_by cf0 run0 false R0 w0) /\
  reg_methods R0 !! 1 = Some meet /\
  call_ok cf0 id R0 w0 meet (map AObject [2; 4]%N) [2; 4]%N /\ functions_ok meet /\
  together (map AObject [2; 4]%N) /\
  means convertible2 associated2 unit4 canis 101 (meet_qs dog (TyName 4)) 7 /\
  unit4 !! 7 = Some (Method [] 101 7 meet_ps nothing (1002%N, 2002%N, 2)) /\
  overrides convertible2 associated2 unit4 15 7 /\
  unit4 !! 15 = Some (Define [] 101 (meet_qs dog dog) nothing 24%N 24) /\
  overrider_classes 7 meet_ps (meet_qs dog dog) [2; 2]%N /\
  accepts id R0 (fun c => static0 (TyName c)) [2; 4]%N [2; 2]%N /\
  (forall i ns name qs ret pf next cs,
     overrides convertible2 associated2 unit4 i 7 -> i <> 15 ->
     unit4 !! i = Some (Define ns name qs ret pf next) -> overrider_classes 7 meet_ps qs cs ->
     accepts id R0 (fun c => static0 (TyName c)) [2; 4]%N cs ->
     better id R0 (fun c => static0 (TyName c)) [2; 2]%N cs).
Proof. exact macro_dispatch_example. Qed.

(* "The macro creates an ordinary inline function": it does not take part in overload
   resolution as one.  A call with exactly the parameters of one method, and no other, is
   ambiguous if another method of that name can be called with conversions. *)
Theorem C50_ordinary_function_refuted :
  exists polymorphic base_of convertible associated ds us ns name r ps ret fns qs,
    translate polymorphic base_of convertible associated ds = Some us /\
    ds !! 0 = Some (Method ns name r ps ret fns) /\ Forall2 undecorated ps qs /\
    (forall j ps', method_at ds j ns name ps' -> Forall2 undecorated ps' qs -> j = 0) /\
    (forall q, convertible q q = true) /\
    call_located convertible associated us ns name qs = None.
Proof. exact exact_call_witness. Qed.
Print Assumptions C50_ordinary_function_refuted.

(* And an overrider with exactly the parameters of one method, and no other, is rejected, because
   it "cannot find" the method. *)
Theorem C50_overrider_refuted :
  exists polymorphic base_of convertible associated ds us ns name r ps ret fns qs,
    translate polymorphic base_of convertible associated ds = Some us /\
    ds !! 0 = Some (Method ns name r ps ret fns) /\ Forall2 undecorated ps qs /\
    Forall2 (may_override r base_of convertible) ps qs /\
    (forall j ps', method_at ds j ns name ps' -> Forall2 undecorated ps' qs -> j = 0) /\
    (forall q, convertible q q = true) /\
    (forall post, translate polymorphic base_of convertible associated
       (ds ++ Declare ns name qs ret :: post) = None).
Proof. exact exact_overrider_witness. Qed.
Print Assumptions C50_overrider_refuted.
