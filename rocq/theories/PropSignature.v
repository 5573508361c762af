(* C44: the classes registered for methods and overriders are those of the parameters as
   written.  [r] is the registry of the method; [static_type] gives the type ids; [polymorphic],
   [base_of] and [convertible] are the type traits. *)
From stdpp Require Import base list numbers.
From Verif Require Import Base Registry Spec ModelClasses ModelHash ModelWorld ModelCall SpecCall
  ExamplesModel ExamplesDispatch ModelSignature SpecSignature ProofSignature ExamplesSignature.

Theorem C44_method :
  forall (r : N) (static_type : ty -> N) (static_void : N) ps cs,
    method_classes r ps cs ->
    method_ids r static_type static_void ps = Ok (map (fun c => static_type (TyName c)) cs).
Proof. exact method_registers. Qed.
Print Assumptions C44_method.

Example C44_method_example :
  method_classes 7 meet_ps [1; 1]%N /\ meet_ps !! 1 = Some stream.
Proof. exact (conj meet_classes eq_refl). Qed.

(* A method has a virtual parameter; no virtual_ptr by value in it is of another registry; and
   the classes of its virtual_ parameters are polymorphic, or have their own vptr function. *)
Theorem C44_rejects :
  forall (r : N) polymorphic ps, method_compiles r polymorphic ps = true ->
    (exists p, p ∈ ps /\ ~ ordinary p) /\
    (forall t r', TyVptr t r' ∈ ps -> r' = r) /\
    (forall t c, TyVirtual t ∈ ps -> refers t c -> polymorphic (TyName c) = true).
Proof. exact method_rejects. Qed.
Print Assumptions C44_rejects.

Example C44_rejects_example :
  method_compiles 7 polymorphic0 meet_ps = true /\ method_compiles 7 polymorphic0 greet_ps = true.
Proof. exact (conj (proj1 sources_compile) (proj1 (proj2 sources_compile))). Qed.

(* The documented methods compile, except those with a parameter std::shared_ptr<T>& that is not
   virtual. *)
Theorem C44_methods_partial :
  forall (r : N) polymorphic ps cs,
    method_classes r ps cs -> cs <> [] ->
    (forall t c, TyVirtual t ∈ ps -> refers t c -> polymorphic (TyName c) = true) ->
    (forall t, TyLRef (TyShared t) ∉ ps) ->
    method_compiles r polymorphic ps = true.
Proof. exact method_accepts. Qed.
Print Assumptions C44_methods_partial.

Example C44_methods_example :
  method_classes 7 meet_ps [1; 1]%N /\ [1; 1]%N <> [] /\
  (forall t c, TyVirtual t ∈ meet_ps -> refers t c -> polymorphic0 (TyName c) = true) /\
  (forall t, TyLRef (TyShared t) ∉ meet_ps).
Proof. exact accepts_methods_example. Qed.

Theorem C44_shared_reference_refuted :
  exists (r : N) polymorphic ps cs,
    method_classes r ps cs /\ cs <> [] /\
    (forall t c, TyVirtual t ∈ ps -> refers t c -> polymorphic (TyName c) = true) /\
    method_compiles r polymorphic ps = false.
Proof. exact shared_reference_witness. Qed.
Print Assumptions C44_shared_reference_refuted.

Theorem C44_overrider :
  forall (r : N) base_of convertible (static_type : ty -> N) ps qs ds,
    overrider_classes r ps qs ds -> overrider_compiles r base_of convertible ps qs = true ->
    overrider_ids r static_type ps qs = Ok (map (fun c => static_type (TyName c)) ds).
Proof. exact overrider_registers. Qed.
Print Assumptions C44_overrider.

Example C44_overrider_example :
  (overrider_classes 7 meet_ps (meet_qs dog cat) [2; 3]%N /\
   overrider_compiles 7 base0 convertible0 meet_ps (meet_qs dog cat) = true) /\
  (overrider_classes 7 greet_ps (greet_qs dog) [2%N] /\
   overrider_compiles 7 base0 convertible0 greet_ps (greet_qs dog) = true).
Proof. exact overrider_example. Qed.

(* The documented overriders compile, except those with the same reference to a const
   virtual_ptr as the method, and those of methods with rvalue references to ordinary types. *)
Theorem C44_accepts_partial :
  forall (r : N) base_of convertible ps qs,
    Forall2 (may_override r base_of convertible) ps qs ->
    Forall2 (fun p q => (forall t r', p = TyLRef (TyConst (TyVptr t r')) -> q <> p) /\
                        (forall t, p <> TyRRef t)) ps qs ->
    overrider_compiles r base_of convertible ps qs = true.
Proof. exact documented_compiles. Qed.
Print Assumptions C44_accepts_partial.

Example C44_accepts_example :
  Forall2 (may_override 7 base0 convertible0) meet_ps (meet_qs dog cat) /\
  Forall2 (fun p q => (forall t r, p = TyLRef (TyConst (TyVptr t r)) -> q <> p) /\ (forall t, p <> TyRRef t))
    meet_ps (meet_qs dog cat) /\
  Forall2 (may_override 7 base0 convertible0) greet_ps (greet_qs dog) /\
  Forall2 (fun p q => (forall t r, p = TyLRef (TyConst (TyVptr t r)) -> q <> p) /\ (forall t, p <> TyRRef t))
    greet_ps (greet_qs dog).
Proof. exact documented_meet. Qed.

(* Those are rejected: two specializations match and neither is more specialized. *)
Theorem C44_accepts_refuted :
  exists (r : N) polymorphic base_of convertible ps qs,
    method_compiles r polymorphic ps = true /\
    Forall2 (may_override r base_of convertible) ps qs /\
    overrider_compiles r base_of convertible ps qs = false.
Proof. exact same_reference_witness. Qed.
Print Assumptions C44_accepts_refuted.

(* In C++17 a method with a parameter T&& that is not virtual has no overriders. *)
Theorem C44_rvalue_refuted :
  exists (r : N) polymorphic base_of convertible ps qs,
    method_compiles r polymorphic ps = true /\ Forall2 (may_override r base_of convertible) ps qs /\
    (forall qs', overrider_compiles r base_of convertible ps qs' = false) /\
    ps !! 1 = Some (TyRRef (TyName 91)).
Proof. exact rvalue_witness. Qed.
Print Assumptions C44_rvalue_refuted.

(* Any overrider that compiles, of a method of documented parameters, registers as many classes
   as the method, if it has a virtual_ptr only where the method has one. *)
Theorem C44_arity :
  forall (r : N) base_of convertible (static_type : ty -> N) ps cs qs,
    method_classes r ps cs -> overrider_compiles r base_of convertible ps qs = true ->
    pointers_match ps qs ->
    exists ids, overrider_ids r static_type ps qs = Ok ids /\ length ids = length cs /\
      ids = map static_type (overrider_virtual_types r ps qs).
Proof. exact overrider_arity. Qed.
Print Assumptions C44_arity.

Example C44_arity_example :
  method_classes 7 meet_ps [1; 1]%N /\
  overrider_compiles 7 base0 convertible0 meet_ps (meet_qs dog cat) = true /\
  pointers_match meet_ps (meet_qs dog cat).
Proof. exact arity_example. Qed.

(* The parameters as written decide which overrider is called. *)
Theorem C44_dispatch :
  forall (r : N) polymorphic base_of convertible (static_type : ty -> N) (static_void : N)
         (R : registrations) (S : list method_source) cf X w mid k s m all args i o ds,
    Forall2 (fun s m => method_registered r static_type static_void s = Ok m) S (reg_methods R) ->
    (forall s, s ∈ S -> source_ok r polymorphic base_of convertible s) ->
    env_ok (r_env X) -> acyclic (e_ti (r_env X)) R -> ids_ok R ->
    hash_size_ok cf (length (reg_classes R)) -> addresses_ok (e_ti (r_env X)) R ->
    bases_first (e_ti (r_env X)) R -> initialized_by cf X false R w ->
    S !! k = Some s -> reg_methods R !! k = Some m ->
    call_ok cf (e_ti (r_env X)) R w m all args -> functions_ok m ->
    length args = 1 \/ together all ->
    ms_overriders s !! i = Some o -> overrider_classes r (ms_parameters s) (os_parameters o) ds ->
    accepts (e_ti (r_env X)) R (fun c => static_type (TyName c)) args ds ->
    (forall j o' ds', ms_overriders s !! j = Some o' -> j <> i ->
       overrider_classes r (ms_parameters s) (os_parameters o') ds' ->
       accepts (e_ti (r_env X)) R (fun c => static_type (TyName c)) args ds' ->
       better (e_ti (r_env X)) R (fun c => static_type (TyName c)) ds ds') ->
    call cf w mid m all = Ok (Calls (os_pf o)).
Proof.
  exact (fun r po b cv st sv R S cf X w mid k s m all args i o ds HR HS =>
    source_dispatch r po b cv st sv R S HR HS cf X w mid k s m all args i o ds).
Qed.
Print Assumptions C44_dispatch.

Example C44_dispatch_example :
  (Forall2 (fun s m => method_registered 7 static0 0 s = Ok m) [poke_source; meet_source] (reg_methods R0) /\
   (forall s, s ∈ [poke_source; meet_source] -> source_ok 7 polymorphic0 base0 convertible0 s)) /\
  (program_ok cf0 env0 R0 /\ bases_first id R0 /\ initialized_by cf0 run0 false R0 w0) /\
  [poke_source; meet_source] !! 1 = Some meet_source /\ reg_methods R0 !! 1 = Some meet /\
  call_ok cf0 id R0 w0 meet (map AObject [2; 4]%N) [2; 4]%N /\ functions_ok meet /\
  together (map AObject [2; 4]%N) /\
  ms_overriders meet_source !! 3 = Some (ovs (meet_qs dog dog) 24) /\
  overrider_classes 7 meet_ps (meet_qs dog dog) [2; 2]%N /\
  accepts id R0 (fun c => static0 (TyName c)) [2; 4]%N [2; 2]%N /\
  (forall j o' ds', ms_overriders meet_source !! j = Some o' -> j <> 3 ->
     overrider_classes 7 meet_ps (os_parameters o') ds' ->
     accepts id R0 (fun c => static0 (TyName c)) [2; 4]%N ds' ->
     better id R0 (fun c => static0 (TyName c)) [2; 2]%N ds').
Proof. exact dispatch_example. Qed.

(* So do they decide when the error functions of the method are called instead. *)
Theorem C44_functions :
  forall (r : N) polymorphic base_of convertible (static_type : ty -> N) (static_void : N)
         (R : registrations) (S : list method_source) cf X w k s m all args,
    Forall2 (fun s m => method_registered r static_type static_void s = Ok m) S (reg_methods R) ->
    (forall s, s ∈ S -> source_ok r polymorphic base_of convertible s) ->
    env_ok (r_env X) -> acyclic (e_ti (r_env X)) R -> ids_ok R ->
    hash_size_ok cf (length (reg_classes R)) -> addresses_ok (e_ti (r_env X)) R ->
    bases_first (e_ti (r_env X)) R -> initialized_by cf X false R w ->
    S !! k = Some s -> reg_methods R !! k = Some m ->
    call_ok cf (e_ti (r_env X)) R w m all args -> length args = 1 \/ together all ->
    settled (e_ti (r_env X)) R (mr_overriders m)
      (candidate (e_ti (r_env X)) R (mr_overriders m) args) ->
    exists sel f, selects (e_ti (r_env X)) R (mr_overriders m) args sel /\
      source_fn s sel = Some f /\ resolve cf w m all = Ok f.
Proof.
  exact (fun r po b cv st sv R S cf X w k s m all args HR HS =>
    source_resolves r po b cv st sv R S HR HS cf X w k s m all args).
Qed.
Print Assumptions C44_functions.

Example C44_functions_example :
  (Forall2 (fun s m => method_registered 7 static0 0 s = Ok m) [poke_source; meet_source] (reg_methods R0) /\
   (forall s, s ∈ [poke_source; meet_source] -> source_ok 7 polymorphic0 base0 convertible0 s)) /\
  (program_ok cf0 env0 R0 /\ bases_first id R0 /\ initialized_by cf0 run0 false R0 w0) /\
  [poke_source; meet_source] !! 1 = Some meet_source /\ reg_methods R0 !! 1 = Some meet /\
  call_ok cf0 id R0 w0 meet (map AObject [2; 3]%N) [2; 3]%N /\ together (map AObject [2; 3]%N) /\
  settled id R0 (mr_overriders meet) (candidate id R0 (mr_overriders meet) [2; 3]%N) /\
  selects id R0 (mr_overriders meet) [2; 3]%N SAmbiguous /\ source_fn meet_source SAmbiguous = Some 2002%N.
Proof. exact resolves_example. Qed.

(* Each overrider has its own next. *)
Theorem C44_next :
  forall (r : N) polymorphic base_of convertible (static_type : ty -> N) (static_void : N)
         (R : registrations) (S : list method_source) cf X w k s m i o,
    Forall2 (fun s m => method_registered r static_type static_void s = Ok m) S (reg_methods R) ->
    (forall s, s ∈ S -> source_ok r polymorphic base_of convertible s) ->
    env_ok (r_env X) -> acyclic (e_ti (r_env X)) R -> ids_ok R ->
    hash_size_ok cf (length (reg_classes R)) -> addresses_ok (e_ti (r_env X)) R ->
    initialized_by cf X false R w ->
    S !! k = Some s -> reg_methods R !! k = Some m -> ms_overriders s !! i = Some o ->
    unique_signature (e_ti (r_env X)) (mr_overriders m) i ->
    (forall args, valid_args (e_ti (r_env X)) R m args ->
       pointwise (e_ti (r_env X)) R (mr_overriders m)
         (candidate (e_ti (r_env X)) R (mr_overriders m) args)) ->
    exists sel f, selects_next (e_ti (r_env X)) R (mr_overriders m) i sel /\
      source_fn s sel = Some f /\ w_next w (os_next o) = Some f.
Proof.
  exact (fun r po b cv st sv R S cf X w k s m i o HR HS =>
    source_next r po b cv st sv R S HR HS cf X w k s m i o).
Qed.
Print Assumptions C44_next.

Example C44_next_example :
  (Forall2 (fun s m => method_registered 7 static0 0 s = Ok m) [poke_source; meet_source] (reg_methods R0) /\
   (forall s, s ∈ [poke_source; meet_source] -> source_ok 7 polymorphic0 base0 convertible0 s)) /\
  (program_ok cf0 env0 R0 /\ bases_first id R0 /\ initialized_by cf0 run0 false R0 w0) /\
  [poke_source; meet_source] !! 0 = Some poke_source /\ reg_methods R0 !! 0 = Some poke /\
  ms_overriders poke_source !! 2 = Some (ovs (poke_qs cat) 13) /\
  unique_signature id (mr_overriders poke) 2 /\
  (forall args, valid_args id R0 poke args ->
     pointwise id R0 (mr_overriders poke) (candidate id R0 (mr_overriders poke) args)) /\
  selects_next id R0 (mr_overriders poke) 2 (SOverrider 0) /\
  source_fn poke_source (SOverrider 0) = Some 11%N.
Proof. exact source_next_example. Qed.

(* The return types registered are the classes that the types as written refer to. *)
Theorem C44_returns :
  forall (r : N) (static_type : ty -> N) (static_void : N) s m,
    method_registered r static_type static_void s = Ok m ->
    (forall c, returns r (ms_return s) c ->
       mr_return m = match c with Some c => static_type (TyName c) | None => static_void end) /\
    forall i o c, ms_overriders s !! i = Some o -> returns r (os_return o) c ->
      exists orec, mr_overriders m !! i = Some orec /\
        or_return orec = match c with Some c => static_type (TyName c) | None => static_void end.
Proof. exact source_returns. Qed.
Print Assumptions C44_returns.

Example C44_returns_example :
  (exists m, method_registered 7 static0 0 clone_source = Ok m) /\
  returns 7 (ms_return clone_source) (Some 1%N) /\
  ms_overriders clone_source !! 0 = Some (OverriderSource [TyLRef (TyConst dog)] (TyUnique dog) 31%N 31) /\
  returns 7 (TyUnique dog) (Some 2%N) /\
  method_registered 7 static0 0 poke_source = Ok poke /\ returns 7 (ms_return poke_source) None.
Proof. exact returns_example. Qed.

(* What compiles need not register classes: a reference to a virtual_ptr that is not const is a
   virtual parameter, but not of the class of the object. *)
Theorem C44_compiles_refuted :
  exists (r : N) polymorphic base_of convertible (static_type : ty -> N) (static_void : N)
         p R s m cf X w t,
    ms_parameters s = [TyLRef (TyVptr p r)] /\
    method_source_compiles r polymorphic base_of convertible s = true /\
    method_registered r static_type static_void s = Ok m /\ m ∈ reg_methods R /\
    static_type p ∈ map cr_type (reg_classes R) /\
    snd (initialize cf X false R w) = Err (EMissingClass t) /\ t <> static_type p.
Proof. exact odd_reference_witness. Qed.
Print Assumptions C44_compiles_refuted.

(* A reference to a const virtual_ptr of another registry is accepted in a method, not in its
   overriders. *)
Theorem C44_other_registry_refuted :
  exists (r r' : N) polymorphic base_of convertible (static_type : ty -> N) (static_void : N) p,
    r' <> r /\ method_compiles r polymorphic [TyLRef (TyConst (TyVptr p r'))] = true /\
    method_ids r static_type static_void [TyLRef (TyConst (TyVptr p r'))] <> Ok [static_type p] /\
    forall qs, overrider_compiles r base_of convertible [TyLRef (TyConst (TyVptr p r'))] qs = false.
Proof. exact odd_registry_witness. Qed.
Print Assumptions C44_other_registry_refuted.
