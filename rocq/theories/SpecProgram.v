(* Specification vocabulary about whole programs: methods and overriders written with the macros
   in several translation units, classes as C++ sees them. *)
From stdpp Require Import base list numbers.
From Verif Require Import Base Registry Spec ModelClasses ModelWorld ModelCall SpecCall ModelSignature SpecSignature
  ModelMacros SpecMacros ModelUseClasses SpecUseClasses ModelProgram.

(* The translation units. *)
Definition program := list (list declaration).

(* What makes a method the same in two units. *)
Record method_type := MethodType {
  mt_scope : namespace;
  mt_name : N;
  mt_registry : N;
  mt_parameters : list ty;
  mt_return : ty
}.

(* What makes an overrider the same in two units. *)
Record function := Function {
  fn_scope : namespace;
  fn_name : N;
  fn_parameters : list ty;
  fn_return : ty
}.

(* The method declaration number [j] of a unit is. *)
Definition is_method (ds : list declaration) (j : nat) (M : method_type) (fns : fptr * fptr * nat) : Prop :=
  ds !! j = Some (Method (mt_scope M) (mt_name M) (mt_registry M) (mt_parameters M) (mt_return M) fns).

Section Program.
  Context (convertible : ty -> ty -> bool) (associated : ty -> list namespace).
  Context (P : program).

  Definition declared (M : method_type) (fns : fptr * fptr * nat) : Prop :=
    exists ds j, ds ∈ P /\ is_method ds j M fns.

  (* Some unit overrides [M] with [F], of address [pf]. *)
  Definition overridden (M : method_type) (F : function) (pf : fptr) (next : nat) : Prop :=
    exists ds i j fns, ds ∈ P /\ is_method ds j M fns /\
      overrides convertible associated ds i j /\
      ds !! i = Some (Define (fn_scope F) (fn_name F) (fn_parameters F) (fn_return F) pf next).

  (* The one definition rule, and distinct functions and variables have distinct addresses. *)
  Record one_definition : Prop := {
    od_method : forall M fns fns', declared M fns -> declared M fns' -> fns = fns';
    od_function : forall M F F' pf pf' next next',
      overridden M F pf next -> overridden M F' pf' next' -> (F = F' <-> pf = pf');
    od_stubs : forall M ni amb ss, declared M (ni, amb, ss) -> ni <> amb /\
      forall F pf next, overridden M F pf next -> pf <> ni /\ pf <> amb;
    od_slots : forall M M' ni ni' amb amb' ss,
      declared M (ni, amb, ss) -> declared M' (ni', amb', ss) -> M = M';
    od_next : forall M M' F F' pf pf' next next', overridden M F pf next -> overridden M' F' pf' next' ->
      (M = M' /\ F = F') <-> next = next'
  }.

  (* The methods of registry [r] and their overriders have documented parameters. *)
  Definition documented_program (r : N) : Prop :=
    forall M fns, mt_registry M = r -> declared M fns ->
      (exists cs, method_classes r (mt_parameters M) cs) /\
      forall F pf next, overridden M F pf next ->
        exists cs, overrider_classes r (mt_parameters M) (fn_parameters F) cs.

  (* [M] is registered once, with all the overriders of all the units, each once. *)
  Definition registered_in (ms : list method_decl) (M : method_type) : Prop :=
    exists k d, ms !! k = Some d /\
      (forall k' d', ms !! k' = Some d' ->
         (md_scope d' = mt_scope M /\ md_name d' = mt_name M /\ md_registry d' = mt_registry M /\
          ms_parameters (md_source d') = mt_parameters M /\ ms_return (md_source d') = mt_return M)
         <-> k' = k) /\
      declared M (ms_not_implemented (md_source d), ms_ambiguous (md_source d),
        ms_slots_strides (md_source d)) /\
      NoDup (map os_pf (ms_overriders (md_source d))) /\
      forall o, o ∈ ms_overriders (md_source d) <-> exists F,
        overridden M F (os_pf o) (os_next o) /\ fn_parameters F = os_parameters o /\
        fn_return F = os_return o.

  Section Rule.
    (* The rule of core.hpp:2092-2109, for the overriders of [M] in all the units.  [args] are
       the classes of the virtual arguments. *)
    Context (is_base : N -> N -> bool) (M : method_type) (args : list N).

    Definition takes_classes (pf : fptr) (cs : list N) : Prop :=
      exists F next, overridden M F pf next /\
        overrider_classes (mt_registry M) (mt_parameters M) (fn_parameters F) cs.

    Definition accepted (pf : fptr) : Prop :=
      exists cs, takes_classes pf cs /\ Forall2 (fun a c => is_base c a = true) args cs.

    Definition more_specialized (pf pf' : fptr) : Prop :=
      exists cs cs', takes_classes pf cs /\ takes_classes pf' cs' /\
        proper_in_some is_base cs cs' /\ ~ proper_in_some is_base cs' cs.

    Definition unbeaten (pf : fptr) : Prop :=
      accepted pf /\ forall pf', accepted pf' -> ~ more_specialized pf' pf.

    (* Whatever is beaten is beaten by something unbeaten. *)
    Definition program_settled : Prop :=
      forall pf pf', accepted pf -> accepted pf' -> more_specialized pf' pf ->
        exists pf'', unbeaten pf'' /\ more_specialized pf'' pf.

    (* What a call does. *)
    Inductive result : outcome call_result -> Prop :=
      | result_none mid n ts :
          (forall pf, ~ accepted pf) -> result (Err (ENoOverrider mid n ts))
      | result_calls pf :
          unbeaten pf -> (forall pf', unbeaten pf' -> pf' = pf) -> result (Ok (Calls pf))
      | result_ambiguous mid n ts :
          (exists pf, accepted pf) ->
          ~ (exists pf, unbeaten pf /\ forall pf', unbeaten pf' -> pf' = pf) ->
          result (Err (EAmbiguousCall mid n ts)).
  End Rule.
End Program.

(* A program that compiles and links, and the registrations its start leaves in registry [r].
   [is_base] is C++'s relation between the classes, [ls] its lists of classes. *)
Record started (polymorphic : ty -> bool) (base_of convertible : ty -> ty -> bool)
    (associated : ty -> list namespace) (P : program) (us : list unit_state) (r : N)
    (static_type : nat -> ty -> N) (static_void : nat -> N)
    (is_base : N -> N -> bool) (abstract : N -> bool) (vptr_of : N -> nat) (key : N -> N)
    (ls : list listing) (cf : config) (X : run) (R : registrations) : Prop := {
  st_compiles : Forall2 (fun ds u => translate polymorphic base_of convertible associated ds = Some u) P us;
  st_one : one_definition convertible associated P;
  st_documented : documented_program convertible associated P r;
  st_methods : loads r static_type static_void (link us) R;
  st_hierarchy : cpp_hierarchy is_base;
  st_types : identifies (e_ti (r_env X)) (fun u c => static_type u (TyName c)) key;
  st_classes : registers is_base abstract vptr_of (fun u c => static_type u (TyName c)) ls R;
  st_complete : complete is_base ls;
  st_vptrs : forall c d, vptr_of c = vptr_of d -> c = d;
  st_size : forall u c, listed ls c -> (static_type u (TyName c) < 2 ^ 64 - 1)%N;
  st_env : env_ok (r_env X);
  st_hash : hash_size_ok cf (length (reg_classes R))
}.

(* In unit number [n], name(...) with arguments of static types [qs] is written in namespace [ns].
   It means method [M], and reaches [m]; its arguments are [all], the virtual ones of classes
   [args]. *)
Record call_in (convertible : ty -> ty -> bool) (associated : ty -> list namespace) (P : program)
    (us : list unit_state) (r : N) (is_base : N -> N -> bool) (key : N -> N) (ls : list listing)
    (cf : config) (X : run) (R : registrations) (w : world) (n : nat) (ns : namespace) (name : N)
    (qs : list ty) (M : method_type) (m : method_record) (all : list arg) (args : list N) : Prop := {
  ci_means : exists ds j fns, P !! n = Some ds /\ means convertible associated ds ns name qs j /\
    is_method ds j M fns;
  ci_registry : mt_registry M = r;
  ci_calls : exists u, us !! n = Some u /\ calls_method convertible associated u ns name qs m;
  ci_used : m ∈ reg_methods R;
  ci_passes : Forall2 (passes cf (e_ti (r_env X)) R w) (virtual_args all) (map key args);
  ci_listed : Forall (listed ls) args;
  ci_valid : exists cs, method_classes r (mt_parameters M) cs /\
    Forall2 (fun a c => is_base c a = true) args cs
}.
