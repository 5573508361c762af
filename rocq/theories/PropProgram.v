(* C52: programs of several translation units. *)
From stdpp Require Import base list numbers.
From Verif Require Import Base Registry Spec ModelClasses ModelWorld ModelCall SpecCall ExamplesModel
  ModelSignature SpecSignature ExamplesSignature ModelMacros SpecMacros ExamplesMacros ModelUseClasses
  SpecUseClasses ExamplesUseClasses ModelProgram SpecProgram ProofProgram ProofProgramCalls ExamplesProgram.

(* Every method of every unit exists once in the program.  It has the overriders that any unit
   has for it, each once, and no others. *)
Theorem C52_registered : forall polymorphic base_of convertible associated P us,
  Forall2 (fun ds u => translate polymorphic base_of convertible associated ds = Some u) P us ->
  one_definition convertible associated P ->
  (forall M fns, declared P M fns -> registered_in convertible associated P (link us) M) /\
  (forall d, d ∈ link us -> exists fns, declared P (MethodType (md_scope d) (md_name d) (md_registry d)
     (ms_parameters (md_source d)) (ms_return (md_source d))) fns).
Proof. exact link_correct. Qed.
Print Assumptions C52_registered.

Example C52_registered_example :
  Forall2 (fun ds u => translate polymorphic0 base0 convertible2 associated2 ds = Some u) units5 compiled5 /\
  one_definition convertible2 associated2 units5 /\ declared units5 enc5 (1002%N, 2002%N, 2) /\
  overridden convertible2 associated2 units5 enc5 (Function canis 101 (enc_qs dog animal) nothing) 22%N 22 /\
  overridden convertible2 associated2 units5 enc5 (Function [] 101 (enc_qs dog dog) nothing) 24%N 24.
Proof. exact registered_example. Qed.

(* Whatever the order in which its methods, overriders and classes are constructed, and whichever
   units' type ids they use, such a program registers what the other theorems require. *)
Theorem C52_well_formed : forall polymorphic base_of convertible associated P us r static_type static_void
    is_base abstract vptr_of key ls cf X R,
  started polymorphic base_of convertible associated P us r static_type static_void is_base abstract vptr_of
    key ls cf X R ->
  program_ok cf (r_env X) R /\ bases_first (e_ti (r_env X)) R.
Proof. exact program_well_formed. Qed.
Print Assumptions C52_well_formed.

Example C52_well_formed_example :
  started polymorphic0 base0 convertible2 associated2 units5 compiled5 7 static5 void5
    pets no_abstract N.to_nat id lists5 cf0 run5 R5.
Proof. exact started5. Qed.

(* A call in any unit enters the overrider, of any unit, that accepts the arguments and is more
   specialized than all the others that do. *)
Theorem C52_dispatch : forall polymorphic base_of convertible associated P us r static_type static_void
    is_base abstract vptr_of key ls cf X R w,
  started polymorphic base_of convertible associated P us r static_type static_void is_base abstract vptr_of
    key ls cf X R ->
  initialized_by cf X false R w ->
  forall n ns name qs M m all args,
  call_in convertible associated P us r is_base key ls cf X R w n ns name qs M m all args ->
  forall mid pf, length args = 1 \/ together all ->
  accepted convertible associated P is_base M args pf ->
  (forall pf', accepted convertible associated P is_base M args pf' -> pf' <> pf ->
     more_specialized convertible associated P is_base M pf pf') ->
  call cf w mid m all = Ok (Calls pf).
Proof. exact program_best. Qed.
Print Assumptions C52_dispatch.

Example C52_dispatch_example :
  (started polymorphic0 base0 convertible2 associated2 units5 compiled5 7 static5 void5
     pets no_abstract N.to_nat id lists5 cf0 run5 R5 /\
   initialized_by cf0 run5 false R5 w5) /\
  call_in convertible2 associated2 units5 compiled5 7 pets id lists5 cf0 run5 R5 w5
    0 canis 101 (enc_qs dog (TyName 4)) enc5 enc_record5 enc_args5 [2; 4]%N /\
  together enc_args5 /\
  accepted convertible2 associated2 units5 pets enc5 [2; 4]%N 24%N /\
  (forall pf', accepted convertible2 associated2 units5 pets enc5 [2; 4]%N pf' -> pf' <> 24%N ->
     more_specialized convertible2 associated2 units5 pets enc5 24%N pf').
Proof. exact program_best_example. Qed.

(* It reports no_overrider if and only if no unit has an overrider that accepts the arguments. *)
Theorem C52_no_overrider : forall polymorphic base_of convertible associated P us r static_type static_void
    is_base abstract vptr_of key ls cf X R w,
  started polymorphic base_of convertible associated P us r static_type static_void is_base abstract vptr_of
    key ls cf X R ->
  initialized_by cf X false R w ->
  forall n ns name qs M m all args,
  call_in convertible associated P us r is_base key ls cf X R w n ns name qs M m all args ->
  forall mid, length args = 1 \/ together all ->
  (exists id k ts, call cf w mid m all = Err (ENoOverrider id k ts)) <->
  forall pf, ~ accepted convertible associated P is_base M args pf.
Proof. exact program_none. Qed.
Print Assumptions C52_no_overrider.

Example C52_no_overrider_example :
  (started polymorphic0 base0 convertible2 associated2 units5 compiled5 7 static5 void5
     pets no_abstract N.to_nat id lists5 cf0 run5 R5 /\
   initialized_by cf0 run5 false R5 w5) /\
  call_in convertible2 associated2 units5 compiled5 7 pets id lists5 cf0 run5 R5 w5
    1 felis 100 (poke_qs cat) poke5 poke_record5 poke_args5 [3]%N /\
  length [3]%N = 1 /\ (forall pf, ~ accepted convertible2 associated2 units5 pets poke5 [3]%N pf).
Proof. exact program_none_example. Qed.

(* Everything a call can do.  For several virtual arguments, among overriders that are settled
   (see C02). *)
Theorem C52_calls : forall polymorphic base_of convertible associated P us r static_type static_void
    is_base abstract vptr_of key ls cf X R w,
  started polymorphic base_of convertible associated P us r static_type static_void is_base abstract vptr_of
    key ls cf X R ->
  initialized_by cf X false R w ->
  forall n ns name qs M m all args,
  call_in convertible associated P us r is_base key ls cf X R w n ns name qs M m all args ->
  forall mid,
  length args = 1 \/ (together all /\ program_settled convertible associated P is_base M args) ->
  result convertible associated P is_base M args (call cf w mid m all).
Proof. exact program_result. Qed.
Print Assumptions C52_calls.

Example C52_calls_example :
  (started polymorphic0 base0 convertible2 associated2 units5 compiled5 7 static5 void5
     pets no_abstract N.to_nat id lists5 cf0 run5 R5 /\
   initialized_by cf0 run5 false R5 w5) /\
  call_in convertible2 associated2 units5 compiled5 7 pets id lists5 cf0 run5 R5 w5
    1 [] 101 (enc_qs dog cat) enc5 enc_record5 cat_args5 [2; 3]%N /\
  together cat_args5 /\ program_settled convertible2 associated2 units5 pets enc5 [2; 3]%N /\
  exists ts, call cf0 w5 2%N enc_record5 cat_args5 = Err (EAmbiguousCall 2%N 3 ts).
Proof. exact program_calls_example. Qed.
