(* Properties C24 and C37: embedded v-table pointers. *)
From stdpp Require Import base list numbers relations.
From Verif Require Import Base Registry Spec SpecCall ModelClasses ModelHash ModelWorld ModelCall
  ModelVirtualPtr ModelInplace SpecInplace ProofInplace ExamplesModel ExamplesDispatch ExamplesInplace.

(* C24.  While the body of a constructor runs, calls on the object under construction
   use the v-table of the class of the constructor. *)
Theorem C24_constructors : forall cf w addr o c m e,
  e ∈ snd (construct cf w addr o c (m, [])) ->
  dispatches_as cf w addr (ev_memory e) (ev_at e) (ev_class e) (cname (ev_class e)).
Proof. exact constructors_dispatch. Qed.
Print Assumptions C24_constructors.

Example C24_constructors_example :
  unshared 0 domestic /\
  dispatches_as cf0 w0 addr0 (made domestic) (complete_at 0 domestic) domestic 7 /\
  within (complete_at 0 domestic) domestic [0; 0] (0, [7; 3; 1]%N) (animal false) /\
  map shown (snd (construct cf0 w0 addr0 0 domestic (mem0, []))) =
    [(true, 1); (true, 3); (true, 6); (true, 7)]%N /\
  map shown (snd (destroy cf0 w0 addr0 0 domestic (made domestic, []))) =
    [(false, 7); (false, 6); (false, 3); (false, 1)]%N.
Proof. exact domestic_example. Qed.

(* The same for destructors, provided that no virtual base is shared. *)
Theorem C24_destructors : forall cf w addr o c m e,
  unshared o c -> dispatches_as cf w addr m (complete_at o c) c (cname c) ->
  e ∈ snd (destroy cf w addr o c (m, [])) ->
  dispatches_as cf w addr (ev_memory e) (ev_at e) (ev_class e) (cname (ev_class e)).
Proof. exact destructors_dispatch. Qed.
Print Assumptions C24_destructors.

Example C24_destructors_example :
  unshared 0 palace /\
  dispatches_as cf0 w0 addr0 (made palace) (complete_at 0 palace) palace 9 /\
  map shown (snd (construct cf0 w0 addr0 0 palace (mem0, []))) =
    [(true, 1); (true, 3); (true, 6); (true, 8); (true, 9)]%N /\
  map shown (snd (destroy cf0 w0 addr0 0 palace (made palace, []))) =
    [(false, 9); (false, 8); (false, 6); (false, 3); (false, 1)]%N.
Proof. exact palace_example. Qed.

(* The two theorems speak of the bodies of all the subobjects. *)
Theorem C24_every_body : forall cf w addr o c m path q b,
  unshared o c -> within (complete_at o c) c path q b ->
  (exists e, e ∈ snd (construct cf w addr o c (m, [])) /\ ev_at e = q /\ ev_class e = b) /\
  (exists e, e ∈ snd (destroy cf w addr o c (m, [])) /\ ev_at e = q /\ ev_class e = b).
Proof. exact every_body_runs. Qed.
Print Assumptions C24_every_body.

Example C24_every_body_example :
  unshared 0 domestic /\
  dispatches_as cf0 w0 addr0 (made domestic) (complete_at 0 domestic) domestic 7 /\
  within (complete_at 0 domestic) domestic [0; 0] (0, [7; 3; 1]%N) (animal false) /\
  map shown (snd (construct cf0 w0 addr0 0 domestic (mem0, []))) =
    [(true, 1); (true, 3); (true, 6); (true, 7)]%N /\
  map shown (snd (destroy cf0 w0 addr0 0 domestic (made domestic, []))) =
    [(false, 7); (false, 6); (false, 3); (false, 1)]%N.
Proof. exact domestic_example. Qed.

(* Hence a call from a constructor or destructor, through a reference to the object
   or to one of its bases, enters the overrider for the class of the constructor or
   destructor. *)
Theorem C24_calls : forall cf X R w addr o c m e path q b mid mr cr,
  program_ok cf (r_env X) R -> bases_first (e_ti (r_env X)) R -> initialized_by cf X false R w ->
  e ∈ snd (construct cf w addr o c (m, [])) \/
  (unshared o c /\ dispatches_as cf w addr m (complete_at o c) c (cname c) /\
   e ∈ snd (destroy cf w addr o c (m, []))) ->
  let n := cname (ev_class e) in
  first_record (e_ti (r_env X)) R (e_ti (r_env X) n) = Some cr -> cr_static_vptr cr = addr n ->
  within (ev_at e) (ev_class e) path q b ->
  mr ∈ reg_methods R -> length (mr_vp mr) = 1 ->
  valid_args (e_ti (r_env X)) R mr [e_ti (r_env X) n] -> functions_ok mr ->
  exists v sel, vptr_fn cf w (ev_memory e) q b = Ok v /\
    selects (e_ti (r_env X)) R (mr_overriders mr) [e_ti (r_env X) n] sel /\
    behaves mr sel (call cf w mid mr [APtr v n]).
Proof. exact body_calls. Qed.
Print Assumptions C24_calls.

Example C24_calls_example :
  program_ok cf0 env0 R0 /\ bases_first id R0 /\ initialized_by cf0 run0 false R0 w0 /\
  dog_event ∈ snd (construct cf0 w0 addr0 0 (dog false) (mem0, [])) /\
  first_record id R0 2%N = Some (cls 2 [2; 1])%N /\ cr_static_vptr (cls 2 [2; 1])%N = addr0 2 /\
  within (ev_at dog_event) (ev_class dog_event) [0] (0, [2; 1]%N) (animal false) /\
  poke ∈ reg_methods R0 /\ length (mr_vp poke) = 1 /\ valid_args id R0 poke [2%N] /\ functions_ok poke.
Proof. exact dog_example. Qed.

(* With a virtual base shared by two bases, a call from the destructor of the first
   enters the overrider for the virtual base. *)
Theorem C24_shared_refuted : exists cf X R w addr o c m e v mid mr n,
  program_ok cf (r_env X) R /\ bases_first (e_ti (r_env X)) R /\ initialized_by cf X false R w /\
  m = fst (construct cf w addr o c (mem0, [])) /\
  dispatches_as cf w addr m (complete_at o c) c (cname c) /\
  e ∈ snd (destroy cf w addr o c (m, [])) /\ n = cname (ev_class e) /\
  mr ∈ reg_methods R /\
  vptr_fn cf w (ev_memory e) (ev_at e) (ev_class e) = Ok v /\
  selects (e_ti (r_env X)) R (mr_overriders mr) [n] (SOverrider 1) /\
  call cf w mid mr [APtr v n] = Ok (Calls 11%N) /\ or_pf <$> mr_overriders mr !! 1 = Some 12%N.
Proof. exact shared_wrong. Qed.
Print Assumptions C24_shared_refuted.

(* C37.  Between its constructor and its destructor, an object dispatches as its
   class: also when it was copied from, or assigned, another object of its class, and
   with indirect_vptr also after initialize(). *)
Theorem C37_live_objects : forall cf addr w m s,
  rtc (object_step cf addr) (Objects w m []) s ->
  forall o c, (o, c) ∈ os_live s ->
  dispatches_as cf (os_world s) addr (os_memory s) (complete_at o c) c (cname c).
Proof. exact live_dispatch. Qed.
Print Assumptions C37_live_objects.

Example C37_live_objects_example : exists s,
  rtc (object_step cf_indirect0 addr0) (Objects world0 mem0 []) s /\
  os_live s = [(1, chimera); (2, dog false)] /\ os_world s = state cf_indirect0 false R0 /\
  vptr_fn cf_indirect0 (os_world s) (os_memory s) (complete_at 1 chimera) chimera =
    Ok (w_static (os_world s) 4).
Proof. exact life_example. Qed.

(* A copy dispatches as the object it was copied from. *)
Theorem C37_copy : forall cf w addr p q c n m,
  dispatches_as cf w addr m q c n -> dispatches_as cf w addr (copy p q c m) p c n.
Proof. exact copy_designates. Qed.
Print Assumptions C37_copy.

Example C37_copy_example :
  dispatches_as cf0 w0 addr0 (made (dog false)) (0, [2; 1]%N) (animal false) 2.
Proof. exact slice_example. Qed.

(* Hence an object copied from a base of another object does not dispatch as its own
   class: a call enters an overrider for a class that the copy is not. *)
Theorem C37_slice_refuted : exists cf X R w addr m p q c v mid mr,
  program_ok cf (r_env X) R /\ bases_first (e_ti (r_env X)) R /\ initialized_by cf X false R w /\
  p = complete_at 1 c /\
  m = copy p q c (fst (construct cf w addr 0 (dog false) (mem0, []))) /\
  within (complete_at 0 (dog false)) (dog false) [0] q c /\ mr ∈ reg_methods R /\
  vptr_fn cf w m p c = Ok v /\ v <> w_static w (addr (cname c)) /\
  selects (e_ti (r_env X)) R (mr_overriders mr) [cname c] (SOverrider 0) /\
  call cf w mid mr [APtr v (cname c)] = Ok (Calls 12%N) /\ or_pf <$> mr_overriders mr !! 0 = Some 11%N.
Proof. exact slice_wrong. Qed.
Print Assumptions C37_slice_refuted.

(* Without indirect_vptr, calling a method on an object constructed before
   initialize() is undefined. *)
Theorem C37_early_refuted : exists cf X R w addr o c v mid mr,
  program_ok cf (r_env X) R /\ bases_first (e_ti (r_env X)) R /\
  (exists rep, initialize cf X false R world0 = (w, Ok rep)) /\ mr ∈ reg_methods R /\
  vptr_fn cf w (fst (construct cf world0 addr o c (mem0, []))) (complete_at o c) c = Ok v /\
  valid_args (e_ti (r_env X)) R mr [cname c] /\ call cf w mid mr [APtr v (cname c)] = Undef.
Proof. exact early_wrong. Qed.
Print Assumptions C37_early_refuted.
