(* Properties of the static objects that register classes, methods and overriders. *)
From stdpp Require Import base list numbers relations.
From Verif Require Import Base Registry Spec ModelClasses ModelHash ModelWorld ModelCall SpecCall
  ExamplesModel ExamplesDispatch ProofInvariance ModelStaticList ModelRegistrars SpecRegistrars ProofRegistrars
  ProofRegistrarOrder ExamplesRegistrars.

(* C38: whatever the order in which registering objects are constructed and
   destroyed, and however many calls to initialize() came before, initialize() sees
   the live classes, the live methods, and for each of them its live overriders. *)
Theorem C38_registrations : forall deferred S fuel evs st,
  source_ok S -> lifetimes evs -> gives_ids deferred evs st -> length evs <= fuel ->
  exists s, registrar_run deferred S fuel evs memory0 = Ok s /\
    forall cf X n2216 w, initialize_objects deferred S cf X n2216 fuel st s w =
      initialize cf X n2216 (registers S st (live evs)) w.
Proof. exact registered_right. Qed.
Print Assumptions C38_registrations.

Example C38_registrations_example :
  (source_ok S0 /\ lifetimes (unloaded id) /\ gives_ids false (unloaded id) id /\
   length (unloaded id) <= 100) /\
  map cr_type (reg_classes R_without) = [1; 1; 2; 3; 4]%N /\
  map (fun m => (mr_slots_strides m, map or_pf (mr_overriders m))) (reg_methods R_with)
  = [(2, [21; 22; 23; 24]%N); (1, [11; 12; 13; 14]%N)] /\
  map (fun m => (mr_slots_strides m, map or_pf (mr_overriders m))) (reg_methods R_without)
  = [(2, [21; 22; 23; 24]%N); (1, [11; 12; 13]%N)].
Proof. exact (conj registrars_example unloaded_registers). Qed.

(* C38: calls do not depend on the order of construction. *)
Theorem C38_construction_order : forall cf X S st l l' w w' m all all' args,
  l ≡ₚ l' ->
  program_ok cf (r_env X) (registers S st l) ->
  bases_first (e_ti (r_env X)) (registers S st l) -> bases_first (e_ti (r_env X)) (registers S st l') ->
  initialized_by cf X false (registers S st l) w -> initialized_by cf X false (registers S st l') w' ->
  call_ok cf (e_ti (r_env X)) (registers S st l) w m all args ->
  Forall2 (passes cf (e_ti (r_env X)) (registers S st l') w') (virtual_args all') args ->
  length (mr_vp m) = 1 \/ (together all /\ together all') ->
  settled (e_ti (r_env X)) (registers S st l) (mr_overriders m)
    (candidate (e_ti (r_env X)) (registers S st l) (mr_overriders m) args) ->
  exists m' f, m' ∈ reg_methods (registers S st l') /\ same_method m m' /\
    mr_slots_strides m' = mr_slots_strides m /\
    resolve cf w m all = Ok f /\ resolve cf w' m' all' = Ok f.
Proof. exact construction_order. Qed.
Print Assumptions C38_construction_order.

Example C38_construction_order_example :
  live (unloaded id) ≡ₚ other_order /\
  program_ok cf0 env0 R_without /\ bases_first id R_without /\ bases_first id R_other /\
  initialized_by cf0 run0 false R_without w_without /\ initialized_by cf0 run0 false R_other w_other /\
  call_ok cf0 id R_without w_without meet_u (map AObject [4; 2]%N) [4; 2]%N /\
  Forall2 (passes cf0 id R_other w_other) (virtual_args (map AObject [4; 2]%N)) [4; 2]%N /\
  together (map AObject [4; 2]%N) /\
  settled id R_without (mr_overriders meet_u) (candidate id R_without (mr_overriders meet_u) [4; 2]%N) /\
  map or_pf (mr_overriders meet_u) = [21; 22; 23; 24]%N /\
  flat_map (fun m => map or_pf (mr_overriders m)) (reg_methods R_other) = [13; 12; 11; 24; 23; 22; 21]%N.
Proof. exact order_example. Qed.

(* C38: after initialize(), calls enter overriders of that method that are live,
   and no overrider that was destroyed before. *)
Theorem C38_live_overriders : forall cf X S st l w n2216 mid m all args f,
  program_ok cf (r_env X) (registers S st l) -> bases_first (e_ti (r_env X)) (registers S st l) ->
  initialized_by cf X n2216 (registers S st l) w ->
  call_ok cf (e_ti (r_env X)) (registers S st l) w m all args -> functions_ok m ->
  length (mr_vp m) = 1 \/ together all ->
  call cf w mid m all = Ok (Calls f) ->
  exists i k, RMethod i ∈ l /\ mr_slots_strides (so_method S i) = mr_slots_strides m /\
    ROverrider k ∈ l /\ fst (so_overrider S k) = i /\ or_pf (snd (so_overrider S k)) = f.
Proof. exact live_overriders. Qed.
Print Assumptions C38_live_overriders.

Example C38_live_overriders_example :
  program_ok cf0 env0 R_without /\ bases_first id R_without /\
  initialized_by cf0 run0 false R_without w_without /\
  call_ok cf0 id R_without w_without poke_u [AObject 4%N] [4%N] /\ functions_ok poke_u /\
  length (mr_vp poke_u) = 1 /\
  call cf0 (state cf0 false R_with) 0 (nth 1 (reg_methods R_with) poke) [AObject 4%N] = Ok (Calls 14%N) /\
  call cf0 w_without 1 meet_u (map AObject [4; 2]%N) = Ok (Calls 24%N) /\
  call cf0 w_without 0 poke_u [AObject 2%N] = Ok (Calls 12%N).
Proof. exact unload_example. Qed.

(* C38: an overrider whose constructor runs again is not registered twice. *)
Theorem C38_overrider_once : forall deferred S fuel evs st k,
  source_ok S -> lifetimes evs -> length evs <= fuel -> constructed evs (ROverrider k) ->
  registrar_run deferred S fuel (evs ++ [Construct st (ROverrider k)]) memory0 =
  registrar_run deferred S fuel evs memory0.
Proof. exact overrider_once. Qed.
Print Assumptions C38_overrider_once.

Example C38_overrider_once_example :
  source_ok S0 /\ lifetimes (unloaded id) /\ length (unloaded id) <= 100 /\
  constructed (unloaded id) (ROverrider 0) /\ constructed (unloaded id) (ROverrider 7) /\
  ROverrider 7 ∉ live (unloaded id).
Proof. exact once_example. Qed.

(* C39: with deferred_static_rtti, type ids may be assigned any time before
   initialize(), even after initialize() ran with other ids: the result is that of
   the same program in which they are known from the start. *)
Theorem C39_deferred : forall S fuel evs st,
  source_ok S -> lifetimes evs -> length evs <= fuel ->
  exists s s', registrar_run true S fuel evs memory0 = Ok s /\
    registrar_run false S fuel (early_ids st evs) memory0 = Ok s' /\
    forall cf X n2216 st' w, initialize_objects true S cf X n2216 fuel st s w =
      initialize_objects false S cf X n2216 fuel st' s' w.
Proof. exact deferred_right. Qed.
Print Assumptions C39_deferred.

Example C39_deferred_example :
  source_ok S0 /\ lifetimes deferred_events /\ length deferred_events <= 100 /\
  registers S0 id (live deferred_events) = R_without.
Proof. exact deferred_example. Qed.

(* C39: without it, type ids must be known when registering objects are constructed. *)
Theorem C39_not_deferred_refuted :
  exists S evs fuel st s s' cf X w, source_ok S /\ lifetimes evs /\ length evs <= fuel /\
    registrar_run false S fuel evs memory0 = Ok s /\
    registrar_run false S fuel (early_ids st evs) memory0 = Ok s' /\
    snd (initialize_objects false S cf X false fuel st s w) <>
    snd (initialize_objects false S cf X false fuel st s' w).
Proof. exact ids_needed. Qed.
Print Assumptions C39_not_deferred_refuted.
