(* C43: an overrider receives the part of the object that its parameter names. *)
From stdpp Require Import base list numbers.
From Verif Require Import Base Registry Spec ModelClasses ModelHash ModelWorld ModelCall ModelErrors SpecCall
  ExamplesModel ExamplesDispatch ExamplesNext ModelUseClasses SpecUseClasses ExamplesUseClasses
  ModelCasts SpecCasts ProofCasts ProofCastsProgram ExamplesCasts.

(* The cast alone.  The object, of class [c], has one subobject of class [d]; the
   argument is a subobject of that one. *)
Theorem C43_cast :
  forall H, hierarchy_ok H ->
  forall how c b d sd t s,
    only_part H c d sd -> embeds H d sd t s -> list.last t = Some b ->
    cast_part how H c b d s = Ok (Some sd).
Proof. exact cast_finds. Qed.
Print Assumptions C43_cast.

Example C43_cast_example :
  hierarchy_ok virtually /\ only_part virtually 4 2 [4; 2]%N /\
  embeds virtually 2 [4; 2]%N [1]%N [1]%N /\ list.last [1]%N = Some 1%N /\
  hierarchy_ok repeatedly /\ only_part repeatedly 4 2 [4; 2]%N /\
  embeds repeatedly 2 [4; 2]%N [2; 1]%N [4; 2; 1]%N /\ list.last [2; 1]%N = Some 1%N.
Proof. exact dog_example. Qed.

(* A call, with or without n2216.  The method takes the classes [bs], the objects have the
   classes [cs]; [ovs] are the classes of the parameters of the overriders. *)
Theorem C43_call :
  forall H key cf X n2216 R w mid m all cs bs ovs f,
    hierarchy_ok H ->
    (forall c b, registered (e_ti (r_env X)) R (key c) -> derives (e_ti (r_env X)) R (key c) (key b) ->
       unambiguous H c b) ->
    program_ok cf (r_env X) R -> bases_first (e_ti (r_env X)) R ->
    initialized_by cf X n2216 R w -> call_ok cf (e_ti (r_env X)) R w m all (map key cs) -> functions_ok m ->
    (length (mr_vp m) = 1 \/ together all) ->
    map (e_ti (r_env X)) (mr_vp m) = map key bs -> takes (e_ti (r_env X)) key m ovs ->
    call cf w mid m all = Ok (Calls f) ->
    exists i o ds, mr_overriders m !! i = Some o /\ or_pf o = f /\ ovs !! i = Some ds /\
      length bs = length cs /\ length ds = length cs /\
      forall k how c b d s, cs !! k = Some c -> bs !! k = Some b -> ds !! k = Some d ->
        contains H c s -> list.last s = Some b ->
        exists sd t, only_part H c d sd /\ only_part H d b t /\ embeds H d sd t s /\
          cast_part how H c b d s = Ok (Some sd).
Proof. exact call_casts. Qed.
Print Assumptions C43_call.

Example C43_call_example :
  hierarchy_ok virtually /\
  (forall c b, registered id R_pets (id c) -> derives id R_pets (id c) (id b) -> unambiguous virtually c b) /\
  program_ok cf0 env0 R_pets /\ bases_first id R_pets /\ initialized_by cf0 run0 false R_pets w_pets /\
  call_ok cf0 id R_pets w_pets meet (map AObject [2; 4]%N) (map id [2; 4]%N) /\ functions_ok meet /\
  together (map AObject [2; 4]%N) /\ map id (mr_vp meet) = map id [1; 1]%N /\
  takes id id meet [[1; 1]; [2; 1]; [1; 3]; [2; 2]]%N /\
  call cf0 w_pets 2 meet (map AObject [2; 4]%N) = Ok (Calls 24%N) /\
  contains virtually 4 [1]%N /\ cast_part ByReference virtually 4 1 2 [1]%N = Ok (Some [4; 2]%N).
Proof. exact virtual_call_example. Qed.

(* A call through next, in an overrider that accepts the objects. *)
Theorem C43_next :
  forall H key cf X R w mid m i oi all cs bs ovs f,
    hierarchy_ok H ->
    (forall c b, registered (e_ti (r_env X)) R (key c) -> derives (e_ti (r_env X)) R (key c) (key b) ->
       unambiguous H c b) ->
    program_ok cf (r_env X) R -> initialized_by cf X false R w ->
    m ∈ reg_methods R -> mr_overriders m !! i = Some oi ->
    unique_signature (e_ti (r_env X)) (mr_overriders m) i ->
    (forall args, valid_args (e_ti (r_env X)) R m args ->
       pointwise (e_ti (r_env X)) R (mr_overriders m)
         (candidate (e_ti (r_env X)) R (mr_overriders m) args)) ->
    functions_ok m -> NoDup (map or_pf (mr_overriders m)) ->
    valid_args (e_ti (r_env X)) R m (map key cs) -> applicable (e_ti (r_env X)) R (map key cs) oi ->
    map (e_ti (r_env X)) (mr_vp m) = map key bs -> takes (e_ti (r_env X)) key m ovs ->
    call_next w mid m (or_next oi) all = Ok (Calls f) ->
    exists j o ds, mr_overriders m !! j = Some o /\ or_pf o = f /\ ovs !! j = Some ds /\
      length bs = length cs /\ length ds = length cs /\
      forall k how c b d s, cs !! k = Some c -> bs !! k = Some b -> ds !! k = Some d ->
        contains H c s -> list.last s = Some b ->
        exists sd t, only_part H c d sd /\ only_part H d b t /\ embeds H d sd t s /\
          cast_part how H c b d s = Ok (Some sd).
Proof. exact next_casts. Qed.
Print Assumptions C43_next.

Example C43_next_example :
  hierarchy_ok virtually /\
  (forall c b, registered id R_hello (id c) -> derives id R_hello (id c) (id b) -> unambiguous virtually c b) /\
  program_ok cf0 env0 R_hello /\ initialized_by cf0 run0 false R_hello w_hello /\
  greet ∈ reg_methods R_hello /\ mr_overriders greet !! 3 = Some (ovr [4; 4] 24)%N /\
  unique_signature id (mr_overriders greet) 3 /\
  (forall args, valid_args id R_hello greet args ->
     pointwise id R_hello (mr_overriders greet) (candidate id R_hello (mr_overriders greet) args)) /\
  functions_ok greet /\ NoDup (map or_pf (mr_overriders greet)) /\
  valid_args id R_hello greet (map id [4; 4]%N) /\ applicable id R_hello (map id [4; 4]%N) (ovr [4; 4] 24)%N /\
  map id (mr_vp greet) = map id [1; 1]%N /\ takes id id greet [[1; 1]; [2; 1]; [2; 2]; [4; 4]]%N /\
  call_next w_hello 2 greet (or_next (ovr [4; 4] 24)%N) (map AObject [4; 4]%N) = Ok (Calls 23%N).
Proof. exact hello_example. Qed.

(* What the static_assert of use_classes ensures: it is about the classes that are listed
   together. *)
Theorem C43_listed :
  forall H is_base abstract vptr_of static_type ti key ls R,
    hierarchy_ok H -> (forall b c, is_base b c = true <-> inherits H c b) ->
    identifies ti static_type key -> registers is_base abstract vptr_of static_type ls R ->
    complete is_base ls ->
    (forall c b, listed_together ls c b -> is_base b c = true -> unambiguous H c b) ->
    forall c b, registered ti R (key c) -> derives ti R (key c) (key b) -> unambiguous H c b.
Proof. exact listed_unambiguous. Qed.
Print Assumptions C43_listed.

Example C43_listed_example :
  hierarchy_ok virtually /\ (forall b c, isb virtually b c = true <-> inherits virtually c b) /\
  identifies id plain_type id /\ registers (isb virtually) no_abstract N.to_nat plain_type pets_lists R_pets /\
  complete (isb virtually) pets_lists /\
  (forall c b, listed_together pets_lists c b -> isb virtually b c = true -> unambiguous virtually c b) /\
  registered id R_pets 4 /\ derives id R_pets 4 1.
Proof. exact virtual_listed_example. Qed.

(* Each class listed with its direct bases, and nothing ambiguous in any list: the call
   enters an overrider, and the cast of the argument is undefined. *)
Theorem C43_repeated_refuted :
  exists H is_base abstract vptr_of static_type key ls cf X R w,
    hierarchy_ok H /\ (forall b c, is_base b c = true <-> inherits H c b) /\
    identifies (e_ti (r_env X)) static_type key /\
    registers is_base abstract vptr_of static_type ls R /\ documented is_base ls /\
    (forall c b, listed_together ls c b -> is_base b c = true -> unambiguous H c b) /\
    program_ok cf (r_env X) R /\ bases_first (e_ti (r_env X)) R /\ initialized_by cf X false R w /\
    exists mid m all c b d o s,
      call_ok cf (e_ti (r_env X)) R w m all [key c] /\ functions_ok m /\
      map (e_ti (r_env X)) (mr_vp m) = [key b] /\
      o ∈ mr_overriders m /\ map (e_ti (r_env X)) (or_vp o) = [key d] /\
      call cf w mid m all = Ok (Calls (or_pf o)) /\
      contains H c s /\ list.last s = Some b /\ cast_part ByReference H c b d s = Undef.
Proof. exact knot_refuted. Qed.
Print Assumptions C43_repeated_refuted.
