(* What users expect of the arguments of a call: the overrider gets them, and the
   ownership of objects is neither lost nor duplicated. *)
From stdpp Require Import base list numbers.
From Verif Require Import Base Registry Spec ModelClasses ModelHash ModelWorld ModelCall ModelVirtualPtr
  ModelArguments.

(* The object designated by a variable, an argument, a parameter. *)
Definition target (c : content) : option nat :=
  match ct_handle c with
  | HValue _ => None
  | HRaw p => p
  | HSmart _ (Some (o, _)) => Some o
  | HSmart _ None => None
  end.

Definition variable_of (e : expression) : option nat :=
  match e with EObject _ => None | EVar x | ECopy x | EMove x => Some x end.
Definition arg_content (s : heap) (e : expression) : option content := variable_of e ≫= look s.
Definition arg_object (s : heap) (e : expression) : option nat :=
  match e with EObject o => Some o | _ => arg_content s e ≫= target end.

Definition place_of (p : parameter) : option nat :=
  match p with PObject _ => None | PRef x | PVar x => Some x end.
Definition param_content (s : heap) (p : parameter) : option content := place_of p ≫= look s.
Definition param_object (s : heap) (p : parameter) : option nat :=
  match p with PObject o => Some o | _ => param_content s p ≫= target end.

(* Variable [x] owns object [o]. *)
Definition owner (s : heap) (x o : nat) : Prop :=
  exists k b vp, look s x = Some (Content (HSmart k (Some (o, b))) vp).

(* Owned objects exist; all the owners of an object agree on the control block; a
   unique_ptr is the only owner. *)
Record healthy (s : heap) : Prop := {
  he_alive : forall x o, owner s x o -> hp_alive s o = true;
  he_agree : forall x y k k' o b b' vp vp',
    look s x = Some (Content (HSmart k (Some (o, b))) vp) ->
    look s y = Some (Content (HSmart k' (Some (o, b'))) vp') ->
    k' = k /\ b' = b /\ (k = Unique -> y = x);
  he_token : forall x k o b vp, look s x = Some (Content (HSmart k (Some (o, b))) vp) ->
    k <> Shared -> b = 0
}.

(* The variable holds what a parameter of this type is made from: for a virtual
   parameter, a pointer that is not null, to an object that exists. *)
Inductive holds (s : heap) : ptype -> content -> Prop :=
  | holds_value v : holds s TValue (Content (HValue (Some v)) None)
  | holds_ref c : holds s TRef c
  | holds_ptr o : hp_alive s o = true -> holds s TPtr (Content (HRaw (Some o)) None)
  | holds_smart k o b : holds s (TSmart k) (Content (HSmart k (Some (o, b))) None)
  | holds_smart_ref k o b : k <> Unique -> holds s (TSmartRef k) (Content (HSmart k (Some (o, b))) None)
  | holds_plain o vp : hp_alive s o = true -> holds s (TVptr None) (Content (HRaw (Some o)) (Some vp))
  | holds_vptr k o b vp : holds s (TVptr (Some k)) (Content (HSmart k (Some (o, b))) (Some vp))
  | holds_plain_ref o vp : hp_alive s o = true -> holds s (TVptrRef None) (Content (HRaw (Some o)) (Some vp))
  | holds_vptr_ref k o b vp : k <> Unique ->
      holds s (TVptrRef (Some k)) (Content (HSmart k (Some (o, b))) (Some vp)).

(* An argument that compiles. *)
Inductive arg_ok (s : heap) : ptype -> expression -> Prop :=
  | arg_object_ok o : hp_alive s o = true -> arg_ok s TObject (EObject o)
  | arg_ref_ok t x c : by_value t = false -> look s x = Some c -> holds s t c -> arg_ok s t (EVar x)
  | arg_move_ok t x c : by_value t = true -> look s x = Some c -> holds s t c -> arg_ok s t (EMove x)
  | arg_copy_ok t x c : by_value t = true -> look s x = Some c -> holds s t c ->
      (forall p vp, c <> Content (HSmart Unique p) vp) -> arg_ok s t (ECopy x).

(* A variable that is moved from is not used by another argument. *)
Definition apart (es : list expression) : Prop :=
  forall i j x e, es !! i = Some (EMove x) -> es !! j = Some e -> variable_of e = Some x -> i = j.

Definition moves (es : list expression) (x : nat) : Prop := EMove x ∈ es.

(* What the dispatch code should look at, from the arguments. *)
Inductive shows (w : world) (objs : nat -> N) (dyn : handle -> N) (s : heap) :
    ptype -> expression -> arg -> Prop :=
  | shows_object o : shows w objs dyn s TObject (EObject o) (AObject (objs o))
  | shows_pointer t e o : t = TPtr \/ (exists k, t = TSmart k \/ t = TSmartRef k) ->
      arg_object s e = Some o -> shows w objs dyn s t e (AObject (objs o))
  | shows_vptr t e o c vp v : (exists k, t = TVptr k \/ t = TVptrRef k) ->
      arg_content s e = Some c -> target c = Some o -> ct_vp c = Some vp -> unbox_vptr w vp = Ok v ->
      shows w objs dyn s t e (APtr v (objs o))
  | shows_other t e c : is_virtual_type t = false -> arg_content s e = Some c ->
      shows w objs dyn s t e (AOther (dyn (ct_handle c))).

(* The types of the parameters of an overrider. *)
Definition overrider_types (ts : list ptype) (ots : list otype) (vp : list N) : Prop :=
  length ots = length ts /\
  omap (fun tot => if is_virtual_type (fst tot) then Some (ot_class (snd tot)) else None)
    (zip ts ots) = vp.

(* A call: its arguments compile, and [all] is what the dispatch code should look at. *)
Record args_ok (w : world) (objs : nat -> N) (dyn : handle -> N) (s : heap) (ts : list ptype)
    (es : list expression) (all : list arg) : Prop := {
  ao_each : Forall2 (arg_ok s) ts es;
  ao_apart : apart es;
  ao_healthy : healthy s;
  ao_shows : Forall3 (shows w objs dyn s) ts es all
}.

(* The program: objects are of the registered bases of their dynamic class; overriders
   compile. *)
Record casts_ok (ti : N -> N) (R : registrations) (objs : nat -> N) (isa : nat -> N -> bool)
    (m : method_record) (ts : list ptype) (ots : fptr -> list otype) : Prop := {
  co_isa : forall o c, derives ti R (ti (objs o)) (ti c) -> isa o c = true;
  co_types : forall o, o ∈ mr_overriders m -> overrider_types ts (ots (or_pf o)) (or_vp o)
}.

(* Parameter [p] of the overrider is argument [e]: the same object; the same pointer,
   with the same owner kind, control block and v-table pointer, or the same value; the
   same variable, for a non-virtual reference. *)
Record received (s : heap) (t : ptype) (e : expression) (s' : heap) (p : parameter) : Prop := {
  re_object : param_object s' p = arg_object s e;
  re_content : param_content s' p = arg_content s e;
  re_some : is_virtual_type t = true -> param_object s' p <> None;
  re_same : t = TRef -> place_of p = variable_of e
}.

(* On entry to the overrider, from the caller's state [s]: the parameters are the
   arguments, all is in order, the variables of the caller are as before but for those
   it moved from, which own nothing. *)
Record entry (s : heap) (ts : list ptype) (es : list expression) (s' : heap) (ps : list parameter)
    (l : list nat) : Prop := {
  en_received : length ps = length ts /\
    forall i t e p, ts !! i = Some t -> es !! i = Some e -> ps !! i = Some p -> received s t e s' p;
  en_healthy : healthy s';
  en_alive : hp_alive s' = hp_alive s;
  en_owned : forall o, (exists x, owner s x o) <-> (exists x, owner s' x o);
  en_caller : forall x, x < length (hp_vars s) -> ~ moves es x -> look s' x = look s x;
  en_moved : forall x o, x < length (hp_vars s) -> moves es x -> ~ owner s' x o;
  en_locals : NoDup l /\ forall x, x ∈ l -> length (hp_vars s) <= x /\ look s' x <> None;
  en_new : forall x, length (hp_vars s) <= x -> look s' x <> None -> x ∈ l
}.

(* A smart pointer that is the only owner of an object, moved to a by-value parameter:
   the parameter of the overrider is the only owner.  Kinds for which it is so. *)
Definition given_away (cxx20 : bool) (k : ownership) : Prop :=
  k = Unique \/ (k = Shared /\ cxx20 = true).

Definition sole (K : ownership -> Prop) (s : heap) (ts : list ptype) (es : list expression) (s' : heap)
    (ps : list parameter) : Prop :=
  forall i k x o, ts !! i = Some (TSmart k) \/ ts !! i = Some (TVptr (Some k)) ->
    es !! i = Some (EMove x) -> K k ->
    owner s x o -> (forall y, owner s y o -> y = x) ->
    exists p y, ps !! i = Some p /\ place_of p = Some y /\ forall z, owner s' z o <-> z = y.

(* After the destruction of the variables [l]: the others are unchanged, and the
   objects destroyed are those owned by variables of [l] only. *)
Record returned (s : heap) (l : list nat) (s' : heap) : Prop := {
  rt_healthy : healthy s';
  rt_others : forall x, x ∉ l -> look s' x = look s x;
  rt_gone : forall x, x ∈ l -> look s' x = None;
  rt_alive : forall o, hp_alive s' o = true <->
    hp_alive s o = true /\
    ((exists x, owner s x o) -> exists x, x ∉ l /\ owner s x o)
}.

(* After a call that left the variables of the caller alone: those it moved from own
   nothing, and the objects destroyed are those that it gave away entirely. *)
Record over (s : heap) (es : list expression) (s' : heap) : Prop := {
  ov_healthy : healthy s';
  ov_caller : forall x, x < length (hp_vars s) -> ~ moves es x -> look s' x = look s x;
  ov_moved : forall x o, x < length (hp_vars s) -> moves es x -> ~ owner s' x o;
  ov_gone : forall x, length (hp_vars s) <= x -> look s' x = None;
  ov_alive : forall o, hp_alive s' o = true <->
    hp_alive s o = true /\
    ((exists x, owner s x o) -> exists x, ~ moves es x /\ owner s x o)
}.
