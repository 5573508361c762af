(* Model of what happens when an error is detected: policies/default_error_handler.hpp,
   policies/throw_error_handler.hpp, and the places that signal errors
   (initialize.hpp:449, 589, 740, 802, 824, 852, 1613-1622; core.hpp:604-613,
   2583-2614; policies/vptr_vector.hpp:147-161; policies/vptr_map.hpp:85-94;
   policies/fast_perfect_hash.hpp:238-262; preamble.hpp:1060-1070).  In each of them
   the code is

     if constexpr (has_error_handler) { error_handler::error(error); }
     abort();  *)
From stdpp Require Import base list numbers.
From Verif Require Import Base Registry ModelClasses ModelHash ModelWorld ModelCall ModelLife
  ModelVirtualPtr.

(* The error_handler policy of the registry: default_error_handler.hpp,
   throw_error_handler.hpp, another one, or none. *)
Inductive error_policy :=
  | PolicyNone
  | PolicyThrow             (* throw_error_handler *)
  | PolicyDefault.          (* default_error_handler *)

(* The variable [handler], default_error_handler.hpp:120, 124-126.  Functions of the
   program are numbered. *)
Inductive handler :=
  | HDefault                (* default_handler *)
  | HEmpty                  (* empty std::function *)
  | HUser (k : nat).

(* What is thrown: a wrapper of the error (throw_error_handler.hpp:35-44),
   std::bad_function_call, or what a function of the program throws. *)
Inductive thrown :=
  | ThrownError (e : error)
  | ThrownBadFunction
  | ThrownUser (x : N).

(* Observable acts of the handlers.  default_error_handler.hpp:85-117. *)
Inductive entry :=
  | Entered (k : nat) (e : error)    (* the program's function was called with e *)
  | Written (e : error).             (* a description of e was written *)

(* How an operation ends.  The places listed above, and throw_error_handler.hpp:35-44. *)
Inductive ending (A : Type) :=
  | Returns (a : A)
  | Throws (t : thrown)
  | Aborts.
Arguments Returns {A} a.
Arguments Throws {A} t.
Arguments Aborts {A}.

(* The registry's policies, the number of definitions counted by odr_check
   (preamble.hpp:99-114), the objects, and what the functions of the program do when
   called with an error: return, or throw something.  They are assumed not to
   replace the handler while they run. *)
Record setup := Setup {
  su_config : config;
  su_policy : error_policy;
  su_output : bool;                  (* has an output policy *)
  su_users : nat -> error -> option N;
  su_odr : nat;
  su_objs : nat -> object
}.

(* default_error_handler::fn::error and default_handler,
   default_error_handler.hpp:85-117. *)
Definition default_error (S : setup) (h : handler) (e : error) : list entry * option thrown :=
  match h with
  | HDefault => (if su_output S then [Written e] else [], None)
  | HEmpty => ([], Some ThrownBadFunction)
  | HUser k =>
      ([Entered k e],
       match su_users S k e with Some x => Some (ThrownUser x) | None => None end)
  end.

(* The code that signals an error, see above.
   The last lines of each of the places listed above, e.g. initialize.hpp:582-589. *)
Definition signal {A} (S : setup) (h : handler) (e : error) : list entry * ending A :=
  let '(es, t) :=
    match su_policy S with
    | PolicyNone => ([], None)
    | PolicyThrow => ([], Some (ThrownError e))
    | PolicyDefault => default_error S h e
    end in
  (es, match t with Some t => Throws t | None => Aborts end).

(* What a program does with a registry.
   core.hpp:2222-2233, 2437-2446; initialize.hpp:1611-1657. *)
Inductive action :=
  | SetsHandler (h : handler)                       (* default_error_handler.hpp:98-100 *)
  | Lives (ev : event)                              (* see ModelLife *)
  | CallsMethod (mid : N) (m : method_record) (args : list arg)
  | CallsNext (mid : N) (m : method_record) (loc : nat) (args : list arg)
  | Points (op : vop).                              (* see ModelVirtualPtr *)

(* core.hpp:2437-2446; default_error_handler.hpp:98-100. *)
Inductive value :=
  | VUnit
  | VHandler (h : handler)
  | VEnters (f : fptr).              (* an overrider is entered *)

(* The registry, the variable of default_error_handler.hpp:120, 124-126, and the virtual_ptrs. *)
Record program := Program {
  pg_process : process;
  pg_handler : handler;
  pg_pointers : vstate
}.

(* Before main: default_error_handler.hpp:124-126. *)
Definition program0 : program :=
  Program process0 HDefault (VState (fun _ => VUninit) (fun _ => None)).

(* next<Fn>(args...), core.hpp:2222-2233: a call through the function pointer that
   initialize() has set; it is null before. *)
Definition call_next (w : world) (mid : N) (m : method_record) (loc : nat) (args : list arg) :
    outcome call_result :=
  let* f := deref (w_next w loc) in
  if decide (f = mr_not_implemented m)
  then Err (ENoOverrider mid (bad_call_arity args) (bad_call_types args))
  else if decide (f = mr_ambiguous m)
  then Err (EAmbiguousCall mid (bad_call_arity args) (bad_call_types args))
  else Ok (Calls f).

(* core.hpp:2444-2445. *)
Definition enters (r : outcome call_result) : outcome value :=
  let* 'Calls f := r in Ok (VEnters f).

(* initialize() with the check for ODR violations, initialize.hpp:1611-1629; the rest
   of the events as in ModelLife. *)
Definition lives (S : setup) (ev : event) (p : process) : process * outcome value :=
  let go :=
    match ModelLife.step (su_config S) ev p with
    | Ok (p', Done) => (p', Ok VUnit)
    | Ok (p', Failed e) => (p', Err e)
    | Err e => (p, Err e)
    | Undef => (p, Undef)
    | Diverge => (p, Diverge)
    end in
  match ev with
  | Initializes _ _ => if decide (1 < su_odr S) then (p, Err EOdrViolation) else go
  | _ => go
  end.

(* The operation, up to the detection of an error.
   The code cited in each constructor of [action]. *)
Definition attempt (S : setup) (a : action) (pg : program) : program * outcome value :=
  let w := pr_world (pg_process pg) in
  match a with
  | SetsHandler h =>
      (Program (pg_process pg) h (pg_pointers pg), Ok (VHandler (pg_handler pg)))
  | Lives ev =>
      let '(p, r) := lives S ev (pg_process pg) in
      (Program p (pg_handler pg) (pg_pointers pg), r)
  | CallsMethod mid m args => (pg, enters (call (su_config S) w mid m args))
  | CallsNext mid m loc args => (pg, enters (call_next w mid m loc args))
  | Points op =>
      let '(s, r) := vstep (su_config S) w (su_objs S) op (pg_pointers pg) in
      (Program (pg_process pg) (pg_handler pg) s, let* _ := r in Ok VUnit)
  end.

(* The whole operation: default_error_handler.hpp:85-88, throw_error_handler.hpp:33-45,
   reached from the places listed at the top of the file, core.hpp:2437-2614 and others. *)
Definition act (S : setup) (a : action) (pg : program) :
    outcome (program * list entry * ending value) :=
  match attempt S a pg with
  | (pg', Ok v) => Ok (pg', [], Returns v)
  | (pg', Err e) => let '(es, en) := signal S (pg_handler pg) e in Ok (pg', es, en)
  | (_, Undef) => Undef
  | (_, Diverge) => Diverge
  end.

(* One action of a program and its end; core.hpp:2437-2614 and the places listed at
   the top of the file. *)
Record deed := Deed { st_action : action; st_entries : list entry; st_ending : ending value }.

(* What a program did so far, oldest first.  It goes on after an exception (the
   program catches it), not after abort() (preamble.hpp:1060-1070, core.hpp:2437-2614 and the places listed at the
   top of the file). *)
Inductive executes (S : setup) : list deed -> program -> Prop :=
  | executes_start : executes S [] program0
  | executes_step t pg a pg' es en :
      executes S t pg -> (forall st, list.last t = Some st -> st_ending st <> Aborts) ->
      act S a pg = Ok (pg', es, en) -> executes S (t ++ [Deed a es en]) pg'.
