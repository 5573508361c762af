(* C65: threads may call methods at the same time. *)
From stdpp Require Import base list numbers.
From Verif Require Import Base Registry Spec ModelClasses ModelHash ModelWorld ModelCall ModelErrors SpecCall
  ExamplesModel ExamplesDispatch SpecReads ExamplesReads ModelThreads SpecThreads ProofThreads ExamplesThreads.

(* The reads and writes of an operation, done one after the other, make what the rest of the model says
   of it: the same results and effects. *)
Theorem C65_alone :
  forall (cf : config) (o : op) (w : world), run_code (get_op cf o) w = (afterwards cf w o, alone cf w o).
Proof. exact op_run. Qed.
Print Assumptions C65_alone.

(* Whatever threads do, initialize() included: only a step that is said to write a variable changes it, so
   that [race] misses no write. *)
Theorem C65_writes :
  forall (cf : config) (ps : list program) (w : world) (l : list nat) (s : SpecThreads.state) (i : nat)
         (s' : SpecThreads.state) (x : location),
    virtual_calls ps -> steps cf ps (start w ps) l s -> step cf ps s i s' ->
    contents (fst s') x <> contents (fst s) x -> exists t, snd s !! i = Some t /\ writes t x.
Proof. exact threads_honest. Qed.
Print Assumptions C65_writes.

Example C65_writes_example : exists l s s',
  virtual_calls two /\ steps cf0 two (start w0 two) l s /\ step cf0 two s 1 s' /\
  contents (fst s') (LVector 1) <> contents (fst s) (LVector 1).
Proof. exact two_writes. Qed.

(* Any number of threads, each of which calls methods, next and has_next, and makes virtual_ptrs, as it
   likes and depending on what it got, their reads in any order: there is no data race, nothing changes,
   and each gets what it would get alone. *)
Theorem C65_calls :
  forall (cf : config) (ps : list program) (w : world),
    calls_only ps ->
    forall (l : list nat) (s : SpecThreads.state), steps cf ps (start w ps) l s ->
      fst s = w /\ ~ race s /\
      forall (i : nat) (p : program) (t : thread), ps !! i = Some p -> snd s !! i = Some t ->
        answers_right cf w p (th_answers t).
Proof. exact threads_right. Qed.
Print Assumptions C65_calls.

Example C65_calls_example : exists l s t t',
  calls_only both /\ steps cf0 both (start w0 both) l s /\
  snd s !! 0 = Some t /\ snd s !! 1 = Some t' /\
  th_answers t = [Ok (Called (Calls 24)); Err (EAmbiguousCall 1 2 (types_of [9; 4]))]%N /\
  th_answers t' = [Ok (Pointed (RElem (VPtr 0 14))); Ok (Called (Calls 13))]%N.
Proof. exact both_right. Qed.

(* After initialize(), that is the overrider that the classes of the arguments select (C02). *)
Theorem C65_dispatch :
  forall (cf : config) (X : run) (R : registrations) (w : world) (ps : list program) (l : list nat)
         (s : SpecThreads.state) (i : nat) (p : program) (t : thread) (n : nat) (r : outcome answer)
         (mid : N) (m : method_record) (all : list targ) (args : list N),
    calls_only ps -> program_ok cf (r_env X) R -> bases_first (e_ti (r_env X)) R ->
    initialized_by cf X false R w -> steps cf ps (start w ps) l s ->
    ps !! i = Some p -> snd s !! i = Some t -> th_answers t !! n = Some r ->
    p (take n (th_answers t)) = Some (OpCall mid m all) ->
    call_ok cf (e_ti (r_env X)) R w m (map (unboxed w) all) args -> functions_ok m ->
    length (mr_vp m) = 1 \/ together (map (unboxed w) all) ->
    settled (e_ti (r_env X)) R (mr_overriders m)
      (candidate (e_ti (r_env X)) R (mr_overriders m) args) ->
    exists sel c,
      selects (e_ti (r_env X)) R (mr_overriders m) args sel /\
      (forall sel', selects (e_ti (r_env X)) R (mr_overriders m) args sel' -> sel' = sel) /\
      behaves m sel c /\ r = (let* x := c in Ok (Called x)).
Proof. exact threads_dispatch. Qed.
Print Assumptions C65_dispatch.

Example C65_dispatch_example : exists l s t,
  calls_only both /\ program_ok cf0 env0 R0 /\ bases_first id R0 /\ initialized_by cf0 run0 false R0 w0 /\
  steps cf0 both (start w0 both) l s /\ snd s !! 0 = Some t /\
  th_answers t !! 0 = Some (Ok (Called (Calls 24)))%N /\
  meets (take 0 (th_answers t)) = Some (OpCall 2 meet [TObject 2; TObject 4])%N /\
  call_ok cf0 id R0 w0 meet (map (unboxed w0) [TObject 2; TObject 4]%N) [2; 4]%N /\ functions_ok meet /\
  together (map (unboxed w0) [TObject 2; TObject 4]%N) /\
  settled id R0 (mr_overriders meet) (candidate id R0 (mr_overriders meet) [2; 4]%N).
Proof. exact both_dispatch. Qed.

(* No thread has to wait for another: it can make a step unless it has ended, *)
Theorem C65_progress :
  forall (cf : config) (ps : list program) (w : world) (l : list nat) (s : SpecThreads.state)
         (i : nat) (p : program) (t : thread),
    steps cf ps (start w ps) l s -> ps !! i = Some p -> snd s !! i = Some t ->
    (exists s', step cf ps s i s') \/ (th_current t = None /\ p (th_answers t) = None).
Proof. exact threads_progress. Qed.
Print Assumptions C65_progress.

(* and after as many of its own steps as the call reads variables, and two more, it has its answer,
   whatever the others do. *)
Theorem C65_wait_free :
  forall (cf : config) (ps : list program) (w : world),
    calls_only ps ->
    forall (l : list nat) (s : SpecThreads.state) (i : nat) (p : program) (t : thread) (o : op)
           (l' : list nat) (s' : SpecThreads.state),
      steps cf ps (start w ps) l s -> ps !! i = Some p -> snd s !! i = Some t ->
      p (th_answers t) = Some o -> steps cf ps s l' s' -> op_reads cf o + 2 <= steps_of i l' ->
      exists t', snd s' !! i = Some t' /\ length (th_answers t) < length (th_answers t').
Proof. exact threads_wait_free. Qed.
Print Assumptions C65_wait_free.

Example C65_wait_free_example : exists l s t l' s',
  calls_only both /\ steps cf0 both (start w0 both) l s /\ snd s !! 0 = Some t /\
  th_current t <> None /\
  meets (th_answers t) = Some (OpCall 2 meet [TObject 2; TObject 4])%N /\ steps cf0 both s l' s' /\
  op_reads cf0 (OpCall 2 meet [TObject 2; TObject 4])%N + 2 <= steps_of 0 l'.
Proof. exact both_waits. Qed.

Example C65_reads_example :
  op_reads cf0 (OpCall 2 meet [TObject 2; TObject 4])%N = 21 /\
  op_reads fast (OpCall 1 poke [TPtr (RElem (VPtr 0 14)) 3])%N = 2 /\
  op_reads cf0 (OpPoint 3)%N = 7.
Proof. exact both_reads. Qed.

(* Not if one of them runs initialize(), even with the same registrations and to the same effect: there is
   a race, and the call may be undefined. *)
Theorem C65_initialize_refuted :
  exists (cf : config) (X : run) (R : registrations) (w : world) (mid : N) (m : method_record)
    (t : N) (f : fptr) (call init : program),
  program_ok cf (r_env X) R /\ bases_first (e_ti (r_env X)) R /\ initialized_by cf X false R w /\
  call [] = Some (OpCall mid m [TObject t]) /\ init [] = Some (OpInitialize X false R) /\
  alone cf w (OpCall mid m [TObject t]) = Ok (Called (Calls f)) /\
  alone cf (afterwards cf w (OpInitialize X false R)) (OpCall mid m [TObject t]) = Ok (Called (Calls f)) /\
  (exists l s, steps cf [call; init] (start w [call; init]) l s /\ race s) /\
  (exists l s th, steps cf [call; init] (start w [call; init]) l s /\ snd s !! 0 = Some th /\
    th_answers th = [Undef]).
Proof. exact two_races. Qed.
Print Assumptions C65_initialize_refuted.
