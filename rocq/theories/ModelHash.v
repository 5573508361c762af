(* Model of policies/fast_perfect_hash.hpp.  64-bit arithmetic is written out. *)
From stdpp Require Import base list numbers.
From Verif Require Import Base.

(* std::size_t and std::uintptr_t, on a 64-bit platform; fast_perfect_hash.hpp:76-79. *)
Definition word_size : N := 2 ^ 64.
(* fast_perfect_hash.hpp:22-31, 202-203. *)
Definition uintptr_max : N := word_size - 1.

(* The static members of fast_perfect_hash::fn<Registry> and the control vector
   (fast_perfect_hash.hpp:76-79, 33-34, 152-162). *)
Record hash_state := HashState {
  h_mult : N;
  h_shift : N;
  h_min : N;
  h_max : N;
  h_control : list N
}.

(* Before initialize(): zero-initialized, fast_perfect_hash.hpp:76-79, 152-162. *)
Definition hash_state0 := HashState 0 0 0 0 [].

(* (mult * type) >> shift, fast_perfect_hash.hpp:130-131, 213. *)
Definition hash_index (mult shift type : N) : N :=
  N.shiftr ((mult * type) mod word_size) shift.

(* The loop for M, fast_perfect_hash.hpp:179-183: halve [size] until it is null. *)
Fixpoint halvings (fuel : nat) (size : N) : N :=
  match fuel with
  | 0 => 0
  | S fuel =>
      let size := (size / 2)%N in
      if decide (size = 0%N) then 0%N else (1 + halvings fuel size)%N
  end.

(* fast_perfect_hash.hpp:179-183. *)
Definition initial_M (n : N) : N := (1 + halvings 64 (n * 5 / 4))%N.

(* The loops over the type ids of all the classes, fast_perfect_hash.hpp:208-224: None on collision. *)
Record attempt_state := AttemptState {
  a_min : N; a_max : N; a_buckets : list N
}.

(* fast_perfect_hash.hpp:208-224. *)
Fixpoint try_types (mult shift : N) (types : list N) (s : attempt_state) :
    outcome (bool * attempt_state) :=
  match types with
  | [] => Ok (true, s)
  | t :: types =>
      let index := hash_index mult shift t in
      let mn := N.min (a_min s) index in
      let mx := N.max (a_max s) index in
      let* b := at_ (a_buckets s) (N.to_nat index) in
      if decide (b = uintptr_max) then
        try_types mult shift types
          (AttemptState mn mx (<[N.to_nat index := t]> (a_buckets s)))
      else Ok (false, AttemptState mn mx (a_buckets s))
  end.

(* One pass, 187-236: [k] attempts left; [rnd] is the stream of the values drawn
   from uniform_dist(rnd), [total] the number of attempts made so far.  min_value
   and max_value are reset by the pass, not by each attempt. *)
Fixpoint attempts_loop (rnd : N -> N) (shift hash_size : N) (types : list N) (k : nat)
    (total : N) (mult : N) (s : attempt_state) :
    outcome (bool * N * N * attempt_state) :=
  match k with
  | 0 => Ok (false, total, mult, s)
  | S k =>
      let buckets := repeat uintptr_max (N.to_nat hash_size) in
      let total' := (total + 1)%N in
      let mult := N.lor (rnd total mod word_size) 1 in
      let* '(found, s') :=
        try_types mult shift types (AttemptState (a_min s) (a_max s) buckets) in
      if (found : bool) then Ok (true, total', mult, s')
      else attempts_loop rnd shift hash_size types k total' mult s'
  end.

(* fast_perfect_hash.hpp:201. *)
Definition max_attempts : nat := N.to_nat 100000.

(* The four passes.  [1 << M] is computed in type int (189): undefined from
   M = 31 on.  fast_perfect_hash.hpp:187-246. *)
Fixpoint passes_loop (rnd : N -> N) (types : list N) (passes : nat) (M total : N)
    (h : hash_state) : outcome (hash_state * option error) :=
  match passes with
  | 0 => Ok (h, Some (ESearch total (2 ^ M)))
  | S passes =>
      if decide (31 <= M)%N then Undef
      else
        let shift := (64 - M)%N in
        let hash_size := (2 ^ M)%N in
        let* '(found, total, mult, s) :=
          attempts_loop rnd shift hash_size types max_attempts total (h_mult h)
            (AttemptState uintptr_max 0 []) in
        let h := HashState mult shift (a_min s) (a_max s) (a_buckets s) in
        if (found : bool) then Ok (h, None)
        else passes_loop rnd types passes (M + 1) total h
  end.

(* fn::initialize, 102-113 and 166-247: new value of the static members, and the
   error if the search failed.  [n] is the number of classes.  Without
   runtime_checks the buckets are local: the control vector is not changed. *)
Definition hash_initialize (rnd : N -> N) (checks : bool) (n : N) (types : list N)
    (h : hash_state) : outcome (hash_state * option error) :=
  let* '(h', e) := passes_loop rnd types 4 (initial_M n) 0 h in
  Ok (HashState (h_mult h') (h_shift h') (h_min h') (h_max h')
        (if checks then h_control h' else h_control h), e).

(* check, fast_perfect_hash.hpp:250-262. *)
Definition hash_check (h : hash_state) (index type : N) : outcome unit :=
  if decide (index < h_min h \/ h_max h < index)%N then Err (EMissingClass type)
  else
    let* b := at_ (h_control h) (N.to_nat index) in
    if decide (b = type) then Ok tt else Err (EMissingClass type).

(* hash, fast_perfect_hash.hpp:129-138. *)
Definition hash_type (checks : bool) (h : hash_state) (type : N) : outcome N :=
  let index := hash_index (h_mult h) (h_shift h) type in
  let* _ := if checks then hash_check h index type else Ok tt in
  Ok index.

(* finalize, fast_perfect_hash.hpp:146-148. *)
Definition hash_finalize (h : hash_state) : hash_state :=
  HashState (h_mult h) (h_shift h) (h_min h) (h_max h) [].
