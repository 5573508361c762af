(* Common vocabulary of the model: outcomes of operations, loops over lists with
   an outcome, finite-map update.  No C++ code is modelled in this file except
   where cited. *)
From stdpp Require Import base list numbers.

(* The errors the library can signal (preamble.hpp:120-300,
   policies/fast_perfect_hash.hpp:54-67).  Type ids are 64-bit words, kept as N. *)
Inductive error :=
  | ENotInitialized                                  (* not_initialized *)
  | EMissingClass (type : N)                         (* missing_class *)
  | EMissingBase (base derived : N)                  (* missing_base *)
  | ENoOverrider (mth : N) (arity : nat) (types : list (option N))
  | EAmbiguousCall (mth : N) (arity : nat) (types : list (option N))
  | EFinal (static_type dynamic_type : N)            (* final_error *)
  | ESearch (attempts buckets : N)                   (* hash search_error *)
  | EOdrViolation.

(* Outcome of an operation.
   [Err e]: the error handler is called with [e]; the operation does not return
   (it aborts, or the handler throws).  [Undef]: undefined behaviour.
   [Diverge]: the fuel of a recursive model function ran out; the theorems show
   that it does not happen.
   The code that signals errors is listed in ModelErrors.v; the undefined operations are cited where Undef is used. *)
Inductive outcome (A : Type) :=
  | Ok (a : A)
  | Err (e : error)
  | Undef
  | Diverge.
Arguments Ok {A} a.
Arguments Err {A} e.
Arguments Undef {A}.
Arguments Diverge {A}.

(* Sequencing, as in the body of initialize(), initialize.hpp:473-477. *)
Definition obind {A B} (x : outcome A) (k : A -> outcome B) : outcome B :=
  match x with
  | Ok a => k a
  | Err e => Err e
  | Undef => Undef
  | Diverge => Diverge
  end.

(* Both used where a call in the code may throw; initialize.hpp:460-469 for one. *)
Notation "'let*' x := e 'in' k" := (obind e (fun x => k))
  (at level 200, x name, e at level 100, k at level 200, right associativity).
Notation "'let*' ' x := e 'in' k" := (obind e (fun y => match y with x => k end))
  (at level 200, x strict pattern, e at level 100, k at level 200,
   right associativity).

(* [for (auto x : l) s = f(x, s)] with an early exit on error.  E.g. initialize.hpp:575-599. *)
Fixpoint foldM {A S} (f : A -> S -> outcome S) (l : list A) (s : S) : outcome S :=
  match l with
  | [] => Ok s
  | x :: l => let* s' := f x s in foldM f l s'
  end.

(* [for] loop building a vector by push_back.  E.g. initialize.hpp:728-744. *)
Fixpoint mapM {A B} (f : A -> outcome B) (l : list A) : outcome (list B) :=
  match l with
  | [] => Ok []
  | x :: l => let* y := f x in let* ys := mapM f l in Ok (y :: ys)
  end.

(* [v[i]] on a vector: out of range is undefined behaviour.  E.g. initialize.hpp:1087. *)
Definition at_ {A} (l : list A) (i : nat) : outcome A :=
  match l !! i with Some x => Ok x | None => Undef end.

(* Dereference of a pointer that may be null.  E.g. core.hpp:2222-2233 (a next pointer). *)
Definition deref {A} (p : option A) : outcome A :=
  match p with Some x => Ok x | None => Undef end.

(* Update of a total map (the field of one object, other objects unchanged).
   E.g. rtc->is_abstract = ..., initialize.hpp:560-561. *)
Definition upd {K V} `{EqDecision K} (f : K -> V) (k : K) (v : V) : K -> V :=
  fun k' => if decide (k' = k) then v else f k'.
