(* The texts of errors: the write functions (preamble.hpp:84-94, 119-128, 241-264, 1072-1094,
   fast_perfect_hash.hpp:264-268), default_handler (default_error_handler.hpp:107-117), the text of
   what throw_error_handler throws (throw_error_handler.hpp:35-47), and the alternatives of
   error_variant (default_error_handler.hpp:40-75).
   Simplified: a std::ostringstream writes numbers as the output stream does (classic locale). *)
From Coq Require Import Ascii.
From stdpp Require Import base list numbers strings.
From Verif Require Import Base Registry ModelClasses ModelTables ModelHash ModelWorld ModelCall ModelLife
  ModelErrors ModelOptions.

(* "\n", default_error_handler.hpp:115. *)
Definition newline : string := String "010" EmptyString.

(* The classes of errors, preamble.hpp:84, 119, 173, 212, 241, 255, 274, fast_perfect_hash.hpp:55. *)
Inductive kind :=
  | KNotInitialized | KNoOverrider | KAmbiguousCall | KMissingClass | KMissingBase | KOdrViolation
  | KFinal | KSearch
  | KOther (n : nat).                  (* an error of another policy *)
Global Instance kind_eq : EqDecision kind.
Proof. solve_decision. Defined.

(* The class of an error, see above: preamble.hpp:84-283. *)
Definition kind_of (e : error) : kind :=
  match e with
  | ENotInitialized => KNotInitialized
  | EMissingClass _ => KMissingClass
  | EMissingBase _ _ => KMissingBase
  | ENoOverrider _ _ _ => KNoOverrider
  | EAmbiguousCall _ _ _ => KAmbiguousCall
  | EFinal _ _ => KFinal
  | ESearch _ _ => KSearch
  | EOdrViolation => KOdrViolation
  end.

(* rtti::defaults::type_name, preamble.hpp:597-600, on the stream of the library. *)
Definition default_name (t : N) : outcome string :=
  let* s := put_address t in Ok (String.append "type_id(" (String.append s ")")).

Section Messages.
  (* What rtti::type_name writes for a type, and the type of the registry. *)
  Context (names : N -> string) (registry : N).

  (* error.write<Registry>(os): preamble.hpp:90-94, 125-127, 1072-1094, 247-249, 261-263,
     fast_perfect_hash.hpp:264-268. *)
  Definition describe (e : error) : outcome string :=
    match e with
    | EOdrViolation => Ok (String.append "conflicting definitions of " (names registry))
    | ENotInitialized => Ok "not initialized"
    | EMissingClass t => Ok (String.append "unknown class " (names t))
    | EMissingBase b d =>
        Ok (String.append "missing base " (String.append (names b) (String.append " -<| " (names d))))
    | ENoOverrider _ _ _ => Ok "not implemented"
    | EAmbiguousCall _ _ _ => Ok "ambiguous"
    | EFinal s d =>
        Ok (String.append "invalid call to final construct: static type = "
             (String.append (names s) (String.append ", dynamic type = " (names d))))
    | ESearch attempts buckets =>
        let* a := put_size attempts in
        let* b := put_size buckets in
        Ok (String.append "could not find hash factors after "
             (String.append a (String.append "s using "
               (String.append b (String.append " buckets" newline)))))
    end.

  (* default_handler, default_error_handler.hpp:107-117: what it writes.  [on] if the stream is on
     (ostdstream.hpp:48-62). *)
  Definition default_handler (has_output on : bool) (e : error) : outcome string :=
    if has_output then
      if on then let* s := describe e in Ok (String.append s newline) else Ok ""
    else Ok "".

  (* What is written while errors are handled (ModelErrors.v), default_error_handler.hpp:107-117. *)
  Fixpoint written (on : bool) (es : list entry) : outcome string :=
    match es with
    | [] => Ok ""
    | Entered _ _ :: es => written on es
    | Written e :: es =>
        let* s := default_handler true on e in
        let* s' := written on es in Ok (String.append s s')
    end.

  (* what() of the exception, throw_error_handler.hpp:36-46.  Of exceptions of the program nothing
     is known. *)
  Definition what (t : thrown) : option (outcome string) :=
    match t with
    | ThrownError e => Some (describe e)
    | ThrownBadFunction | ThrownUser _ => None
    end.
End Messages.

(* The member [errors] of a policy, if it has one: fast_perfect_hash.hpp:69. *)
Definition policy := option (list kind).

(* error_variant_aux, default_error_handler.hpp:40-65. *)
Fixpoint error_variant_aux (errors : list kind) (policies : list policy) : list kind :=
  match policies with
  | [] => errors
  | None :: policies => error_variant_aux errors policies
  | Some more :: policies => error_variant_aux (errors ++ more) policies
  end.

(* error_variant, default_error_handler.hpp:70-75. *)
Definition error_variant (policies : list policy) : list kind :=
  error_variant_aux
    [KNotInitialized; KNoOverrider; KAmbiguousCall; KMissingClass; KMissingBase; KOdrViolation; KFinal]
    policies.

(* error_variant(error), default_error_handler.hpp:86: the index of the alternative that is
   constructed; ill-formed unless exactly one has the type of the error ([variant.ctor]). *)
Definition wrap (variant : list kind) (k : kind) : option nat :=
  match List.filter (fun i => bool_decide (variant !! i = Some k)) (seq 0 (length variant)) with
  | [i] => Some i
  | _ => None
  end.
