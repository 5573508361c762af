(* Model of the options of initialize(): how they are passed and looked up
   (initialize.hpp:432-442, 503-515, 1611-1629), trace::from_env (preamble.hpp:428-453),
   the trace stream (initialize.hpp:201-389) and the light output stream
   (detail/ostdstream.hpp). *)
From Coq Require Import Ascii.
From stdpp Require Import base list numbers strings.
From Verif Require Import Base Registry ModelClasses ModelTables ModelHash ModelWorld.

(* ------------------------------------------------------------------------- *)
(* Options *)

(* The types of options: trace, n2216, and those that a program may define for its own
   policies.  preamble.hpp:413, 428-439. *)
Inductive option_type := OTrace | ON2216 | OOther (k : nat).
Global Instance option_type_eq : EqDecision option_type.
Proof. solve_decision. Defined.

(* An argument of initialize(): the type of the object, the value of trace::on
   (of no use for the other types), and whether the expression is const and a lvalue.
   initialize.hpp:1611-1612. *)
Record option_arg := OptionArg {
  oa_type : option_type;
  oa_on : bool;
  oa_const : bool;
  oa_lvalue : bool
}.

(* A type in the pack Options.  initialize.hpp:1611-1612. *)
Record option_parameter := OptionParameter {
  op_type : option_type;
  op_const : bool;
  op_ref : bool
}.
Global Instance option_parameter_eq : EqDecision option_parameter.
Proof. solve_decision. Defined.

(* Deduction of Options from Options&&...: T& for a lvalue, T for a rvalue.
   initialize.hpp:1611-1612. *)
Definition deduce (a : option_arg) : option_parameter :=
  OptionParameter (oa_type a) (oa_const a) (oa_lvalue a).

(* has_option, initialize.hpp:434-436: mp_contains compares types. *)
Definition has_option (opts : list option_parameter) (t : option_type) : bool :=
  bool_decide (OptionParameter t false false ∈ opts).

(* has_trace, initialize.hpp:438. *)
Definition has_trace (opts : list option_parameter) : bool := has_option opts OTrace.
(* has_n2216, initialize.hpp:439. *)
Definition has_n2216 (opts : list option_parameter) : bool := has_option opts ON2216.

(* std::get<trace>(options), initialize.hpp:512: ill-formed unless exactly one element of
   the tuple has the type. *)
Definition get_trace (args : list option_arg) : option bool :=
  match filter (fun a => deduce a = OptionParameter OTrace false false) args with
  | [a] => Some (oa_on a)
  | _ => None
  end.

(* The constructor of the compiler, initialize.hpp:503-515 and 203.  The value of tr.on, or
   None if initialize(args...) does not compile.  With has_trace, Registry::output::os is
   used (initialize.hpp:210, 325), which is ill-formed if the registry has no output
   policy.  The version for msvc is not modelled. *)
Definition construct (has_output : bool) (args : list option_arg) : option bool :=
  if has_trace (map deduce args)
  then if has_output then get_trace args else None
  else Some false.

(* trace::from_env, preamble.hpp:450-451: [env] is the array returned by getenv, with its
   terminating null character. *)
Definition from_env (env : option (list ascii)) : outcome bool :=
  match env with
  | None => Ok false
  | Some s =>
      let* c := at_ s 0 in
      if bool_decide (c = "1"%char) then
        let* c' := at_ s 1 in Ok (bool_decide (c' = "000"%char))
      else Ok false
  end.

(* trace::from_env for msvc, preamble.hpp:443-448.  _dupenv_s gives a copy of the
   variable and its length, counting the terminating null character. *)
Definition from_env_msvc (env : option (list ascii)) : outcome bool :=
  match env with
  | None => Ok false
  | Some s =>
      if bool_decide (length s = 2) then
        let* c := at_ s 0 in Ok (bool_decide (c = "1"%char))
      else Ok false
  end.

(* ------------------------------------------------------------------------- *)
(* Output *)

(* The digits of [n], most significant first, as std::to_chars writes them.
   ostdstream.hpp:68-71, 94-95.  None: out of fuel. *)
Fixpoint digits_from (fuel : nat) (base n : N) (acc : list N) : option (list N) :=
  match fuel with
  | 0 => None
  | S f => if bool_decide (n < base)%N then Some (n :: acc)
           else digits_from f base (n / base)%N ((n mod base)%N :: acc)
  end.
(* ostdstream.hpp:68-71, 94-95. *)
Definition digits (base n : N) : option (list N) := digits_from (S (N.size_nat n)) base n [].

(* A digit, as std::to_chars writes it.  ostdstream.hpp:68-71, 94-95. *)
Definition digit_char (d : N) : ascii :=
  ascii_of_N (if bool_decide (d < 10)%N then 48 + d else 87 + d)%N.

(* The characters of a string.  ostdstream.hpp:48-63. *)
Fixpoint string_of (l : list ascii) : string :=
  match l with [] => "" | c :: l => String c (string_of l) end.

(* std::to_chars into an array of [size] characters.  If they do not fit the array is
   unspecified, and all of it is written.  ostdstream.hpp:67-72, 80-85, 93-96. *)
Definition to_chars (size : nat) (base n : N) : outcome string :=
  match digits base n with
  | None => Diverge
  | Some ds => if bool_decide (length ds <= size) then Ok (string_of (map digit_char ds)) else Undef
  end.

(* operator<<(ostdstream&, size_t), (const void* ) and (void ( * )()).
   ostdstream.hpp:65-100.  The stream is not off. *)
Definition put_size (n : N) : outcome string := to_chars 20 10 n.
(* ostdstream.hpp:65-89. *)
Definition put_address (n : N) : outcome string := to_chars 20 16 n.

(* ------------------------------------------------------------------------- *)
(* The trace stream *)

(* What the code does with tr.  initialize.hpp:206-230, 247-389. *)
Inductive trace_op :=
  | OpLine                             (* ++tr *)
  | OpText (s : string)                (* a text, or anything that the stream writes as [s] *)
  | OpNumber (n : N)                   (* tr << size_t *)
  | OpRight (width value : N)          (* tr << rflush(width, value) *)
  | OpBits (bits : list bool)          (* tr << dynamic_bitset, by increasing index *)
  | OpName (t : N)                     (* tr << type_name(t), tr << class_ *)
  | OpNames (ts : list N)              (* tr << range of type ids, tr << container of class_* *)
  | OpIndent (by_ : nat)               (* constructor of indent *)
  | OpOutdent (by_ : nat).             (* its destructor *)

Section Trace.
  (* The program has the option; the stream is on; the texts that rtti::type_name puts. *)
  Context (has on : bool) (names : N -> list string).

  (* tr << value, initialize.hpp:321-329. *)
  Definition put (s : string) : list string := if has then if on then [s] else [] else [].

  (* The same for a number, initialize.hpp:321-329. *)
  Definition put_number (n : N) : outcome (list string) :=
    if has then if on then let* s := put_size n in Ok [s] else Ok [] else Ok [].

  (* tr << type_name, initialize.hpp:382-389: not guarded by [on], but what
     rtti::type_name puts is. *)
  Definition put_name (t : N) : list string :=
    if has then concat (map put (names t)) else [].

  (* The loop on values with separators, initialize.hpp:262-271 and 305-315. *)
  Fixpoint put_separated (sep : string) (ts : list N) : list string :=
    match ts with
    | [] => []
    | t :: ts => put sep ++ put_name t ++ put_separated ", " ts
    end.
  (* initialize.hpp:257-274, 303-319. *)
  Definition put_names (ts : list N) : list string :=
    if has then put "(" ++ put_separated "" ts ++ put ")" else [].

  (* The number of digits, initialize.hpp:335-341. *)
  Fixpoint count_digits (fuel : nat) (tmp : N) (count : N) : outcome N :=
    match fuel with
    | 0 => Diverge
    | S f => if bool_decide (tmp = 0)%N then Ok count else count_digits f (tmp / 10)%N (count + 1)%N
    end.

  (* rflush, initialize.hpp:331-353. *)
  Definition put_right (width value : N) : outcome (list string) :=
    if has then
      if on then
        let* n := count_digits (S (N.size_nat (value / 10)%N)) (value / 10)%N 1%N in
        let* s := put_number value in
        Ok (concat (replicate (N.to_nat (width - n)%N) (put " ")) ++ s)
      else Ok []
    else Ok [].

  (* dynamic_bitset, initialize.hpp:355-369: written to the output stream itself, the
     highest index first. *)
  Definition put_bits (bits : list bool) : list string :=
    if has then if on then map (fun b : bool => if b then "1" else "0") (reverse bits) else []
    else [].

  (* One operation: the indentation level after it, and what is written.  operator++ is
     initialize.hpp:206-216, indent 218-230. *)
  Definition trace_step (level : nat) (o : trace_op) : outcome (nat * list string) :=
    match o with
    | OpLine => Ok (level, if has then if on then replicate level "  " else [] else [])
    | OpText s => Ok (level, put s)
    | OpNumber n => let* s := put_number n in Ok (level, s)
    | OpRight width value => let* s := put_right width value in Ok (level, s)
    | OpBits bits => Ok (level, put_bits bits)
    | OpName t => Ok (level, put_name t)
    | OpNames ts => Ok (level, put_names ts)
    | OpIndent n => Ok (level + n, [])
    | OpOutdent n => Ok (level - n, [])
    end.

  (* A sequence of trace statements, such as initialize.hpp:1015-1017. *)
  Fixpoint trace_run (level : nat) (ops : list trace_op) : outcome (nat * list string) :=
    match ops with
    | [] => Ok (level, [])
    | o :: ops =>
        let* '(level', out) := trace_step level o in
        let* '(level'', out') := trace_run level' ops in
        Ok (level'', out ++ out')
    end.
End Trace.

(* ------------------------------------------------------------------------- *)
(* initialize() *)

(* The trace statements executed before fast_perfect_hash::initialize is called, and after
   that.  What they say is left open: see initialize.hpp:455-1408 and
   fast_perfect_hash.hpp:193-196, 226-230. *)
Record statements := Statements { st_before : list trace_op; st_after : list trace_op }.

(* The first statement of fast_perfect_hash::initialize, fast_perfect_hash.hpp:173-175.  It
   is reached if compile() returns and the vptr policy is vptr_vector (vptr_vector.hpp:71-72)
   with a type_hash. *)
Definition hash_announces (cf : config) (has : bool) (cp : outcome compiled) :
    outcome (list string) :=
  match cf_vptr cf, cf_hash cf, has, cp with
  | VptrVector, true, true, Ok c =>
      let* s := put_size (N.of_nat (g_n (cp_graph c))) in
      Ok ["Finding hash factor for "; s; String.append " types" (String "010" "")]
  | _, _, _, _ => Ok []
  end.

(* initialize(args...), initialize.hpp:1611-1629, and what it writes to Registry::output::os
   (not by the error handler).  None: does not compile. *)
Definition initialize_with (cf : config) (has_output : bool) (names : N -> list string) (X : run)
    (st : statements) (args : list option_arg) (R : registrations) (w : world) :
    option ((world * outcome method_report) * outcome (list string)) :=
  let opts := map deduce args in
  match construct has_output args with
  | None => None
  | Some on =>
      let n2216 := has_n2216 opts in
      let has := has_trace opts in
      Some (initialize cf X n2216 R w,
            let* '(level, out1) := trace_run has on names 0 (st_before st) in
            let* out2 := hash_announces cf has (compile (r_env X) n2216 R) in
            let* '(_, out3) := trace_run has on names level (st_after st) in
            Ok (out1 ++ out2 ++ out3))
  end.
