(* The life of a registry in a program: registrations come and go (static
   constructors and destructors, when shared libraries are loaded and unloaded),
   initialize() and finalize() are called, the error handler throws.
   initialize.hpp:1611-1629, 1644-1675; core.hpp:346-379 (use_class_aux),
   2733-2798 (overrider registration); the contents of the registration lists are
   the subject of ModelStaticList. *)
From stdpp Require Import base list numbers.
From Verif Require Import Base Registry ModelClasses ModelMethods ModelSlots ModelTables
  ModelHash ModelWorld.

(* What happens to a registry: initialize.hpp:1611-1629, 1644-1657, core.hpp:346-379. *)
Inductive event :=
  | Registers (R : registrations)        (* from now on these are registered *)
  | Initializes (X : run) (n2216 : bool) (* initialize(), initialize.hpp:1611 *)
  | Finalizes.                           (* finalize(), initialize.hpp:1644 *)

(* initialize.hpp:1611-1629; throw_error_handler.hpp:35-44. *)
Inductive result :=
  | Done
  | Failed (e : error).                  (* the error handler threw *)

(* preamble.hpp:923-932 and what ModelWorld cites. *)
Record process := Process {
  pr_regs : registrations;
  pr_world : world
}.

(* Before static initialization.  preamble.hpp:923-932. *)
Definition process0 : process := Process (Registrations [] []) world0.

(* initialize.hpp:1611-1629, 1644-1657; core.hpp:346-379, 2392-2430, 2733-2798. *)
Definition step (cf : config) (ev : event) (p : process) : outcome (process * result) :=
  match ev with
  | Registers R => Ok (Process R (pr_world p), Done)
  | Initializes X n2216 =>
      match initialize cf X n2216 (pr_regs p) (pr_world p) with
      | (w, Ok _) => Ok (Process (pr_regs p) w, Done)
      | (w, Err e) => Ok (Process (pr_regs p) w, Failed e)
      | (_, Undef) => Undef
      | (_, Diverge) => Diverge
      end
  | Finalizes => Ok (Process (pr_regs p) (finalize cf (pr_world p)), Done)
  end.

(* What happened so far, oldest first, and the present state.
   Any sequence of the above, initialize.hpp:1611-1675. *)
Inductive history (cf : config) : list (event * result) -> process -> Prop :=
  | history_start : history cf [] process0
  | history_step h p ev p' r :
      history cf h p -> step cf ev p = Ok (p', r) -> history cf (h ++ [(ev, r)]) p'.

(* A history can be computed.  initialize.hpp:1611-1675. *)
Definition play (cf : config) (evs : list event) : outcome (list (event * result) * process) :=
  foldM (fun ev hp =>
      let* '(p', r) := step cf ev (snd hp) in Ok (fst hp ++ [(ev, r)], p'))
    evs ([], process0).
