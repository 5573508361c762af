(* Properties C14 and C33: the report and the dispatch tables. *)
From stdpp Require Import base list numbers list_numbers.
From Verif Require Import Base Registry Spec SpecCall ModelClasses ModelTables ModelHash ModelWorld ModelCall
  ProofReport ProofRows ExamplesModel ExamplesDispatch ExamplesReport.

(* C14.  report.not_implemented is the number of methods for which some registered
   classes have no applicable overrider. *)
Theorem C14_not_implemented :
  forall cf X R w0 w rep, program_ok cf (r_env X) R -> world_ok w0 ->
  initialize cf X false R w0 = (w, Ok rep) ->
  exists bad, NoDup bad /\
    (forall m, m ∈ bad <-> m ∈ reg_methods R /\
       exists args, valid_args (e_ti (r_env X)) R m args /\
         selects (e_ti (r_env X)) R (mr_overriders m) args SNone) /\
    rp_ni rep = length bad.
Proof. exact report_not_implemented. Qed.
Print Assumptions C14_not_implemented.

(* report.ambiguous is the number of methods for which some registered classes make
   the call ambiguous. *)
Theorem C14_ambiguous :
  forall cf X R w0 w rep, program_ok cf (r_env X) R -> world_ok w0 ->
  initialize cf X false R w0 = (w, Ok rep) ->
  (forall m, m ∈ reg_methods R -> forall args, valid_args (e_ti (r_env X)) R m args ->
     settled (e_ti (r_env X)) R (mr_overriders m)
       (candidate (e_ti (r_env X)) R (mr_overriders m) args)) ->
  exists bad, NoDup bad /\
    (forall m, m ∈ bad <-> m ∈ reg_methods R /\
       exists args, valid_args (e_ti (r_env X)) R m args /\
         selects (e_ti (r_env X)) R (mr_overriders m) args SAmbiguous) /\
    rp_amb rep = length bad.
Proof. exact report_ambiguous. Qed.
Print Assumptions C14_ambiguous.

Example C14_example :
  program_ok cf0 env0 R1 /\ world_ok world0 /\
  initialize cf0 run0 false R1 world0 = (w1, Ok (Report 0 1 1)) /\
  (forall m, m ∈ reg_methods R1 -> forall args, valid_args id R1 m args ->
     settled id R1 (mr_overriders m) (candidate id R1 (mr_overriders m) args)) /\
  valid_args id R1 purr [2%N] /\ selects id R1 (mr_overriders purr) [2%N] SNone /\
  valid_args id R1 poke [4%N] /\ selects id R1 (mr_overriders poke) [4%N] SAmbiguous.
Proof. exact report_example. Qed.

(* When both are 0, every call enters an applicable overrider. *)
Theorem C14_clean :
  forall cf X R w0 w rep, program_ok cf (r_env X) R -> world_ok w0 ->
  initialize cf X false R w0 = (w, Ok rep) ->
  forall mid m all args, bases_first (e_ti (r_env X)) R ->
  rp_ni rep = 0 -> rp_amb rep = 0 ->
  call_ok cf (e_ti (r_env X)) R w m all args -> functions_ok m ->
  (length (mr_vp m) = 1 \/ together all) ->
  exists o, o ∈ mr_overriders m /\ applicable (e_ti (r_env X)) R args o /\
    call cf w mid m all = Ok (Calls (or_pf o)).
Proof. exact report_clean. Qed.
Print Assumptions C14_clean.

Example C14_clean_example :
  program_ok cf0 env0 R_clean /\ world_ok world0 /\ bases_first id R_clean /\
  initialize cf0 run0 false R_clean world0 = (w_clean, Ok (Report 6 0 0)) /\
  call_ok cf0 id R_clean w_clean race (map AObject [4; 3]%N) [4; 3]%N /\ functions_ok race /\
  together (map AObject [4; 3]%N).
Proof. exact clean_example. Qed.

(* The documentation says that only multi-methods are counted. *)
Theorem C14_multi_only_refuted :
  exists (cf : config) (X : run) (R : registrations) (w0 w : world) rep,
    program_ok cf (r_env X) R /\ world_ok w0 /\ bases_first (e_ti (r_env X)) R /\
    initialize cf X false R w0 = (w, Ok rep) /\
    (forall m, m ∈ reg_methods R -> length (mr_vp m) = 1) /\
    rp_ni rep <> 0 /\ rp_amb rep <> 0.
Proof. exact uni_counted. Qed.
Print Assumptions C14_multi_only_refuted.

(* Argument tuples that contain an abstract class are counted, although no call can
   have them. *)
Theorem C14_possible_calls_refuted :
  exists (cf : config) (X : run) (R : registrations) (w0 w : world) rep,
    program_ok cf (r_env X) R /\ world_ok w0 /\ bases_first (e_ti (r_env X)) R /\
    initialize cf X false R w0 = (w, Ok rep) /\ rp_ni rep <> 0 /\
    forall m args, m ∈ reg_methods R -> valid_args (e_ti (r_env X)) R m args ->
      (forall a, a ∈ args -> exists cr, cr ∈ reg_classes R /\ cr_abstract cr = false /\
         e_ti (r_env X) (cr_type cr) = a) ->
      exists i, selects (e_ti (r_env X)) R (mr_overriders m) args (SOverrider i).
Proof. exact abstract_counted. Qed.
Print Assumptions C14_possible_calls_refuted.

(* C33.  report.cells is the sum, over the multi-methods, of the product of the
   numbers of sets of overriders found in each position. *)
Theorem C33_cells :
  forall cf X R w0 w rep, program_ok cf (r_env X) R -> world_ok w0 ->
  forall n2216, initialize cf X n2216 R w0 = (w, Ok rep) ->
  exists sizes,
    Forall2 (fun m ns =>
      Forall2 (fun (dv : nat * N) n => exists reps, length reps = n /\
          row_representatives (e_ti (r_env X)) R m (fst dv) (snd dv) reps)
        (imap pair (mr_vp m)) ns) (reg_methods R) sizes /\
    rp_cells rep =
      sum_list (map (fun ns => if decide (1 < length ns) then foldr Nat.mul 1 ns else 0) sizes).
Proof. exact report_cells. Qed.
Print Assumptions C33_cells.

(* Two classes have the same word in a slot of a multi-method exactly when the same
   overriders accept them in that position. *)
Theorem C33_rows :
  forall cf X R w0 w rep, program_ok cf (r_env X) R -> world_ok w0 ->
  forall n2216 m d v a b ca cb,
  initialize cf X n2216 R w0 = (w, Ok rep) -> bases_first (e_ti (r_env X)) R ->
  m ∈ reg_methods R -> 1 < length (mr_vp m) -> mr_vp m !! d = Some v ->
  first_record (e_ti (r_env X)) R a = Some ca -> first_record (e_ti (r_env X)) R b = Some cb ->
  derives (e_ti (r_env X)) R a (e_ti (r_env X) v) ->
  derives (e_ti (r_env X)) R b (e_ti (r_env X) v) ->
  exists slot xa xb, w_ss w (mr_slots_strides m) !! d = Some slot /\
    read_word w (w_static w (cr_static_vptr ca)) slot = Ok xa /\
    read_word w (w_static w (cr_static_vptr cb)) slot = Ok xb /\
    (xa = xb <-> same_row (e_ti (r_env X)) R m d a b).
Proof. exact rows_shared. Qed.
Print Assumptions C33_rows.

Example C33_example :
  program_ok cf0 env0 R0 /\ world_ok world0 /\ bases_first id R0 /\
  initialize cf0 run0 false R0 world0 = (w0, Ok (Report 8 0 2)) /\
  meet ∈ reg_methods R0 /\ mr_vp meet !! 0 = Some 1%N /\
  first_record id R0 2%N = Some (cls 2 [2; 1])%N /\ first_record id R0 4%N = Some (cls 4 [4; 2; 3; 1])%N /\
  derives id R0 2%N 1%N /\ derives id R0 4%N 1%N.
Proof. exact cells_example. Qed.

(* Calls whose arguments are accepted by the same overriders in each position enter
   the same function. *)
Theorem C33_alike :
  forall cf X R w n2216 m all1 all2 args1 args2,
  program_ok cf (r_env X) R -> bases_first (e_ti (r_env X)) R ->
  initialized_by cf X n2216 R w ->
  call_ok cf (e_ti (r_env X)) R w m all1 args1 -> call_ok cf (e_ti (r_env X)) R w m all2 args2 ->
  length (mr_vp m) = 1 \/ (together all1 /\ together all2) ->
  (forall d a b, args1 !! d = Some a -> args2 !! d = Some b ->
     same_row (e_ti (r_env X)) R m d a b) ->
  exists f, resolve cf w m all1 = Ok f /\ resolve cf w m all2 = Ok f.
Proof. exact rows_alike. Qed.
Print Assumptions C33_alike.

Example C33_alike_example :
  program_ok cf0 env0 R0 /\ bases_first id R0 /\ initialized_by cf0 run0 false R0 w0 /\
  call_ok cf0 id R0 w0 meet (map AObject [1; 4]%N) [1; 4]%N /\
  call_ok cf0 id R0 w0 meet (map AObject [3; 4]%N) [3; 4]%N /\
  together (map AObject [1; 4]%N) /\ together (map AObject [3; 4]%N) /\
  (forall d a b, [1; 4]%N !! d = Some a -> [3; 4]%N !! d = Some b -> same_row id R0 meet d a b) /\
  resolve cf0 w0 meet (map AObject [1; 4]%N) = Ok 23%N /\
  resolve cf0 w0 meet (map AObject [3; 4]%N) = Ok 23%N.
Proof. exact alike_example. Qed.
