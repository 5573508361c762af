(* Specification of what the trace of initialize() tells: how a reader understands it. *)
From stdpp Require Import base list numbers strings.
From Verif Require Import Base Registry Spec ModelTrace.

(* What is said of a combination of groups of classes: no overrider, several, or one, its number
   and its function. *)
Inductive verdict :=
  | SaysNone
  | SaysAmbiguous
  | SaysOverrider (i : nat) (f : fptr).

(* Of method number [rg_method], called with arguments of the types listed for the first, second,
   ... virtual parameter, [rg_says] is said; and [rg_next] of what the overrider calls by next. *)
Record reading := Reading {
  rg_method : nat;
  rg_types : list (list N);
  rg_says : verdict;
  rg_next : option verdict
}.

(* While a reader goes through the lines: the method in question; the groups of the parameters,
   the last line read "group d/..." first; what the reader expects. *)
Inductive expecting := Nothing | Types | Verdict | Next.
Record reader := Reader {
  rd_method : nat;
  rd_groups : list (nat * list N);
  rd_expects : expecting;
  rd_found : list reading
}.

(* "group d/..." opens a group for parameter [d]; those of the parameters after [d] stay open. *)
Definition open_group (d : nat) (groups : list (nat * list N)) : list (nat * list N) :=
  (d, []) :: filter (fun p => d < fst p) groups.
Definition add_type (t : N) (groups : list (nat * list N)) : list (nat * list N) :=
  match groups with (d, ts) :: groups => (d, ts ++ [t]) :: groups | [] => [] end.

(* What is expected after the verdict is next, if an overrider is selected. *)
Definition found (r : reader) (v : verdict) (then_ : expecting) : reader :=
  Reader (rd_method r) (rd_groups r) then_
    (rd_found r ++ [Reading (rd_method r) (map snd (rd_groups r)) v None]).
(* What is said of next completes the last reading. *)
Definition complete (rs : list reading) (v : verdict) : list reading :=
  match reverse rs with
  | Reading mi ts s _ :: rs => reverse rs ++ [Reading mi ts s (Some v)]
  | [] => []
  end.
Definition found_next (r : reader) (v : verdict) : reader :=
  Reader (rd_method r) (rd_groups r) Nothing (complete (rd_found r) v).

Definition read (r : reader) (l : line) : reader :=
  match l with
  | [PText s; PMethod mi] =>
      if decide (s = "Building dispatch table for "%string) then Reader mi [] Nothing (rd_found r) else r
  | [PText s; PNumber d; PText _; PNumber _; PText _; PBits _] =>
      if decide (s = "group "%string)
      then Reader (rd_method r) (open_group d (rd_groups r)) Types (rd_found r) else r
  | [PName t] =>
      match rd_expects r with
      | Types => Reader (rd_method r) (add_type t (rd_groups r)) Types (rd_found r)
      | _ => r
      end
  | [PText s] =>
      match rd_expects r with
      | Types =>
          if decide (s = "select best of:"%string)
          then Reader (rd_method r) (rd_groups r) Verdict (rd_found r) else r
      | Verdict =>
          if decide (s = "not implemented"%string) then found r SaysNone Nothing
          else if decide (s = "ambiguous"%string) then found r SaysAmbiguous Nothing else r
      | Next =>
          if decide (s = "no 'next'"%string) then found_next r SaysNone
          else if decide (s = "ambiguous 'next'"%string) then found_next r SaysAmbiguous else r
      | Nothing => r
      end
  | PText s :: PNumber i :: PText _ :: POverrider _ _ :: PText _ :: PFunction f :: _ =>
      match rd_expects r with
      | Verdict => if decide (s = "-> #"%string) then found r (SaysOverrider i f) Next else r
      | Next => if decide (s = "-> #"%string) then found_next r (SaysOverrider i f) else r
      | _ => r
      end
  | _ => r
  end.

Definition readings (ls : list line) : list reading :=
  rd_found (foldl read (Reader 0 [] Nothing []) ls).

(* The reading is about arguments of these classes. *)
Definition is_about (ti : N -> N) (mi : nat) (args : list N) (r : reading) : Prop :=
  rg_method r = mi /\ Forall2 (fun a ts => exists t, t ∈ ts /\ ti t = a) args (rg_types r).

(* What is said is this selection, with the function of the overrider. *)
Definition says (m : method_record) (v : verdict) (s : selection) : Prop :=
  match v, s with
  | SaysNone, SNone => True
  | SaysAmbiguous, SAmbiguous => True
  | SaysOverrider i f, SOverrider j =>
      i = j /\ exists o, mr_overriders m !! i = Some o /\ or_pf o = f
  | _, _ => False
  end.

(* The reading is that overrider [i] of method [mi] is called. *)
Definition tells_of (mi i : nat) (r : reading) : bool :=
  bool_decide (rg_method r = mi) &&
  match rg_says r with SaysOverrider j _ => bool_decide (j = i) | _ => false end.

(* The numbers of the groups of the first parameter: those announced, "groups for dim 0:" followed
   by "n mask ...:" and the types, and those of the lines "group 0/n ...", followed by the types. *)
Record numbering := Numbering {
  nb_dim : option nat;                            (* after "groups for dim d:" *)
  nb_open : option bool;                          (* a list of types is going on: announced? *)
  nb_announced : list (nat * nat * list N);       (* dimension, number, types *)
  nb_used : list (nat * nat * list N)
}.
Definition add_last (t : N) (l : list (nat * nat * list N)) : list (nat * nat * list N) :=
  match reverse l with
  | (d, n, ts) :: l => reverse ((d, n, ts ++ [t]) :: l)
  | [] => []
  end.
Definition number (b : numbering) (l : line) : numbering :=
  match l with
  | [PText s; PNumber d; PText _] =>
      if decide (s = "groups for dim "%string)
      then Numbering (Some d) None (nb_announced b) (nb_used b) else b
  | [PNumber n; PText _; PBits _; PText _] =>
      match nb_dim b with
      | Some d => Numbering None (Some true) (nb_announced b ++ [(d, n, [])]) (nb_used b)
      | None => b
      end
  | [PText s; PNumber d; PText _; PNumber n; PText _; PBits _] =>
      if decide (s = "group "%string)
      then Numbering None (Some false) (nb_announced b) (nb_used b ++ [(d, n, [])]) else b
  | [PName t] =>
      match nb_open b with
      | Some true => Numbering None (Some true) (add_last t (nb_announced b)) (nb_used b)
      | Some false => Numbering None (Some false) (nb_announced b) (add_last t (nb_used b))
      | None => b
      end
  | _ => Numbering None None (nb_announced b) (nb_used b)
  end.
Definition numbers (ls : list line) : numbering := foldl number (Numbering None None [] []) ls.

(* Where a class is missing: parameter [j] of method [mi], or of its overrider [i], or the return
   type of its overrider [i], is of a class that is not registered. *)
Inductive place := InMethod (j : nat) | InOverrider (i j : nat) | InReturn (i : nat).
Definition missing_at (ti : N -> N) (R : registrations) (mi : nat) (p : place) (t : N) : Prop :=
  ~ registered ti R (ti t) /\
  exists m, reg_methods R !! mi = Some m /\
    match p with
    | InMethod j => mr_vp m !! j = Some t
    | InOverrider i j => exists o, mr_overriders m !! i = Some o /\ or_vp o !! j = Some t
    | InReturn i => exists o, mr_overriders m !! i = Some o /\ or_return o = t
    end.

(* The last line says which parameter it is, counting from 1. *)
Definition says_parameter (ls : list line) (j : nat) : Prop :=
  exists l, last ls = Some l /\ last l = Some (PNumber (j + 1)).

(* The last method or overrider that a line begins with. *)
Definition begins_with (l : line) : option piece :=
  match l with
  | PMethod mi :: _ => Some (PMethod mi)
  | POverrider mi i :: _ => Some (POverrider mi i)
  | _ => None
  end.
Definition subject (ls : list line) : option piece := last (omap begins_with ls).

(* The trace ends where the class is missing: with a line that names it, below the line of the
   method; or with a line about a parameter, below that of the overrider; or with that line. *)
Definition points_at (ls : list line) (mi : nat) (p : place) (t : N) : Prop :=
  match p with
  | InMethod _ => subject ls = Some (PMethod mi) /\ exists l, last ls = Some l /\ PName t ∈ l
  | InOverrider i _ => subject ls = Some (POverrider mi i) /\ exists l, last ls = Some l /\
      head l = Some (PText "unknown class error for *virtual* parameter #")
  | InReturn i => subject ls = Some (POverrider mi i)
  end.
