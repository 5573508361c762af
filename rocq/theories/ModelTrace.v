(* What initialize() writes when it is traced (initialize.hpp): the lines of augment_classes,
   augment_methods, build_dispatch_tables, build_dispatch_table and print, with the steps of the
   compilation that they are written between.
   Simplified: the lines of assign_slots (864-1002) and of write_global_data (1313-1410), the
   indentation of lines, and how pieces are written on the stream are left out. *)
From stdpp Require Import base list numbers strings.
From Verif Require Import Base Registry ModelClasses ModelMethods ModelSlots ModelTables ModelWorld.

(* What is sent to the trace_stream: initialize.hpp:247-388. *)
Inductive piece :=
  | PText (s : string)
  | PNumber (n : nat)
  | PName (t : N)               (* type_name(t), initialize.hpp:382-388 *)
  | PMethod (mi : nat)          (* type_name(method_type_id) of a method, initialize.hpp:716 *)
  | POverrider (mi i : nat)     (* type_name(type) of an overrider of a method, initialize.hpp:781 *)
  | PFunction (f : fptr)        (* a function pointer, initialize.hpp:781, 1206 *)
  | PAddress (t : N)            (* a type_id, initialize.hpp:731 *)
  | PBits (b : bitset).         (* initialize.hpp:355-369 *)
(* What is written between two newlines, e.g. initialize.hpp:731-732. *)
Definition line : Type := list piece.

(* An operation, and the lines it writes before it ends, e.g. initialize.hpp:729-740: the error
   handler is called after the line is written. *)
Definition traced (A : Type) : Type := list line * outcome A.

(* Sequencing, as in the body of compile(), initialize.hpp:458-469. *)
Definition tbind {A B} (x : traced A) (k : A -> traced B) : traced B :=
  match snd x with
  | Ok a => let '(ls, r) := k a in (fst x ++ ls, r)
  | Err e => (fst x, Err e)
  | Undef => (fst x, Undef)
  | Diverge => (fst x, Diverge)
  end.
(* See above, initialize.hpp:458-469. *)
Notation "'let^' x := e 'in' k" := (tbind e (fun x => k))
  (at level 200, x name, e at level 100, k at level 200, right associativity).
Notation "'let^' ' x := e 'in' k" := (tbind e (fun y => match y with x => k end))
  (at level 200, x strict pattern, e at level 100, k at level 200, right associativity).

(* ++tr << ... << "\n", e.g. initialize.hpp:706. *)
Definition say (l : line) : traced unit := ([l], Ok tt).
(* Code without trace, e.g. initialize.hpp:834-858. *)
Definition quietly {A} (x : outcome A) : traced A := ([], x).
(* See above, e.g. initialize.hpp:743. *)
Definition done {A} (a : A) : traced A := ([], Ok a).

(* Loops, as in Base.v, e.g. initialize.hpp:728-744. *)
Fixpoint foldT {A S} (f : A -> S -> traced S) (l : list A) (s : S) : traced S :=
  match l with
  | [] => done s
  | x :: l => let^ s' := f x s in foldT f l s'
  end.
(* See above, initialize.hpp:728-744. *)
Fixpoint mapT {A B} (f : A -> traced B) (l : list A) : traced (list B) :=
  match l with
  | [] => done []
  | x :: l => let^ y := f x in let^ ys := mapT f l in done (y :: ys)
  end.

(* operator<< for a class, initialize.hpp:247-255: type_ids[0]. *)
Definition class_name (g : graph) (c : nat) : outcome N :=
  let* e := at_ (g_classes g) c in at_ (ce_type_ids e) 0.
(* ++tr << ... << *cls << "\n", e.g. initialize.hpp:1034-1035. *)
Definition say_class (g : graph) (before : line) (c : nat) : traced unit :=
  let^ t := quietly (class_name g c) in say (before ++ [PName t]).

(* Separated pieces, initialize.hpp:263-270, 307-314. *)
Fixpoint separated (sep : string) (l : line) : line :=
  match l with
  | [] => []
  | [x] => [x]
  | x :: l => x :: PText sep :: separated sep l
  end.
(* See above, initialize.hpp:263-270, 307-314. *)
Definition in_parentheses (l : line) : line := PText "(" :: separated ", " l ++ [PText ")"].

(* A list of classes, initialize.hpp:257-274. *)
Definition class_names (g : graph) (cs : list nat) : outcome line :=
  let* ts := mapM (class_name g) cs in Ok (in_parentheses (map PName ts)).

(* augment_classes, initialize.hpp:535-673. *)
Definition static_line (cr : class_record) : line :=
  PName (cr_type cr) :: PText ": " :: in_parentheses (map PName (cr_bases cr)).
(* One class of the lattice, initialize.hpp:661-670. *)
Definition trace_class (E : env) (g : graph) (c : nat) : traced unit :=
  let^ _ := say_class g [] c in
  let^ b := quietly (class_names g (g_db g c)) in
  let^ _ := say (PText "bases:      " :: b) in
  let^ d := quietly (class_names g (g_dd g c)) in
  let^ _ := say (PText "derived:    " :: d) in
  let^ t := quietly (class_names g (e_iter E c (g_td g c))) in
  say (PText "covariant:  " :: t).
(* initialize.hpp:535-673. *)
Definition trace_classes (E : env) (crs : list class_record) : traced graph :=
  let^ _ := say [PText "Static class info:"] in
  let^ _ := foldT (fun cr _ => say (static_line cr)) crs tt in
  let^ g := quietly (augment_classes E crs) in
  let^ _ := say [PText "Inheritance lattice:"] in
  let^ _ := foldT (fun c _ => trace_class E g c) (seq 0 (g_n g)) tt in
  done g.

(* The parameters of a method, initialize.hpp:725-744.  [param_index] is not incremented. *)
Definition trace_param (E : env) (cm : class_map) (t : N) : traced nat :=
  let param_index := 0 in
  match cm (e_ti E t) with
  | Some c => done c
  | None =>
      let^ _ := say [PText "unknown class "; PAddress t; PText "("; PName t; PText ") for parameter #";
                     PNumber (param_index + 1)] in
      quietly (Err (EMissingClass t))
  end.

(* The parameters of an overrider, initialize.hpp:785-810.  [param_index] is not incremented. *)
Definition trace_overrider_param (E : env) (cm : class_map) (t : N) : traced nat :=
  let param_index := 0 in
  match cm (e_ti E t) with
  | Some c => done c
  | None =>
      let^ _ := say [PText "unknown class error for *virtual* parameter #"; PNumber (param_index + 1)] in
      quietly (Err (EMissingClass t))
  end.

(* One overrider, initialize.hpp:772-829. *)
Definition trace_overrider (E : env) (cm : class_map) (cov : option nat) (mi : nat)
    (io : nat * overrider_record) : traced overrider :=
  let '(i, o) := io in
  let^ _ := say [POverrider mi i; PText " ("; PFunction (or_pf o); PText ")"] in
  let^ vp := mapT (trace_overrider_param E cm) (or_vp o) in
  let^ ocov :=
    quietly
      match cov with
      | None => Ok None
      | Some _ => let* c := find_class E cm (or_return o) in Ok (Some c)
      end in
  done (Overrider vp ocov (or_pf o) (or_next o)).

(* One method, initialize.hpp:711-832. *)
Definition trace_method (E : env) (cm : class_map) (im : nat * method_record) : traced cmethod :=
  let '(mi, m) := im in
  let^ _ := say (PMethod mi :: PText " " :: in_parentheses (map PName (mr_vp m))) in
  let^ vp := mapT (trace_param E cm) (mr_vp m) in
  let cov :=
    if decide (e_ti E (mr_return m) = e_ti E (e_void E)) then None
    else cm (e_ti E (mr_return m)) in
  let^ ovs := mapT (trace_overrider E cm cov mi) (imap pair (mr_overriders m)) in
  done (CMethod vp cov ovs (mr_not_implemented m) (mr_ambiguous m) (mr_slots_strides m)).

(* augment_methods, initialize.hpp:700-859. *)
Definition trace_methods (E : env) (g : graph) (ms : list method_record) :
    traced (list cmethod * vp_map) :=
  let^ _ := say [PText "Methods:"] in
  let^ cms := mapT (trace_method E (g_map g)) (imap pair ms) in
  let^ u := quietly (foldM (check_method g) (imap pair cms) (fun _ => [])) in
  done (cms, u).

(* The overriders applicable to a class, initialize.hpp:1034-1050. *)
Definition trace_mask (g : graph) (mi : nat) (m : cmethod) (dim : nat) (c : nat) : traced bitset :=
  let^ _ := say_class g [PText "overriders applicable to "] c in
  mapT (fun io : nat * overrider =>
      let^ vp := quietly (at_ (ov_vp (snd io)) dim) in
      let^ _ := if is_base_of g vp c then say [POverrider mi (fst io)] else done tt in
      done (is_base_of g vp c)) (imap pair (m_ovs m)).

(* The groups of one dimension, initialize.hpp:1027-1061. *)
Definition trace_groups (E : env) (g : graph) (mi : nat) (m : cmethod) (dv : nat * nat) :
    traced group_map :=
  let '(dim, vp) := dv in
  let^ _ := say_class g [PText "make groups for param #"; PNumber dim; PText ", class "] vp in
  foldT (fun c gm =>
      let^ mask := trace_mask g mi m dim c in
      let^ _ := say [PText "-> mask: "; PBits mask] in
      done (group_insert mask c (ce_abstract_at g c) gm))
    (e_iter E vp (g_td g vp)) [].

(* Entries of the v-tables, initialize.hpp:1075-1095. *)
Definition trace_entry (g : graph) (s : slot_state) (mi dim gi : nat) (c : nat) (vt : vtbl_map) :
    traced vtbl_map :=
  let^ _ := say_class g [] c in quietly (set_entry s mi dim gi c vt).
(* See above, initialize.hpp:1079-1094. *)
Definition trace_group (g : graph) (s : slot_state) (mi dim : nat) (ig : nat * (bitset * group))
    (vt : vtbl_map) : traced vtbl_map :=
  let^ _ := say [PText "groups for dim "; PNumber dim; PText ":"] in
  let^ _ := say [PNumber (fst ig); PText " mask "; PBits (fst (snd ig)); PText ":"] in
  foldT (trace_entry g s mi dim (fst ig)) (gp_classes (snd (snd ig))) vt.
(* See above, initialize.hpp:1075-1095. *)
Definition trace_dim (g : graph) (s : slot_state) (mi : nat) (dg : nat * group_map) (vt : vtbl_map) :
    traced vtbl_map :=
  foldT (trace_group g s mi (fst dg)) (imap pair (snd dg)) vt.

(* "#" << spec_index << " " << type_name(info->type), initialize.hpp:1174-1177, 1242-1247. *)
Definition numbered (mi i : nat) : line := [PText "#"; PNumber i; PText " "; POverrider mi i].
(* The candidates that are not null, initialize.hpp:1174-1177, 1242-1247. *)
Definition say_candidates (mi : nat) (cs : candidates) : traced unit :=
  foldT (fun (c : option nat) _ =>
    match c with Some i => say (numbered mi i) | None => done tt end) cs tt.

(* The overrider that is selected, initialize.hpp:1204-1213, 1263-1272. *)
Definition say_selected (mi : nat) (m : cmethod) (i : nat) (ambiguous : bool) : traced unit :=
  let^ o := quietly (at_ (m_ovs m) i) in
  say ([PText "-> #"; PNumber i; PText " "; POverrider mi i; PText " pf = "; PFunction (ov_pf o)] ++
       if ambiguous then [PText " (ambiguous)"] else []).

(* One cell, initialize.hpp:1159-1274. *)
Definition trace_cell (g : graph) (n2216 : bool) (mi : nat) (m : cmethod) (mask : bitset) :
    traced cell :=
  let overriders : candidates :=
    map Some (filter (fun i => bit mask i = true) (seq 0 (length (m_ovs m)))) in
  let^ _ := say [PText "select best of:"] in
  let^ _ := say_candidates mi overriders in
  let^ '(dominants, pick, remaining) := quietly (select_dominant_overriders g n2216 m overriders) in
  if decide (remaining = 0) then
    let^ _ := say [PText "not implemented"] in
    done (Cell TNotImplemented None false)
  else if decide (n2216 = false /\ 1 < remaining) then
    let^ _ := say [PText "ambiguous"] in
    done (Cell TAmbiguous None true)
  else
    let^ o := quietly (at_ dominants pick) in
    let^ o := quietly (deref o) in
    let ambiguous := bool_decide (1 < remaining) in
    let^ _ := say_selected mi m o ambiguous in
    let '(overriders, remaining) := remove_dominants overriders dominants in
    if decide (remaining = 0) then
      let^ _ := say [PText "no 'next'"] in
      done (Cell (TOverrider o) (Some (o, TNotImplemented)) ambiguous)
    else
      let^ _ := say [PText "for 'next', select best of:"] in
      let^ _ := say_candidates mi overriders in
      let^ '(nexts, pick, remaining) := quietly (select_dominant_overriders g n2216 m overriders) in
      if decide (n2216 = false /\ 1 < remaining) then
        let^ _ := say [PText "ambiguous 'next'"] in
        done (Cell (TOverrider o) (Some (o, TAmbiguous)) ambiguous)
      else
        let^ nx := quietly (at_ nexts pick) in
        let^ nx := quietly (deref nx) in
        let^ _ := say_selected mi m nx (bool_decide (1 < remaining)) in
        done (Cell (TOverrider o) (Some (o, TOverrider nx)) ambiguous).

(* The cells after which the loop goes on without incrementing group_index,
   initialize.hpp:1196, 1256, 1281. *)
Definition continues (c : cell) : bool :=
  match cl_target c, cl_next c with
  | TAmbiguous, _ => true
  | _, Some (_, TAmbiguous) => true
  | _, _ => false
  end.

(* build_dispatch_table, initialize.hpp:1138-1283.  [groups] as in ModelTables.v; the state of the
   loop is the cells and [group_index]. *)
Fixpoint trace_table (g : graph) (n2216 : bool) (mi : nat) (m : cmethod) (groups : list group_map)
    (mask : bitset) : traced (list cell) :=
  match groups with
  | [] => quietly Undef
  | gm :: rest =>
      let^ '(cells, _) :=
        foldT (fun (kg : bitset * group) (s : list cell * nat) =>
            let '(cells, group_index) := s in
            let mask' := zip_with andb mask (fst kg) in
            let^ _ := say [PText "group "; PNumber (length rest); PText "/"; PNumber group_index;
                           PText " mask "; PBits mask'] in
            let^ _ := foldT (fun c _ => say_class g [] c) (gp_classes (snd kg)) tt in
            match rest with
            | [] =>
                let^ c := trace_cell g n2216 mi m mask' in
                done (cells ++ [c], if continues c then group_index else S group_index)
            | _ :: _ =>
                let^ cs := trace_table g n2216 mi m rest mask' in
                done (cells ++ cs, S group_index)
            end)
          gm ([], 0) in
      done cells
  end.

(* initialize.hpp:1103-1128. *)
Definition rank_line (groups : list group_map) : line :=
  PText "dispatch table rank: " :: separated " x " (map (fun gm => PNumber (length gm)) groups) ++
  PText ", concrete only: " ::
  separated " x " (map (fun gm : group_map =>
    PNumber (length (filter (fun kg => gp_concrete (snd kg) = true) gm))) groups).

(* print, initialize.hpp:1530-1543. *)
Definition report_line (r : method_report) : line :=
  (if decide (rp_cells r = 0) then [] else [PNumber (rp_cells r); PText " dispatch table cells, "]) ++
  [PNumber (rp_ni r); PText " not implemented, "; PNumber (rp_amb r); PText " ambiguous"].

(* One method of build_dispatch_tables, initialize.hpp:1014-1133. *)
Definition trace_build (E : env) (g : graph) (n2216 : bool) (s : slot_state)
    (im : nat * cmethod) (acc : list table * vtbl_map) : traced (list table * vtbl_map) :=
  let '(mi, m) := im in
  let '(ts, vt) := acc in
  let^ _ := say [PText "Building dispatch table for "; PMethod mi] in
  let^ groups := mapT (trace_groups E g mi m) (imap pair (m_vp m)) in
  let strd := strides (map length groups) in
  let^ _ := foldT (fun (ds : nat * nat) _ =>
      say [PText "    stride for dim "; PNumber (S (fst ds)); PText " = "; PNumber (snd ds)])
    (imap pair strd) tt in
  let^ vt := foldT (trace_dim g s mi) (imap pair groups) vt in
  let^ _ := say [PText "building dispatch table"] in
  let^ cells := trace_table g n2216 mi m (rev groups) (repeat true (length (m_ovs m))) in
  let^ _ := if decide (1 < length (m_vp m)) then say (rank_line groups) else done tt in
  let ncells := if decide (1 < length (m_vp m))
                then foldl Nat.mul 1 (map length groups) else 0 in
  let report := Report ncells (count_cells is_not_implemented cells)
                  (count_cells cl_ambiguous cells) in
  let^ _ := say (report_line report) in
  done (ts ++ [Table strd cells report], vt).

(* build_dispatch_tables, initialize.hpp:1011-1134. *)
Definition trace_tables (E : env) (g : graph) (n2216 : bool) (ms : list cmethod) (s : slot_state) :
    traced tables :=
  let^ '(ts, vt) := foldT (trace_build E g n2216 s) (imap pair ms) ([], s_vtbl s) in
  done (Tables ts vt (foldl accumulate (Report 0 0 0) ts)).

(* compile, initialize.hpp:458-469. *)
Definition trace_compile (E : env) (n2216 : bool) (R : registrations) : traced compiled :=
  let^ g := trace_classes E (reg_classes R) in
  let^ '(ms, u) := trace_methods E g (reg_methods R) in
  let^ s := quietly (assign_slots E g u) in
  let^ t := trace_tables E g n2216 ms s in
  done (Compiled g ms s t).
