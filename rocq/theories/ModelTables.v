(* Model of the dispatch table construction: initialize.hpp:1011-1290 and
   1419-1506. *)
From stdpp Require Import base list numbers.
From Verif Require Import Base Registry ModelClasses ModelMethods ModelSlots.

(* is_more_specific, initialize.hpp:1486-1506.  The two vectors have the same
   size (the arity of the method). *)
Fixpoint more_specific_loop (g : graph) (a b : list nat) (result : bool) : bool :=
  match a, b with
  | x :: a, y :: b =>
      if decide (x = y) then more_specific_loop g a b result
      else if is_base_of g y x then more_specific_loop g a b true
      else if is_base_of g x y then false
      else more_specific_loop g a b result
  | _, _ => result
  end.

(* is_more_specific, initialize.hpp:1486-1506. *)
Definition is_more_specific (g : graph) (a b : overrider) : bool :=
  more_specific_loop g (ov_vp a) (ov_vp b) false.

(* A vector<overrider*> of candidates: index of the overrider in the method, or
   null.  initialize.hpp:1160, 1180, 1420. *)
Definition candidates := list (option nat).

(* Inner loop of the first elimination, initialize.hpp:1428-1437: candidate [a]
   against those at j = i+1, ...  Result: is [a] still alive, new values of the
   later candidates. *)
Fixpoint dominate_inner (ms : nat -> nat -> bool) (a : nat) (js : candidates) :
    bool * candidates :=
  match js with
  | [] => (true, [])
  | None :: js =>
      let '(alive, js') := dominate_inner ms a js in (alive, None :: js')
  | Some b :: js =>
      if ms a b then
        let '(alive, js') := dominate_inner ms a js in (alive, None :: js')
      else if ms b a then (false, Some b :: js)
      else
        let '(alive, js') := dominate_inner ms a js in (alive, Some b :: js')
  end.

(* Outer loop, initialize.hpp:1426-1444, without [pick] and [remaining], which
   are computed by [survey] below.  [k] is the number of candidates left. *)
Fixpoint dominate_outer (ms : nat -> nat -> bool) (k : nat) (cs : candidates) :
    candidates :=
  match k, cs with
  | S k, Some a :: js =>
      let '(alive, js') := dominate_inner ms a js in
      (if alive then Some a else None) :: dominate_outer ms k js'
  | S k, None :: js => None :: dominate_outer ms k js
  | _, _ => cs
  end.

(* [pick] (index of the last non-null candidate, 0 if none) and [remaining]
   (number of non-null candidates), initialize.hpp:1423-1424, 1440-1443. *)
Fixpoint survey (i : nat) (cs : candidates) (pick remaining : nat) : nat * nat :=
  match cs with
  | [] => (pick, remaining)
  | None :: cs => survey (S i) cs pick remaining
  | Some _ :: cs => survey (S i) cs i (S remaining)
  end.

(* Inner loop of the n2216 elimination, initialize.hpp:1459-1473.  [ci] is
   candidates[i]; there is no break after it is set to null, so a later
   iteration dereferences it. *)
Fixpoint covariant_inner (ret_base : nat -> nat -> outcome bool) (ci : option nat)
    (js : candidates) : outcome (option nat * candidates) :=
  match js with
  | [] => Ok (ci, [])
  | None :: js =>
      let* '(ci', js') := covariant_inner ret_base ci js in
      Ok (ci', None :: js')
  | Some b :: js =>
      let* a := deref ci in
      let* ab := ret_base a b in
      if ab then
        let* '(ci', js') := covariant_inner ret_base None js in
        Ok (ci', Some b :: js')
      else
        let* ba := ret_base b a in
        if ba then
          let* '(ci', js') := covariant_inner ret_base ci js in
          Ok (ci', None :: js')
        else
          let* '(ci', js') := covariant_inner ret_base ci js in
          Ok (ci', Some b :: js')
  end.

(* Outer loop of the n2216 elimination, initialize.hpp:1457-1480. *)
Fixpoint covariant_outer (ret_base : nat -> nat -> outcome bool) (k : nat)
    (cs : candidates) : outcome candidates :=
  match k, cs with
  | S k, Some a :: js =>
      let* '(ci, js') := covariant_inner ret_base (Some a) js in
      let* rest := covariant_outer ret_base k js' in
      Ok (ci :: rest)
  | S k, None :: js =>
      let* rest := covariant_outer ret_base k js in
      Ok (None :: rest)
  | _, _ => Ok cs
  end.

(* candidates[a]->covariant_return_type->is_base_of(
     candidates[b]->covariant_return_type)  initialize.hpp:1463-1469. *)
Definition covariant_base (g : graph) (m : cmethod) (a b : nat) : outcome bool :=
  let* oa := at_ (m_ovs m) a in
  let* ob := at_ (m_ovs m) b in
  let* ra := deref (ov_cov oa) in
  match ov_cov ob with
  | Some rb => Ok (is_base_of g ra rb)
  | None => Ok false     (* find(nullptr) in a set of non-null pointers *)
  end.

(* initialize.hpp:1430-1432. *)
Definition ms_at (g : graph) (m : cmethod) (a b : nat) : bool :=
  match m_ovs m !! a, m_ovs m !! b with
  | Some oa, Some ob => is_more_specific g oa ob
  | _, _ => false
  end.

(* select_dominant_overriders, initialize.hpp:1419-1482.  Result: candidates,
   pick, remaining. *)
Definition select_dominant_overriders (g : graph) (n2216 : bool) (m : cmethod)
    (cs : candidates) : outcome (candidates * nat * nat) :=
  let cs := dominate_outer (ms_at g m) (length cs) cs in
  let '(pick, remaining) := survey 0 cs 0 0 in
  if decide (remaining <= 1) then Ok (cs, pick, remaining)
  else if n2216 then
    let* p := at_ cs pick in
    let* p := deref p in
    let* o := at_ (m_ovs m) p in
    match ov_cov o with
    | None => Ok (cs, pick, remaining)
    | Some _ =>
        let* cs := covariant_outer (covariant_base g m) (length cs) cs in
        let '(pick, remaining) := survey 0 cs pick 0 in
        Ok (cs, pick, remaining)
    end
  else Ok (cs, pick, remaining).

(* What a dispatch table cell or a [next] pointer designates.
   initialize.hpp:127-134, 162-166, 1188, 1194, 1201, 1236, 1255, 1261. *)
Inductive target :=
  | TNotImplemented
  | TAmbiguous
  | TOverrider (i : nat).

(* First step of the computation of [next]: nullify the dominants in the list of
   applicable overriders and count the others, initialize.hpp:1221-1232. *)
Fixpoint remove_dominants (ovs doms : candidates) : candidates * nat :=
  match ovs, doms with
  | o :: ovs, d :: doms =>
      let '(ovs', remaining) := remove_dominants ovs doms in
      if decide (o = d) then (None :: ovs', remaining)
      else (o :: ovs', S remaining)
  | _, _ => (ovs, 0)
  end.

(* One cell: target, and the assignment to overrider->next if any.
   initialize.hpp:1188-1195, 1201, 1210, 1236, 1255, 1261. *)
Record cell := Cell { cl_target : target; cl_next : option (nat * target);
                      cl_ambiguous : bool  (* ++m.report.ambiguous *) }.

(* Body of the loop for dim == 0, initialize.hpp:1159-1274. *)
Definition build_cell (g : graph) (n2216 : bool) (m : cmethod) (mask : bitset) :
    outcome cell :=
  let overriders : candidates :=
    map Some (filter (fun i => bit mask i = true) (seq 0 (length (m_ovs m)))) in
  let* '(dominants, pick, remaining) :=
    select_dominant_overriders g n2216 m overriders in
  if decide (remaining = 0) then Ok (Cell TNotImplemented None false)
  else if decide (n2216 = false /\ 1 < remaining) then Ok (Cell TAmbiguous None true)
  else
    let* o := at_ dominants pick in
    let* o := deref o in
    let ambiguous := bool_decide (1 < remaining) in
    let '(overriders, remaining) := remove_dominants overriders dominants in
    if decide (remaining = 0) then
      Ok (Cell (TOverrider o) (Some (o, TNotImplemented)) ambiguous)
    else
      let* '(nexts, pick, remaining) :=
        select_dominant_overriders g n2216 m overriders in
      if decide (n2216 = false /\ 1 < remaining) then
        Ok (Cell (TOverrider o) (Some (o, TAmbiguous)) ambiguous)
      else
        let* nx := at_ nexts pick in
        let* nx := deref nx in
        Ok (Cell (TOverrider o) (Some (o, TOverrider nx)) ambiguous).

(* group and group_map, initialize.hpp:138-143.  A std::map keeps its keys
   sorted; dynamic_bitset::operator< compares equal-sized bitsets from the most
   significant bit down. *)
Record group := Group { gp_classes : list nat; gp_concrete : bool }.
(* initialize.hpp:143. *)
Notation group_map := (list (bitset * group)).

(* boost::dynamic_bitset operator<, used by the std::map of initialize.hpp:143. *)
Fixpoint msb_lt (a b : list bool) : bool :=
  match a, b with
  | x :: a, y :: b => if eqb x y then msb_lt a b else y
  | _, _ => false
  end.
(* The key order of the std::map of initialize.hpp:143. *)
Definition bitset_lt (a b : bitset) : bool := msb_lt (rev a) (rev b).

(* initialize.hpp:1053-1055. *)
Definition group_add (c : nat) (abstract : bool) (gp : group) : group :=
  Group (gp_classes gp ++ [c]) (gp_concrete gp || negb abstract).

(* dim_group[mask] ..., initialize.hpp:1052-1055. *)
Fixpoint group_insert (mask : bitset) (c : nat) (abstract : bool) (gm : group_map) :
    group_map :=
  match gm with
  | [] => [(mask, group_add c abstract (Group [] false))]
  | (k, gp) :: gm' =>
      if decide (mask = k) then (k, group_add c abstract gp) :: gm'
      else if bitset_lt mask k
      then (mask, group_add c abstract (Group [] false)) :: gm
      else (k, gp) :: group_insert mask c abstract gm'
  end.

(* Mask of the overriders applicable to a class in a dimension,
   initialize.hpp:1036-1050. *)
Definition class_mask (g : graph) (m : cmethod) (dim : nat) (c : nat) :
    outcome bitset :=
  mapM (fun o => let* vp := at_ (ov_vp o) dim in Ok (is_base_of g vp c)) (m_ovs m).

(* covariant_class->is_abstract, initialize.hpp:1055. *)
Definition ce_abstract_at (g : graph) (c : nat) : bool :=
  match g_classes g !! c with Some e => ce_abstract e | None => false end.

(* Groups of one dimension, initialize.hpp:1027-1061. *)
Definition dim_groups (E : env) (g : graph) (m : cmethod) (dim vp : nat) :
    outcome group_map :=
  foldM (fun c gm =>
      let* mask := class_mask g m dim c in
      Ok (group_insert mask c (ce_abstract_at g c) gm))
    (e_iter E vp (g_td g vp)) [].

(* Strides, initialize.hpp:1064-1073: for dim = 1, 2, ..., the product of the
   sizes of the dimensions before dim. *)
Fixpoint strides_loop (stride : nat) (sizes : list nat) : list nat :=
  match sizes with
  | [] => []
  | s :: sizes => stride * s :: strides_loop (stride * s) sizes
  end.

(* initialize.hpp:1064-1073. *)
Definition strides (sizes : list nat) : list nat :=
  strides_loop 1 (take (length sizes - 1) sizes).

(* build_dispatch_table, initialize.hpp:1138-1283.  [groups] lists the group maps
   of dimensions dim, dim-1, ..., 0.  Cells are appended in order. *)
Fixpoint build_dispatch_table (g : graph) (n2216 : bool) (m : cmethod)
    (groups : list group_map) (mask : bitset) : outcome (list cell) :=
  match groups with
  | [] => Undef
  | gm :: rest =>
      foldM (fun (kg : bitset * group) cells =>
          let mask' := zip_with andb mask (fst kg) in
          match rest with
          | [] => let* c := build_cell g n2216 m mask' in Ok (cells ++ [c])
          | _ :: _ =>
              let* cs := build_dispatch_table g n2216 m rest mask' in
              Ok (cells ++ cs)
          end)
        gm []
  end.

(* Entries of the v-tables for one group, initialize.hpp:1079-1094. *)
Definition vtbl_map := nat -> list vtbl_entry.

(* One class, initialize.hpp:1084-1091. *)
Definition set_entry (s : slot_state) (mi dim gi : nat) (c : nat) (vt : vtbl_map) :
    outcome vtbl_map :=
  let slot := s_slots s mi dim in
  let first := s_first s c in
  if decide (slot < first) then Undef       (* size_t underflow: out of range *)
  else if decide (slot - first < length (vt c))
  then Ok (upd vt c (<[slot - first := VtblEntry mi dim gi]> (vt c)))
  else Undef.

(* One group, initialize.hpp:1079-1094. *)
Definition set_group (s : slot_state) (mi dim : nat) (ig : nat * (bitset * group))
    (vt : vtbl_map) : outcome vtbl_map :=
  foldM (set_entry s mi dim (fst ig)) (gp_classes (snd (snd ig))) vt.

(* One dimension, initialize.hpp:1075-1095. *)
Definition set_dim (s : slot_state) (mi : nat) (dg : nat * group_map) (vt : vtbl_map) :
    outcome vtbl_map :=
  foldM (set_group s mi (fst dg)) (imap pair (snd dg)) vt.

(* method_report, initialize.hpp:145-151. *)
Record method_report := Report { rp_cells : nat; rp_ni : nat; rp_amb : nat }.

(* Result for one method.  generic_compiler::method, initialize.hpp:161-162, 171. *)
Record table := Table {
  t_strides : list nat;
  t_cells : list cell;               (* dispatch_table and next assignments *)
  t_report : method_report
}.

(* The increments of initialize.hpp:1189, 1195, 1210. *)
Definition count_cells (p : cell -> bool) (cs : list cell) : nat :=
  length (filter (fun c => p c = true) cs).

(* initialize.hpp:1188-1189. *)
Definition is_not_implemented (c : cell) : bool :=
  match cl_target c with TNotImplemented => true | _ => false end.

(* One method of build_dispatch_tables, initialize.hpp:1014-1133. *)
Definition build_method (E : env) (g : graph) (n2216 : bool) (s : slot_state)
    (im : nat * cmethod) (acc : list table * vtbl_map) : outcome (list table * vtbl_map) :=
  let '(mi, m) := im in
  let '(ts, vt) := acc in
  let* groups := mapM (fun dv => dim_groups E g m (fst dv) (snd dv)) (imap pair (m_vp m)) in
  let strd := strides (map length groups) in
  let* vt := foldM (set_dim s mi) (imap pair groups) vt in
  let* cells := build_dispatch_table g n2216 m (rev groups)
                  (repeat true (length (m_ovs m))) in
  let ncells := if decide (1 < length (m_vp m))
                then foldl Nat.mul 1 (map length groups) else 0 in
  let report := Report ncells (count_cells is_not_implemented cells)
                  (count_cells cl_ambiguous cells) in
  Ok (ts ++ [Table strd cells report], vt).

(* accumulate, initialize.hpp:1285-1290. *)
Definition accumulate (total : method_report) (t : table) : method_report :=
  let partial := t_report t in
  Report (rp_cells total + rp_cells partial)
    (rp_ni total + (if decide (rp_ni partial = 0) then 0 else 1))
    (rp_amb total + (if decide (rp_amb partial = 0) then 0 else 1)).

(* What build_dispatch_tables produces, initialize.hpp:1011-1134. *)
Record tables := Tables {
  tb_tables : list table;
  tb_vtbl : vtbl_map;
  tb_report : method_report
}.

(* build_dispatch_tables, initialize.hpp:1011-1134. *)
Definition build_dispatch_tables (E : env) (g : graph) (n2216 : bool)
    (ms : list cmethod) (s : slot_state) : outcome tables :=
  let* '(ts, vt) := foldM (build_method E g n2216 s) (imap pair ms) ([], s_vtbl s) in
  Ok (Tables ts vt (foldl accumulate (Report 0 0 0) ts)).

(* Final value of overrider->next: the last assignment in cell order.
   initialize.hpp:1236, 1255, 1261, read at 1351-1358. *)
Definition final_next (cells : list cell) (i : nat) : option target :=
  foldl (fun acc c =>
      match cl_next c with
      | Some (j, t) => if decide (j = i) then Some t else acc
      | None => acc
      end) None cells.
