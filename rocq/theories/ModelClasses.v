(* Model of the class analysis of initialize(): initialize.hpp:517-696.
   [class_*] pointers are indices into the deque [classes]; each field of
   [class_] is a map from that index. *)
From stdpp Require Import base list numbers.
From Verif Require Import Base Registry.

(* What the model takes from the C++ implementation.
   Used at initialize.hpp:556-579, 623-627, 690-694, 747-750, 1033. *)
Record env := Env {
  (* rtti::type_index; an arbitrary function. *)
  e_ti : N -> N;
  (* rtti::static_type<void>(). *)
  e_void : N;
  (* Order in which iterating over the unordered_set of class [c] yields its
     elements. *)
  e_iter : nat -> list nat -> list nat;
  (* std::sort with the comparison [key a > key b]. *)
  e_sort : (nat -> nat) -> list nat -> list nat
}.

(* The only assumptions made on them: a set iteration visits each element once;
   std::sort permutes its range and leaves it sorted.  std::sort, initialize.hpp:623-627. *)
Definition sorted_desc (key : nat -> nat) (l : list nat) : Prop :=
  forall i j x y, i < j -> l !! i = Some x -> l !! j = Some y -> key y <= key x.

(* initialize.hpp:623-627, 690-694, 1033. *)
Definition env_ok (E : env) : Prop :=
  (forall c l, e_iter E c l ≡ₚ l) /\
  (forall key l, e_sort E key l ≡ₚ l /\ sorted_desc key (e_sort E key l)).

(* The members of [class_] that are filled by the first loop
   (initialize.hpp:95-125). *)
Record class_entry := ClassEntry {
  ce_abstract : bool;
  ce_type_ids : list N;
  ce_static_vptr : nat
}.

(* [class_map] (initialize.hpp:401): type_index -> class_*; null if absent. *)
Definition class_map := N -> option nat.

(* One iteration of the first loop, initialize.hpp:545-569. *)
Definition push_type_id (t : N) (e : class_entry) : class_entry :=
  if decide (t ∈ ce_type_ids e) then e
  else ClassEntry (ce_abstract e) (ce_type_ids e ++ [t]) (ce_static_vptr e).

(* The body of the first loop, initialize.hpp:556-568. *)
Definition add_class (ti : N -> N) (s : list class_entry * class_map)
    (cr : class_record) : list class_entry * class_map :=
  let '(cs, cm) := s in
  let '(cs, cm, id) :=
    match cm (ti (cr_type cr)) with
    | Some id => (cs, cm, id)
    | None =>
        (cs ++ [ClassEntry (cr_abstract cr) [] (cr_static_vptr cr)],
         upd cm (ti (cr_type cr)) (Some (length cs)), length cs)
    end in
  (alter (push_type_id (cr_type cr)) id cs, cm).

(* The first loop, initialize.hpp:545-569. *)
Definition add_classes (ti : N -> N) (crs : list class_record) :
    list class_entry * class_map :=
  foldl (add_class ti) ([], fun _ => None) crs.

(* transitive_bases and mark of each class.  class_::transitive_bases, initialize.hpp:98. *)
Definition tb_map := nat -> list nat.
(* class_::mark, initialize.hpp:106. *)
Definition mark_map := nat -> nat.

(* collect_transitive_bases, initialize.hpp:519-531.  The loop iterates over
   base->transitive_bases while the recursive calls push to
   cls->transitive_bases: undefined when base == cls (only possible with cyclic
   inheritance). *)
Fixpoint collect_transitive_bases (fuel : nat) (class_mark : nat) (cls base : nat)
    (s : tb_map * mark_map) : outcome (tb_map * mark_map) :=
  match fuel with
  | 0 => Diverge
  | S fuel =>
      let '(tb, mark) := s in
      if decide (mark base = class_mark) then Ok s
      else if decide (base = cls) then Undef
      else
        let tb' := upd tb cls (tb cls ++ [base]) in
        let mark' := upd mark base class_mark in
        foldM (fun base_base s => collect_transitive_bases fuel class_mark cls base_base s)
          (tb' base) (tb', mark')
  end.

(* Second loop, initialize.hpp:575-599.  State: transitive_bases, marks,
   class_mark. *)
Record walk := Walk { wk_tb : tb_map; wk_mark : mark_map; wk_class_mark : nat }.

(* The body of the inner loop, initialize.hpp:578-598. *)
Definition collect_base (E : env) (n : nat) (cm : class_map) (rtc : nat) (base : N)
    (w : walk) : outcome walk :=
  match cm (e_ti E base) with
  | None => Err (EMissingClass base)
  | Some rtb =>
      if decide (rtc = rtb) then Ok w
      else
        let class_mark := S (wk_class_mark w) in
        let* '(tb, mark) :=
          collect_transitive_bases (S n) class_mark rtc rtb (wk_tb w, wk_mark w) in
        Ok (Walk tb mark class_mark)
  end.

(* The body of the outer loop, initialize.hpp:576-598. *)
Definition collect_record (E : env) (n : nat) (cm : class_map) (cr : class_record)
    (w : walk) : outcome walk :=
  let* rtc := deref (cm (e_ti E (cr_type cr))) in
  foldM (collect_base E n cm rtc) (cr_bases cr) w.

(* initialize.hpp:575-599. *)
Definition collect_all (E : env) (n : nat) (cm : class_map) (crs : list class_record) :
    outcome walk :=
  foldM (collect_record E n cm) crs (Walk (fun _ => []) (fun _ => 0) 0).

(* Removal of duplicates, initialize.hpp:606-618. *)
Definition dedup_step (mark : nat) (s : list nat * mark_map) (rtb : nat) :
    list nat * mark_map :=
  let '(bases, mk) := s in
  if decide (mk rtb = mark) then s else (bases ++ [rtb], upd mk rtb mark).

(* initialize.hpp:607-617. *)
Definition dedup_class (w : walk) (rtc : nat) : walk :=
  let mark := S (wk_class_mark w) in
  let '(bases, mk) := foldl (dedup_step mark) ([], wk_mark w) (wk_tb w rtc) in
  Walk (upd (wk_tb w) rtc bases) mk mark.

(* initialize.hpp:604-618. *)
Definition dedup_all (n : nat) (w : walk) : walk :=
  foldl dedup_class (Walk (wk_tb w) (wk_mark w) (S (wk_class_mark w))) (seq 0 n).

(* Direct bases, initialize.hpp:620-646. *)
Definition direct_step (tb : tb_map) (mark : nat) (s : list nat * mark_map) (rtb : nat) :
    list nat * mark_map :=
  let '(db, mk) := s in
  if decide (mk rtb = mark) then s
  else (db ++ [rtb], foldl (fun mk rtbb => upd mk rtbb mark) mk (tb rtb)).

(* initialize.hpp:621-645. *)
Definition direct_class (E : env) (s : walk * (nat -> list nat)) (rtc : nat) :
    walk * (nat -> list nat) :=
  let '(w, db) := s in
  let tb := upd (wk_tb w) rtc
    (e_sort E (fun a => length (wk_tb w a)) (wk_tb w rtc)) in
  let mark := S (wk_class_mark w) in
  let '(dbs, mk) := foldl (direct_step tb mark) (db rtc, wk_mark w) (tb rtc) in
  (Walk tb mk mark, upd db rtc dbs).

(* initialize.hpp:620-646. *)
Definition direct_all (E : env) (n : nat) (w : walk) : walk * (nat -> list nat) :=
  foldl (direct_class E) (w, fun _ => []) (seq 0 n).

(* Direct derived classes, initialize.hpp:648-652. *)
Definition derived_class (db : nat -> list nat) (dd : nat -> list nat) (rtc : nat) :
    nat -> list nat :=
  foldl (fun dd rtb => upd dd rtb (dd rtb ++ [rtc])) dd (db rtc).

(* initialize.hpp:648-652. *)
Definition derived_all (n : nat) (db : nat -> list nat) : nat -> list nat :=
  foldl (derived_class db) (fun _ => []) (seq 0 n).

(* std::unordered_set::insert; the set is kept as a list without duplicates.
   initialize.hpp:683, 690-694. *)
Definition set_insert (l : list nat) (x : nat) : list nat :=
  if decide (x ∈ l) then l else l ++ [x].

(* calculate_transitive_derived, initialize.hpp:677-696. *)
Fixpoint calculate_transitive_derived (E : env) (dd : nat -> list nat) (fuel : nat)
    (cls : nat) (td : nat -> list nat) : outcome (nat -> list nat) :=
  match fuel with
  | 0 => Diverge
  | S fuel =>
      if decide (td cls <> []) then Ok td
      else
        foldM (fun derived td =>
            let* td :=
              (if decide (td derived = [])
               then calculate_transitive_derived E dd fuel derived td
               else Ok td) in
            Ok (upd td cls
                  (foldl set_insert (td cls) (e_iter E derived (td derived)))))
          (dd cls) (upd td cls (set_insert (td cls) cls))
  end.

(* initialize.hpp:654-656. *)
Definition transitive_derived_all (E : env) (n : nat) (dd : nat -> list nat) :
    outcome (nat -> list nat) :=
  foldM (calculate_transitive_derived E dd (S n)) (seq 0 n) (fun _ => []).

(* Result of augment_classes, initialize.hpp:535-673. *)
Record graph := Graph {
  g_classes : list class_entry;
  g_map : class_map;
  g_tb : nat -> list nat;        (* transitive_bases *)
  g_db : nat -> list nat;        (* direct_bases *)
  g_dd : nat -> list nat;        (* direct_derived *)
  g_td : nat -> list nat;        (* transitive_derived *)
  g_mark : mark_map;
  g_class_mark : nat
}.

(* classes.size()  (the deque classes, initialize.hpp:186). *)
Definition g_n (g : graph) : nat := length (g_classes g).

(* augment_classes, initialize.hpp:535-673. *)
Definition augment_classes (E : env) (crs : list class_record) : outcome graph :=
  let '(cs, cm) := add_classes (e_ti E) crs in
  let n := length cs in
  let* w := collect_all E n cm crs in
  let w := dedup_all n w in
  let '(w, db) := direct_all E n w in
  let dd := derived_all n db in
  let* td := transitive_derived_all E n dd in
  Ok (Graph cs cm (wk_tb w) db dd td (wk_mark w) (wk_class_mark w)).

(* class_::is_base_of, initialize.hpp:110-112. *)
Definition is_base_of (g : graph) (c other : nat) : bool :=
  bool_decide (other ∈ g_td g c).
