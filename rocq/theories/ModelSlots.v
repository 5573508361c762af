(* Model of slot allocation: initialize.hpp:62-80 and 863-1007. *)
From stdpp Require Import base list numbers.
From Verif Require Import Base Registry ModelClasses ModelMethods.

(* boost::dynamic_bitset<>: bit 0 first.  [mask[i]] is only used in range by the
   code; [bit] is false beyond the end.  initialize.hpp:62-80, 103-104, 136. *)
Notation bitset := (list bool).
(* initialize.hpp:67-71, 962, 1164. *)
Definition bit (b : bitset) (i : nat) : bool := default false (b !! i).

(* merge_into, initialize.hpp:62-72; returns the new value of [b]. *)
Definition merge_into (a b : bitset) : bitset :=
  let b := if decide (length b < length a) then resize (length a) false b else b in
  foldl (fun b i => if bit a i then <[i := true]> b else b) b (seq 0 (length a)).

(* set_bit, initialize.hpp:74-80. *)
Definition set_bit (mask : bitset) (i : nat) : bitset :=
  let mask := if decide (length mask <= i) then resize (S i) false mask else mask in
  <[i := true]> mask.

(* The search loop initialize.hpp:959-965. *)
Fixpoint first_free (b : bitset) : nat :=
  match b with
  | true :: b => S (first_free b)
  | _ => 0
  end.

(* dynamic_bitset::find_first; None is npos.  Used at initialize.hpp:898-900. *)
Fixpoint find_first (b : bitset) : option nat :=
  match b with
  | [] => None
  | true :: _ => Some 0
  | false :: b => S <$> find_first b
  end.

(* vtbl_entry (initialize.hpp:91-93). *)
Record vtbl_entry := VtblEntry { ve_method : nat; ve_vp : nat; ve_group : nat }.
(* Value-initialised entry, as produced by vector::resize.  initialize.hpp:901, 924. *)
Definition vtbl_entry0 := VtblEntry 0 0 0.

(* The members written by assign_slots: initialize.hpp:103-107, 160. *)
Record slot_state := SlotState {
  s_slots : nat -> nat -> nat;        (* method -> parameter -> slot *)
  s_used : nat -> bitset;             (* used_slots *)
  s_reserved : nat -> bitset;         (* reserved_slots *)
  s_mark : mark_map;
  s_first : nat -> nat;               (* first_slot *)
  s_vtbl : nat -> list vtbl_entry     (* vtbl *)
}.

(* mp.method->slots[mp.param] = slot, initialize.hpp:920, 969. *)
Definition set_slot (sl : nat -> nat -> nat) (mp : nat * nat) (slot : nat) :
    nat -> nat -> nat :=
  upd sl (fst mp) (upd (sl (fst mp)) (snd mp) slot).

(* assign_tree_slots, initialize.hpp:911-929. *)
Fixpoint assign_tree_slots (dd : nat -> list nat) (u : vp_map) (fuel : nat)
    (cls base_slot : nat) (s : slot_state) : outcome slot_state :=
  match fuel with
  | 0 => Diverge
  | S fuel =>
      let '(slots, next_slot) :=
        foldl (fun '(sl, next) mp => (set_slot sl mp next, S next))
          (s_slots s, base_slot) (u cls) in
      let s :=
        SlotState slots (s_used s) (s_reserved s) (s_mark s)
          (upd (s_first s) cls 0)
          (upd (s_vtbl s) cls (resize next_slot vtbl_entry0 (s_vtbl s cls))) in
      foldM (fun pd s => assign_tree_slots dd u fuel pd next_slot s) (dd cls) s
  end.

(* One (method, parameter) of a class in assign_lattice_slots,
   initialize.hpp:944-1001. *)
Definition lattice_slot (E : env) (g : graph) (cls : nat) (s : slot_state)
    (mp : nat * nat) : slot_state :=
  let unavailable := merge_into (s_reserved s cls) (s_used s cls) in
  let slot := first_free unavailable in
  let slots := set_slot (s_slots s) mp slot in
  let used := upd (s_used s) cls (set_bit (s_used s cls) slot) in
  let reserved := upd (s_reserved s) cls (set_bit (s_reserved s cls) slot) in
  let reserved :=
    foldl (fun r base => upd r base (merge_into (used cls) (r base)))
      reserved (g_tb g cls) in
  let '(used, reserved) :=
    foldl (fun '(us, r) covariant =>
        if decide (cls = covariant) then (us, r)
        else
          let us := upd us covariant (merge_into (us cls) (us covariant)) in
          let r := foldl (fun r base => upd r base (merge_into (us cls) (r base)))
                     r (g_tb g covariant) in
          (us, r))
      (used, reserved) (e_iter E cls (g_td g cls)) in
  SlotState slots used reserved (s_mark s) (s_first s) (s_vtbl s).

(* assign_lattice_slots, initialize.hpp:933-1007. *)
Fixpoint assign_lattice_slots (E : env) (g : graph) (u : vp_map) (class_mark : nat)
    (fuel : nat) (cls : nat) (s : slot_state) : outcome slot_state :=
  match fuel with
  | 0 => Diverge
  | S fuel =>
      if decide (s_mark s cls = class_mark) then Ok s
      else
        let s := SlotState (s_slots s) (s_used s) (s_reserved s)
                   (upd (s_mark s) cls class_mark) (s_first s) (s_vtbl s) in
        let s := foldl (lattice_slot E g cls) s (u cls) in
        foldM (assign_lattice_slots E g u class_mark fuel) (g_dd g cls) s
  end.

(* First loop of assign_slots, initialize.hpp:871-884. *)
Definition assign_root (E : env) (g : graph) (u : vp_map) (class_mark : nat)
    (cls : nat) (s : slot_state) : outcome slot_state :=
  match g_db g cls with
  | [] =>
      if decide (Exists (fun c => 1 < length (g_db g c)) (g_td g cls))
      then assign_lattice_slots E g u class_mark (S (g_n g)) cls s
      else assign_tree_slots (g_dd g) u (S (g_n g)) cls 0 s
  | _ => Ok s
  end.

(* Second loop of assign_slots, initialize.hpp:892-905. *)
Definition allocate_vtbl (s : slot_state) (cls : nat) : slot_state :=
  match s_used s cls with
  | [] => s
  | used =>
      let first := default 0 (find_first used) in
      SlotState (s_slots s) (s_used s) (s_reserved s) (s_mark s)
        (upd (s_first s) cls first)
        (upd (s_vtbl s) cls
           (resize (length used - first) vtbl_entry0 (s_vtbl s cls)))
  end.

(* As constructed: initialize.hpp:103-107, 723. *)
Definition slot_state0 (mark : mark_map) : slot_state :=
  SlotState (fun _ _ => 0) (fun _ => []) (fun _ => []) mark (fun _ => 0) (fun _ => []).

(* assign_slots, initialize.hpp:863-907. *)
Definition assign_slots (E : env) (g : graph) (u : vp_map) : outcome slot_state :=
  let* s := foldM (assign_root E g u (S (g_class_mark g))) (seq 0 (g_n g))
              (slot_state0 (g_mark g)) in
  Ok (foldl allocate_vtbl s (seq 0 (g_n g))).
