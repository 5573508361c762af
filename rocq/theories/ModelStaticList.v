(* Model of detail/static_list.hpp: intrusive lists of classes, methods and
   overriders.  All nodes of a type are in one heap; there may be several lists (one
   of overriders per method). *)
From stdpp Require Import base list numbers.
From Verif Require Import Base.

(* static_link, static_list.hpp:22-35: prev_ptr and next_ptr of each node; and the
   member [first] of each list, static_list.hpp:211. *)
Record links := Links {
  ls_prev : nat -> option nat;
  ls_next : nat -> option nat;
  ls_first : nat -> option nat
}.

(* Static objects are zero-initialized.  static_list.hpp:22-35, 211. *)
Definition links0 : links := Links (fun _ => None) (fun _ => None) (fun _ => None).

(* prev_ptr = ..., static_list.hpp:33. *)
Definition set_prev (s : links) (n : nat) (p : option nat) : links :=
  Links (upd (ls_prev s) n p) (ls_next s) (ls_first s).
(* next_ptr = ..., static_list.hpp:34. *)
Definition set_next (s : links) (n : nat) (p : option nat) : links :=
  Links (ls_prev s) (upd (ls_next s) n p) (ls_first s).
(* first = ..., static_list.hpp:211. *)
Definition set_first (s : links) (i : nat) (p : option nat) : links :=
  Links (ls_prev s) (ls_next s) (upd (ls_first s) i p).

(* A BOOST_ASSERT that fails is like undefined behaviour.  static_list.hpp:38-39, 54. *)
Definition assert_ (b : bool) : outcome unit := if b then Ok tt else Undef.
(* static_list.hpp:38-41. *)
Definition is_null (p : option nat) : bool := match p with None => true | Some _ => false end.

(* push_back, static_list.hpp:37-51. *)
Definition push_back (i node : nat) (s : links) : outcome links :=
  let* _ := assert_ (is_null (ls_prev s node)) in
  let* _ := assert_ (is_null (ls_next s node)) in
  match ls_first s i with
  | None => Ok (set_prev (set_first s i (Some node)) node (Some node))
  | Some first =>
      let* last := deref (ls_prev s first) in
      let s := set_next s last (Some node) in
      let s := set_prev s node (Some last) in
      Ok (set_prev s first (Some node))
  end.

(* remove, static_list.hpp:53-82. *)
Definition remove (i node : nat) (s : links) : outcome links :=
  let* first := deref (ls_first s i) in
  let prev := ls_prev s node in
  let next := ls_next s node in
  let last := ls_prev s first in
  let s := set_next (set_prev s node None) node None in
  if decide (Some node = last) then
    if decide (node = first) then Ok (set_first s i None)
    else
      let s := set_prev s first prev in
      let* p := deref prev in
      Ok (set_next s p None)
  else if decide (node = first) then
    let s := set_first s i next in
    let* f := deref next in
    Ok (set_prev s f last)
  else
    let* p := deref prev in
    let s := set_next s p next in
    let* n := deref next in
    Ok (set_prev s n prev).

(* The loop of clear, static_list.hpp:88-93. *)
Fixpoint clear_loop (fuel : nat) (next : option nat) (s : links) : outcome links :=
  match next with
  | None => Ok s
  | Some cur =>
      match fuel with
      | 0 => Diverge
      | S fuel =>
          clear_loop fuel (ls_next s cur) (set_next (set_prev s cur None) cur None)
      end
  end.

(* clear, static_list.hpp:84-94. *)
Definition clear (fuel i : nat) (s : links) : outcome links :=
  clear_loop fuel (ls_first s i) (set_first s i None).

(* Iteration, static_list.hpp:96-200: from the given pointer until null. *)
Fixpoint iterate (fuel : nat) (s : links) (p : option nat) : outcome (list nat) :=
  match p with
  | None => Ok []
  | Some n =>
      match fuel with
      | 0 => Diverge
      | S fuel => let* l := iterate fuel s (ls_next s n) in Ok (n :: l)
      end
  end.
(* begin() to end(), static_list.hpp:96-200. *)
Definition elements (fuel i : nat) (s : links) : outcome (list nat) :=
  iterate fuel s (ls_first s i).

(* size and empty, static_list.hpp:202-208. *)
Definition size (fuel i : nat) (s : links) : outcome nat :=
  let* l := elements fuel i s in Ok (length l).
(* static_list.hpp:206-208. *)
Definition empty (i : nat) (s : links) : bool := is_null (ls_first s i).

(* static_list.hpp:37-94. *)
Inductive list_op :=
  | LPush (i node : nat)
  | LRemove (i node : nat)
  | LClear (i : nat).

(* static_list.hpp:37-94. *)
Definition list_step (fuel : nat) (op : list_op) (s : links) : outcome links :=
  match op with
  | LPush i n => push_back i n s
  | LRemove i n => remove i n s
  | LClear i => clear fuel i s
  end.

(* Any sequence of these, static_list.hpp:37-94. *)
Definition list_run (fuel : nat) (ops : list list_op) (s : links) : outcome links :=
  foldM (list_step fuel) ops s.
