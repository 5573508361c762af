(* What the lists should be: sequences of nodes. *)
From stdpp Require Import base list numbers.
From Verif Require Import Base ModelStaticList.

(* The contents of each list. *)
Definition contents := nat -> list nat.
Definition contents0 : contents := fun _ => [].

Definition op_contents (op : list_op) (c : contents) : contents :=
  match op with
  | LPush i n => fun j => if decide (j = i) then c i ++ [n] else c j
  | LRemove i n => fun j => if decide (j = i) then filter (fun x => x <> n) (c i) else c j
  | LClear i => fun j => if decide (j = i) then [] else c j
  end.

(* A node is pushed when it is in no list, and removed from the list it is in. *)
Definition op_valid (op : list_op) (c : contents) : Prop :=
  match op with
  | LPush _ n => forall j, n ∉ c j
  | LRemove i n => n ∈ c i
  | LClear _ => True
  end.

Fixpoint ops_valid (ops : list list_op) (c : contents) : Prop :=
  match ops with
  | [] => True
  | op :: ops => op_valid op c /\ ops_valid ops (op_contents op c)
  end.

Definition ops_contents (ops : list list_op) (c : contents) : contents :=
  foldl (fun c op => op_contents op c) c ops.
