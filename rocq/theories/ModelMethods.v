(* Model of augment_methods: initialize.hpp:700-859. *)
From stdpp Require Import base list numbers.
From Verif Require Import Base Registry ModelClasses.

(* generic_compiler::overrider (initialize.hpp:127-134).  [next] is kept apart,
   in the result of the dispatch table construction. *)
Record overrider := Overrider {
  ov_vp : list nat;
  ov_cov : option nat;           (* covariant_return_type *)
  ov_pf : fptr;
  ov_next : nat                  (* info->next: address of next<Fn> *)
}.

(* generic_compiler::method (initialize.hpp:155-172). *)
Record cmethod := CMethod {
  m_vp : list nat;
  m_cov : option nat;
  m_ovs : list overrider;
  m_ni : fptr;                   (* not_implemented.pf *)
  m_amb : fptr;                  (* ambiguous.pf *)
  m_ss : nat                     (* info->slots_strides_ptr *)
}.

(* Lookup of a virtual parameter class, initialize.hpp:729-743 and 790-806. *)
Definition find_class (E : env) (cm : class_map) (t : N) : outcome nat :=
  match cm (e_ti E t) with
  | Some c => Ok c
  | None => Err (EMissingClass t)
  end.

(* One overrider, initialize.hpp:772-829.  The code assigns [pf] in the parameter
   loop; a method has at least one virtual parameter (core.hpp:2276). *)
Definition augment_overrider (E : env) (cm : class_map) (cov : option nat)
    (o : overrider_record) : outcome overrider :=
  let* vp := mapM (find_class E cm) (or_vp o) in
  let* ocov :=
    match cov with
    | None => Ok None
    | Some _ => let* c := find_class E cm (or_return o) in Ok (Some c)
    end in
  Ok (Overrider vp ocov (or_pf o) (or_next o)).

(* One method, initialize.hpp:711-832. *)
Definition augment_method (E : env) (cm : class_map) (m : method_record) :
    outcome cmethod :=
  let* vp := mapM (find_class E cm) (mr_vp m) in
  let cov :=
    if decide (e_ti E (mr_return m) = e_ti E (e_void E)) then None
    else cm (e_ti E (mr_return m)) in
  let* ovs := mapM (augment_overrider E cm cov) (mr_overriders m) in
  Ok (CMethod vp cov ovs (mr_not_implemented m) (mr_ambiguous m) (mr_slots_strides m)).

(* Check of one overrider against one parameter, initialize.hpp:839-853.
   [type_ids[0]] of both classes. *)
Definition check_base (g : graph) (vp : nat) (param : nat) (o : overrider) :
    outcome unit :=
  let* ovp := at_ (ov_vp o) param in
  if decide (ovp = vp) then Ok tt
  else if is_base_of g vp ovp then Ok tt
  else
    let* ce_o := at_ (g_classes g) ovp in
    let* ce_m := at_ (g_classes g) vp in
    let* base := at_ (ce_type_ids ce_o) 0 in
    let* derived := at_ (ce_type_ids ce_m) 0 in
    Err (EMissingBase base derived).

(* used_by_vp: class -> (method, parameter) pairs.
   class_::used_by_vp, initialize.hpp:86-89, 102, 856. *)
Definition vp_map := nat -> list (nat * nat).

(* Inner part of the second loop, initialize.hpp:837-857. *)
Definition check_param (g : graph) (mi : nat) (m : cmethod) (pv : nat * nat)
    (u : vp_map) : outcome vp_map :=
  let '(param, vp) := pv in
  let* _ := foldM (fun o _ => check_base g vp param o) (m_ovs m) tt in
  Ok (upd u vp (u vp ++ [(mi, param)])).

(* Second loop of augment_methods, initialize.hpp:834-858. *)
Definition check_method (g : graph) (im : nat * cmethod) (u : vp_map) :
    outcome vp_map :=
  let '(mi, m) := im in
  foldM (check_param g mi m) (imap pair (m_vp m)) u.

(* augment_methods, initialize.hpp:700-859. *)
Definition augment_methods (E : env) (g : graph) (ms : list method_record) :
    outcome (list cmethod * vp_map) :=
  let* cms := mapM (augment_method E (g_map g)) ms in
  let* u := foldM (check_method g) (imap pair cms) (fun _ => []) in
  Ok (cms, u).
