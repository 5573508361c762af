(* Model of the ownership of objects by smart pointers and by virtual_ptrs to smart pointers:
   core.hpp:582-622, 1150-1786; interop/std_shared_ptr.hpp:69-125, 206-212,
   interop/std_unique_ptr.hpp:25-62, 82-88, interop/boost_intrusive_ptr.hpp:25-59, 135-141.

   Simplified: the program does nothing else with its smart pointers than what [own_op] lists;
   destructors of objects do not use the variables of the program. *)
From stdpp Require Import base list numbers.
From Verif Require Import Base Registry ModelClasses ModelHash ModelWorld ModelCall ModelVirtualPtr
  ModelArguments.

(* The heap of ModelArguments, and the dynamic type ids of the objects created so far.
   core.hpp:1170-1171. *)
Record ostate := OState { os_heap : heap; os_types : list N }.

(* What an operation throws: the error of the error handler, std::bad_cast
   (std_unique_ptr.hpp:46, boost_intrusive_ptr.hpp:51), or the exception of a constructor
   of the program (std_shared_ptr.hpp:211, std_unique_ptr.hpp:87, boost_intrusive_ptr.hpp:139). *)
Inductive raised :=
  | Signals (e : error)
  | BadCast
  | ConstructorThrows.

(* Variables are numbered in the order of their construction; [d] is a virtual_ptr that is
   assigned, [x] one that is read, [q] a smart pointer. *)
Inductive own_op :=
  (* the program: shared_ptr, unique_ptr or intrusive_ptr to a new object; end of a variable *)
  | OCreate (k : ownership) (t : N)
  | ODestroy (x : nat)
  (* make_shared_virtual, make_unique_virtual, make_boost_intrusive_virtual for a class with id
     [t] and static_vptr at [loc]; [poly]: polymorphic according to the rtti policy; [fails]:
     its constructor throws.  std_shared_ptr.hpp:209-212, std_unique_ptr.hpp:85-88,
     boost_intrusive_ptr.hpp:138-141 *)
  | OMake (k : ownership) (t : N) (loc : nat) (poly fails : bool)
  | OFinal (q : nat) (t : N) (loc : nat) (poly move : bool)   (* core.hpp:582-622 *)
  | ONull (k : ownership)                                (* core.hpp:1204-1206, 1225-1227 *)
  | OCopy (x : nat)                                      (* core.hpp:1229, 1414-1416 *)
  | OMove (x : nat)                                      (* core.hpp:1231-1236, 1454-1459 *)
  | OFrom (q : nat) (via : bool)                         (* core.hpp:1277-1282, 1324-1329 *)
  | OFromMove (q : nat) (via : bool)                     (* core.hpp:1374-1379 *)
  | OAssignNull (d : nat)                                (* core.hpp:1482-1486 *)
  | OAssignFrom (d q : nat) (via : bool)                 (* core.hpp:1520-1525 *)
  | OAssignFromMove (d q : nat) (via : bool)             (* core.hpp:1560-1565 *)
  | OAssign (d x : nat)                                  (* core.hpp:1603-1607, 1609, 1647-1651 *)
  | OAssignMove (d x : nat)                              (* core.hpp:1692-1698 *)
  (* cast<Other>(); [dynamic]: requires_dynamic_cast; [fits]: the object is an Other *)
  | OCast (x : nat) (dynamic fits : bool)                (* core.hpp:1738-1743, 1750-1755 *)
  | OCastMove (x : nat) (dynamic fits : bool)            (* core.hpp:1758-1767 *)
  (* plain virtual_ptr to object [o] *)
  | OPlain (o : nat) (via : bool)                        (* core.hpp:768-772, 818-822 *)
  | OPlainAssign (d o : nat) (via : bool).               (* core.hpp:930-935, 980-985 *)

(* The end of an owner that is not (or no longer) in a variable: shared_ptr and intrusive_ptr
   delete the object if there is no other owner, unique_ptr always.
   The members obj of core.hpp:1171. *)
Definition release (c : content) (s : heap) : outcome heap :=
  match ct_handle c with
  | HSmart k (Some (o, b)) =>
      if bool_decide (k <> Unique) && shared_with (o, b) s then Ok s
      else if hp_alive s o then Ok (Heap (hp_vars s) (upd (hp_alive s) o false))
      else Undef
  | _ => Ok s
  end.

(* The control block, or 0.  std_shared_ptr.hpp:58-186. *)
Definition block (k : ownership) (o : nat) : nat := match k with Shared => o | _ => 0 end.

(* A new object.  std_shared_ptr.hpp:211, std_unique_ptr.hpp:87, boost_intrusive_ptr.hpp:139. *)
Definition create (k : ownership) (t : N) (s : ostate) : content * ostate :=
  let o := length (os_types s) in
  (Content (HSmart k (Some (o, block k o))) None,
   OState (Heap (hp_vars (os_heap s)) (upd (hp_alive (os_heap s)) o true)) (os_types s ++ [t])).

(* core.hpp:1170-1171. *)
Definition with_vp (c : content) (vp : box) : content := Content (ct_handle c) (Some vp).
(* core.hpp:1171. *)
Definition empty_like (c : content) : content :=
  Content (match ct_handle c with HSmart k _ => HSmart k None | h => h end) (ct_vp c).

(* A variable gets a new content; what it owned is released.  core.hpp:1483, 1521, 1563, 1604,
   1648, 1695. *)
Definition replace (d : nat) (c : content) (s : heap) : outcome heap :=
  let* old := read d s in
  release old (write d (Some c) s).

(* The state after the operation, once the exception, if any, has unwound the stack.
   The operations of core.hpp:582-622, 1150-1786. *)
Definition result := outcome (ostate * option raised).

(* core.hpp:1170-1171. *)
Definition ends (ts : list N) (r : option raised) (h : outcome heap) : result :=
  let* h := h in Ok (OState h ts, r).

(* The evaluation of an initializer that may throw, core.hpp:605, 1277-1280. *)
Definition try_ {A} (o : outcome A) (handler : raised -> result) (k : A -> result) : result :=
  match o with
  | Ok a => k a | Err e => handler (Signals e) | Undef => Undef | Diverge => Diverge
  end.

Section Owning.
  (* [embedded]: the v-table pointer inside an object, see ModelVirtualPtr; [cxx20]: __cplusplus. *)
  Context (cf : config) (w : world) (embedded : nat -> option box) (cxx20 : bool).

  (* [other ? acquire_vptr( *other) : null_vptr]; core.hpp:1278-1280. *)
  Definition vptr_for (s : ostate) (via : bool) (p : option (nat * nat)) : outcome boxed_from :=
    match p with
    | Some (o, _) =>
        if hp_alive (os_heap s) o then
          acquire cf w via (Object (nth o (os_types s) 0%N) (embedded o))
        else Undef
    | None => Ok (if via then FromTemp VNull else FromNull)
    end.

  (* The checks of final_virtual_ptr, and the v-table pointer.  core.hpp:594-621. *)
  Definition final_vptr (s : ostate) (t : N) (loc : nat) (poly : bool) (p : option (nat * nat)) :
      outcome box :=
    let* _ := require_initialized cf w in
    let* _ :=
      (if cf_checks cf && poly then
         let* '(o, _) := deref p in
         if hp_alive (os_heap s) o then
           if decide (nth o (os_types s) 0%N = t) then Ok tt else Err (EFinal t (nth o (os_types s) 0%N))
         else Undef
       else Ok tt) in
    Ok (box_vptr cf w (FromRef (RStatic loc))).

  (* A temporary smart pointer becomes the member obj of a new virtual_ptr, and ends.
     core.hpp:1180-1184. *)
  Definition adopt (tmp : nat) (vp : box) (s : heap) : outcome heap :=
    let* c := read tmp s in
    let '(_, s) := alloc (with_vp c vp) (write tmp (Some (empty_like c)) s) in
    destroy tmp s.

  (* traits::cast, for an owner that is not changed.  None: std::bad_cast.
     std_shared_ptr.hpp:86-97, std_unique_ptr.hpp:43-55, boost_intrusive_ptr.hpp:44-57. *)
  Definition cast_owner (k : ownership) (dynamic fits : bool) (s : heap) (p : option (nat * nat)) :
      outcome (option (option (nat * nat))) :=
    match p with
    | None =>
        match k, dynamic with
        | Unique, _ | Intrusive, true => Undef      (* a null pointer is dereferenced *)
        | _, _ => Ok (Some None)
        end
    | Some (o, b) =>
        if hp_alive s o then
          match fits, dynamic, k with
          | true, _, _ => Ok (Some (Some (o, b)))
          | false, true, Shared => Ok (Some None)   (* dynamic_pointer_cast *)
          | false, true, _ => Ok None
          | false, false, _ => Undef                (* static_cast to a class it is not *)
          end
        else Undef
    end.

  (* Does cast(std::move(obj)) empty obj?  std_shared_ptr.hpp:109-124 (the rvalue overload, C++20
     only), std_unique_ptr.hpp:48, 53, boost_intrusive_ptr.hpp:44. *)
  Definition cast_moves (k : ownership) : bool :=
    match k with Unique => true | Shared => cxx20 | Intrusive => false end.

  (* The lines cited at [own_op]. *)
  Definition ostep (op : own_op) (s : ostate) : result :=
    let h := os_heap s in
    let ts := os_types s in
    match op with
    | OCreate k t =>
        let '(c, s) := create k t s in
        Ok (OState (alloc c (os_heap s)).2 (os_types s), None)
    | ODestroy x => ends ts None (destroy x h)
    | OMake k t loc poly fails =>
        if fails then Ok (s, Some ConstructorThrows)
        else
          let '(c, s) := create k t s in
          let '(tmp, h) := alloc c (os_heap s) in
          try_ (final_vptr (OState h (os_types s)) t loc poly (owned (ct_handle c)))
            (fun e => ends (os_types s) (Some e) (destroy tmp h))
            (fun vp => ends (os_types s) None (adopt tmp vp h))
    | OFinal q t loc poly move =>
        let* c := read q h in
        try_ (final_vptr s t loc poly (owned (ct_handle c)))
          (fun e => Ok (s, Some e))
          (fun vp =>
             let h := if move then write q (Some (empty_like c)) h else h in
             Ok (OState (alloc (with_vp c vp) h).2 ts, None))
    | ONull k =>
        Ok (OState (alloc (Content (HSmart k None) (Some (box_vptr cf w FromNull))) h).2 ts, None)
    | OCopy x =>
        let* c := read x h in
        Ok (OState (alloc c h).2 ts, None)
    | OMove x =>
        let* c := read x h in
        Ok (OState (alloc c (write x (Some (moved cf w c)) h)).2 ts, None)
    | OFrom q via =>
        let* c := read q h in
        try_ (vptr_for s via (owned (ct_handle c))) (fun e => Ok (s, Some e))
          (fun v => Ok (OState (alloc (with_vp c (box_vptr cf w v)) h).2 ts, None))
    | OFromMove q via =>
        let* c := read q h in
        try_ (vptr_for s via (owned (ct_handle c))) (fun e => Ok (s, Some e))
          (fun v =>
             Ok (OState (alloc (with_vp c (box_vptr cf w v)) (write q (Some (empty_like c)) h)).2 ts, None))
    | OAssignNull d =>
        let* old := read d h in
        let* h := replace d (empty_like old) h in
        let* c := read d h in
        Ok (OState (write d (Some (with_vp c (box_vptr cf w FromNull))) h) ts, None)
    | OAssignFrom d q via =>
        let* c := read q h in
        let* old := read d h in
        let* h := replace d (Content (ct_handle c) (ct_vp old)) h in
        let* _ := deref (owned (ct_handle c)) in
        try_ (vptr_for (OState h ts) via (owned (ct_handle c)))
          (fun e => Ok (OState h ts, Some e))
          (fun v => Ok (OState (write d (Some (with_vp c (box_vptr cf w v))) h) ts, None))
    | OAssignFromMove d q via =>
        let* c := read q h in
        try_ (vptr_for s via (owned (ct_handle c))) (fun e => Ok (s, Some e))
          (fun v => ends ts None
             (replace d (with_vp c (box_vptr cf w v)) (write q (Some (empty_like c)) h)))
    | OAssign d x =>
        let* c := read x h in
        let* old := read d h in
        let* h := replace d (Content (ct_handle c) (ct_vp old)) h in
        Ok (OState (write d (Some c) h) ts, None)
    | OAssignMove d x =>
        let* c := read x h in
        if decide (d = x) then Ok (s, None)     (* the move assignments leave obj as it was *)
        else ends ts None (replace d c (write x (Some (moved cf w c)) h))
    | OCast x dynamic fits =>
        let* c := read x h in
        let* vp := deref (ct_vp c) in
        match ct_handle c with
        | HSmart k p =>
            let* r := cast_owner k dynamic fits h p in
            match r with
            | None => Ok (s, Some BadCast)
            | Some p' =>
                let '(tmp, h) := alloc (Content (HSmart k p') None) h in
                ends ts None (adopt tmp vp h)
            end
        | _ => Undef
        end
    | OCastMove x dynamic fits =>
        let* c := read x h in
        let* vp := deref (ct_vp c) in
        match ct_handle c with
        | HSmart k p =>
            let* r := cast_owner k dynamic fits h p in
            match r with
            | None => Ok (s, Some BadCast)
            | Some p' =>
                let h := if cast_moves k && bool_decide (p' <> None)
                         then write x (Some (empty_like c)) h else h in
                let '(tmp, h) := alloc (Content (HSmart k p') None) h in
                ends ts None (adopt tmp vp h)
            end
        | _ => Undef
        end
    | OPlain o via =>
        try_ (vptr_for s via (Some (o, 0))) (fun e => Ok (s, Some e))
          (fun v => Ok (OState (alloc (Content (HRaw (Some o)) (Some (box_vptr cf w v))) h).2 ts, None))
    | OPlainAssign d o via =>
        let* old := read d h in
        let h := write d (Some (Content (HRaw (Some o)) (ct_vp old))) h in
        try_ (vptr_for s via (Some (o, 0))) (fun e => Ok (OState h ts, Some e))
          (fun v => Ok (OState (write d (Some (Content (HRaw (Some o)) (Some (box_vptr cf w v)))) h) ts, None))
    end.
End Owning.
