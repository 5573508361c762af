(* Model of the static objects that register classes, methods and overriders: their
   constructors and destructors, and how initialize() reads them.
   core.hpp:346-379, 2392-2435, 2733-2800; preamble.hpp:306-370;
   initialize.hpp:546-548, 712-714, 773-776. *)
From stdpp Require Import base list numbers.
From Verif Require Import Base Registry ModelStaticList ModelClasses ModelMethods ModelSlots
  ModelTables ModelHash ModelWorld.

(* The text of a program.  In these records, numbers stand for C++ classes where the
   library has type ids.  Several objects may register the same class.  The list of
   overriders of [so_method] is not used; each overrider names its method.
   core.hpp:346-379, 2392-2430, 2733-2798. *)
Record source := Source {
  so_class : nat -> class_record;                (* use_class_aux<Registry, list<Class, Bases...>> *)
  so_bases : nat -> nat;                         (* its static array bases, core.hpp:351, 377-379 *)
  so_method : nat -> method_record;              (* method<...>::fn *)
  so_overrider : nat -> nat * overrider_record   (* override_aux<...>::impl *)
}.

(* core.hpp:346-379 (RClass), 2392-2430 (RMethod), 2733-2798 (ROverrider). *)
Inductive registrar :=
  | RClass (k : nat)
  | RMethod (k : nat)
  | ROverrider (k : nat).

(* What happens to them.  [st] is what rtti::static_type<Class>() returns at that time
   for each class (preamble.hpp:557-572).
   [Attempt st n]: an initialize() that throws after [n] calls of resolve_type_ids, or
   one that completes, if it makes no more than [n] of them. *)
Inductive revent :=
  | Construct (st : N -> N) (o : registrar)
  | Destroy (o : registrar)
  | Attempt (st : N -> N) (n : nat).

(* The storage of the objects: zero-initialized before any constructor runs.  The
   links of the nodes are kept per type of node.  [registry::classes] and
   [registry::methods] are number 0 of their kind; the list [overriders] of method [k]
   is number [k].  The other members are kept per object; [None] is all zeros.  The
   array [bases] belongs to the type of the object, not to the object: the list of
   bases in [me_class] is not used.  preamble.hpp:306-370; core.hpp:351, 377-379. *)
Record memory := Memory {
  me_classes : links;
  me_methods : links;
  me_overriders : links;
  me_class : nat -> option class_record;
  me_bases : nat -> option (list N);
  me_method : nat -> option method_record;
  me_owner : nat -> option nat;                  (* overrider_info::method *)
  me_overrider : nat -> option overrider_record
}.
(* Zero-initialized static storage: preamble.hpp:306-370; core.hpp:351, 377-379. *)
Definition memory0 : memory :=
  Memory links0 links0 links0 (fun _ => None) (fun _ => None) (fun _ => None) (fun _ => None) (fun _ => None).

(* static_list.hpp:37-82, on registry::classes, core.hpp:363, 373. *)
Definition set_classes (s : memory) l :=
  Memory l (me_methods s) (me_overriders s) (me_class s) (me_bases s) (me_method s) (me_owner s) (me_overrider s).
(* The same on registry::methods, core.hpp:2409, 2429. *)
Definition set_methods (s : memory) l :=
  Memory (me_classes s) l (me_overriders s) (me_class s) (me_bases s) (me_method s) (me_owner s) (me_overrider s).
(* The same on the list of a method, core.hpp:2781; preamble.hpp:356-358. *)
Definition set_overriders (s : memory) l :=
  Memory (me_classes s) (me_methods s) l (me_class s) (me_bases s) (me_method s) (me_owner s) (me_overrider s).
(* class_info, core.hpp:353-369. *)
Definition set_class (s : memory) k c :=
  Memory (me_classes s) (me_methods s) (me_overriders s) (upd (me_class s) k (Some c)) (me_bases s)
    (me_method s) (me_owner s) (me_overrider s).
(* use_class_aux::bases, core.hpp:369, 377-379. *)
Definition set_bases (s : memory) a l :=
  Memory (me_classes s) (me_methods s) (me_overriders s) (me_class s) (upd (me_bases s) a (Some l))
    (me_method s) (me_owner s) (me_overrider s).
(* method_info, core.hpp:2392-2424. *)
Definition set_method (s : memory) k m :=
  Memory (me_classes s) (me_methods s) (me_overriders s) (me_class s) (me_bases s) (upd (me_method s) k (Some m))
    (me_owner s) (me_overrider s).
(* overrider_info::method, core.hpp:2753, 2766. *)
Definition set_owner (s : memory) k m :=
  Memory (me_classes s) (me_methods s) (me_overriders s) (me_class s) (me_bases s) (me_method s)
    (upd (me_owner s) k (Some m)) (me_overrider s).
(* overrider_info, core.hpp:2772-2779, 2787-2798. *)
Definition set_overrider (s : memory) k o :=
  Memory (me_classes s) (me_methods s) (me_overriders s) (me_class s) (me_bases s) (me_method s) (me_owner s)
    (upd (me_overrider s) k (Some o)).

Section Registrars.
  (* Registry::has_deferred_static_rtti, preamble.hpp:1030-1032; and the program. *)
  Context (deferred : bool) (S : source).

  (* use_class_aux::resolve_type_ids, core.hpp:366-370. *)
  Definition resolve_class (st : N -> N) (k : nat) (s : memory) : memory :=
    let c := so_class S k in
    let s := set_class s k (ClassRecord (st (cr_type c)) [] (cr_abstract c) (cr_static_vptr c)) in
    set_bases s (so_bases S k) (map st (cr_bases c)).

  (* method::resolve_type_ids, core.hpp:2414-2424. *)
  Definition resolve_method (st : N -> N) (k : nat) (s : memory) : memory :=
    let m := so_method S k in
    set_method s k (MethodRecord (map st (mr_vp m)) (st (mr_return m)) [] (mr_not_implemented m)
      (mr_ambiguous m) (mr_slots_strides m)).

  (* override_impl::resolve_type_ids, core.hpp:2787-2800. *)
  Definition resolve_overrider (st : N -> N) (k : nat) (s : memory) : memory :=
    let o := snd (so_overrider S k) in
    set_overrider s k (OverriderRecord (map st (or_vp o)) (st (or_return o)) (or_pf o) (or_next o)).

  (* The type ids that the constructor leaves: zeros, if they are deferred.
     core.hpp:358-360, 2398-2400, 2768-2770. *)
  Definition at_construction (st : N -> N) : N -> N := if deferred then fun _ => 0%N else st.

  (* use_class_aux(), core.hpp:352-364. *)
  Definition construct_class (st : N -> N) (k : nat) (s : memory) : outcome memory :=
    let s := resolve_class (at_construction st) k s in
    let* l := push_back 0 k (me_classes s) in
    Ok (set_classes s l).

  (* ~use_class_aux(), core.hpp:372-374. *)
  Definition destroy_class (k : nat) (s : memory) : outcome memory :=
    let* l := remove 0 k (me_classes s) in
    Ok (set_classes s l).

  (* method(), core.hpp:2392-2410.  The member [overriders] has a defaulted constructor
     (static_list.hpp:19, 211), which leaves it as it is. *)
  Definition construct_method (st : N -> N) (k : nat) (s : memory) : outcome memory :=
    let s := resolve_method (at_construction st) k s in
    let* l := push_back 0 k (me_methods s) in
    Ok (set_methods s l).

  (* ~method(), core.hpp:2427-2430. *)
  Definition destroy_method (k : nat) (s : memory) : outcome memory :=
    let* l := remove 0 k (me_methods s) in
    Ok (set_methods s l).

  (* override_impl(), core.hpp:2733-2785. *)
  Definition construct_overrider (st : N -> N) (k : nat) (s : memory) : outcome memory :=
    let m := fst (so_overrider S k) in
    match me_owner s k with
    | Some m' => let* _ := assert_ (bool_decide (m' = m)) in Ok s
    | None =>
        let s := set_owner s k m in
        let s := resolve_overrider (at_construction st) k s in
        let* l := push_back m k (me_overriders s) in
        Ok (set_overriders s l)
    end.

  (* ~overrider_info(), preamble.hpp:356-358.  It uses the storage of the method, which
     may have been destroyed. *)
  Definition destroy_overrider (k : nat) (s : memory) : outcome memory :=
    let* m := deref (me_owner s k) in
    let* l := remove m k (me_overriders s) in
    Ok (set_overriders s l).

  (* The calls of resolve_type_ids made by initialize(), in order: the classes
     (initialize.hpp:545-548), then each method followed by its overriders
     (initialize.hpp:711-714, 772-776). *)
  Definition resolutions (fuel : nat) (s : memory) : outcome (list registrar) :=
    let* cs := elements fuel 0 (me_classes s) in
    let* ms := elements fuel 0 (me_methods s) in
    let* os := mapM (fun k =>
      let* l := elements fuel k (me_overriders s) in Ok (RMethod k :: map ROverrider l)) ms in
    Ok (map RClass cs ++ concat os).

  (* initialize.hpp:546-548, 712-714, 773-776. *)
  Definition resolve_ids (st : N -> N) (s : memory) (o : registrar) : memory :=
    match o with
    | RClass k => resolve_class st k s
    | RMethod k => resolve_method st k s
    | ROverrider k => resolve_overrider st k s
    end.

  (* An initialize() that stops after [n] calls of resolve_type_ids.
     initialize.hpp:546-548, 712-714, 773-776. *)
  Definition attempt (fuel : nat) (st : N -> N) (n : nat) (s : memory) : outcome memory :=
    if deferred then
      let* os := resolutions fuel s in
      Ok (foldl (resolve_ids st) s (take n os))
    else Ok s.

  (* The same in initialize(), which reads each object just after.
     initialize.hpp:546-548, 712-714, 773-776. *)
  Definition at_initialize (st : N -> N) (o : registrar) (s : memory) : memory :=
    if deferred then resolve_ids st s o else s.

  (* cr.type, cr.first_base, cr.last_base, initialize.hpp:556, 578. *)
  Definition read_class (s : memory) (k : nat) : outcome class_record :=
    let* c := deref (me_class s k) in
    let* bases := deref (me_bases s (so_bases S k)) in
    Ok (ClassRecord (cr_type c) bases (cr_abstract c) (cr_static_vptr c)).

  (* One iteration of the first loop of augment_classes, initialize.hpp:545-569. *)
  Definition visit_class (E : env) (st : N -> N) (k : nat)
      (a : memory * (list class_entry * class_map)) : outcome (memory * (list class_entry * class_map)) :=
    let s := at_initialize st (RClass k) (fst a) in
    let* cr := read_class s k in
    Ok (s, add_class (e_ti E) (snd a) cr).

  (* augment_classes, initialize.hpp:535-673, reading the objects. *)
  Definition augment_classes_objects (E : env) (fuel : nat) (st : N -> N) (s : memory) :
      outcome (memory * graph) :=
    let* ks := elements fuel 0 (me_classes s) in
    let* '(s, (cs, cm)) := foldM (visit_class E st) ks (s, ([], fun _ => None)) in
    let n := length cs in
    let* w := foldM (fun k w => let* cr := read_class s k in collect_record E n cm cr w)
                ks (Walk (fun _ => []) (fun _ => 0) 0) in
    let w := dedup_all n w in
    let '(w, db) := direct_all E n w in
    let dd := derived_all n db in
    let* td := transitive_derived_all E n dd in
    Ok (s, Graph cs cm (wk_tb w) db dd td (wk_mark w) (wk_class_mark w)).

  (* A loop that fills a vector.  initialize.hpp:711-832, 772-829. *)
  Fixpoint mapS {A B} (f : A -> memory -> outcome (memory * B)) (l : list A) (s : memory) :
      outcome (memory * list B) :=
    match l with
    | [] => Ok (s, [])
    | x :: l =>
        let* '(s, y) := f x s in
        let* '(s, ys) := mapS f l s in
        Ok (s, y :: ys)
    end.

  (* One overrider, initialize.hpp:772-829. *)
  Definition visit_overrider (E : env) (st : N -> N) (cm : class_map) (cov : option nat) (k : nat)
      (s : memory) : outcome (memory * overrider) :=
    let s := at_initialize st (ROverrider k) s in
    let* o := deref (me_overrider s k) in
    let* o := augment_overrider E cm cov o in
    Ok (s, o).

  (* One method, initialize.hpp:711-832. *)
  Definition visit_method (E : env) (fuel : nat) (st : N -> N) (cm : class_map) (k : nat) (s : memory) :
      outcome (memory * cmethod) :=
    let s := at_initialize st (RMethod k) s in
    let* m := deref (me_method s k) in
    let* vp := mapM (find_class E cm) (mr_vp m) in
    let cov :=
      if decide (e_ti E (mr_return m) = e_ti E (e_void E)) then None
      else cm (e_ti E (mr_return m)) in
    let* os := elements fuel k (me_overriders s) in
    let* '(s, ovs) := mapS (visit_overrider E st cm cov) os s in
    Ok (s, CMethod vp cov ovs (mr_not_implemented m) (mr_ambiguous m) (mr_slots_strides m)).

  (* augment_methods, initialize.hpp:700-859, reading the objects. *)
  Definition augment_methods_objects (E : env) (fuel : nat) (st : N -> N) (g : graph) (s : memory) :
      outcome (memory * (list cmethod * vp_map)) :=
    let* ks := elements fuel 0 (me_methods s) in
    let* '(s, cms) := mapS (visit_method E fuel st (g_map g)) ks s in
    let* u := foldM (check_method g) (imap pair cms) (fun _ => []) in
    Ok (s, (cms, u)).

  (* compile, initialize.hpp:460-469, and initialize.  The memory after is not
     returned; an [Attempt] stands for what they do to it. *)
  Definition compile_objects (E : env) (n2216 : bool) (fuel : nat) (st : N -> N) (s : memory) :
      outcome compiled :=
    let* '(s, g) := augment_classes_objects E fuel st s in
    let* '(_, (ms, u)) := augment_methods_objects E fuel st g s in
    let* sl := assign_slots E g u in
    let* t := build_dispatch_tables E g n2216 ms sl in
    Ok (Compiled g ms sl t).

  (* initialize.hpp:473-477, 1611-1629. *)
  Definition initialize_objects (cf : config) (X : run) (n2216 : bool) (fuel : nat) (st : N -> N)
      (s : memory) (w : world) : world * outcome method_report :=
    match compile_objects (r_env X) n2216 fuel st s with
    | Ok cp => install cf X cp w
    | Err e => (w, Err e)
    | Undef => (w, Undef)
    | Diverge => (w, Diverge)
    end.

  (* The code cited for each function above, core.hpp:346-379, 2392-2430, 2733-2798. *)
  Definition registrar_step (fuel : nat) (ev : revent) (s : memory) : outcome memory :=
    match ev with
    | Construct st (RClass k) => construct_class st k s
    | Construct st (RMethod k) => construct_method st k s
    | Construct st (ROverrider k) => construct_overrider st k s
    | Destroy (RClass k) => destroy_class k s
    | Destroy (RMethod k) => destroy_method k s
    | Destroy (ROverrider k) => destroy_overrider k s
    | Attempt st n => attempt fuel st n s
    end.

  (* Any sequence of the above, core.hpp:346-379, 2392-2430, 2733-2798. *)
  Definition registrar_run (fuel : nat) (evs : list revent) (s : memory) : outcome memory :=
    foldM (registrar_step fuel) evs s.
End Registrars.
