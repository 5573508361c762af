(* The static storage of a registry, the vptr policies, write_global_data and the
   life cycle of a registry.
   initialize.hpp:447-477, 1294-1415, 1611-1657; preamble.hpp:922-1070;
   policies/vptr_vector.hpp, policies/vptr_map.hpp; core.hpp:528-537. *)
From stdpp Require Import base list numbers.
From Verif Require Import Base Registry ModelClasses ModelMethods ModelSlots
  ModelTables ModelHash.

(* vptr_type: a pointer into a dispatch_data buffer, with provenance.  The offset
   may be negative: the code stores [gv_iter - first_slot].
   vptr_type, preamble.hpp:43; initialize.hpp:1370. *)
Inductive vptr :=
  | VNull
  | VPtr (buf : nat) (off : Z).

Global Instance vptr_eq_dec : EqDecision vptr.
Proof. solve_decision. Defined.

(* detail::word (preamble.hpp:23-36), with the member that was written. *)
Inductive word :=
  | WZero                      (* value-initialised *)
  | WPf (f : fptr)
  | WPw (p : vptr)
  | WIdx (i : nat).

(* A [const vptr_type&]: the variable static_vptr of a class (identified by its
   address), or an element of a policy's container, with its value.
   acquire_vptr and dynamic_vptr return one: core.hpp:528-537, vptr_vector.hpp:135, vptr_map.hpp:81. *)
Inductive vref :=
  | RStatic (loc : nat)
  | RElem (v : vptr).

(* Which policies a registry has.
   vptr_vector.hpp, vptr_map.hpp, or none; preamble.hpp:1008-1040. *)
Inductive vptr_kind := VptrVector | VptrMap | VptrNone.
(* preamble.hpp:1008-1040; vptr_vector.hpp:51-53. *)
Record config := Config {
  cf_vptr : vptr_kind;
  cf_hash : bool;              (* a type_hash policy: fast_perfect_hash *)
  cf_indirect : bool;          (* indirect_vptr *)
  cf_checks : bool             (* runtime_checks *)
}.

(* preamble.hpp:923-932, 962, 1043-1057; core.hpp:2280, 2371-2375; vptr_vector.hpp:18-22; vptr_map.hpp:36; fast_perfect_hash.hpp:76-79. *)
Record world := World {
  w_heap : nat -> option (list word);   (* live dispatch_data buffers *)
  w_fresh : nat;                        (* next buffer to allocate *)
  w_data : option nat;                  (* registry::dispatch_data; None: empty *)
  w_static : nat -> vptr;               (* static_vptr variables *)
  w_ss : nat -> list nat;               (* slots_strides arrays *)
  w_next : nat -> option fptr;          (* next<Fn> variables; None: null *)
  w_vec : list vptr;                    (* vptr_vector_vptrs *)
  w_ivec : list (option nat);           (* vptr_vector_indirect_vptrs *)
  w_map : list (N * vref);              (* vptr_map::fn::vptrs *)
  w_hash : hash_state;
  w_initialized : bool
}.

(* Static storage is zero-initialised.  preamble.hpp:1043-1057; core.hpp:2280, 2371-2375;
   vptr_vector.hpp:18-22; vptr_map.hpp:36; fast_perfect_hash.hpp:76-79. *)
Definition world0 : world :=
  World (fun _ => None) 0 None (fun _ => VNull) (fun _ => []) (fun _ => None)
    [] [] [] hash_state0 false.

(* [vp[i]].  core.hpp:2498, 2523, 2549, 2553. *)
Definition read_word (w : world) (vp : vptr) (i : nat) : outcome word :=
  match vp with
  | VNull => Undef
  | VPtr buf off =>
      let* ws := deref (w_heap w buf) in
      let a := (off + Z.of_nat i)%Z in
      if decide (a < 0)%Z then Undef else at_ ws (Z.to_nat a)
  end.

(* ------------------------------------------------------------------------- *)
(* write_global_data, initialize.hpp:1294-1415 *)

(* [*gv_iter++ = x].  initialize.hpp:1338-1340, 1388, 1397-1400. *)
Definition put (x : word) (s : list word * nat) : outcome (list word * nat) :=
  let '(ws, it) := s in
  if decide (it < length ws) then Ok (<[it := x]> ws, S it) else Undef.

(* spec->pf, initialize.hpp:1340, 1358, 1388, set at 762, 765, 805. *)
Definition target_pf (m : cmethod) (t : target) : outcome fptr :=
  match t with
  | TNotImplemented => Ok (m_ni m)
  | TAmbiguous => Ok (m_amb m)
  | TOverrider i => let* o := at_ (m_ovs m) i in Ok (ov_pf o)
  end.

(* All that the compilation stage produces (compile(), initialize.hpp:460-469). *)
Record compiled := Compiled {
  cp_graph : graph;
  cp_methods : list cmethod;
  cp_slots : slot_state;
  cp_tables : tables
}.

(* compile(), initialize.hpp:460-469. *)
Definition compile (E : env) (n2216 : bool) (R : registrations) : outcome compiled :=
  let* g := augment_classes E (reg_classes R) in
  let* '(ms, u) := augment_methods E g (reg_methods R) in
  let* s := assign_slots E g u in
  let* t := build_dispatch_tables E g n2216 ms s in
  Ok (Compiled g ms s t).

(* Per-method slots: m.slots, for parameters 0 .. arity-1.
   initialize.hpp:160, 723, 1318, 1320-1321. *)
Definition method_slots (s : slot_state) (mi : nat) (m : cmethod) : list nat :=
  map (s_slots s mi) (seq 0 (length (m_vp m))).

(* The variables of write_global_data, initialize.hpp:1308-1311, 1336. *)
Record gv_state := GvState {
  gv_words : list word;
  gv_iter : nat;
  gv_ss : nat -> list nat;          (* slots_strides arrays *)
  gv_tables : list nat              (* gv_dispatch_table of the methods done *)
}.

(* One method, initialize.hpp:1315-1342.  The slots_strides array has
   2*arity - 1 elements (core.hpp:2280) and is filled entirely.  For a
   uni-method gv_dispatch_table stays null and is never used; 0 is recorded. *)
Definition write_method (s : slot_state) (imt : nat * (cmethod * table))
    (st : gv_state) : outcome gv_state :=
  let '(mi, (m, t)) := imt in
  let slots := method_slots s mi m in
  if decide (length (m_vp m) = 1) then
    let* slot := at_ slots 0 in
    Ok (GvState (gv_words st) (gv_iter st) (upd (gv_ss st) (m_ss m) [slot])
          (gv_tables st ++ [0]))
  else
    let ss := slots ++ t_strides t in
    if decide (length ss <= 2 * length (m_vp m) - 1) then
      let* '(ws, it) :=
        foldM (fun c a => let* pf := target_pf m (cl_target c) in put (WPf pf) a)
          (t_cells t) (gv_words st, gv_iter st) in
      Ok (GvState ws it (upd (gv_ss st) (m_ss m) ss) (gv_tables st ++ [gv_iter st]))
    else Undef.

(* Next pointers, initialize.hpp:1346-1365. *)
Definition write_next (mt : cmethod * table) (next : nat -> option fptr) :
    outcome (nat -> option fptr) :=
  let '(m, t) := mt in
  foldM (fun (io : nat * overrider) nx =>
      match final_next (t_cells t) (fst io) with
      | None => Ok nx
      | Some tg => let* pf := target_pf m tg in Ok (upd nx (ov_next (snd io)) (Some pf))
      end) (imap pair (m_ovs m)) next.

(* One v-table entry, initialize.hpp:1377-1402. *)
Definition write_entry (buf : nat) (mts : list (cmethod * table)) (gvt : list nat)
    (e : vtbl_entry) (a : list word * nat) : outcome (list word * nat) :=
  let* '(m, t) := at_ mts (ve_method e) in
  if decide (length (m_vp m) = 1) then
    let* c := at_ (t_cells t) (ve_group e) in
    let* pf := target_pf m (cl_target c) in
    put (WPf pf) a
  else if decide (ve_vp e = 0) then
    let* gv := at_ gvt (ve_method e) in
    put (WPw (VPtr buf (Z.of_nat (gv + ve_group e)))) a
  else put (WIdx (ve_group e)) a.

(* One class, initialize.hpp:1369-1406. *)
Definition write_class (buf : nat) (cp : compiled) (mts : list (cmethod * table))
    (gvt : list nat) (ce : nat * class_entry)
    (st : list word * nat * (nat -> vptr)) : outcome (list word * nat * (nat -> vptr)) :=
  let '(ws, it, stat) := st in
  let '(c, e) := ce in
  let stat := upd stat (ce_static_vptr e)
      (VPtr buf (Z.of_nat it - Z.of_nat (s_first (cp_slots cp) c))) in
  let* '(ws, it) :=
    foldM (write_entry buf mts gvt) (tb_vtbl (cp_tables cp) c) (ws, it) in
  Ok (ws, it, stat).

(* std::accumulate, initialize.hpp:1298-1306. *)
Definition sum (l : list nat) : nat := foldl Nat.add 0 l.

(* Size computation, initialize.hpp:1298-1306. *)
Definition data_size (cp : compiled) : nat :=
  sum (map (fun t => length (t_cells t)) (tb_tables (cp_tables cp))) +
  sum (map (fun c => length (tb_vtbl (cp_tables cp) c)) (seq 0 (g_n (cp_graph cp)))).

(* Everything up to the call to vptr::initialize, initialize.hpp:1298-1408. *)
Record written := Written {
  wr_words : list word;
  wr_static : nat -> vptr;
  wr_ss : nat -> list nat;
  wr_next : nat -> option fptr
}.

(* initialize.hpp:1298-1408. *)
Definition write_tables (buf : nat) (cp : compiled) (w : world) : outcome written :=
  let mts := zip (cp_methods cp) (tb_tables (cp_tables cp)) in
  let* st := foldM (write_method (cp_slots cp)) (imap pair mts)
               (GvState (repeat WZero (data_size cp)) 0 (w_ss w) []) in
  let* next := foldM write_next mts (w_next w) in
  let* '(ws, it, stat) :=
    foldM (write_class buf cp mts (gv_tables st)) (imap pair (g_classes (cp_graph cp)))
      (gv_words st, gv_iter st, w_static w) in
  Ok (Written ws stat (gv_ss st) next).

(* ------------------------------------------------------------------------- *)
(* vptr policies *)

(* The loops over the type ids of all the classes, vptr_vector.hpp:77-83, 94-97; fast_perfect_hash.hpp:208-210. *)
Definition all_type_ids (g : graph) : list N := flat_map ce_type_ids (g_classes g).

(* index of a type id: hashed or not, vptr_vector.hpp:98-104, 137-141. *)
Definition vector_index (cf : config) (h : hash_state) (t : N) : outcome N :=
  if cf_hash cf then hash_type (cf_checks cf) h t else Ok t.

(* vptr_vector::initialize, second part, vptr_vector.hpp:88-114.
   [class_::vptr()] dereferences static_vptr. *)
Definition store_vptr (cf : config) (stat : nat -> vptr) (h : hash_state)
    (e : class_entry) (t : N) (v : list vptr * list (option nat)) :
    outcome (list vptr * list (option nat)) :=
  let '(vec, ivec) := v in
  let* index := vector_index cf h t in
  let i := N.to_nat index in
  if cf_indirect cf then
    if decide (i < length ivec)
    then Ok (vec, <[i := Some (ce_static_vptr e)]> ivec) else Undef
  else
    if decide (i < length vec)
    then Ok (<[i := stat (ce_static_vptr e)]> vec, ivec) else Undef.

(* The loop over the type ids of one class, vptr_vector.hpp:94-114. *)
Definition store_class (cf : config) (stat : nat -> vptr) (h : hash_state)
    (e : class_entry) (v : list vptr * list (option nat)) :
    outcome (list vptr * list (option nat)) :=
  foldM (store_vptr cf stat h e) (ce_type_ids e) v.

(* vptr_vector::initialize, vptr_vector.hpp:66-115.  Returns the new hash state,
   and the containers or the error of the hash search. *)
Definition vector_initialize (cf : config) (rnd : N -> N) (g : graph)
    (stat : nat -> vptr) (w : world) :
    outcome (hash_state * (list vptr * list (option nat) + error)) :=
  let types := all_type_ids g in
  let* '(h, size) :=
    (if cf_hash cf then
       let* '(h, e) := hash_initialize rnd (cf_checks cf) (N.of_nat (g_n g)) types (w_hash w) in
       match e with
       | None => Ok (h, inl ((h_max h + 1) mod word_size)%N)
       | Some e => Ok (h, inr e)
       end
     else Ok (w_hash w, inl ((foldl N.max 0 types + 1) mod word_size)%N)) in
  match size with
  | inr e => Ok (h, inr e)
  | inl size =>
      let vec := if cf_indirect cf then w_vec w
                 else resize (N.to_nat size) VNull (w_vec w) in
      let ivec := if cf_indirect cf then resize (N.to_nat size) None (w_ivec w)
                  else w_ivec w in
      let* v := foldM (store_class cf stat h) (g_classes g) (vec, ivec) in
      Ok (h, inl v)
  end.

(* vptr_map::initialize, vptr_map.hpp:46-64.  emplace does not overwrite. *)
Definition map_find (m : list (N * vref)) (t : N) : option vref :=
  snd <$> (list_find (fun p => fst p = t) m ≫= fun ip => Some (snd ip)).

(* vptr_map.hpp:55-59. *)
Definition map_emplace (m : list (N * vref)) (t : N) (r : vref) : list (N * vref) :=
  match map_find m t with Some _ => m | None => m ++ [(t, r)] end.

(* vptr_map.hpp:46-64. *)
Definition map_initialize (cf : config) (g : graph) (stat : nat -> vptr) :
    list (N * vref) :=
  foldl (fun m e =>
      foldl (fun m t =>
          map_emplace m t
            (if cf_indirect cf then RStatic (ce_static_vptr e)
             else RElem (stat (ce_static_vptr e))))
        m (ce_type_ids e))
    [] (g_classes g).

(* dynamic_vptr for an object of dynamic type [t]:
   vptr_vector.hpp:135-170, vptr_map.hpp:81-105. *)
Definition dynamic_vptr (cf : config) (w : world) (t : N) : outcome vref :=
  match cf_vptr cf with
  | VptrVector =>
      let* index := vector_index cf (w_hash w) t in
      let i := N.to_nat index in
      let max_index :=
        if cf_indirect cf then length (w_ivec w) else length (w_vec w) in
      if decide (cf_hash cf = false /\ cf_checks cf = true /\ max_index <= i)
      then Err (EMissingClass t)
      else if cf_indirect cf then
        let* p := at_ (w_ivec w) i in
        let* loc := deref p in
        Ok (RStatic loc)
      else
        let* v := at_ (w_vec w) i in
        Ok (RElem v)
  | VptrMap =>
      match map_find (w_map w) t with
      | Some r => Ok r
      | None => if cf_checks cf then Err (EMissingClass t) else Undef
      end
  | VptrNone => Undef      (* rejected at compile time *)
  end.

(* The value read from the reference, core.hpp:545, 2478-2480. *)
Definition vref_value (w : world) (r : vref) : vptr :=
  match r with RStatic loc => w_static w loc | RElem v => v end.

(* ------------------------------------------------------------------------- *)
(* Life cycle *)

(* Everything that makes one program run different from another.
   Addresses and the order of sets (ModelClasses), random numbers (fast_perfect_hash.hpp:177, 185, 206). *)
Record run := Run { r_env : env; r_rnd : N -> N }.

(* The part of initialize() that follows compile(), initialize.hpp:473-477 and
   1611-1629: the world after it, and its outcome. *)
Definition install (cf : config) (X : run) (cp : compiled) (w : world) :
    world * outcome method_report :=
  let buf := w_fresh w in
  match write_tables buf cp w with
  | Ok wr =>
      (* The new buffer is owned by the local vector new_dispatch_data:
         it is freed if vptr::initialize throws. *)
      let w1 := World (w_heap w) (S buf) (w_data w) (wr_static wr) (wr_ss wr)
                  (wr_next wr) (w_vec w) (w_ivec w) (w_map w) (w_hash w)
                  (w_initialized w) in
      let g := cp_graph cp in
      let commit h vec ivec map :=
        (* new_dispatch_data.swap(dispatch_data); the old buffer is freed *)
        let heap := upd (w_heap w) buf (Some (wr_words wr)) in
        let heap := match w_data w with
                    | Some old => upd heap old None | None => heap end in
        World heap (S buf) (Some buf) (wr_static wr) (wr_ss wr) (wr_next wr)
          vec ivec map h true in
      match cf_vptr cf with
      | VptrVector =>
          match vector_initialize cf (r_rnd X) g (wr_static wr) w1 with
          | Ok (h, inl (vec, ivec)) =>
              (commit h vec ivec (w_map w), Ok (tb_report (cp_tables cp)))
          | Ok (h, inr e) =>
              (World (w_heap w1) (w_fresh w1) (w_data w1) (w_static w1) (w_ss w1)
                 (w_next w1) (w_vec w1) (w_ivec w1) (w_map w1) h
                 (w_initialized w1), Err e)
          | Err e => (w1, Err e)
          | Undef => (w1, Undef)
          | Diverge => (w1, Diverge)
          end
      | VptrMap =>
          (commit (w_hash w) (w_vec w) (w_ivec w) (map_initialize cf g (wr_static wr)),
           Ok (tb_report (cp_tables cp)))
      | VptrNone =>
          (commit (w_hash w) (w_vec w) (w_ivec w) (w_map w),
           Ok (tb_report (cp_tables cp)))
      end
  | Err e => (w, Err e)
  | Undef => (w, Undef)
  | Diverge => (w, Diverge)
  end.

(* initialize(), initialize.hpp:473-477 and 1611-1629.  The world after the call,
   and its outcome; when the error handler throws, the program continues with
   that world.  The report is returned on success. *)
Definition initialize (cf : config) (X : run) (n2216 : bool) (R : registrations)
    (w : world) : world * outcome method_report :=
  match compile (r_env X) n2216 R with
  | Ok cp => install cf X cp w
  | Err e => (w, Err e)
  | Undef => (w, Undef)
  | Diverge => (w, Diverge)
  end.

(* finalize, initialize.hpp:1644-1657 with the finalize members of the policies:
   vptr_vector.hpp:178-186, vptr_map.hpp:113-115, fast_perfect_hash.hpp:146-148.
   dispatch_data.clear() destroys the words (the memory may be reused). *)
Definition finalize (cf : config) (w : world) : world :=
  let heap := match w_data w with
              | Some old => upd (w_heap w) old None | None => w_heap w end in
  let vec := match cf_vptr cf with
             | VptrVector => if cf_indirect cf then w_vec w else []
             | _ => w_vec w end in
  let ivec := match cf_vptr cf with
              | VptrVector => if cf_indirect cf then [] else w_ivec w
              | _ => w_ivec w end in
  let map := match cf_vptr cf with VptrMap => [] | _ => w_map w end in
  let h := if cf_hash cf then hash_finalize (w_hash w) else w_hash w in
  World heap (w_fresh w) None (w_static w) (w_ss w) (w_next w) vec ivec map h false.

(* require_initialized, preamble.hpp:1060-1070. *)
Definition require_initialized (cf : config) (w : world) : outcome unit :=
  if decide (cf_checks cf = true /\ w_initialized w = false)
  then Err ENotInitialized else Ok tt.

(* acquire_vptr through the vptr policy, core.hpp:528-537. *)
Definition acquire_vptr (cf : config) (w : world) (t : N) : outcome vref :=
  let* _ := require_initialized cf w in
  dynamic_vptr cf w t.
