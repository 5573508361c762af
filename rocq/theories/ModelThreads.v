(* Calls as sequences of reads of the variables of the library, for programs with several threads:
   core.hpp:528-554, 2222-2233, 2437-2578; preamble.hpp:1060-1070; vptr_vector.hpp:135-170;
   vptr_map.hpp:81-105; fast_perfect_hash.hpp:129-138, 250-262; and initialize() as a sequence of
   writes: initialize.hpp:473-477, 1294-1415.
   The locations are those of SpecReads.v.
   Simplified: an access to a vector includes that to its begin pointer, a search in a map is one
   access, and initialize() updates the variables of the same sort at once. *)
From stdpp Require Import base list numbers.
From Verif Require Import Base Registry ModelClasses ModelMethods ModelTables ModelHash ModelWorld ModelCall
  ModelErrors SpecReads.

(* What a thread does next.  [Look]: initialize() reads variables that only initialize() writes.
   [Update]: it writes the locations [ls].  E.g. core.hpp:2498, initialize.hpp:1414. *)
Inductive code (A : Type) : Type :=
  | Done (o : outcome A)
  | Read (l : location) (k : cell -> code A)
  | Look (k : world -> code A)
  | Update (ls : location -> bool) (f : world -> world) (k : code A).
Arguments Done {A} o.
Arguments Read {A} l k.
Arguments Look {A} k.
Arguments Update {A} ls f k.

(* One after the other; errors end the function (their handlers do not return, ModelErrors.v),
   e.g. core.hpp:2462-2466. *)
Fixpoint then_ {A B} (c : code A) (f : A -> code B) : code B :=
  match c with
  | Done (Ok x) => f x
  | Done (Err e) => Done (Err e)
  | Done Undef => Done Undef
  | Done Diverge => Done Diverge
  | Read l k => Read l (fun c => then_ (k c) f)
  | Look k => Look (fun w => then_ (k w) f)
  | Update ls u k => Update ls u (then_ k f)
  end.
Notation "'do*' x := c1 'in' c2" := (then_ c1 (fun x => c2))
  (at level 200, x name, c1 at level 100, c2 at level 200, right associativity).

(* slots_strides[k], core.hpp:2498, 2516, 2547-2548. *)
Definition get_slot (a k : nat) : code nat :=
  Read (LSlotStride a k) (fun c => match c with CNat (Some n) => Done (Ok n) | _ => Done Undef end).

(* vp[i], core.hpp:2498, 2522, 2549, 2553. *)
Definition get_word (v : vptr) (i : nat) : code word :=
  match v with
  | VNull => Done Undef
  | VPtr b off =>
      if decide (off + Z.of_nat i < 0)%Z then Done Undef
      else Read (LWord b (Z.to_nat (off + Z.of_nat i)))
             (fun c => match c with CWord (Some x) => Done (Ok x) | _ => Done Undef end)
  end.

(* require_initialized, preamble.hpp:1060-1070. *)
Definition get_initialized (cf : config) : code unit :=
  if cf_checks cf then
    Read LInitialized (fun c => match c with
      | CFlag true => Done (Ok tt) | CFlag false => Done (Err ENotInitialized) | _ => Done Undef end)
  else Done (Ok tt).

(* A number of the hash policy, fast_perfect_hash.hpp:76-79, 131, 251-252. *)
Definition get_number (l : location) : code N :=
  Read l (fun c => match c with CN (Some n) => Done (Ok n) | _ => Done Undef end).

(* hash and check, fast_perfect_hash.hpp:129-138, 250-262; vptr_vector.hpp:137-141. *)
Definition get_index (cf : config) (t : N) : code N :=
  if cf_hash cf then
    do* mult := get_number LMult in
    do* shift := get_number LShift in
    let index := hash_index mult shift t in
    if cf_checks cf then
      do* min := get_number LMin in
      if decide (index < min)%N then Done (Err (EMissingClass t)) else
      do* max := get_number LMax in
      if decide (max < index)%N then Done (Err (EMissingClass t)) else
      do* b := get_number (LControl (N.to_nat index)) in
      if decide (b = t) then Done (Ok index) else Done (Err (EMissingClass t))
    else Done (Ok index)
  else Done (Ok t).

(* size(), vptr_vector.hpp:146-151. *)
Definition get_size (cf : config) : code nat :=
  Read (if cf_indirect cf then LIndirectSize else LVectorSize)
    (fun c => match c with CNat (Some n) => Done (Ok n) | _ => Done Undef end).

(* dynamic_vptr, vptr_vector.hpp:135-170, vptr_map.hpp:81-105. *)
Definition get_dynamic (cf : config) (t : N) : code vref :=
  match cf_vptr cf with
  | VptrVector =>
      do* index := get_index cf t in
      let i := N.to_nat index in
      let element :=
        if cf_indirect cf then
          Read (LIndirect i) (fun c => match c with
            | CAddress (Some (Some loc)) => Done (Ok (RStatic loc)) | _ => Done Undef end)
        else
          Read (LVector i) (fun c => match c with
            | CVptr (Some v) => Done (Ok (RElem v)) | _ => Done Undef end) in
      if cf_hash cf then element
      else if cf_checks cf then
        do* n := get_size cf in
        if decide (n <= i) then Done (Err (EMissingClass t)) else element
      else element
  | VptrMap =>
      Read (LMap t) (fun c => match c with
        | CEntry (Some r) => Done (Ok r)
        | CEntry None => if cf_checks cf then Done (Err (EMissingClass t)) else Done Undef
        | _ => Done Undef end)
  | VptrNone => Done Undef
  end.

(* acquire_vptr, core.hpp:528-537. *)
Definition get_acquire (cf : config) (t : N) : code vref :=
  do* _ := get_initialized cf in get_dynamic cf t.

(* A reference to a v-table pointer is read, core.hpp:2475-2482; unbox_vptr, 548-554. *)
Definition get_value (r : vref) : code vptr :=
  match r with
  | RStatic loc => Read (LStatic loc) (fun c => match c with
      | CVptr (Some v) => Done (Ok v) | _ => Done Undef end)
  | RElem v => Done (Ok v)
  end.

(* An argument: a virtual_ptr has a v-table pointer, or with indirect_vptr the address of one,
   core.hpp:539-554. *)
Inductive targ :=
  | TObject (t : N)
  | TPtr (r : vref) (t : N)
  | TOther (t : N).

(* The argument of the dispatch code (ModelCall.v) that it is, core.hpp:2475-2482, 548-554. *)
Definition unboxed (w : world) (a : targ) : arg :=
  match a with
  | TObject t => AObject t
  | TPtr r t => APtr (vref_value w r) t
  | TOther t => AOther t
  end.

(* is_virtual<...>, core.hpp:2496, 2515, 2545. *)
Definition is_virtual_targ (a : targ) : bool :=
  match a with TOther _ => false | _ => true end.

(* method::vptr, core.hpp:2475-2482. *)
Definition get_vptr (cf : config) (a : targ) : code vptr :=
  match a with
  | TObject t => do* r := get_acquire cf t in get_value r
  | TPtr r _ => get_value r
  | TOther _ => Done Undef
  end.

(* resolve_uni, core.hpp:2488-2502. *)
Fixpoint get_uni (cf : config) (ss : nat) (args : list targ) : code word :=
  match args with
  | [] => Done Undef
  | a :: args =>
      if is_virtual_targ a then
        do* vtbl := get_vptr cf a in
        do* slot := get_slot ss 0 in
        get_word vtbl slot
      else get_uni cf ss args
  end.

(* word::pf, word::pw, word::i (preamble.hpp:23-36), pointer arithmetic: ModelCall.v. *)
Definition get_done {A} (o : outcome A) : code A := Done o.

(* resolve_multi_next, core.hpp:2538-2559. *)
Fixpoint get_multi_next (cf : config) (ss : nat) (arity va : nat) (dispatch : vptr) (args : list targ) :
    code word :=
  match args with
  | [] => Done Undef
  | a :: args =>
      do* dispatch :=
        (if is_virtual_targ a then
           do* vtbl := get_vptr cf a in
           do* slot := get_slot ss va in
           do* stride := get_slot ss (arity + va - 1) in
           do* x := get_word vtbl slot in
           do* i := get_done (word_i x) in
           get_done (vptr_add dispatch (i * stride))
         else Done (Ok dispatch)) in
      if decide (va + 1 = arity) then get_word dispatch 0
      else get_multi_next cf ss arity (va + 1) dispatch args
  end.

(* resolve_multi_first, core.hpp:2508-2530. *)
Fixpoint get_multi_first (cf : config) (ss : nat) (arity : nat) (args : list targ) : code word :=
  match args with
  | [] => Done Undef
  | a :: args =>
      if is_virtual_targ a then
        do* vtbl := get_vptr cf a in
        do* slot := get_slot ss 0 in
        do* x := get_word vtbl slot in
        do* dispatch := get_done (word_pw x) in
        get_multi_next cf ss arity 1 dispatch args
      else get_multi_first cf ss arity args
  end.

(* resolve, core.hpp:2453-2470. *)
Definition get_resolve (cf : config) (m : method_record) (args : list targ) : code fptr :=
  let arity := length (mr_vp m) in
  do* _ := get_initialized cf in
  do* x := (if decide (arity = 1) then get_uni cf (mr_slots_strides m) args
            else get_multi_first cf (mr_slots_strides m) arity args) in
  get_done (word_pf x).

(* The function that is entered, or one of the stubs, core.hpp:2437-2446, 2583-2614. *)
Definition enter (mid : N) (m : method_record) (args : list targ) (w : world) (f : fptr) :
    outcome call_result :=
  let args := map (unboxed w) args in
  if decide (f = mr_not_implemented m)
  then Err (ENoOverrider mid (bad_call_arity args) (bad_call_types args))
  else if decide (f = mr_ambiguous m)
  then Err (EAmbiguousCall mid (bad_call_arity args) (bad_call_types args))
  else Ok (Calls f).

(* next<Fn>, core.hpp:2222-2233, 2571-2574. *)
Definition get_next (loc : nat) : code (option fptr) :=
  Read (LNext loc) (fun c => match c with CFunction f => Done (Ok f) | _ => Done Undef end).

(* ---- initialize() ---- *)

(* The writes to slots_strides, next and static_vptr, initialize.hpp:1315-1406. *)
Definition set_tables (wr : written) (w : world) : world :=
  World (w_heap w) (S (w_fresh w)) (w_data w) (wr_static wr) (wr_ss wr) (wr_next wr)
    (w_vec w) (w_ivec w) (w_map w) (w_hash w) (w_initialized w).
(* fast_perfect_hash.hpp:102-113, 166-247. *)
Definition set_hash (h : hash_state) (w : world) : world :=
  World (w_heap w) (w_fresh w) (w_data w) (w_static w) (w_ss w) (w_next w)
    (w_vec w) (w_ivec w) (w_map w) h (w_initialized w).
(* vptr_vector.hpp:88-114. *)
Definition set_vectors (v : list vptr * list (option nat)) (w : world) : world :=
  World (w_heap w) (w_fresh w) (w_data w) (w_static w) (w_ss w) (w_next w)
    (fst v) (snd v) (w_map w) (w_hash w) (w_initialized w).
(* vptr_map.hpp:46-64. *)
Definition set_map (m : list (N * vref)) (w : world) : world :=
  World (w_heap w) (w_fresh w) (w_data w) (w_static w) (w_ss w) (w_next w)
    (w_vec w) (w_ivec w) m (w_hash w) (w_initialized w).
(* new_dispatch_data.swap(dispatch_data), initialize.hpp:1414; the old words are freed. *)
Definition set_data (buf : nat) (ws : list word) (w : world) : world :=
  let heap := upd (w_heap w) buf (Some ws) in
  let heap := match w_data w with Some old => upd heap old None | None => heap end in
  World heap (w_fresh w) (Some buf) (w_static w) (w_ss w) (w_next w)
    (w_vec w) (w_ivec w) (w_map w) (w_hash w) (w_initialized w).
(* initialized = true, initialize.hpp:475. *)
Definition set_initialized (w : world) : world :=
  World (w_heap w) (w_fresh w) (w_data w) (w_static w) (w_ss w) (w_next w)
    (w_vec w) (w_ivec w) (w_map w) (w_hash w) true.

(* What these write, see above: initialize.hpp:473-477, 1294-1415. *)
Definition in_tables (l : location) : bool :=
  match l with LSlotStride _ _ | LNext _ | LStatic _ => true | _ => false end.
(* fast_perfect_hash.hpp:76-79, 102-113. *)
Definition in_hash (l : location) : bool :=
  match l with LMult | LShift | LMin | LMax | LControl _ => true | _ => false end.
(* vptr_vector.hpp:88-114. *)
Definition in_vectors (l : location) : bool :=
  match l with LVector _ | LVectorSize | LIndirect _ | LIndirectSize => true | _ => false end.
(* vptr_map.hpp:46-64. *)
Definition in_map (l : location) : bool := match l with LMap _ => true | _ => false end.
(* initialize.hpp:1414. *)
Definition in_data (l : location) : bool := match l with LWord _ _ => true | _ => false end.
(* initialize.hpp:475. *)
Definition in_flag (l : location) : bool := match l with LInitialized => true | _ => false end.

(* initialize(), initialize.hpp:473-477, 1294-1415. *)
Definition put_initialize (cf : config) (X : run) (n2216 : bool) (R : registrations) :
    code method_report :=
  match compile (r_env X) n2216 R with
  | Ok cp => Look (fun w =>
      let buf := w_fresh w in
      match write_tables buf cp w with
      | Ok wr =>
          let finish :=
            Update in_data (set_data buf (wr_words wr))
              (Update in_flag set_initialized (Done (Ok (tb_report (cp_tables cp))))) in
          Update in_tables (set_tables wr)
            match cf_vptr cf with
            | VptrVector => Look (fun w =>
                match vector_initialize cf (r_rnd X) (cp_graph cp) (wr_static wr) w with
                | Ok (h, inl v) => Update in_hash (set_hash h) (Update in_vectors (set_vectors v) finish)
                | Ok (h, inr e) => Update in_hash (set_hash h) (Done (Err e))
                | Err e => Done (Err e)
                | Undef => Done Undef
                | Diverge => Done Diverge
                end)
            | VptrMap =>
                Update in_map (set_map (map_initialize cf (cp_graph cp) (wr_static wr))) finish
            | VptrNone => finish
            end
      | Err e => Done (Err e)
      | Undef => Done Undef
      | Diverge => Done Diverge
      end)
  | Err e => Done (Err e)
  | Undef => Done Undef
  | Diverge => Done Diverge
  end.

(* What a thread may do with the library, core.hpp:2437-2446 (a call), 2222-2233 (next), 2568-2578
   (has_next), 528-537 and 539-546 (a virtual_ptr is made of an object of this dynamic type),
   initialize.hpp:1611-1629. *)
Inductive op :=
  | OpCall (mid : N) (m : method_record) (args : list targ)
  | OpNext (mid : N) (m : method_record) (loc : nat) (args : list targ)
  | OpHasNext (m : method_record) (loc : nat)
  | OpPoint (t : N)
  | OpInitialize (X : run) (n2216 : bool) (R : registrations).

(* What it gets, see above: core.hpp:2437-2446, 2222-2233, 2568-2578, 539-546. *)
Inductive answer :=
  | Called (r : call_result)
  | Has (b : bool)
  | Pointed (r : vref)
  | Initialized (r : method_report).

(* The values in the errors are those of the arguments, which no location holds: any world will do
   for [enter].  core.hpp:1979-1985.  box_vptr, core.hpp:539-546: with indirect_vptr the address. *)
Definition get_op (cf : config) (o : op) : code answer :=
  match o with
  | OpCall mid m args =>
      do* f := get_resolve cf m args in
      do* r := get_done (enter mid m args world0 f) in Done (Ok (Called r))
  | OpNext mid m loc args =>
      do* f := get_next loc in
      do* f := get_done (deref f) in
      do* r := get_done (enter mid m args world0 f) in Done (Ok (Called r))
  | OpHasNext m loc =>
      do* f := get_next loc in
      if decide (f = Some (mr_not_implemented m)) then Done (Ok (Has false)) else
      do* f := get_next loc in
      Done (Ok (Has (negb (bool_decide (f = Some (mr_ambiguous m))))))
  | OpPoint t =>
      do* r := get_acquire cf t in
      if cf_indirect cf then Done (Ok (Pointed r))
      else do* v := get_value r in Done (Ok (Pointed (RElem v)))
  | OpInitialize X n2216 R =>
      do* r := put_initialize cf X n2216 R in Done (Ok (Initialized r))
  end.

(* A thread on its own, e.g. core.hpp:2437-2446. *)
Fixpoint run_code {A} (c : code A) (w : world) : world * outcome A :=
  match c with
  | Done o => (w, o)
  | Read l k => run_code (k (contents w l)) w
  | Look k => run_code (k w) w
  | Update _ f k => run_code k (f w)
  end.
