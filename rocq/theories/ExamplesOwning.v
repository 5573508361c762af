(* A program that uses smart pointers and virtual_ptrs to them. *)
From stdpp Require Import base list numbers.
From Verif Require Import Base Registry ModelClasses ModelHash ModelWorld ModelCall ModelVirtualPtr
  ModelArguments SpecArguments ModelOwning SpecOwning ProofOwning ProofOwningSteps
  ExamplesModel ExamplesDispatch ExamplesVptr.

Definition w9 : world := state2 cf_map R_ids.
Definition em9 : nat -> option box := fun _ => None.

(* ---- a decision procedure for [allowed] ---- *)
Definition smartb (s : ostate) (x : nat) (k : ownership) : bool :=
  match look (os_heap s) x with Some (Content (HSmart k' _) None) => bool_decide (k' = k) | _ => false end.
Definition smart_vptrb (s : ostate) (x : nat) (k : ownership) : bool :=
  match look (os_heap s) x with Some (Content (HSmart k' _) (Some _)) => bool_decide (k' = k) | _ => false end.
Definition plain_vptrb (s : ostate) (x : nat) : bool :=
  match look (os_heap s) x with Some (Content (HRaw _) (Some _)) => true | _ => false end.

Lemma smartb_spec s x k : smartb s x k = true -> smart s x k.
Proof.
  unfold smartb, smart. destruct (look (os_heap s) x) as [[[v|p|k' p] [vp|]]|]; try discriminate.
  intros ->%bool_decide_eq_true. eauto.
Qed.
Lemma smart_vptrb_spec s x k : smart_vptrb s x k = true -> smart_vptr s x k.
Proof.
  unfold smart_vptrb, smart_vptr. destruct (look (os_heap s) x) as [[[v|p|k' p] [vp|]]|]; try discriminate.
  intros ->%bool_decide_eq_true. eauto.
Qed.
Lemma plain_vptrb_spec s x : plain_vptrb s x = true -> plain_vptr s x.
Proof.
  unfold plain_vptrb, plain_vptr. destruct (look (os_heap s) x) as [[[v|p|k' p] [vp|]]|]; try discriminate. eauto.
Qed.

Definition null (s : ostate) (x : nat) : bool := match points s x with None => true | _ => false end.
Definition shared_kind (k : ownership) : bool := match k with Unique => false | _ => true end.
Definition searchedb (w : world) (s : ostate) (via : bool) (o : nat) : bool :=
  match acquire cf_map w via (Object (nth o (os_types s) 0%N) (em9 o)) with Ok _ | Err _ => true | _ => false end.
Definition foundb (w : world) (s : ostate) (via : bool) (q : nat) : bool :=
  match points s q with Some o => searchedb w s via o | None => true end.

Lemma searchedb_spec w s via o : searchedb w s via o = true -> searched cf_map w em9 s via o.
Proof. unfold searchedb, searched. destruct (acquire _ _ _ _); now split. Qed.
Lemma foundb_spec w s via q : foundb w s via q = true -> found cf_map w em9 s via q.
Proof. unfold foundb. intros H o Ho. rewrite Ho in H. now apply searchedb_spec. Qed.
Lemma shared_kind_spec k : shared_kind k = true -> k <> Unique.
Proof. now destruct k. Qed.
Lemma null_spec s x : null s x = false -> points s x <> None.
Proof. unfold null. now destruct (points s x). Qed.

Definition some_kind (f : ownership -> bool) : bool := f Shared || f Unique || f Intrusive.
Lemma some_kind_spec f : some_kind f = true -> exists k, f k = true.
Proof. unfold some_kind. rewrite !orb_true_iff. intros [[H|H]|H]; eauto. Qed.

Definition allowedb (w : world) (s : ostate) (op : own_op) : bool :=
  match op with
  | OCreate _ _ | OMake _ _ _ _ _ | ONull _ => true
  | ODestroy x => match look (os_heap s) x with Some _ => true | None => false end
  | OFinal q _ _ poly move =>
      some_kind (fun k => smartb s q k && (move || shared_kind k) && (negb poly || negb (null s q)))
  | OCopy x => some_kind (fun k => shared_kind k && (smartb s x k || smart_vptrb s x k))
  | OMove x => some_kind (fun k => smartb s x k || smart_vptrb s x k)
  | OFrom q via => some_kind (fun k => shared_kind k && smartb s q k && foundb w s via q)
  | OFromMove q via => some_kind (fun k => smartb s q k && foundb w s via q)
  | OAssignNull d => some_kind (smart_vptrb s d)
  | OAssignFrom d q via =>
      some_kind (fun k => shared_kind k && smart_vptrb s d k && smartb s q k && negb (null s q) && foundb w s via q)
  | OAssignFromMove d q via => some_kind (fun k => smart_vptrb s d k && smartb s q k && foundb w s via q)
  | OAssign d x => some_kind (fun k => shared_kind k && smart_vptrb s d k && smart_vptrb s x k)
  | OAssignMove d x => some_kind (fun k => smart_vptrb s d k && smart_vptrb s x k)
  | OCast x dynamic fits =>
      some_kind (fun k => shared_kind k && smart_vptrb s x k && (dynamic || fits) && negb (null s x))
  | OCastMove x dynamic fits =>
      some_kind (fun k => smart_vptrb s x k && (dynamic || fits) && negb (null s x))
  | OPlain o via => hp_alive (os_heap s) o && searchedb w s via o
  | OPlainAssign d o via => plain_vptrb s d && hp_alive (os_heap s) o && searchedb w s via o
  end.

Lemma allowedb_spec w s op : allowedb w s op = true -> allowed cf_map w em9 s op.
Proof.
  destruct op; cbn [allowedb allowed]; try tauto;
    try (intros H; apply some_kind_spec in H as [k0 H]);
    rewrite ?andb_true_iff, ?orb_true_iff, ?negb_true_iff in *.
  - now destruct (look (os_heap s) x).
  - destruct H as [[H1 H2] H3]. exists k0. split; [now apply smartb_spec|]. split.
    + intros ->. destruct H2 as [?|H2]; [discriminate|]. now apply shared_kind_spec.
    + intros ->. destruct H3 as [?|H3]; [discriminate|]. now apply null_spec.
  - destruct H as [H1 H2]. exists k0. split; [now apply shared_kind_spec|].
    destruct H2 as [H2|H2]; [left; now apply smartb_spec|right; now apply smart_vptrb_spec].
  - exists k0. destruct H as [H2|H2]; [left; now apply smartb_spec|right; now apply smart_vptrb_spec].
  - destruct H as [[H1 H2] H3]. exists k0. split; [now apply shared_kind_spec|].
    split; [now apply smartb_spec|now apply foundb_spec].
  - destruct H as [H2 H3]. exists k0. split; [now apply smartb_spec|now apply foundb_spec].
  - exists k0. now apply smart_vptrb_spec.
  - destruct H as [[[[H1 H2] H3] H4] H5]. exists k0. split; [now apply shared_kind_spec|].
    split; [now apply smart_vptrb_spec|]. split; [now apply smartb_spec|].
    split; [now apply null_spec|now apply foundb_spec].
  - destruct H as [[H1 H2] H3]. exists k0. split; [now apply smart_vptrb_spec|].
    split; [now apply smartb_spec|now apply foundb_spec].
  - destruct H as [[H1 H2] H3]. exists k0. split; [now apply shared_kind_spec|].
    split; now apply smart_vptrb_spec.
  - destruct H as [H1 H2]. exists k0. split; now apply smart_vptrb_spec.
  - destruct H as [[[H1 H2] H3] H4]. exists k0. split; [now apply shared_kind_spec|].
    split; [now apply smart_vptrb_spec|]. split; [intros ->; now destruct H3|].
    intros H. now apply null_spec in H4.
  - destruct H as [[H2 H3] H4]. exists k0.
    split; [now apply smart_vptrb_spec|]. split; [intros ->; now destruct H3|].
    intros H. now apply null_spec in H4.
  - intros [H1 H2]. split; [exact H1|now apply searchedb_spec].
  - intros [[H1 H2] H3]. split; [now apply plain_vptrb_spec|]. split; [exact H2|now apply searchedb_spec].
Qed.

Fixpoint play (ops : list own_op) (s : ostate) : option ostate :=
  match ops with
  | [] => Some s
  | op :: ops =>
      if allowedb w9 s op then
        match ostep cf_map w9 em9 true op s with Ok (s', _) => play ops s' | _ => None end
      else None
  end.

Lemma play_reached ops : forall s s', reached cf_map true s -> play ops s = Some s' -> reached cf_map true s'.
Proof.
  induction ops as [|op ops IH]; intros s s' Hs H; cbn in H; [now injection H as <-|].
  destruct (allowedb w9 s op) eqn:Ha; [|discriminate].
  destruct (ostep cf_map w9 em9 true op s) as [[s1 r]| | |] eqn:Hst; try discriminate.
  apply (IH s1); [|exact H]. eapply reached_step; [exact Hs|apply allowedb_spec; exact Ha|exact Hst].
Qed.

(* Class 1 and its derived class 3 are registered, class 23 is not. *)
Definition ops9 : list own_op :=
  [ OMake Shared 3 3 true false          (* 0 is the temporary, 1 owns object 0 *)
  ; OCopy 1                              (* 2 *)
  ; OMake Unique 1 1 true false          (* 3 is the temporary, 4 owns object 1 *)
  ; OMake Unique 1 1 true true           (* the constructor throws *)
  ; OMove 4                              (* 5 owns object 1 *)
  ; OCreate Shared 23                    (* 6 owns object 2 *)
  ; OFrom 6 false                        (* throws missing_class *)
  ; OCreate Intrusive 3                  (* 7 owns object 3 *)
  ; OFrom 7 false                        (* 8 *)
  ; OCast 8 true false                   (* throws std::bad_cast *)
  ; OCast 8 true true                    (* 9 is the temporary; 10 *)
  ; OCastMove 2 true true                (* 11 is the temporary; 12; 2 is null *)
  ; ONull Shared                         (* 13 *)
  ; OAssign 13 1
  ; OAssignMove 13 13
  ; OAssignNull 12
  ; ODestroy 1
  ; OPlain 0 false                       (* 14 *)
  ; ODestroy 7 ]%N.

Definition s9 : ostate := default start (play ops9 start).

Lemma s9_reached : reached cf_map true s9.
Proof.
  unfold s9. destruct (play ops9 start) as [s|] eqn:H.
  - eapply play_reached; [apply reached_start|exact H].
  - apply reached_start.
Qed.

Lemma s9_alive : map (hp_alive (os_heap s9)) [0; 1; 2; 3] = [true; true; true; true].
Proof. vm_compute. reflexivity. Qed.
Lemma s9_points : map (points s9) [2; 4; 5; 6; 8; 10; 12; 13; 14] =
  [None; None; Some 1; Some 2; Some 3; Some 3; None; Some 0; Some 0].
Proof. vm_compute. reflexivity. Qed.

(* More operations in that state. *)
Lemma s9_last : exists s', ostep cf_map w9 em9 true (ODestroy 13) s9 = Ok (s', None) /\
  allowed cf_map w9 em9 s9 (ODestroy 13) /\ alive s9 0 /\ ~ alive s' 0.
Proof.
  eexists. split; [vm_compute; reflexivity|]. split; [apply allowedb_spec; vm_compute; reflexivity|].
  split; [vm_compute; reflexivity|]. intros H. vm_compute in H. discriminate.
Qed.

Lemma s9_throws : exists s', ostep cf_map w9 em9 true (OFromMove 6 false) s9 =
    Ok (s', Some (Signals (EMissingClass 23))) /\
  allowed cf_map w9 em9 s9 (OFromMove 6 false) /\ ~ assigns_first (OFromMove 6 false) /\ points s9 6 = Some 2.
Proof.
  eexists. split; [vm_compute; reflexivity|]. split; [apply allowedb_spec; vm_compute; reflexivity|].
  split; [intros []|vm_compute; reflexivity].
Qed.

Lemma s9_move_cast : exists s', ostep cf_map w9 em9 true (OCastMove 5 true true) s9 = Ok (s', None) /\
  allowed cf_map w9 em9 s9 (OCastMove 5 true true) /\ points s9 5 = Some 1 /\
  points s' 5 = None /\ points s' 16 = Some 1.
Proof.
  eexists. split; [vm_compute; reflexivity|]. split; [apply allowedb_spec; vm_compute; reflexivity|].
  split; [vm_compute; reflexivity|]. split; vm_compute; reflexivity.
Qed.

Lemma s9_makes :
  cf_checks cf_map && negb (w_initialized w9) = false /\ cf_checks cf_map && negb (w_initialized world0) = true.
Proof. split; vm_compute; reflexivity. Qed.

(* An assignment that throws has changed the object already. *)
Lemma assign_throws : exists cf w em cxx20 s op s' e d,
  reached cf cxx20 s /\ allowed cf w em s op /\ op = OAssignFrom d 6 false /\
  ostep cf w em cxx20 op s = Ok (s', Some (Signals e)) /\
  points s d = Some 0 /\ points s' d = Some 2 /\
  (ct_vp <$> look (os_heap s') d) = (ct_vp <$> look (os_heap s) d) /\ ~ alive s' 0.
Proof.
  exists cf_map, w9, em9, true, s9, (OAssignFrom 13 6 false). eexists _, _, 13.
  split; [apply s9_reached|]. split; [apply allowedb_spec; vm_compute; reflexivity|].
  split; [reflexivity|]. split; [vm_compute; reflexivity|].
  do 3 (split; [vm_compute; reflexivity|]). intros H. vm_compute in H. discriminate.
Qed.
