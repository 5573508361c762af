(* Lemmas on outcomes, loops and map updates. *)
From stdpp Require Import base list numbers relations.
From Verif Require Import Base.

Lemma obind_ok {A B} (x : outcome A) (k : A -> outcome B) b :
  obind x k = Ok b <-> exists a, x = Ok a /\ k a = Ok b.
Proof.
  destruct x as [a|e| |]; simpl; split; try (intros (a' & H & _); discriminate H);
    try discriminate; eauto.
  intros (a' & H & ?). injection H as ->. assumption.
Qed.

Lemma obind_err {A B} (x : outcome A) (k : A -> outcome B) e :
  obind x k = Err e <-> x = Err e \/ exists a, x = Ok a /\ k a = Err e.
Proof.
  destruct x as [a|e'| |]; simpl; split; intros H; eauto;
    try (destruct H as [H|(a' & H & H')]; congruence).
  - left. congruence.
  - discriminate.
  - discriminate.
Qed.

Lemma obind_assoc {A B C} (x : outcome A) (f : A -> outcome B) (k : B -> outcome C) :
  obind (obind x f) k = obind x (fun a => obind (f a) k).
Proof. destruct x; reflexivity. Qed.

Lemma obind_ext {A B} (x : outcome A) (f k : A -> outcome B) :
  (forall a, f a = k a) -> obind x f = obind x k.
Proof. intros H. destruct x; simpl; auto. Qed.

Lemma at_ok {A} (l : list A) i x : at_ l i = Ok x <-> l !! i = Some x.
Proof. unfold at_. destruct (l !! i); split; congruence. Qed.

Lemma at_not_err {A} (l : list A) i e : at_ l i <> Err e.
Proof. unfold at_. destruct (l !! i); discriminate. Qed.

Lemma deref_ok {A} (p : option A) x : deref p = Ok x <-> p = Some x.
Proof. unfold deref. destruct p; split; congruence. Qed.

(* foldM *)
Lemma foldM_app {A S} (f : A -> S -> outcome S) l1 l2 s :
  foldM f (l1 ++ l2) s = obind (foldM f l1 s) (foldM f l2).
Proof.
  revert s. induction l1 as [|x l1 IH]; intros s; simpl; [reflexivity|].
  rewrite obind_assoc. apply obind_ext. intros s'. apply IH.
Qed.

Lemma foldM_ext {A S} (f k : A -> S -> outcome S) l s :
  (forall x s, x ∈ l -> f x s = k x s) -> foldM f l s = foldM k l s.
Proof.
  revert s. induction l as [|x l IH]; intros s H; simpl; [reflexivity|].
  rewrite (H x s) by left. apply obind_ext. intros s'. apply IH.
  intros y s'' Hy. apply H. right. exact Hy.
Qed.

Lemma foldM_map {A B S} (f : B -> S -> outcome S) (h : A -> B) l s :
  foldM f (map h l) s = foldM (fun x => f (h x)) l s.
Proof.
  revert s. induction l as [|x l IH]; intros s; simpl; [reflexivity|].
  apply obind_ext. intros s'. apply IH.
Qed.

Lemma foldM_flat_map {A B S} (f : B -> S -> outcome S) (h : A -> list B) l s :
  foldM f (flat_map h l) s = foldM (fun x => foldM f (h x)) l s.
Proof.
  revert s. induction l as [|x l IH]; intros s; simpl; [reflexivity|].
  rewrite foldM_app. apply obind_ext. intros s'. apply IH.
Qed.

(* A loop whose body succeeds and preserves an invariant. *)
Lemma foldM_inv {A S} (I : S -> Prop) (f : A -> S -> outcome S) l s :
  I s ->
  (forall x s, x ∈ l -> I s -> exists s', f x s = Ok s' /\ I s') ->
  exists s', foldM f l s = Ok s' /\ I s'.
Proof.
  revert s. induction l as [|x l IH]; intros s Hs H; simpl; [eauto|].
  destruct (H x s) as (s' & Hf & Hs'); [left|exact Hs|].
  rewrite Hf. simpl. apply IH; [exact Hs'|].
  intros y s'' Hy. apply H. right. exact Hy.
Qed.

(* An invariant of a loop that is known to succeed. *)
Lemma foldM_inv_ok {A S} (I : S -> Prop) (f : A -> S -> outcome S) l s s' :
  foldM f l s = Ok s' -> I s ->
  (forall x s s', x ∈ l -> I s -> f x s = Ok s' -> I s') ->
  I s'.
Proof.
  revert s. induction l as [|x l IH]; intros s Hf Hs H; simpl in Hf.
  - injection Hf as <-. exact Hs.
  - apply obind_ok in Hf as (s1 & H1 & H2).
    apply (IH s1 H2).
    + apply (H x s); [left|exact Hs|exact H1].
    + intros y s2 s3 Hy. apply H. right. exact Hy.
Qed.

(* Same, with the list of the elements already processed. *)
Lemma foldM_inv_prefix {A S} (I : list A -> S -> Prop) (f : A -> S -> outcome S) l s :
  I [] s ->
  (forall l1 x l2 s, l = l1 ++ x :: l2 -> I l1 s ->
    exists s', f x s = Ok s' /\ I (l1 ++ [x]) s') ->
  exists s', foldM f l s = Ok s' /\ I l s'.
Proof.
  intros H0 Hstep.
  assert (G : forall l2 l1 s, l = l1 ++ l2 -> I l1 s ->
      exists s', foldM f l2 s = Ok s' /\ I l s').
  { induction l2 as [|x l2 IH]; intros l1 s1 Hl H1; simpl.
    - exists s1. rewrite app_nil_r in Hl. subst. auto.
    - destruct (Hstep l1 x l2 s1 Hl H1) as (s2 & Hf & H2).
      rewrite Hf. simpl. apply (IH (l1 ++ [x])); [|exact H2].
      rewrite <- app_assoc. exact Hl. }
  apply (G l []); auto.
Qed.

Lemma foldM_inv_prefix_ok {A S} (I : list A -> S -> Prop) (f : A -> S -> outcome S) l s s' :
  foldM f l s = Ok s' ->
  I [] s ->
  (forall l1 x l2 s s', l = l1 ++ x :: l2 -> I l1 s -> f x s = Ok s' -> I (l1 ++ [x]) s') ->
  I l s'.
Proof.
  intros Hf H0 Hstep.
  assert (G : forall l2 l1 s, l = l1 ++ l2 -> I l1 s -> foldM f l2 s = Ok s' -> I l s').
  { induction l2 as [|x l2 IH]; intros l1 s1 Hl H1 Hf'; simpl in Hf'.
    - injection Hf' as <-. rewrite app_nil_r in Hl. subst. exact H1.
    - apply obind_ok in Hf' as (s2 & Hx & Hr).
      apply (IH (l1 ++ [x]) s2); [|eapply Hstep; eauto|exact Hr].
      rewrite <- app_assoc. exact Hl. }
  apply (G l [] s); auto.
Qed.

Lemma foldl_inv {A S} (I : S -> Prop) (f : S -> A -> S) l s :
  I s -> (forall x s, x ∈ l -> I s -> I (f s x)) -> I (foldl f s l).
Proof.
  revert s. induction l as [|x l IH]; intros s Hs H; simpl; [exact Hs|].
  apply IH; [apply H; [left|exact Hs]|]. intros y s' Hy. apply H. right. exact Hy.
Qed.

Lemma foldl_inv_prefix {A S} (I : list A -> S -> Prop) (f : S -> A -> S) l s :
  I [] s -> (forall l1 x l2 s, l = l1 ++ x :: l2 -> I l1 s -> I (l1 ++ [x]) (f s x)) ->
  I l (foldl f s l).
Proof.
  intros H0 Hstep.
  assert (G : forall l2 l1 s, l = l1 ++ l2 -> I l1 s -> I l (foldl f s l2)).
  { induction l2 as [|x l2 IH]; intros l1 s1 Hl H1; simpl.
    - rewrite app_nil_r in Hl. subst. exact H1.
    - apply (IH (l1 ++ [x])); [|eapply Hstep; eauto]. rewrite <- app_assoc. exact Hl. }
  apply (G l []); auto.
Qed.

(* mapM *)
Lemma mapM_ok {A B} (f : A -> outcome B) l r :
  mapM f l = Ok r <-> Forall2 (fun x y => f x = Ok y) l r.
Proof.
  revert r. induction l as [|x l IH]; intros r; simpl.
  - split; [intros [= <-]; constructor|]. intros H. inversion H. reflexivity.
  - rewrite obind_ok. split.
    + intros (y & Hy & H). apply obind_ok in H as (ys & Hys & [= <-]).
      constructor; [exact Hy|]. apply IH. exact Hys.
    + intros H. inversion H as [|? y ? ys Hy Hys]; subst. exists y. split; [exact Hy|].
      apply obind_ok. exists ys. split; [|reflexivity]. apply IH. exact Hys.
Qed.

Lemma mapM_total {A B} (f : A -> outcome B) (h : A -> B) l :
  (forall x, x ∈ l -> f x = Ok (h x)) -> mapM f l = Ok (map h l).
Proof.
  intros H. apply mapM_ok. induction l as [|x l IH]; simpl; constructor.
  - apply H. left.
  - apply IH. intros y Hy. apply H. right. exact Hy.
Qed.

(* upd *)
Lemma upd_eq {K V} `{EqDecision K} (f : K -> V) k v : upd f k v k = v.
Proof. unfold upd. rewrite decide_True; auto. Qed.
Lemma upd_ne {K V} `{EqDecision K} (f : K -> V) k v k' : k' <> k -> upd f k v k' = f k'.
Proof. intros H. unfold upd. rewrite decide_False; auto. Qed.
