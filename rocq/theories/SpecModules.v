(* What users expect when a library adds registrations to those of a program. *)
From stdpp Require Import base list numbers.
From Verif Require Import Base Registry Spec ModelErrors ModelWorld ModelCall.

(* [R'] has all the classes of [R], and says nothing new about their bases. *)
Record extends (ti : N -> N) (R R' : registrations) : Prop := {
  ex_registered : forall c, registered ti R c -> registered ti R' c;
  ex_old : forall c b, base_pair ti R c b -> derives ti R' c b;
  ex_new : forall c b, registered ti R c -> base_pair ti R' c b -> derives ti R c b
}.

(* [m'] is method [m] with more overriders, in any order. *)
Definition adds (news : list overrider_record) (m m' : method_record) : Prop :=
  mr_vp m' = mr_vp m /\ mr_overriders m' ≡ₚ mr_overriders m ++ news.

(* Two calls that enter the same overrider, or end by the same error. *)
Inductive alike : outcome call_result -> outcome call_result -> Prop :=
  | alike_calls f : alike (Ok (Calls f)) (Ok (Calls f))
  | alike_none i i' n n' ts ts' : alike (Err (ENoOverrider i n ts)) (Err (ENoOverrider i' n' ts'))
  | alike_ambiguous i i' n n' ts ts' :
      alike (Err (EAmbiguousCall i n ts)) (Err (EAmbiguousCall i' n' ts')).
