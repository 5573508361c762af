(* The number of definitions counted is the number of different definitions. *)
From stdpp Require Import base list numbers.
From Verif Require Import Base Registry Spec ModelClasses ModelHash ModelWorld ModelCall SpecCall
  ModelLife SpecLife ModelPolicies ModelVirtualPtr ModelErrors SpecErrors ProofLife ProofInvariance
  ProofHandlers ModelOdr SpecOdr.

(* After the units [us]: which variables inc<R> are initialized, and count. *)
Record loaded (us : list translation_unit) (st : odr_state) : Prop := {
  ld_inc : forall name rt, (exists k, (name, rt, k) ∈ od_inc st) <->
    name = n_default /\ exists checks, Includes checks ∈ us /\ rt = registry_type checks;
  ld_nodup : NoDup (map fst (od_inc st));
  ld_count : od_count st n_default = length (od_inc st);
  ld_others : forall name, name <> n_default -> od_count st name = 0
}.

Lemma existsb_inc x l :
  existsb (fun v : N * list N * nat => bool_decide (v.1 = x)) l = true <-> exists k, (x, k) ∈ l.
Proof.
  rewrite existsb_exists. split.
  - intros ([y k] & Hin%elem_of_list_In & He%bool_decide_eq_true). simpl in He. subst y. eauto.
  - intros [k Hk]. exists (x, k). split; [by apply elem_of_list_In|]. by apply bool_decide_eq_true.
Qed.

Lemma load_loaded us st u : loaded us st -> loaded (us ++ [u]) (load st u).
Proof.
  intros [H1 H2 H3 H4]. destruct u as [|checks]; simpl.
  - split; try assumption. intros name rt. rewrite H1. split; intros [-> (c & Hc & ->)]; split;
      [reflexivity| |reflexivity|]; exists c; split; try reflexivity.
    + apply elem_of_app. by left.
    + apply elem_of_app in Hc as [Hc|Hc%elem_of_list_singleton]; [exact Hc|discriminate].
  - unfold initialize_inc. destruct (existsb _ _) eqn:He.
    + apply existsb_inc in He. apply H1 in He as [_ (c & Hc & Heq)].
      split; try assumption. intros name rt. rewrite H1. split; intros [-> (c' & Hc' & ->)]; split;
        [reflexivity| |reflexivity|].
      * exists c'. split; [apply elem_of_app; by left|reflexivity].
      * apply elem_of_app in Hc' as [Hc'|Hc'%elem_of_list_singleton]; [eauto|].
        injection Hc' as ->. eauto.
    + assert (Hno : forall k, (n_default, registry_type checks, k) ∉ od_inc st).
      { intros k Hk. enough (false = true) by discriminate. rewrite <- He. apply existsb_inc. eauto. }
      split; simpl.
      * intros name rt. split.
        -- intros [k [Hk|Hk%elem_of_list_singleton]%elem_of_app].
           ++ assert (Hx : exists k, (name, rt, k) ∈ od_inc st) by eauto.
              apply H1 in Hx as [-> (c & Hc & ->)]. split; [reflexivity|]. exists c.
              split; [apply elem_of_app; by left|reflexivity].
           ++ injection Hk as -> -> ->. split; [reflexivity|]. exists checks.
              split; [apply elem_of_app; right; by apply elem_of_list_singleton|reflexivity].
        -- intros [-> (c & [Hc|Hc%elem_of_list_singleton]%elem_of_app & ->)].
           ++ destruct (proj2 (H1 n_default (registry_type c))) as [k Hk]; [eauto|].
              exists k. apply elem_of_app. by left.
           ++ injection Hc as ->. eexists. apply elem_of_app. right. by apply elem_of_list_singleton.
      * rewrite map_app. apply NoDup_app. split; [exact H2|]. split.
        -- intros x Hx%elem_of_list_fmap Hy%elem_of_list_singleton. subst x.
           destruct Hx as ([x k] & Hx & Hin). simpl in Hx. subst x. by apply (Hno k).
        -- simpl. apply NoDup_singleton.
      * rewrite app_length. simpl. rewrite H3. lia.
      * intros name Hn. rewrite decide_False by assumption. by apply H4.
Qed.

Lemma foldl_loaded us : loaded us (foldl load odr_state0 us).
Proof.
  induction us as [|us u IH] using rev_ind; [|rewrite foldl_app; apply load_loaded; exact IH].
  split; simpl; [|constructor|reflexivity|reflexivity].
  intros name rt. split; [intros [k Hk%elem_of_nil]; done|].
  intros [_ (c & Hc%elem_of_nil & _)]. done.
Qed.

Lemma registry_type_inj c d : registry_type c = registry_type d -> c = d.
Proof. destruct c, d; [reflexivity|discriminate|discriminate|reflexivity]. Qed.

Lemma count_le us : ~ (Includes true ∈ us /\ Includes false ∈ us) -> odr_count us n_default <= 1.
Proof.
  intros Hno. unfold odr_count. destruct (foldl_loaded us) as [H1 H2 H3 _]. rewrite H3.
  destruct (od_inc _) as [|[[n1 r1] k1] [|[[n2 r2] k2] l]]; simpl; try lia. exfalso.
  destruct (proj1 (H1 n1 r1)) as [-> (c & Hc & ->)]; [exists k1; left|].
  destruct (proj1 (H1 n2 r2)) as [-> (d & Hd & ->)]; [exists k2; right; left|].
  simpl in H2. apply stdpp.list.NoDup_cons in H2 as [H2 _].
  destruct c, d; try (apply Hno; split; assumption); apply H2; left.
Qed.

Lemma count_gt us : Includes true ∈ us -> Includes false ∈ us -> 1 < odr_count us n_default.
Proof.
  intros Ht Hf. unfold odr_count. destruct (foldl_loaded us) as [H1 _ H3 _]. rewrite H3.
  destruct (proj2 (H1 n_default (registry_type true))) as [k Hk]; [eauto|].
  destruct (proj2 (H1 n_default (registry_type false))) as [k' Hk']; [eauto|].
  destruct (od_inc _) as [|x [|y l]]; simpl; [by apply elem_of_nil in Hk| |lia].
  apply elem_of_list_singleton in Hk, Hk'. subst x. discriminate Hk'.
Qed.

Lemma conflict_default us : conflict defines_default us <-> Includes true ∈ us /\ Includes false ∈ us.
Proof.
  split.
  - intros (u & v & ps & qs & Hu & Hv & H1 & H2 & Hne). destruct H1, H2; try done; auto.
  - intros [Ht Hf]. do 4 eexists. split; [exact Ht|]. split; [exact Hf|].
    split; [constructor|]. split; [constructor|discriminate].
Qed.

Theorem odr_detected us S pg X n2216 :
  conflict defines_default us ->
  exists es en, act (setup_of us n_default S) (Lives (Initializes X n2216)) pg = Ok (pg, es, en) /\
    handled (setup_of us n_default S) (pg_handler pg) EOdrViolation es en.
Proof.
  intros [Ht Hf]%conflict_default. apply act_err. simpl. unfold lives. simpl.
  rewrite decide_True by (by apply count_gt). by destruct pg.
Qed.

Theorem odr_no_false_alarm us S hist pg X pg' es en :
  ~ conflict defines_default us ->
  history (su_config S) hist (pg_process pg) ->
  program_ok (su_config S) (r_env X) (pr_regs (pg_process pg)) ->
  act (setup_of us n_default S) (Lives (Initializes X false)) pg = Ok (pg', es, en) ->
  (exists v, en = Returns v /\ es = []) \/
  (exists e, e <> EOdrViolation /\ handled (setup_of us n_default S) (pg_handler pg) e es en).
Proof.
  intros Hno Hh HP Ha. apply act_inv in Ha as [(v & _ & -> & ->)|(e & Ha & He)]; [eauto|].
  right. exists e. split; [|exact He]. intros ->. simpl in Ha. unfold lives in Ha. simpl in Ha.
  rewrite decide_False in Ha.
  2: { apply Nat.nlt_ge, count_le. by rewrite <- conflict_default. }
  destruct HP as [HE Hac Har Hids Hn HA]. pose proof (history_world_ok _ _ _ Hh) as Hw.
  destruct (initialize_errors (su_config S) X (pr_regs (pg_process pg)) (pr_world (pg_process pg))
    HE Hac Har Hids Hn Hw) as [(w' & rep & Hi & _)|[(t & Hi & _)|[(b & d & Hi & _)|(w' & a & n & Hi & _)]]];
    rewrite Hi in Ha; discriminate.
Qed.

Lemma includes_dec (us : list translation_unit) : (Includes true ∈ us /\ Includes false ∈ us) \/
  ~ (Includes true ∈ us /\ Includes false ∈ us).
Proof.
  assert (HD : EqDecision translation_unit) by (intros ??; unfold Decision; repeat decide equality).
  destruct (decide (Includes true ∈ us)), (decide (Includes false ∈ us)); tauto.
Qed.

Theorem odr_order us vs name S a pg : Permutation us vs ->
  act (setup_of us name S) a pg = act (setup_of vs name S) a pg.
Proof.
  intros Hp. assert (Hs : (1 < odr_count us name) <-> (1 < odr_count vs name)).
  { destruct (decide (name = n_default)) as [->|Hn].
    - destruct (includes_dec us) as [[H1 H2]|Hno].
      + split; intros _; apply count_gt; try assumption; by rewrite <- Hp.
      + pose proof (count_le us Hno). rewrite Hp in Hno. pose proof (count_le vs Hno). lia.
    - unfold odr_count. rewrite (ld_others _ _ (foldl_loaded us) name Hn).
      rewrite (ld_others _ _ (foldl_loaded vs) name Hn). reflexivity. }
  unfold act. enough (attempt (setup_of us name S) a pg = attempt (setup_of vs name S) a pg) as ->.
  { reflexivity. }
  destruct a as [h|ev| | |]; try reflexivity. simpl. destruct ev as [R|X n2216|]; try reflexivity.
  unfold lives. simpl. destruct (decide (1 < odr_count us name)), (decide (1 < odr_count vs name));
    tauto || reflexivity.
Qed.

Theorem odr_others us name : name <> n_default -> odr_count us name = 0.
Proof. apply (ld_others _ _ (foldl_loaded us)). Qed.
