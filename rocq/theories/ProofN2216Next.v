(* next with the n2216 option. *)
From stdpp Require Import base list numbers list_numbers relations.
From Verif Require Import Base Registry Spec SpecN2216 ModelClasses ModelMethods ModelSlots ModelTables
  ModelHash ModelWorld ModelCall ModelErrors SpecCall
  ProofBase ProofClasses ProofGraph ProofMethods ProofBits ProofSlots ProofSelect ProofTables
  ProofCompile ProofErrors ProofEntries ProofWrite ProofHash ProofWorld ProofCall ProofCells
  ProofDispatch ProofBehaviour ProofNext ProofN2216.

Section Cell.
  Context (g : graph) (m : cmethod).
  Context (Hanti : forall a b, is_base_of g a b = true -> is_base_of g b a = true -> a = b).
  Context (cov : bool) (Huni : uniform m cov).

  (* What next is, given the overriders left. *)
  Definition next_ok (l' : list nat) (tg : target) : Prop :=
    match tg with
    | TNotImplemented => l' = []
    | TAmbiguous => False
    | TOverrider j => exists surv, survivors (ms_at g m) l' surv /\ j ∈ surv /\
        (cov = true -> forall b, b ∈ surv ->
          (forall x, x ∈ surv -> x <> b -> ret_base g m x b = true /\ ret_base g m b x = false) -> j = b)
    end.

  Lemma build_cell_next mask c :
    build_cell g true m mask = Ok c ->
    let l := mask_set m mask in
    exists surv, survivors (ms_at g m) l surv /\ NoDup surv /\
      match cl_target c with
      | TNotImplemented => l = [] /\ cl_next c = None
      | TAmbiguous => False
      | TOverrider i => i ∈ surv /\ exists tg, cl_next c = Some (i, tg) /\
          (surv = [i] -> exists l', NoDup l' /\ (forall x, x ∈ l' <-> x ∈ l /\ x <> i) /\ next_ok l' tg)
      end.
  Proof.
    intros H l. unfold build_cell in H. fold (mask_set m mask) in H. fold l in H.
    assert (Hl : NoDup l) by apply mask_set_nodup.
    assert (Hr : Forall (in_range m) (alive (map Some l))).
    { rewrite alive_map_some. apply list.Forall_forall. intros x Hx.
      unfold l, mask_set in Hx. apply elem_of_list_filter in Hx as [_ Hx].
      apply elem_of_seq in Hx. unfold in_range. lia. }
    apply obind_ok in H as ([[ds p] r] & Hsel & H).
    destruct (select_n2216 g m Hanti cov Huni _ _ _ _ Hr ltac:(rewrite alive_map_some; exact Hl) Hsel)
      as (surv & Hs & Hnd & Heq & Hsub & Hin & Hlen & Hp & Hone & Hbest).
    rewrite alive_map_some in *. exists surv. split; [exact Hs|]. split; [exact Hnd|].
    destruct (decide (r = 0)) as [Hr0|Hr0].
    { injection H as <-. simpl. split; [|reflexivity]. destruct l as [|x l']; [reflexivity|]. exfalso.
      destruct Hp as (a & Ha & _); [discriminate|]. destruct (alive ds); [inversion Ha|simpl in Hlen; lia]. }
    rewrite decide_False in H by (intros [? _]; discriminate).
    assert (Hne : l <> []).
    { intros Hn. destruct (alive ds) as [|x s] eqn:Hd; [simpl in Hlen; lia|].
      pose proof (sv_sub _ _ _ Hs x (Hin x ltac:(left))) as Hx. rewrite Hn in Hx. inversion Hx. }
    destruct (Hp Hne) as (a & Ha & Hpa).
    rewrite (proj2 (at_ok _ _ _) Hpa) in H. cbn [obind deref] in H.
    pose proof (remove_dominants_spec l ds Hsub) as Hrem.
    destruct (remove_dominants (map Some l) ds) as [ovs rem].
    destruct Hrem as (Hrem & Hsl & Hiff).
    assert (Hnd' : NoDup (alive ovs)) by (eapply sublist_NoDup; eauto).
    assert (Hiff' : surv = [a] -> forall x, x ∈ alive ovs <-> x ∈ l /\ x <> a).
    { intros Hsa x. rewrite (Hiff Hl x), Hone, Hsa, elem_of_list_singleton; [reflexivity|].
      rewrite Hsa. simpl. lia. }
    destruct (decide (rem = 0)) as [Hrem0|Hrem0].
    { injection H as <-. simpl. split; [auto|]. eexists. split; [reflexivity|]. intros Hsa.
      exists (alive ovs). split; [exact Hnd'|]. split; [exact (Hiff' Hsa)|].
      simpl. apply nil_length_inv. lia. }
    apply obind_ok in H as ([[ns p2] r2] & Hsel2 & H).
    rewrite decide_False in H by (intros [? _]; discriminate).
    assert (Hr2 : Forall (in_range m) (alive ovs)).
    { apply list.Forall_forall. intros x Hx. rewrite list.Forall_forall in Hr. apply Hr.
      eapply elem_of_submseteq; [exact Hx|]. apply sublist_submseteq. exact Hsl. }
    destruct (select_n2216 g m Hanti cov Huni _ _ _ _ Hr2 Hnd' Hsel2)
      as (surv2 & Hs2 & Hnd2 & _ & _ & Hin2 & _ & Hp2 & _ & Hbest2).
    destruct Hp2 as (b & Hb & Hpb); [intros Hn; rewrite Hn in Hrem; simpl in Hrem; lia|].
    rewrite (proj2 (at_ok _ _ _) Hpb) in H. cbn [obind deref] in H. injection H as <-. simpl.
    split; [auto|]. eexists. split; [reflexivity|]. intros Hsa.
    exists (alive ovs). split; [exact Hnd'|]. split; [exact (Hiff' Hsa)|].
    simpl. exists surv2. split; [exact Hs2|]. split; [auto|].
    intros Hc d Hd Hdd. rewrite (Hbest2 Hc d Hd Hdd) in Hb. apply elem_of_list_singleton in Hb. exact Hb.
  Qed.
End Cell.

Section Next.
  Context (cf : config) (X : run) (R : registrations) (w : world).
  Notation E := (r_env X).
  Notation ti := (e_ti (r_env X)).
  Context (HP : program_ok cf (r_env X) R) (HW : initialized_by cf X true R w).
  Context (mr : method_record) (i : nat) (o : overrider_record).
  Context (Hmr : mr ∈ reg_methods R) (Hoi : mr_overriders mr !! i = Some o).
  Notation ovs := (mr_overriders mr).

  (* Survivors and undominated candidates. *)
  Lemma survivors_undominated g m (cand : nat -> Prop) l surv :
    graph_ok E R g -> method_ok E g mr m ->
    (forall x, x ∈ l <-> cand x) -> (forall x, cand x -> exists ox, ovs !! x = Some ox) ->
    settled ti R ovs cand -> survivors (ms_at g m) l surv ->
    forall a, a ∈ surv <-> undominated ti R ovs cand a.
  Proof.
    intros HG Hmok Hl Hov Htr Hsurv.
    assert (Hms : forall a b oa ob, ovs !! a = Some oa -> ovs !! b = Some ob ->
      ms_at g m a b = true <-> dominates ti R oa ob).
    { intros a b oa ob Ha' Hb'. eapply (ms_iff E R); eauto. }
    assert (Htop : forall a, top (ms_at g m) l a <-> undominated ti R ovs cand a).
    { intros a. unfold top, undominated, dominated. rewrite Hl. split.
      - intros [Ha Hno]. split; [exact Ha|]. intros (j & oi & oj & Hoi' & Hoj & Hj & Hd).
        apply (Hms j a oj oi Hoj Hoi') in Hd. rewrite Hno in Hd; [discriminate|].
        apply Hl. exact Hj.
      - intros [Ha Hno]. split; [exact Ha|]. intros j Hj.
        destruct (ms_at g m j a) eqn:Hja; [|reflexivity]. exfalso. apply Hno.
        destruct (Hov a Ha) as [oa Hoa]. apply Hl in Hj. destruct (Hov j Hj) as [oj Hoj].
        exists j, oa, oj. split; [exact Hoa|]. split; [exact Hoj|].
        split; [exact Hj|]. apply (Hms j a oj oa Hoj Hoa). exact Hja. }
    assert (Htr' : settled_at (ms_at g m) l).
    { intros x y Hx Hy Hyx. apply Hl in Hx, Hy.
      destruct (Hov x Hx) as [ox Hox], (Hov y Hy) as [oy Hoy].
      destruct (Htr x ox Hox) as (t' & ot & Hot & Ht' & Hd); [exact Hx| |].
      { exists y, ox, oy. split; [exact Hox|]. split; [exact Hoy|]. split; [exact Hy|].
        apply (Hms y x oy ox Hoy Hox). exact Hyx. }
      exists t'. split; [apply Htop; exact Ht'|]. apply (Hms t' x ot ox Hot Hox). exact Hd. }
    intros a. rewrite (survivors_top (ms_at g m) l Htr' surv a Hsurv). apply Htop.
  Qed.

  Context (Hu : unique_signature ti ovs i).

  Theorem next_n2216 :
    (forall args, valid_args ti R mr args -> pointwise ti R ovs (candidate ti R ovs args)) ->
    (forall args j, valid_args ti R mr args -> undominated ti R ovs (candidate ti R ovs args) i ->
       undominated ti R ovs (candidate ti R ovs args) j -> j = i) ->
    ((forall j, ~ next_candidate ti R ovs i j) /\ w_next w (or_next o) = Some (mr_not_implemented mr)) \/
    exists j oj, ovs !! j = Some oj /\ undominated ti R ovs (next_candidate ti R ovs i) j /\
      w_next w (or_next o) = Some (or_pf oj) /\
      (forall args, applicable ti R args o -> applicable ti R args oj) /\
      (covariant ti (e_void E) R mr -> forall b,
         most_specialized ti R ovs (undominated ti R ovs (next_candidate ti R ovs i)) b -> j = b).
  Proof.
    intros Hpw Hone. destruct HP as [HE Hac Har Hids Hn HA]. destruct HW as (w0 & rep & Hw0 & Hi).
    destruct (initialize_ok_inv cf X true R w0 HE Hac Har w rep Hids Hn Hw0 Hi) as (cp & Hcp & _ & HI & _).
    pose proof (compile_inv E R HE Hac true cp Hcp) as HCI. pose proof (co_graph _ _ _ _ HCI) as HG.
    pose proof Hmr as Hmr'. apply elem_of_list_lookup in Hmr' as [mi Hmi].
    destruct (has_table_exists E R HE Hac Har true cp Hcp mi mr Hmi) as (m & gs & t & HT).
    pose proof (ht_ok _ _ _ _ _ _ _ _ _ HT) as Hmok. pose proof (ht_arity _ _ _ _ _ _ _ _ _ HT) as Hao.
    pose proof (ht_tok _ _ _ _ _ _ _ _ _ HT) as Htok.
    assert (Hanti := base_anti E R (cp_graph cp) HG).
    destruct (compile_cov E R HE Hac true cp mi mr m Hcp Hmi (ht_method _ _ _ _ _ _ _ _ _ HT)) as (cov & HC).
    pose proof (cv_uniform _ _ _ _ _ _ HC) as Huni.
    set (own := map ti (or_vp o)).
    assert (Hown : valid_args ti R mr own).
    { eapply own_valid; eauto. }
    assert (Hself : candidate ti R ovs own i).
    { exists o. split; [exact Hoi|]. unfold applicable, own. rewrite Forall2_fmap_l.
      apply Forall2_same_length_lookup_2; [reflexivity|]. intros p x y Hx Hy.
      replace y with x by congruence. constructor. }
    assert (Hset : forall args, valid_args ti R mr args -> settled ti R ovs (candidate ti R ovs args)).
    { intros args Hva. apply candidates_settled. apply pointwise_transitive; auto. }
    assert (Hlt : forall args x, candidate ti R ovs args x -> exists ox, ovs !! x = Some ox)
      by (intros args x (ox & Hox & _); eauto).
    (* a cell *)
    assert (Hcellat : forall args cs is, valid_args ti R mr args ->
      args_at cp m gs args cs is -> exists c l surv,
        t_cells t !! flat_index (map length gs) is = Some c /\
        (forall x, x ∈ l <-> candidate ti R ovs args x) /\
        (forall a, a ∈ surv <-> undominated ti R ovs (candidate ti R ovs args) a) /\ NoDup surv /\
        (forall x, candidate ti R ovs args x -> x ∈ surv \/ dominated ti R ovs (candidate ti R ovs args) x) /\
        match cl_target c with
        | TNotImplemented => l = [] /\ cl_next c = None
        | TAmbiguous => False
        | TOverrider i => i ∈ surv /\ exists tg, cl_next c = Some (i, tg) /\
            (surv = [i] -> exists l', NoDup l' /\ (forall x, x ∈ l' <-> x ∈ l /\ x <> i) /\
               next_ok (cp_graph cp) m cov l' tg)
        end).
    { intros args cs is Hva [A1 A2 A3].
      destruct (cell_at _ _ HE mr m Hmok Hao true gs t cs is Htok A2 A3) as (c & Hcell & Hb).
      destruct (build_cell_next _ _ Hanti cov Huni _ _ Hb) as (surv & Hsurv & Hnd & Hm).
      set (l := mask_set m (and_masks (full_mask m) (rev (arg_masks (cp_graph cp) m cs)))) in *.
      assert (Hl : forall i, i ∈ l <-> candidate ti R ovs args i).
      { intros x. unfold l. eapply mask_set_iff; eauto. apply (Forall2_length _ _ _ Hva). }
      exists c, l, surv. split; [exact Hcell|]. split; [exact Hl|].
      split; [|split; [exact Hnd|split; [|exact Hm]]].
      2: { intros x Hx. apply Hl in Hx as Hxl. destruct (sv_out _ _ _ Hsurv x Hxl) as [?|(y & Hy & Hyx)]; [auto|].
        right. apply Hl in Hy. destruct (Hlt args x Hx) as [ox Hox], (Hlt args y Hy) as [oy Hoy].
        exists y, ox, oy. split; [exact Hox|]. split; [exact Hoy|]. split; [exact Hy|].
        apply (ms_iff E R (cp_graph cp) HG mr m Hmok y x oy ox Hoy Hox). exact Hyx. }
      apply (survivors_undominated (cp_graph cp) m _ l surv HG Hmok Hl (Hlt args) (Hset args Hva) Hsurv). }
    assert (Hsing : forall (surv : list nat) a, NoDup surv -> a ∈ surv -> (forall b, b ∈ surv -> b = a) -> surv = [a]).
    { intros [|x [|y surv]] a Hnd Ha Hall; [inversion Ha| |].
      - rewrite (Hall x); [reflexivity|left].
      - exfalso. apply NoDup_cons in Hnd as [Hx _]. apply Hx.
        rewrite (Hall x) by left. rewrite (Hall y) by (right; left). left. }
    (* its own cell *)
    assert (Hfin : exists tg, final_next (t_cells t) i = Some tg).
    { destruct (args_at_exists E R HE Hac true cp Hcp _ _ _ _ _ HT own Hown) as (cs & is & HA0).
      destruct (Hcellat own cs is Hown HA0) as (c & l & surv & Hcell & Hl & Hsurv & Hnd & _ & Hm).
      assert (Hund : undominated ti R ovs (candidate ti R ovs own) i).
      { split; [exact Hself|]. intros (j & oi & oj & Hoi' & Hoj & (oj' & Hoj' & Happ) & Hd).
        replace oj' with oj in * by congruence. replace oi with o in * by congruence.
        destruct (decide (j = i)) as [->|Hne].
        - replace oj with o in * by congruence. destruct Hd as [D1 D2]. contradiction.
        - assert (Hd' : dominates ti R o oj) by (eapply (own_dominates ti R Hac ovs i j); eauto).
          destruct Hd as [D1 D2], Hd' as [D1' D2']. contradiction. }
      destruct (cl_target c) as [| |i'] eqn:Ht; [|contradiction|].
      - destruct Hm as [Hn0 _]. apply Hl in Hself. rewrite Hn0 in Hself. inversion Hself.
      - destruct Hm as (Hin & tg & Hnx & _).
        assert (i' = i) as -> by (apply (Hone own i' Hown Hund), Hsurv; exact Hin).
        eapply final_next_some; [|exact Hnx]. eapply elem_of_list_lookup_2; exact Hcell. }
    destruct Hfin as [tg Htg].
    destruct (final_next_in _ _ _ Htg) as (c & Hc & Hnx).
    apply elem_of_list_lookup in Hc as [j Hj].
    destruct (cell_args E R HE Hac true cp Hcp _ _ _ _ _ HT j c Hj) as (args & cs & is & Hva & HA0 & Hidx).
    destruct (Hcellat args cs is Hva HA0) as (c' & l & surv & Hcell & Hl & Hsurv & Hnd & Hout & Hm).
    rewrite <- Hidx, Hj in Hcell. injection Hcell as <-.
    destruct (cl_target c) as [| |i'] eqn:Ht; [destruct Hm; congruence|contradiction|].
    destruct Hm as (Hin & tg' & Hnx' & Hm). rewrite Hnx in Hnx'. injection Hnx' as <- <-.
    apply Hsurv in Hin as Hund.
    destruct Hm as (l' & Hnd' & Hl' & Hok).
    { apply Hsing; [exact Hnd|exact Hin|]. intros b Hb. apply (Hone args b Hva Hund), Hsurv, Hb. }
    assert (Hci : candidate ti R ovs args i) by apply Hund.
    assert (Hdom : forall x ox, candidate ti R ovs args x -> x <> i -> ovs !! x = Some ox -> dominates ti R o ox).
    { intros x ox Hx Hne Hox.
      assert (Hdx : dominated ti R ovs (candidate ti R ovs args) x).
      { destruct (Hout x Hx) as [Hs|Hd]; [|exact Hd]. destruct Hne. apply (Hone args x Hva Hund), Hsurv, Hs. }
      destruct (Hset args Hva x ox Hox Hx Hdx) as (y & oy & Hoy & Hy & Hd).
      rewrite (Hone args y Hva Hund Hy) in Hoy. replace oy with o in * by congruence. exact Hd. }
    assert (Hiff : forall x, x ∈ l' <-> next_candidate ti R ovs i x).
    { intros x. rewrite Hl', Hl. split.
      - intros [Hx Hne]. split; [exact Hne|]. exists o. split; [exact Hoi|].
        destruct (Hlt args x Hx) as [ox Hox]. exists ox. split; [exact Hox|].
        unfold applicable. rewrite Forall2_fmap_l.
        apply (Hpw args Hva i x o ox Hoi Hox Hci Hx). apply (Hdom x ox Hx Hne Hox).
      - intros [Hne (o2 & Ho2 & (ox & Hox & Happ))]. split; [|exact Hne].
        replace o2 with o in * by congruence.
        exists ox. split; [exact Hox|]. destruct Hci as (o3 & Ho3 & Hci). replace o3 with o in * by congruence.
        eapply applicable_trans; eauto. }
    destruct (in_written _ _ _ _ HI) as (buf & wr & gvt & Hwok & _ & _ & _ & _ & Hwn). rewrite Hwn.
    destruct (Forall2_lookup_l _ _ _ _ _ (mo_ovs _ _ _ _ Hmok) Hoi) as (o' & Ho' & Hook).
    pose proof (wr_next_ok _ _ _ _ _ Hwok) as Hw.
    assert (Hmt : zip (cp_methods cp) (tb_tables (cp_tables cp)) !! mi = Some (m, t)).
    { apply mts_lookup. split; [apply (ht_method _ _ _ _ _ _ _ _ _ HT)|apply (ht_table _ _ _ _ _ _ _ _ _ HT)]. }
    specialize (Hw (next_nodup E R HE Hac true cp Hcp HA) mi m t i o' Hmt Ho').
    rewrite Htg in Hw. destruct Hw as (f & Hf & Hv). rewrite <- (oo_next _ _ _ _ Hook).
    destruct tg as [| |k]; [|contradiction|].
    - left. split.
      + intros x Hx. apply Hiff in Hx. simpl in Hok. rewrite Hok in Hx. inversion Hx.
      + simpl in Hf. rewrite (mo_ni _ _ _ _ Hmok) in Hf. congruence.
    - right. destruct Hok as (surv2 & Hs2 & Hk & Hbest).
      assert (Hlt2 : forall x, next_candidate ti R ovs i x -> exists ox, ovs !! x = Some ox).
      { intros x [_ (o2 & _ & Hx)]. eapply Hlt; exact Hx. }
      assert (Hset2 : settled ti R ovs (next_candidate ti R ovs i)).
      { apply transitive_settled; [exists l'; exact Hiff|].
        intros x y z a b c' Ha Hb Hc' [_ (o2 & Ho2 & Cx)] [_ (o3 & Ho3 & Cy)] [_ (o4 & Ho4 & Cz)].
        replace o2 with o in * by congruence. replace o3 with o in * by congruence.
        replace o4 with o in * by congruence.
        apply (pointwise_transitive ti R Hac _ _ (Hpw own Hown) x y z a b c'); auto. }
      pose proof (survivors_undominated (cp_graph cp) m _ l' surv2 HG Hmok Hiff Hlt2 Hset2 Hs2) as Hu2.
      apply Hu2 in Hk as Huk. destruct (Hlt2 k (proj1 Huk)) as [ok Hok]. exists k, ok.
      split; [exact Hok|]. split; [exact Huk|]. split.
      { simpl in Hf. destruct (Forall2_lookup_l _ _ _ _ _ (mo_ovs _ _ _ _ Hmok) Hok) as (ok' & Hok' & Hookk).
        rewrite (proj2 (at_ok _ _ _) Hok') in Hf. cbn [obind] in Hf. rewrite (oo_pf _ _ _ _ Hookk) in Hf. congruence. }
      split.
      { intros args' Ha. destruct Huk as [[_ (o2 & Ho2 & (ok2 & Hok2 & Happ))] _].
        replace o2 with o in * by congruence. replace ok2 with ok in * by congruence.
        eapply applicable_trans; eauto. }
      intros Hcov b (Hub & ob & Hob & Hbb).
      pose proof (proj2 (cv_iff _ _ _ _ _ _ HC) Hcov) as Hct.
      apply (Hbest Hct b); [apply Hu2; exact Hub|]. intros x Hx Hne.
      apply Hu2 in Hx. destruct (Hlt2 x (proj1 Hx)) as [ox Hox].
      destruct (Hbb x ox Hox Hx Hne) as [D1 D2]. split.
      + apply (ret_base_iff E R _ mr m cov x b ox ob HG Hmok HC Hct Hox Hob). exact D1.
      + destruct (ret_base (cp_graph cp) m b x) eqn:Hrb; [|reflexivity]. exfalso. apply D2.
        apply (ret_base_iff E R _ mr m cov b x ob ox HG Hmok HC Hct Hob Hox). exact Hrb.
  Qed.
End Next.

(* As seen by a call. *)
Theorem next_n2216_call cf X R w :
  program_ok cf (r_env X) R -> initialized_by cf X true R w ->
  forall m i o, m ∈ reg_methods R -> mr_overriders m !! i = Some o ->
  unique_signature (e_ti (r_env X)) (mr_overriders m) i ->
  (forall args, valid_args (e_ti (r_env X)) R m args ->
     pointwise (e_ti (r_env X)) R (mr_overriders m) (candidate (e_ti (r_env X)) R (mr_overriders m) args)) ->
  (forall args j, valid_args (e_ti (r_env X)) R m args ->
     undominated (e_ti (r_env X)) R (mr_overriders m) (candidate (e_ti (r_env X)) R (mr_overriders m) args) i ->
     undominated (e_ti (r_env X)) R (mr_overriders m) (candidate (e_ti (r_env X)) R (mr_overriders m) args) j ->
     j = i) ->
  functions_ok m ->
  let nexts := next_candidate (e_ti (r_env X)) R (mr_overriders m) i in
  forall mid all,
  ((forall j, ~ nexts j) /\
   exists n ts, call_next w mid m (or_next o) all = Err (ENoOverrider mid n ts)) \/
  exists j oj, mr_overriders m !! j = Some oj /\
    undominated (e_ti (r_env X)) R (mr_overriders m) nexts j /\
    call_next w mid m (or_next o) all = Ok (Calls (or_pf oj)) /\
    (forall args, applicable (e_ti (r_env X)) R args o -> applicable (e_ti (r_env X)) R args oj) /\
    (covariant (e_ti (r_env X)) (e_void (r_env X)) R m -> forall b,
       most_specialized (e_ti (r_env X)) R (mr_overriders m)
         (undominated (e_ti (r_env X)) R (mr_overriders m) nexts) b -> j = b).
Proof.
  intros HP HW m i o Hm Ho Hu Hpw Hone [_ Hov] nexts mid all.
  destruct (next_n2216 cf X R w HP HW m i o Hm Ho Hu Hpw Hone)
    as [[Hno Hn]|(j & oj & Hj & Hund & Hn & Happ & Hbest)].
  - left. split; [exact Hno|]. unfold call_next. rewrite Hn. simpl. rewrite decide_True by reflexivity. eauto.
  - right. exists j, oj. split; [exact Hj|]. split; [exact Hund|].
    split; [|split; [exact Happ|exact Hbest]].
    unfold call_next. rewrite Hn. simpl. destruct (Hov oj (elem_of_list_lookup_2 _ _ _ Hj)).
    rewrite !decide_False by assumption. reflexivity.
Qed.
