(** The invariant after a merge: structure, order of the recorded edges, score. *)
From Verif Require Import Base ISort ForcedModel ChainModel ChainSpec ChainAsmProofs ChainEdgeProofs ChainConsumeProofs ChainMergeProofs ChainMergeWfProofs.

Section Step.
  Context (E : env) (EV : list cedge) (st : state) (W : wf E EV st) (cs cu : chain)
          (Gs : get_chain st (c_id cs) = Some cs) (Gu : get_chain st (c_id cu) = Some cu) (NE : c_id cs <> c_id cu)
          (L : list Z) (g : Z) (st' : state) (cs' : chain) (others rest : list chain) (R : list bundle)
          (M : merged E st cs cu L g st' cs' others rest R (outs cu cs ++ outs cs cu)).
  Local Notation P := (outs cu cs ++ outs cs cu).
  Local Notation mp := (s_map st).
  Local Notation mp' := (s_map st').
  Let HIs : In cs (s_chains st) := proj1 (get_In _ _ _ Gs).
  Let HIu : In cu (s_chains st) := proj1 (get_In _ _ _ Gu).

  Lemma st_bids : NoDup (map b_id (c_bundles cs ++ c_bundles cu) ++ map b_id (flat_map c_bundles rest)).
  Proof.
    rewrite <- map_app, <- app_assoc. pose proof (Permutation_flat_map c_bundles _ _ (g_perm _ _ _ _ _ _ _ _ _ _ _ _ M)) as X.
    exact (Permutation_NoDup (Permutation_map b_id X) (w_bids _ _ _ W)).
  Qed.
  Lemma st_nodes : NoDup ((chain_nodes cs ++ chain_nodes cu) ++ flat_map chain_nodes rest).
  Proof.
    rewrite <- app_assoc. pose proof (Permutation_flat_map chain_nodes _ _ (g_perm _ _ _ _ _ _ _ _ _ _ _ _ M)) as X.
    exact (Permutation_NoDup X (w_nodes _ _ _ W)).
  Qed.
  Lemma rest_In d : In d rest -> In d (s_chains st) /\ c_id d <> c_id cs /\ c_id d <> c_id cu.
  Proof.
    rewrite (g_rest _ _ _ _ _ _ _ _ _ _ _ _ M). intros H. apply filter_In in H as [A B]. apply andb_true_iff in B as [B C].
    apply negb_true_iff, Z.eqb_neq in B, C. auto.
  Qed.
  Lemma others_In d : In d others -> exists d0, In d0 rest /\ core_of d = core_of d0.
  Proof. apply map_core_In. exact (g_core _ _ _ _ _ _ _ _ _ _ _ _ M). Qed.
  Lemma core_parts d d0 : core_of d = core_of d0 -> c_id d = c_id d0 /\ c_bundles d = c_bundles d0 /\ chain_nodes d = chain_nodes d0 /\ c_size d = c_size d0 /\ c_freq d = c_freq d0 /\ c_score d = c_score d0.
  Proof. unfold core_of, chain_nodes. intros H. injection H as A1 A2 A3 A4 A5 A6. rewrite A3. auto 7. Qed.
  Lemma others_nodes : flat_map chain_nodes others = flat_map chain_nodes rest /\ flat_map c_bundles others = flat_map c_bundles rest /\ map c_id others = map c_id rest.
  Proof.
    pose proof (g_core _ _ _ _ _ _ _ _ _ _ _ _ M) as C. clear - C. revert rest C. induction others as [|d l IH]; intros [|d0 l0] C; try discriminate; [auto|].
    cbn [map] in C. assert (C1 : core_of d = core_of d0) by (pose proof (f_equal (hd (core_of d)) C) as X; exact X). pose proof (f_equal (@tl _) C) as C2. cbn [tl] in C2.
    destruct (IH _ C2) as [I1 [I2 I3]]. apply core_parts in C1 as [K1 [K2 [K3 _]]]. cbn [flat_map map]. rewrite I1, I2, I3, K1, K2, K3. auto.
  Qed.
  Lemma new_nodes : chain_nodes cs' = L.
  Proof.
    unfold chain_nodes. rewrite (g_bundles _ _ _ _ _ _ _ _ _ _ _ _ M), flat_map_map, <- (g_nodes _ _ _ _ _ _ _ _ _ _ _ _ M). apply flat_map_ext_eq. reflexivity.
  Qed.
  Lemma new_bids : map b_id (c_bundles cs') = map b_id R.
  Proof. rewrite (g_bundles _ _ _ _ _ _ _ _ _ _ _ _ M), map_map. reflexivity. Qed.
  Lemma new_edges : Permutation (flat_map b_edges (c_bundles cs')) (filter (apartm mp') (flat_map b_edges R)).
  Proof.
    rewrite (g_bundles _ _ _ _ _ _ _ _ _ _ _ _ M). set (idx := sink_index _ _). clearbody idx. clear M. induction R as [|b l IH]; [constructor|]. cbn [map flat_map]. rewrite filter_app.
    apply Permutation_app; [|exact IH]. apply Permutation_sym, isort_perm.
  Qed.
  Lemma memz_new n : memz n L = memz n (chain_nodes cs) || memz n (chain_nodes cu).
  Proof. rewrite (memz_perm n _ _ (g_nodesp _ _ _ _ _ _ _ _ _ _ _ _ M)). apply memz_app. Qed.
  Lemma mp'_rest d n : In d rest -> In n (chain_nodes d) -> mp' n = mp n.
  Proof.
    intros Hd Hn. apply (g_mapo _ _ _ _ _ _ _ _ _ _ _ _ M). intros X. apply (Permutation_in _ (g_nodesp _ _ _ _ _ _ _ _ _ _ _ _ M)) in X.
    pose proof st_nodes as ND. apply NoDup_app_inv in ND as [_ [_ D]]. apply (D n X). apply in_flat_map. eauto.
  Qed.
  Lemma apart_rest d e : In d rest -> inside (chain_nodes d) e = true -> apartm mp' e = apartm mp e.
  Proof.
    intros Hd H. unfold inside in H. apply andb_true_iff in H as [A B]. apply memz_In in A, B. unfold apartm. rewrite !(mp'_rest d) by assumption. reflexivity.
  Qed.
  (** Blocks of one bundle stay in one bundle. *)
  Lemma coarse n m bid q r : In n L -> In m L -> mp n = Some (bid, q) -> mp m = Some (bid, r) -> exists bid' q' r', mp' n = Some (bid', q') /\ mp' m = Some (bid', r').
  Proof.
    intros Hn Hm Mn Mm.
    assert (X : forall k, In k L -> exists b, In b (c_bundles cs ++ c_bundles cu) /\ In k (b_nodes b) /\ mp k = Some (b_id b, pos (e_size E) (b_nodes b) k)).
    { intros k Hk. apply (Permutation_in _ (g_nodesp _ _ _ _ _ _ _ _ _ _ _ _ M)) in Hk. apply in_app_iff in Hk as [Hk|Hk].
      - destruct (node_placed E EV st W cs k HIs Hk) as [b [B1 B2]]. exists b. rewrite in_app_iff. tauto.
      - destruct (node_placed E EV st W cu k HIu Hk) as [b [B1 B2]]. exists b. rewrite in_app_iff. tauto. }
    destruct (X n Hn) as [b1 [A1 [A2 A3]]]. destruct (X m Hm) as [b2 [B1 [B2 B3]]].
    assert (b1 = b2) as <-.
    { eapply (NoDup_cons_In_neq b_id); [|exact A1|exact B1|congruence]. pose proof st_bids as ND. apply NoDup_app_inv in ND. tauto. }
    destruct (g_coarse _ _ _ _ _ _ _ _ _ _ _ _ M b1 A1) as [b' [C1 C2]].
    rewrite (g_map _ _ _ _ _ _ _ _ _ _ _ _ M b' n C1 (C2 n A2)), (g_map _ _ _ _ _ _ _ _ _ _ _ _ M b' m C1 (C2 m B2)). eauto 6.
  Qed.
  Lemma apart_mono e : In (ce_src e) L -> In (ce_sink e) L -> apartm mp' e = true -> apartm mp e = true.
  Proof.
    intros H1 H2 H. destruct (apartm mp e) eqn:Q; [reflexivity|]. exfalso. unfold apartm in Q.
    assert (X : forall k, In k L -> exists b q, mp k = Some (b, q)).
    { intros k Hk. apply (Permutation_in _ (g_nodesp _ _ _ _ _ _ _ _ _ _ _ _ M)) in Hk. apply in_app_iff in Hk as [Hk|Hk].
      - destruct (node_placed E EV st W cs k HIs Hk) as [b [_ [_ B]]]. eauto.
      - destruct (node_placed E EV st W cu k HIu Hk) as [b [_ [_ B]]]. eauto. }
    destruct (X _ H1) as [b1 [q1 M1]]. destruct (X _ H2) as [b2 [q2 M2]]. rewrite M1, M2 in Q. apply negb_false_iff, Z.eqb_eq in Q. subst b2.
    destruct (coarse _ _ _ _ _ H1 H2 M1 M2) as [b' [q' [r' [N1 N2]]]]. unfold apartm in H. rewrite N1, N2, Z.eqb_refl in H. discriminate.
  Qed.
  (** The edges of the merged chain before removal are exactly the visited ones. *)
  Lemma cross_apart e : (from_to (chain_nodes cs) (chain_nodes cu) e = true \/ from_to (chain_nodes cu) (chain_nodes cs) e = true) -> apartm mp e = true.
  Proof.
    assert (DJ : forall bc bd, In bc (c_bundles cs) -> In bd (c_bundles cu) -> b_id bc <> b_id bd).
    { intros bc bd H1 H2 Q. pose proof st_bids as ND. apply NoDup_app_inv in ND as [ND _]. rewrite map_app in ND. apply NoDup_app_inv in ND as [_ [_ D]].
      apply (D (b_id bc)); [apply in_map; exact H1|rewrite Q; apply in_map; exact H2]. }
    unfold from_to, apartm. intros [H|H]; apply andb_true_iff in H as [A B]; apply memz_In in A, B.
    - destruct (node_placed E EV st W cs _ HIs A) as [b1 [B1 [_ ->]]]. destruct (node_placed E EV st W cu _ HIu B) as [b2 [B2 [_ ->]]].
      apply negb_true_iff, Z.eqb_neq. auto.
    - destruct (node_placed E EV st W cu _ HIu A) as [b1 [B1 [_ ->]]]. destruct (node_placed E EV st W cs _ HIs B) as [b2 [B2 [_ ->]]].
      apply negb_true_iff, Z.eqb_neq. intros Q. exact (DJ _ _ B2 B1 (eq_sym Q)).
  Qed.
  Lemma disj n : memz n (chain_nodes cs) = true -> memz n (chain_nodes cu) = true -> False.
  Proof.
    intros A B. apply memz_In in A, B. pose proof st_nodes as ND. apply NoDup_app_inv in ND as [ND _]. apply NoDup_app_inv in ND as [_ [_ D]]. exact (D n A B).
  Qed.
  Lemma edges_R : Permutation (flat_map b_edges R) (filter (fun e => inside L e && apartm mp e) EV).
  Proof.
    eapply perm_trans; [exact (g_edges _ _ _ _ _ _ _ _ _ _ _ _ M)|].
    eapply perm_trans; [apply Permutation_app; [apply (w_intra _ _ _ W cs HIs)|apply Permutation_app; [apply (w_intra _ _ _ W cu HIu)|
      apply Permutation_app; [apply (w_out _ _ _ W cu cs HIu HIs (fun q => NE (eq_sym q)))|apply (w_out _ _ _ W cs cu HIs HIu NE)]]]|].
    set (a := fun e => inside (chain_nodes cs) e && apartm mp e). set (b := fun e => inside (chain_nodes cu) e && apartm mp e).
    set (c := from_to (chain_nodes cu) (chain_nodes cs)). set (d := from_to (chain_nodes cs) (chain_nodes cu)).
    eapply perm_trans; [apply Permutation_app_head, Permutation_app_head; apply (filter_or_perm c d (fun e => c e || d e)); [|reflexivity]|].
    { intros e _. unfold c, d, from_to. pose proof (disj (ce_src e)). destruct (memz (ce_src e) (chain_nodes cs)), (memz (ce_src e) (chain_nodes cu)); cbn [andb]; auto; try (exfalso; auto; fail); apply andb_false_r. }
    eapply perm_trans; [apply Permutation_app_head; apply (filter_or_perm b (fun e => c e || d e) (fun e => b e || (c e || d e))); [|reflexivity]|].
    { intros e _. unfold b, c, d, from_to, inside. pose proof (disj (ce_src e)). pose proof (disj (ce_sink e)).
      destruct (memz (ce_src e) (chain_nodes cs)), (memz (ce_src e) (chain_nodes cu)), (memz (ce_sink e) (chain_nodes cs)), (memz (ce_sink e) (chain_nodes cu)); cbn [andb orb]; auto; try (exfalso; auto; fail); apply andb_false_r. }
    apply filter_or_perm.
    - intros e _. unfold a, b, c, d, from_to, inside. pose proof (disj (ce_src e)). pose proof (disj (ce_sink e)).
      destruct (memz (ce_src e) (chain_nodes cs)), (memz (ce_src e) (chain_nodes cu)), (memz (ce_sink e) (chain_nodes cs)), (memz (ce_sink e) (chain_nodes cu)); cbn [andb orb]; auto; try (exfalso; auto; fail); apply andb_false_r.
    - intros e _. pose proof (cross_apart e) as CA. unfold a, b, c, d, from_to, inside in *. rewrite !memz_new.
      destruct (memz (ce_src e) (chain_nodes cs)), (memz (ce_src e) (chain_nodes cu)), (memz (ce_sink e) (chain_nodes cs)), (memz (ce_sink e) (chain_nodes cu)); cbn [andb orb] in *;
        rewrite ?orb_true_r, ?orb_false_r; auto; try (apply CA; auto).
      all: destruct (apartm mp e); reflexivity.
  Qed.
  Lemma edges_new : Permutation (flat_map b_edges (c_bundles cs')) (filter (fun e => inside L e && apartm mp' e) EV).
  Proof.
    eapply perm_trans; [apply new_edges|]. eapply perm_trans; [apply Permutation_filter, edges_R|]. rewrite filter_filter.
    assert (Q : forall e, inside L e && apartm mp e && apartm mp' e = inside L e && apartm mp' e).
    { intros e. destruct (inside L e) eqn:I; [|reflexivity]. cbn [andb]. unfold inside in I. apply andb_true_iff in I as [I1 I2]. apply memz_In in I1, I2.
      destruct (apartm mp' e) eqn:A; [|apply andb_false_r]. rewrite (apart_mono e I1 I2 A). reflexivity. }
    rewrite (filter_ext _ _ Q). apply Permutation_refl.
  Qed.

  Theorem step_wf : wf E EV st'.
  Proof.
    destruct others_nodes as [ON [OB OI]]. pose proof (g_chains _ _ _ _ _ _ _ _ _ _ _ _ M) as CH. pose proof (g_id _ _ _ _ _ _ _ _ _ _ _ _ M) as GI.
    assert (CASE : forall c, In c (s_chains st') -> c = cs' \/ exists d0, In d0 rest /\ core_of c = core_of d0).
    { intros c Hc. rewrite CH in Hc. apply in_app_iff in Hc as [Hc|[<-|[]]]; [right; apply others_In; exact Hc|left; reflexivity]. }
    assert (IDS : NoDup (map c_id (s_chains st'))).
    { rewrite CH, map_app. cbn [map]. rewrite OI, GI. pose proof (Permutation_NoDup (Permutation_map c_id (g_perm _ _ _ _ _ _ _ _ _ _ _ _ M)) (w_ids _ _ _ W)) as X.
      cbn [map] in X. inversion X as [|? ? X1 X2]; subst. inversion X2 as [|? ? X3 X4]; subst. apply NoDup_snoc; [exact X4|]. intros Q. apply X1. right. exact Q. }
    assert (GT : forall c, In c (s_chains st') -> get_chain st' (c_id c) = Some c) by (intros c Hc; apply get_of_In; assumption).
    assert (GT0 : forall c, In c (s_chains st) -> get_chain st (c_id c) = Some c) by (intros c Hc; apply get_of_In; [apply (w_ids _ _ _ W)|assumption]).
    constructor.
    - exact IDS.
    - unfold all_nodes. rewrite CH, flat_map_app. cbn [flat_map]. rewrite app_nil_r, ON, new_nodes.
      eapply Permutation_NoDup; [apply Permutation_app_comm|]. eapply Permutation_NoDup; [apply Permutation_app_tail, Permutation_sym, (g_nodesp _ _ _ _ _ _ _ _ _ _ _ _ M)|]. apply st_nodes.
    - unfold all_bundles. rewrite CH, flat_map_app, map_app. cbn [flat_map]. rewrite app_nil_r, OB, new_bids.
      eapply Permutation_NoDup; [apply Permutation_app_comm|]. destruct (g_bids _ _ _ _ _ _ _ _ _ _ _ _ M) as [B1 B2]. pose proof st_bids as ND. apply NoDup_app_inv in ND as [_ [N2 D]].
      apply NoDup_app_intro; [exact B1|exact N2|]. intros x Hx. apply D. apply B2. exact Hx.
    - intros c Hc. destruct (CASE c Hc) as [->|[d0 [Hd Q]]].
      + unfold chain_ok. rewrite new_nodes, (g_size _ _ _ _ _ _ _ _ _ _ _ _ M), (g_freq _ _ _ _ _ _ _ _ _ _ _ _ M), GI.
        rewrite !(tot_perm _ _ _ (g_nodesp _ _ _ _ _ _ _ _ _ _ _ _ M)), !tot_app.
        destruct (w_chain _ _ _ W cs HIs) as [_ [S2 [S3 S4]]]. destruct (w_chain _ _ _ W cu HIu) as [_ [_ [U3 U4]]]. split; [|split; [|split; lia]].
        * rewrite (g_bundles _ _ _ _ _ _ _ _ _ _ _ _ M). apply bundles_ok_map; [reflexivity|]. exact (g_ok _ _ _ _ _ _ _ _ _ _ _ _ M).
        * intros Q. assert (L = []) by (rewrite <- new_nodes; unfold chain_nodes; rewrite Q; reflexivity).
          destruct (c_bundles cs) as [|b bs] eqn:BQ; [congruence|]. assert (Sb : b_nodes b <> []).
          { destruct (w_chain _ _ _ W cs HIs) as [S1 _]. rewrite BQ in S1. inversion S1; assumption. }
          destruct (b_nodes b) as [|n ns] eqn:NQ; [congruence|]. assert (X : In n L).
          { eapply Permutation_in; [apply Permutation_sym, (g_nodesp _ _ _ _ _ _ _ _ _ _ _ _ M)|]. apply in_app_iff. left. apply in_chain_nodes. exists b. rewrite BQ, NQ. cbn; auto. }
          rewrite H in X. destruct X.
      + apply core_parts in Q as [Q1 [Q2 [Q3 [Q4 [Q5 _]]]]]. destruct (rest_In d0 Hd) as [Hd0 _]. destruct (w_chain _ _ _ W d0 Hd0) as [X1 [X2 [X3 X4]]].
        unfold chain_ok. rewrite Q1, Q2, Q3, Q4, Q5. auto.
    - intros b n Hb Hn. unfold all_bundles in Hb. apply in_flat_map in Hb as [c [Hc Hb]]. destruct (CASE c Hc) as [->|[d0 [Hd Q]]].
      + rewrite (g_bundles _ _ _ _ _ _ _ _ _ _ _ _ M) in Hb. apply in_map_iff in Hb as [b0 [<- Hb0]]. exact (g_map _ _ _ _ _ _ _ _ _ _ _ _ M b0 n Hb0 Hn).
      + apply core_parts in Q as [_ [Q2 _]]. rewrite Q2 in Hb. rewrite (mp'_rest d0 n Hd) by (apply in_chain_nodes; eauto). apply (w_map _ _ _ W); [|exact Hn].
        apply in_flat_map. exists d0. split; [apply rest_In; exact Hd|exact Hb].
    - intros c d Hc Hd N. rewrite (outs_out st' c d (GT c Hc)), (g_out _ _ _ _ _ _ _ _ _ _ _ _ M).
      assert (ON' : forall x x0, In x0 rest -> core_of x = core_of x0 -> c_id x = c_id x0 /\ c_id x <> c_id cs /\ c_id x <> c_id cu /\ In x0 (s_chains st) /\ chain_nodes x = chain_nodes x0).
      { intros x x0 H1 H2. apply core_parts in H2 as [Q1 [_ [Q3 _]]]. destruct (rest_In x0 H1) as [R1 [R2 R3]]. rewrite Q1. auto. }
      destruct (CASE c Hc) as [->|[c0 [Hc0 Qc]]], (CASE d Hd) as [->|[d0 [Hd0 Qd]]].
      + congruence.
      + destruct (ON' d d0 Hd0 Qd) as [D1 [D2 [D3 [D4 D5]]]]. rewrite GI.
        replace (c_id cs =? c_id cu) with false by (symmetry; apply Z.eqb_neq; exact NE). replace (c_id d =? c_id cu) with false by (symmetry; apply Z.eqb_neq; exact D3).
        rewrite Z.eqb_refl. replace (c_id d =? c_id cs) with false by (symmetry; apply Z.eqb_neq; exact D2). rewrite appo_lst, new_nodes, D5, D1 in *.
        rewrite <- (outs_out st cs d0 Gs), <- (outs_out st cu d0 Gu).
        eapply perm_trans; [apply Permutation_app; [apply (w_out _ _ _ W cs d0 HIs D4); congruence|apply (w_out _ _ _ W cu d0 HIu D4); congruence]|].
        apply filter_or_perm; intros e _; unfold from_to; [|rewrite memz_new].
        * pose proof (disj (ce_src e)). destruct (memz (ce_src e) (chain_nodes cs)), (memz (ce_src e) (chain_nodes cu)); cbn [andb]; auto; try (exfalso; auto; fail); apply andb_false_r.
        * destruct (memz (ce_src e) (chain_nodes cs)), (memz (ce_src e) (chain_nodes cu)), (memz (ce_sink e) (chain_nodes d0)); reflexivity.
      + destruct (ON' c c0 Hc0 Qc) as [D1 [D2 [D3 [D4 D5]]]]. rewrite GI.
        replace (c_id cs =? c_id cu) with false by (symmetry; apply Z.eqb_neq; exact NE). replace (c_id c =? c_id cu) with false by (symmetry; apply Z.eqb_neq; exact D3).
        rewrite Z.eqb_refl. replace (c_id c =? c_id cs) with false by (symmetry; apply Z.eqb_neq; exact D2). rewrite appo_lst, new_nodes, D5, D1 in *.
        rewrite <- (outs_out st c0 cs (GT0 _ D4)), <- (outs_out st c0 cu (GT0 _ D4)).
        eapply perm_trans; [apply Permutation_app; [apply (w_out _ _ _ W c0 cs D4 HIs); congruence|apply (w_out _ _ _ W c0 cu D4 HIu); congruence]|].
        apply filter_or_perm; intros e _; unfold from_to; [|rewrite memz_new].
        * pose proof (disj (ce_sink e)). destruct (memz (ce_sink e) (chain_nodes cs)), (memz (ce_sink e) (chain_nodes cu)); rewrite ?andb_true_r, ?andb_false_r; auto; exfalso; auto.
        * destruct (memz (ce_sink e) (chain_nodes cs)), (memz (ce_sink e) (chain_nodes cu)), (memz (ce_src e) (chain_nodes c0)); reflexivity.
      + destruct (ON' c c0 Hc0 Qc) as [C1 [C2 [C3 [C4 C5]]]]. destruct (ON' d d0 Hd0 Qd) as [D1 [D2 [D3 [D4 D5]]]].
        replace (c_id c =? c_id cu) with false by (symmetry; apply Z.eqb_neq; exact C3). replace (c_id d =? c_id cu) with false by (symmetry; apply Z.eqb_neq; exact D3).
        replace (c_id c =? c_id cs) with false by (symmetry; apply Z.eqb_neq; exact C2). replace (c_id d =? c_id cs) with false by (symmetry; apply Z.eqb_neq; exact D2).
        rewrite C5, D5, C1, D1 in *. rewrite <- (outs_out st c0 d0 (GT0 _ C4)). apply (w_out _ _ _ W); assumption.
    - intros x. rewrite (g_out _ _ _ _ _ _ _ _ _ _ _ _ M). destruct (x =? c_id cu); [reflexivity|]. destruct (x =? c_id cs); [reflexivity|]. apply (w_self _ _ _ W).
    - exact (g_keys _ _ _ _ _ _ _ _ _ _ _ _ M).
    - intros x y H. apply live_ids. rewrite CH, map_app. cbn [map]. rewrite OI, GI. apply in_app_iff. rewrite (g_out _ _ _ _ _ _ _ _ _ _ _ _ M) in H.
      destruct (x =? c_id cu); [congruence|]. destruct (Z.eqb_spec y (c_id cu)) as [|Ny]; [congruence|].
      destruct (Z.eqb_spec y (c_id cs)) as [Qy|Nys]; [rewrite Qy; right; left; reflexivity|]. left.
      assert (LV : live st y).
      { destruct (x =? c_id cs); [apply appo_some in H as [H|H]|]; exact (w_live _ _ _ W _ _ H). }
      destruct LV as [d Hd]. apply get_In in Hd as [Hd <-]. apply in_map. rewrite (g_rest _ _ _ _ _ _ _ _ _ _ _ _ M). apply filter_In. split; [exact Hd|].
      apply andb_true_iff. split; apply negb_true_iff, Z.eqb_neq; assumption.
    - exact (g_inn _ _ _ _ _ _ _ _ _ _ _ _ M).
    - intros c Hc. destruct (CASE c Hc) as [->|[d0 [Hd Q]]].
      + rewrite new_nodes. apply edges_new.
      + apply core_parts in Q as [_ [Q2 [Q3 _]]]. rewrite Q2, Q3. eapply perm_trans; [apply (w_intra _ _ _ W d0); apply rest_In; exact Hd|].
        rewrite (filter_ext (fun e => inside (chain_nodes d0) e && apartm mp' e) (fun e => inside (chain_nodes d0) e && apartm mp e)); [apply Permutation_refl|].
        intros e. destruct (inside (chain_nodes d0) e) eqn:I; [|reflexivity]. cbn [andb]. apply (apart_rest d0); assumption.
    - intros b e Hb He. unfold all_bundles in Hb. apply in_flat_map in Hb as [c [Hc Hb]]. destruct (CASE c Hc) as [->|[d0 [Hd Q]]].
      + rewrite (g_bundles _ _ _ _ _ _ _ _ _ _ _ _ M) in Hb. apply in_map_iff in Hb as [b0 [<- Hb0]]. cbn [sort_edges keep_apart set_edges b_edges b_nodes] in *.
        apply isort_In in He. cbn [b_edges] in He. apply filter_In in He as [He _]. exact (g_src _ _ _ _ _ _ _ _ _ _ _ _ M b0 e Hb0 He).
      + apply core_parts in Q as [_ [Q2 _]]. rewrite Q2 in Hb. apply (w_src _ _ _ W b e); [|exact He]. apply in_flat_map. exists d0. split; [apply rest_In; exact Hd|exact Hb].
  Qed.
End Step.
