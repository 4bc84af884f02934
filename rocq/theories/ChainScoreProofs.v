(** Order of the recorded edges, and scores, after a merge. *)
From Verif Require Import Base ISort ForcedModel ChainModel ChainSpec ChainAsmProofs ChainEdgeProofs ChainConsumeProofs ChainMergeProofs ChainMergeWfProofs ChainStepProofs.

Lemma find_bundle bs b : NoDup (map b_id bs) -> In b bs -> find (fun b' => b_id b' =? b_id b) bs = Some b.
Proof.
  induction bs as [|x bs IH]; intros ND H; [destruct H|]. cbn [map] in ND. inversion ND as [|? ? Hn ND']; subst. cbn [find].
  destruct H as [->|H]; [rewrite Z.eqb_refl; reflexivity|]. destruct (Z.eqb_spec (b_id x) (b_id b)) as [Q|Q]; [|auto].
  exfalso. apply Hn. rewrite Q. apply in_map. exact H.
Qed.
Lemma loc_found E EV st c : wf E EV st -> In c (s_chains st) -> found E (loc st) c.
Proof.
  intros W Hc b n Hb Hn. unfold loc. assert (HA : In b (all_bundles st)) by (apply in_flat_map; eauto).
  rewrite (w_map _ _ _ W b n HA Hn). fold (all_bundles st). rewrite (find_bundle _ b (w_bids _ _ _ W) HA). reflexivity.
Qed.
Lemma apart_apartm E EV st e c d : wf E EV st -> In c (s_chains st) -> In d (s_chains st) -> In (ce_src e) (chain_nodes c) -> In (ce_sink e) (chain_nodes d) ->
  apart (loc st) e = apartm (s_map st) e.
Proof.
  intros W Hc Hd H1 H2. unfold apart, apartm.
  destruct (node_placed E EV st W c _ Hc H1) as [b1 [B1 [B2 B3]]]. destruct (node_placed E EV st W d _ Hd H2) as [b2 [C1 [C2 C3]]].
  rewrite (loc_found E EV st c W Hc b1 _ B1 B2), (loc_found E EV st d W Hd b2 _ C1 C2), B3, C3. reflexivity.
Qed.
(** The recorded edges of every bundle are sorted by the index of the bundle of the sink. *)
Definition sorted_chain (st : state) (c : chain) : Prop :=
  forall b, In b (c_bundles c) -> StronglySorted (fun e1 e2 => sink_idx (loc st) e1 <= sink_idx (loc st) e2) (b_edges b).
Definition sorted (st : state) : Prop := forall c, In c (s_chains st) -> sorted_chain st c.
(** The score of a chain is that of its recorded edges. *)
Definition scored_chain (E : env) (c : chain) : Prop :=
  c_score c = sumf (fun e => e_score E e (dist (e_size E) (chain_nodes c) e)) (flat_map b_edges (c_bundles c)).
Definition scored (E : env) (st : state) : Prop := forall c, In c (s_chains st) -> scored_chain E c.

Lemma intra_apart E EV st c : wf E EV st -> In c (s_chains st) ->
  Permutation (flat_map b_edges (c_bundles c)) (filter (fun e => inside (chain_nodes c) e && apart (loc st) e) EV).
Proof.
  intros W Hc. rewrite (filter_ext (fun e => inside (chain_nodes c) e && apart (loc st) e) (fun e => inside (chain_nodes c) e && apartm (s_map st) e)); [apply (w_intra _ _ _ W c Hc)|].
  intros e. destruct (inside (chain_nodes c) e) eqn:I; [|reflexivity]. cbn [andb]. unfold inside in I. apply andb_true_iff in I as [I1 I2]. apply memz_In in I1, I2.
  apply (apart_apartm E EV st e c c W Hc Hc I1 I2).
Qed.
Lemma edges_inside E EV st c b e : wf E EV st -> In c (s_chains st) -> In b (c_bundles c) -> In e (b_edges b) -> In (ce_src e) (chain_nodes c) /\ In (ce_sink e) (chain_nodes c).
Proof.
  intros W Hc Hb He. assert (X : In e (flat_map b_edges (c_bundles c))) by (apply in_flat_map; eauto).
  apply (Permutation_in _ (w_intra _ _ _ W c Hc)) in X. apply filter_In in X as [_ X]. apply andb_true_iff in X as [X _]. unfold inside in X.
  apply andb_true_iff in X as [X1 X2]. apply memz_In in X1, X2. auto.
Qed.

Section Step.
  Context (E : env) (EV : list cedge) (st : state) (W : wf E EV st) (cs cu : chain)
          (Gs : get_chain st (c_id cs) = Some cs) (Gu : get_chain st (c_id cu) = Some cu) (NE : c_id cs <> c_id cu)
          (L : list Z) (g : Z) (st' : state) (cs' : chain) (others rest : list chain) (R : list bundle)
          (M : merged E st cs cu L g st' cs' others rest R (outs cu cs ++ outs cs cu)).
  Local Notation sz := (e_size E).
  Local Notation mp := (s_map st).
  Local Notation mp' := (s_map st').
  Let HIs : In cs (s_chains st) := proj1 (get_In _ _ _ Gs).
  Let HIu : In cu (s_chains st) := proj1 (get_In _ _ _ Gu).
  Let W' : wf E EV st' := step_wf E EV st W cs cu Gs Gu NE L g st' cs' others rest R M.

  Lemma In_new : In cs' (s_chains st').
  Proof. rewrite (g_chains _ _ _ _ _ _ _ _ _ _ _ _ M). apply in_app_iff. right. left. reflexivity. Qed.
  Lemma case_new c : In c (s_chains st') -> c = cs' \/ exists d0, In d0 rest /\ In d0 (s_chains st) /\ core_of c = core_of d0.
  Proof.
    intros Hc. rewrite (g_chains _ _ _ _ _ _ _ _ _ _ _ _ M) in Hc. apply in_app_iff in Hc as [Hc|[<-|[]]]; [right|left; reflexivity].
    destruct (others_In _ _ _ _ _ _ _ _ _ _ _ M c Hc) as [d0 [A B]]. exists d0. split; [exact A|]. split; [|exact B]. apply (rest_In _ _ _ _ _ _ _ _ _ _ _ M d0 A).
  Qed.
  (** The bundle of a block of an untouched chain is the same. *)
  Lemma loc_rest c d0 n : In c (s_chains st') -> In d0 (s_chains st) -> core_of c = core_of d0 -> In n (chain_nodes d0) -> loc st' n = loc st n.
  Proof.
    intros Hc Hd Q Hn. apply core_parts in Q as [_ [Q2 _]]. apply in_chain_nodes in Hn as [b [B1 B2]].
    rewrite (loc_found E EV st d0 W Hd b n B1 B2). apply (loc_found E EV st' c W' Hc b n); [rewrite Q2; exact B1|exact B2].
  Qed.
  Lemma sorted_rest c d0 : In c (s_chains st') -> In d0 (s_chains st) -> core_of c = core_of d0 -> sorted_chain st d0 -> sorted_chain st' c.
  Proof.
    intros Hc Hd Q S b Hb. pose proof (core_parts _ _ Q) as [_ [Q2 _]]. rewrite Q2 in Hb. specialize (S b Hb).
    assert (X : forall e, In e (b_edges b) -> sink_idx (loc st') e = sink_idx (loc st) e).
    { intros e He. unfold sink_idx. rewrite (loc_rest c d0); auto. apply (edges_inside E EV st d0 b e W Hd Hb He). }
    eapply StronglySorted_impl_In; [exact S|]. intros x y Hx Hy. cbv beta. rewrite !X by assumption. auto.
  Qed.
  Lemma sorted_new : sorted_chain st' cs'.
  Proof.
    intros b Hb. assert (Hb' := Hb). rewrite (g_bundles _ _ _ _ _ _ _ _ _ _ _ _ M) in Hb. apply in_map_iff in Hb as [b0 [<- Hb0]].
    set (idx := sink_index _ _) in *. set (F := fun b => sort_edges idx (keep_apart mp' b)) in *.
    assert (X : forall e, In e (b_edges (F b0)) -> sink_idx (loc st') e = idx (ce_sink e)).
    { intros e He. destruct (edges_inside E EV st' cs' _ e W' In_new Hb' He) as [_ H2].
      apply in_chain_nodes in H2 as [b1 [B1 B2]]. unfold sink_idx. rewrite (loc_found E EV st' cs' W' In_new b1 _ B1 B2).
      rewrite (g_bundles _ _ _ _ _ _ _ _ _ _ _ _ M) in B1. fold F in B1. apply in_map_iff in B1 as [b2 [<- B1]].
      unfold idx, sink_index. rewrite (g_map _ _ _ _ _ _ _ _ _ _ _ _ M b2 _ B1 B2).
      assert (Y : find (fun b => b_id b =? b_id b2) (map (keep_apart mp') R) = Some (keep_apart mp' b2)).
      { apply (find_bundle (map (keep_apart mp') R) (keep_apart mp' b2)); [|apply in_map; exact B1]. rewrite map_map. apply (g_bids _ _ _ _ _ _ _ _ _ _ _ _ M). }
      rewrite Y. reflexivity. }
    change (b_edges (sort_edges idx (keep_apart mp' b0))) with (isort (fun e1 e2 => negb (edge_ltb idx e2 e1)) (b_edges (keep_apart mp' b0))) in *. change (b_edges (F b0)) with (isort (fun e1 e2 => negb (edge_ltb idx e2 e1)) (b_edges (keep_apart mp' b0))) in X.
    assert (S : StronglySorted (le_prop (fun e1 e2 => negb (edge_ltb idx e2 e1))) (isort (fun e1 e2 => negb (edge_ltb idx e2 e1)) (b_edges (keep_apart mp' b0)))).
    { apply isort_sorted.
      - intros x y. unfold edge_ltb. lia.
      - intros x y z. unfold edge_ltb. lia. }
    eapply StronglySorted_impl_In; [exact S|]. intros x y Hx Hy H. cbv beta. rewrite (X x Hx), (X y Hy). unfold le_prop, edge_ltb in H. lia.
  Qed.
  Theorem step_sorted : sorted st -> sorted st'.
  Proof.
    intros S c Hc. destruct (case_new c Hc) as [->|[d0 [_ [Hd Q]]]]; [apply sorted_new|]. apply (sorted_rest c d0 Hc Hd Q). apply S. exact Hd.
  Qed.

  (** Scores *)
  Lemma mdist_new e : In (ce_src e) L -> In (ce_sink e) L -> apartm mp' e = false -> mdist E mp' e = dist sz L e.
  Proof.
    intros H1 H2 A. pose proof (g_nodes _ _ _ _ _ _ _ _ _ _ _ _ M) as NQ. rewrite <- NQ in H1, H2. apply in_flat_map in H1 as [b1 [A1 A2]]. apply in_flat_map in H2 as [b2 [C1 C2]].
    pose proof (g_map _ _ _ _ _ _ _ _ _ _ _ _ M b1 _ A1 A2) as M1. pose proof (g_map _ _ _ _ _ _ _ _ _ _ _ _ M b2 _ C1 C2) as M2.
    unfold apartm in A. rewrite M1, M2 in A. apply negb_false_iff, Z.eqb_eq in A.
    assert (b1 = b2) as <- by (eapply (NoDup_cons_In_neq b_id); [apply (g_bids _ _ _ _ _ _ _ _ _ _ _ _ M)|exact A1|exact C1|exact A]).
    unfold mdist, moff, dist. rewrite M1, M2. rewrite <- NQ. apply in_split in A1 as [l1 [l2 Q]]. rewrite Q, flat_map_app. cbn [flat_map].
    assert (ND : NoDup (flat_map b_nodes R)).
    { rewrite NQ. eapply Permutation_NoDup; [apply Permutation_sym, (g_nodesp _ _ _ _ _ _ _ _ _ _ _ _ M)|]. pose proof (st_nodes E EV st W _ _ _ _ _ _ _ _ _ M) as X. apply NoDup_app_inv in X. tauto. }
    rewrite Q, flat_map_app in ND. cbn [flat_map] in ND. apply NoDup_app_inv in ND as [_ [_ D]].
    assert (X : forall n, In n (b_nodes b1) -> pos sz (flat_map b_nodes l1 ++ b_nodes b1 ++ flat_map b_nodes l2) n = tot sz (flat_map b_nodes l1) + pos sz (b_nodes b1) n).
    { intros n Hn. rewrite pos_app_r by (intros H; apply (D n H), in_app_iff; left; exact Hn). rewrite pos_app_l by exact Hn. reflexivity. }
    rewrite !X by assumption. lia.
  Qed.
  Theorem step_scored o p : (forall n, 0 <= sz n) -> valid_cut cs o p -> L = asm_nodes cs cu (ConstructSlices cs cu o p) -> g = exact_gain E cs cu EV o p ->
    scored E st -> scored E st'.
  Proof.
    intros SZ V LQ GQ S c Hc. destruct (case_new c Hc) as [->|[d0 [_ [Hd Q]]]].
    2:{ pose proof (core_parts _ _ Q) as [_ [Q2 [Q3 [_ [_ Q4]]]]]. unfold scored_chain. rewrite Q2, Q3, Q4. apply S. exact Hd. }
    unfold scored_chain. rewrite (new_nodes _ _ _ _ _ _ _ _ _ _ _ M), (sumf_perm _ _ _ (new_edges _ _ _ _ _ _ _ _ _ _ _ M)), (g_score _ _ _ _ _ _ _ _ _ _ _ _ M).
    assert (ND : NoDup (chain_nodes cs ++ chain_nodes cu)) by (pose proof (st_nodes E EV st W _ _ _ _ _ _ _ _ _ M) as X; apply NoDup_app_inv in X; tauto).
    assert (INR : forall e, In e (flat_map b_edges R) -> In (ce_src e) L /\ In (ce_sink e) L).
    { intros e He. apply (Permutation_in _ (edges_R E EV st W cs cu Gs Gu NE _ _ _ _ _ _ _ M)) in He. apply filter_In in He as [_ He]. apply andb_true_iff in He as [He _].
      unfold inside in He. apply andb_true_iff in He as [A B]. apply memz_In in A, B. auto. }
    assert (RM : sumf (fun e => e_score E e (mdist E mp' e)) (filter (fun e => negb (apartm mp' e)) (flat_map b_edges R)) =
                 sumf (fun e => e_score E e (dist sz L e)) (filter (fun e => negb (apartm mp' e)) (flat_map b_edges R))).
    { apply sumf_ext. intros e He. apply filter_In in He as [He A]. apply negb_true_iff in A. destruct (INR e He) as [I1 I2]. rewrite mdist_new by assumption. reflexivity. }
    rewrite RM. clear RM.
    assert (SP : sumf (fun e => e_score E e (dist sz L e)) (flat_map b_edges R) =
      sumf (fun e => e_score E e (dist sz L e)) (filter (apartm mp') (flat_map b_edges R)) + sumf (fun e => e_score E e (dist sz L e)) (filter (fun e => negb (apartm mp' e)) (flat_map b_edges R))).
    { rewrite !sumf_filter, <- sumf_plus. apply sumf_ext. intros e _. destruct (apartm mp' e); cbn [negb]; lia. }
    rewrite (sumf_perm _ _ _ (g_edges _ _ _ _ _ _ _ _ _ _ _ _ M)), !sumf_app in SP.
    rewrite (exact_gain_eq E (loc st) cs cu SZ (w_chain _ _ _ W _ HIs) (w_chain _ _ _ W _ HIu) (loc_found E EV st cs W HIs) ND EV (intra_apart E EV st cs W HIs)) in GQ.
    2:{ intros b e Hb He. apply (w_src _ _ _ W b e); [apply in_flat_map; eauto|exact He]. }
    2:{ pose proof (st_bids E EV st W _ _ _ _ _ _ _ _ _ M) as X. apply NoDup_app_inv in X as [X _]. rewrite map_app in X. apply NoDup_app_inv in X. tauto. }
    2:{ exact V. }
    pose proof (S cs HIs) as Ss. pose proof (S cu HIu) as Su. unfold scored_chain in Ss, Su.
    rewrite (sumf_perm _ _ _ (w_out _ _ _ W cs cu HIs HIu NE)), (sumf_perm _ _ _ (w_out _ _ _ W cu cs HIu HIs (fun q => NE (eq_sym q)))) in SP.
    assert (NU : sumf (fun e => e_score E e (dist sz (chain_nodes cu) e)) (flat_map b_edges (c_bundles cu)) = sumf (fun e => e_score E e (dist sz L e)) (flat_map b_edges (c_bundles cu))).
    { apply sumf_ext. intros e He. apply in_flat_map in He as [b [Hb He]]. destruct (edges_inside E EV st cu b e W HIu Hb He) as [I1 I2].
      rewrite <- (newsc_same_u E (loc st) cs cu SZ (w_chain _ _ _ W _ HIs) (w_chain _ _ _ W _ HIu) ND o p V e).
      - unfold newsc. rewrite LQ. reflexivity.
      - unfold inside. apply andb_true_iff. split; apply memz_In; assumption. }
    rewrite sumf_minus in GQ. unfold newsc, oldsc in GQ. rewrite <- LQ in GQ. rewrite Ss, Su, GQ, NU. clear - SP. lia.
  Qed.
End Step.
