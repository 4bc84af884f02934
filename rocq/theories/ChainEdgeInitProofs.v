(** InitChainEdges records every visited edge. *)
From Verif Require Import Base ISort ForcedModel ChainModel ChainSpec ChainAsmProofs ChainEdgeProofs ChainConsumeProofs ChainMergeProofs ChainMergeWfProofs ChainStepProofs ChainScoreProofs ChainBuildModel ChainInitProofs.

Definition shape_of (c : chain) := (c_id c, map b_nodes (c_bundles c)).
Definition shape (st : state) := map shape_of (s_chains st).
Lemma shape_nodes c d : shape_of c = shape_of d -> c_id c = c_id d /\ chain_nodes c = chain_nodes d.
Proof.
  unfold shape_of, chain_nodes. intros H. injection H as A B. split; [exact A|]. rewrite !flat_map_concat_map, B. reflexivity.
Qed.
Lemma shape_all st st' : shape st' = shape st -> all_nodes st' = all_nodes st /\ map c_id (s_chains st') = map c_id (s_chains st).
Proof.
  unfold shape, all_nodes. revert st. destruct st' as [l' m']. intros [l m]. cbn [s_chains]. revert l. induction l' as [|c l' IH]; intros [|d l] H; try discriminate; [auto|].
  cbn [map] in H. injection H as H1 H2 H3. destruct (IH l H3) as [A B]. cbn [map flat_map].
  destruct (shape_nodes c d) as [C D]; [unfold shape_of; congruence|]. rewrite A, B, C, D. auto.
Qed.
Lemma shape_In st st' c : shape st' = shape st -> In c (s_chains st) -> exists c', In c' (s_chains st') /\ shape_of c' = shape_of c.
Proof. intros H Hc. assert (X : In (shape_of c) (shape st')) by (rewrite H; apply in_map; exact Hc). apply in_map_iff in X as [c' [A B]]. eauto. Qed.

Section Push.
  Context (E : env) (EV : list cedge) (st : state) (W : wf E EV st) (st' : state) (es : list cedge) (CH : chs st st' es).
  Lemma chs_In c' : In c' (s_chains st') -> exists c, In c (s_chains st) /\ c_id c' = c_id c /\ c_bundles c' = map (push_b (s_map st) es) (c_bundles c) /\ c_size c' = c_size c /\ c_freq c' = c_freq c.
  Proof.
    intros H. destruct CH as [A _]. assert (X : In (core_of c') (core st')) by (apply in_map; exact H). rewrite A in X. apply in_map_iff in X as [q [Q X]].
    unfold core in X. apply in_map_iff in X as [c [<- Hc]]. exists c. split; [exact Hc|]. unfold push_core, core_of in Q. injection Q as Q1 Q2 Q3 Q4 Q5 Q6. auto.
  Qed.
  Lemma chs_nodes c c' : c_bundles c' = map (push_b (s_map st) es) (c_bundles c) -> chain_nodes c' = chain_nodes c.
  Proof. intros H. unfold chain_nodes. rewrite H. apply push_nodes. Qed.
  Lemma chs_shape : shape st' = shape st.
  Proof.
    destruct CH as [A _]. unfold shape.
    assert (X : map (fun q : Z * option Z * list bundle * (Z * Z * Z) => let '(i, f, bs, r) := q in (i, map b_nodes bs)) (core st') = map (fun q : Z * option Z * list bundle * (Z * Z * Z) => let '(i, f, bs, r) := q in (i, map b_nodes bs)) (core st)).
    { rewrite A. unfold core. rewrite !map_map. apply map_ext. intros c. unfold core_of, push_core. f_equal. rewrite map_map. apply map_ext. reflexivity. }
    unfold core in X. rewrite !map_map in X. exact X.
  Qed.
  Lemma chs_bundles b' : In b' (all_bundles st') -> exists b, In b (all_bundles st) /\ b' = push_b (s_map st) es b.
  Proof.
    intros H. apply in_flat_map in H as [c' [Hc' Hb]]. destruct (chs_In c' Hc') as [c [Hc [_ [Q _]]]]. rewrite Q in Hb. apply in_map_iff in Hb as [b [<- Hb]].
    exists b. split; [apply in_flat_map; eauto|reflexivity].
  Qed.
  Lemma chs_bids : map b_id (all_bundles st') = map b_id (all_bundles st).
  Proof. destruct CH as [A _]. apply (core_push_bids _ _ _ _ A). Qed.
  (** The parts of the invariant that do not speak about edges. *)
  Lemma wf_static : (forall e, In e es -> placed st (ce_src e)) ->
    (forall e, In e es -> exists b, In b (all_bundles st) /\ In (ce_src e) (b_nodes b)) ->
    NoDup (map c_id (s_chains st')) /\ NoDup (all_nodes st') /\ NoDup (map b_id (all_bundles st')) /\
    (forall c, In c (s_chains st') -> chain_ok E c) /\ mapok E (s_map st') (all_bundles st') /\ srcok (all_bundles st').
  Proof.
    intros PL SR. destruct (shape_all _ _ chs_shape) as [SA SI]. destruct CH as [CA CM]. split; [rewrite SI; apply (w_ids _ _ _ W)|]. split; [rewrite SA; apply (w_nodes _ _ _ W)|].
    split; [rewrite chs_bids; apply (w_bids _ _ _ W)|]. split; [|split].
    - intros c' Hc'. destruct (chs_In c' Hc') as [c [Hc [Q1 [Q2 [Q3 Q4]]]]]. destruct (w_chain _ _ _ W c Hc) as [B1 [B2 [B3 B4]]].
      unfold chain_ok. rewrite (chs_nodes c c' Q2), Q1, Q2, Q3, Q4. split; [apply bundles_ok_map; [reflexivity|exact B1]|]. split; [|auto].
      destruct (c_bundles c); [congruence|discriminate].
    - intros b' n Hb' Hn. destruct (chs_bundles b' Hb') as [b [Hb ->]]. rewrite CM. apply (w_map _ _ _ W b n Hb Hn).
    - intros b' e Hb' He. destruct (chs_bundles b' Hb') as [b [Hb ->]]. cbn [push_b b_nodes set_edges]. unfold push_b in He. cbn [b_edges set_edges] in He.
      apply in_app_iff in He as [He|He]; [apply (w_src _ _ _ W b e Hb He)|]. apply filter_In in He as [He HB]. apply Z.eqb_eq in HB.
      destruct (SR e He) as [b1 [Hb1 Hn]]. unfold srcbid in HB. rewrite (w_map _ _ _ W b1 _ Hb1 Hn) in HB.
      assert (b1 = b) as <- by (apply (NoDup_cons_In_neq b_id (all_bundles st)); [apply (w_bids _ _ _ W)|exact Hb1|exact Hb|exact HB]). exact Hn.
  Qed.
End Push.

Section OneEdge.
  Context (E : env) (EV : list cedge) (st : state) (W : wf E EV st) (e : cedge) (c d : chain)
          (Hc : In c (s_chains st)) (Hd : In d (s_chains st)) (Hs : In (ce_src e) (chain_nodes c)) (Ht : In (ce_sink e) (chain_nodes d)).
  Lemma in_unique a b n : In a (s_chains st) -> In b (s_chains st) -> In n (chain_nodes a) -> In n (chain_nodes b) -> a = b.
  Proof.
    intros Ha Hb H1 H2. pose proof (w_nodes _ _ _ W) as ND. unfold all_nodes in ND. clear - Ha Hb H1 H2 ND. induction (s_chains st) as [|x l IH]; [destruct Ha|].
    cbn [flat_map] in ND. apply NoDup_app_inv in ND as [_ [N2 D]]. destruct Ha as [->|Ha], Hb as [->|Hb]; auto.
    - exfalso. apply (D n H1). apply in_flat_map. eauto.
    - exfalso. apply (D n H2). apply in_flat_map. eauto.
  Qed.
  Lemma from_to_e a b : In a (s_chains st) -> In b (s_chains st) -> from_to (chain_nodes a) (chain_nodes b) e = true -> a = c /\ b = d.
  Proof.
    intros Ha Hb H. unfold from_to in H. apply andb_true_iff in H as [H1 H2]. apply memz_In in H1, H2. split; [apply (in_unique a c _ Ha Hc H1 Hs)|apply (in_unique b d _ Hb Hd H2 Ht)].
  Qed.
  Lemma filter_snoc {A} (p : A -> bool) l x : filter p (l ++ [x]) = filter p l ++ (if p x then [x] else []).
  Proof. rewrite filter_app. reflexivity. Qed.
  Lemma from_to_cd : from_to (chain_nodes c) (chain_nodes d) e = true.
  Proof. unfold from_to. apply andb_true_iff. split; apply memz_In; assumption. Qed.

  Theorem init_edge_ok : exists st', init_edge st (c_id c) e = Ok st' /\ wf E (EV ++ [e]) st' /\ shape st' = shape st.
  Proof.
    destruct (node_placed E EV st W c _ Hc Hs) as [b1 [B1 [B2 B3]]]. destruct (node_placed E EV st W d _ Hd Ht) as [b2 [C1 [C2 C3]]].
    unfold init_edge. rewrite (loc_found E EV st c W Hc b1 _ B1 B2), (loc_found E EV st d W Hd b2 _ C1 C2).
    assert (AP : apartm (s_map st) e = negb (b_id b1 =? b_id b2)) by (unfold apartm; rewrite B3, C3; reflexivity).
    assert (BC : b_chain b2 = c_id d).
    { destruct (w_chain _ _ _ W d Hd) as [X _]. apply in_split in C1 as [l1 [l2 Q]]. rewrite Q in X. apply bundles_at in X. tauto. }
    assert (IB1 : In b1 (all_bundles st)) by (apply in_flat_map; eauto). assert (IB2 : In b2 (all_bundles st)) by (apply in_flat_map; eauto).
    destruct (Z.eqb_spec (b_id b1) (b_id b2)) as [Q|Q].
    - exists st. split; [reflexivity|]. split; [|reflexivity].
      assert (b1 = b2) as QB by (apply (NoDup_cons_In_neq b_id (all_bundles st)); auto; apply (w_bids _ _ _ W)).
      assert (CD : c = d) by (apply (in_unique c d _ Hc Hd Hs); rewrite QB in B2; apply in_chain_nodes; eauto).
      destruct W. constructor; try assumption.
      + intros a b Ha Hb N. rewrite filter_snoc. destruct (from_to (chain_nodes a) (chain_nodes b) e) eqn:X; [|rewrite app_nil_r; auto].
        apply from_to_e in X as [-> ->]; [|assumption|assumption]. congruence.
      + intros a Ha. rewrite filter_snoc. rewrite AP, andb_false_r, app_nil_r. auto.
    - destruct (Z.eq_dec (c_id c) (c_id d)) as [QC|QC].
      + assert (CD : c = d) by (apply (NoDup_cons_In_neq c_id (s_chains st)); auto; apply (w_ids _ _ _ W)). rewrite BC, <- CD. unfold move_edges. rewrite Z.eqb_refl.
        assert (PL : forall x, In x [e] -> placed st (ce_src x)) by (intros x [<-|[]]; apply (placed_of E EV st W c _ Hc Hs)).
        rewrite (push_ok [e] st PL). exists (push_st st [e]). split; [reflexivity|]. pose proof (chs_push st [e]) as CH.
        split; [|apply (chs_shape _ _ _ CH)].
        destruct (wf_static E EV st W _ _ CH PL) as [S1 [S2 [S3 [S4 [S5 S6]]]]]; [intros x [<-|[]]; eauto|].
        constructor; try assumption.
        * intros a' b' Ha' Hb' N. destruct (chs_In _ _ _ CH a' Ha') as [a [Ha [Q1 [Q2 _]]]]. destruct (chs_In _ _ _ CH b' Hb') as [b [Hb [R1 [R2 _]]]].
          rewrite (outs_out (push_st st [e]) a' b') by (apply get_of_In; assumption). rewrite push_out, Q1, R1.
          rewrite (chs_nodes _ _ _ _ Q2), (chs_nodes _ _ _ _ R2), filter_snoc. rewrite Q1, R1 in N.
          rewrite <- (outs_out st a b) by (apply get_of_In; [apply (w_ids _ _ _ W)|exact Ha]).
          destruct (from_to (chain_nodes a) (chain_nodes b) e) eqn:X; [|rewrite app_nil_r; apply (w_out _ _ _ W); assumption].
          apply from_to_e in X as [-> ->]; [|assumption|assumption]. congruence.
        * intros x. rewrite push_out. apply (w_self _ _ _ W).
        * apply push_keys, (w_keys _ _ _ W).
        * intros x y H. rewrite push_out in H. apply push_live, (w_live _ _ _ W _ _ H).
        * intros x y. rewrite push_inn, push_out. apply (w_inout _ _ _ W).
        * intros a' Ha'. destruct (chs_In _ _ _ CH a' Ha') as [a [Ha [Q1 [Q2 _]]]]. rewrite (chs_nodes _ _ _ _ Q2), filter_snoc. change (s_map (push_st st [e])) with (s_map st). rewrite Q2.
          eapply perm_trans; [apply push_edges_perm|].
          { pose proof (w_bids _ _ _ W) as X. unfold all_bundles in X. clear - X Ha. induction (s_chains st) as [|y l IH]; [destruct Ha|]. cbn [flat_map] in X. rewrite map_app in X. apply NoDup_app_inv in X as [X1 [X2 _]].
            destruct Ha as [->|Ha]; auto. }
          apply Permutation_app; [apply (w_intra _ _ _ W a Ha)|]. cbn [filter]. unfold srcbid. rewrite B3, AP. destruct (Z.eqb_spec (b_id b1) (b_id b2)); [congruence|]. cbn [negb]. rewrite andb_true_r.
          assert (X : memz (b_id b1) (map b_id (c_bundles a)) = inside (chain_nodes a) e).
          { apply eq_true_iff_eq. split; intros X.
            - apply memz_In, in_map_iff in X as [b [X1 X2]]. assert (b = b1) as -> by (apply (NoDup_cons_In_neq b_id (all_bundles st)); auto; [apply (w_bids _ _ _ W)|apply in_flat_map; eauto]).
              assert (a = c) as -> by (apply (in_unique a c (ce_src e)); auto; apply in_chain_nodes; eauto). unfold inside. apply andb_true_iff. split; apply memz_In; [exact Hs|rewrite CD; exact Ht].
            - unfold inside in X. apply andb_true_iff in X as [X _]. apply memz_In in X. assert (a = c) as -> by (apply (in_unique a c (ce_src e)); auto). apply memz_In, in_map. exact B1. }
          rewrite X. destruct (inside (chain_nodes a) e); apply Permutation_refl.
      + rewrite BC. destruct (move_ok st [e] (c_id c) (c_id d) QC) as [st' [A [CO [CM [OO [OI OK]]]]]].
        { apply live_ids, in_map. exact Hc. } { apply live_ids, in_map. exact Hd. }
        exists st'. split; [exact A|]. assert (CH : chs st st' []) by (apply chs_core; assumption). split; [|apply (chs_shape _ _ _ CH)].
        destruct (wf_static E EV st W _ _ CH) as [S1 [S2 [S3 [S4 [S5 S6]]]]]; [intros x []|intros x []|].
        assert (PB : forall bs, map (push_b (s_map st) []) bs = bs).
        { intros bs. rewrite <- (map_id bs) at 2. apply map_ext. intros b. unfold push_b. cbn [filter]. rewrite app_nil_r. apply set_edges_id. }
        constructor; try assumption.
        * intros a' b' Ha' Hb' N. destruct (chs_In _ _ _ CH a' Ha') as [a [Ha [Q1 [Q2 _]]]]. destruct (chs_In _ _ _ CH b' Hb') as [b [Hb [R1 [R2 _]]]].
          rewrite (outs_out st' a' b') by (apply get_of_In; assumption). rewrite OO, Q1, R1. rewrite Q1, R1 in N.
          rewrite (chs_nodes _ _ _ _ Q2), (chs_nodes _ _ _ _ R2), filter_snoc.
          pose proof (w_out _ _ _ W a b Ha Hb N) as WO. rewrite (outs_out st a b) in WO by (apply get_of_In; [apply (w_ids _ _ _ W)|exact Ha]).
          destruct (from_to (chain_nodes a) (chain_nodes b) e) eqn:X.
          -- apply from_to_e in X as [-> ->]; [|assumption|assumption]. rewrite !Z.eqb_refl. cbn [andb]. unfold lst, app_opt in *. destruct (out st (c_id c) (c_id d)); [apply Permutation_app_tail; exact WO|].
             change [e] with ([] ++ [e]) at 1; apply Permutation_app; [exact WO|apply Permutation_refl].
          -- rewrite app_nil_r. destruct (Z.eqb_spec (c_id a) (c_id c)) as [Y1|Y1]; cbn [andb]; [|exact WO]. destruct (Z.eqb_spec (c_id b) (c_id d)) as [Y2|Y2]; [|exact WO].
             exfalso. assert (a = c) as -> by (apply (NoDup_cons_In_neq c_id (s_chains st)); auto; apply (w_ids _ _ _ W)).
             assert (b = d) as -> by (apply (NoDup_cons_In_neq c_id (s_chains st)); auto; apply (w_ids _ _ _ W)). rewrite from_to_cd in X. discriminate.
        * intros x. rewrite OO. destruct (Z.eqb_spec x (c_id c)) as [X1|X1]; cbn [andb]; [|apply (w_self _ _ _ W)]. destruct (Z.eqb_spec x (c_id d)) as [X2|X2]; [congruence|apply (w_self _ _ _ W)].
        * apply OK, (w_keys _ _ _ W).
        * intros x y H. rewrite (chs_live _ _ _ _ CH). rewrite OO in H. destruct (Z.eqb_spec x (c_id c)) as [X1|X1]; cbn [andb] in H; [|apply (w_live _ _ _ W _ _ H)].
          destruct (Z.eqb_spec y (c_id d)) as [X2|X2]; [rewrite X2; apply live_ids, in_map; exact Hd|apply (w_live _ _ _ W _ _ H)].
        * intros x y. rewrite OI, OO, (w_inout _ _ _ W). destruct (Z.eqb_spec x (c_id c)) as [X1|X1], (Z.eqb_spec y (c_id d)) as [X2|X2]; cbn [andb]; try tauto.
          rewrite X1, X2. unfold app_opt. destruct (out st (c_id c) (c_id d)); split; intros; try discriminate; [left; discriminate|right; auto].
        * intros a' Ha'. destruct (chs_In _ _ _ CH a' Ha') as [a [Ha [Q1 [Q2 _]]]]. rewrite (chs_nodes _ _ _ _ Q2), filter_snoc, Q2, PB, CM.
          assert (X : inside (chain_nodes a) e = false).
          { destruct (inside (chain_nodes a) e) eqn:X; [|reflexivity]. exfalso. change (from_to (chain_nodes a) (chain_nodes a) e = true) in X. apply from_to_e in X as [X1 X2]; [|assumption|assumption]. congruence. }
          rewrite X. cbn [andb]. rewrite app_nil_r. apply (w_intra _ _ _ W a Ha).
  Qed.
End OneEdge.

Definition work_ok (st : state) (w : Z * cedge) : Prop :=
  exists c, In c (s_chains st) /\ c_id c = fst w /\ In (ce_src (snd w)) (chain_nodes c) /\ In (ce_sink (snd w)) (all_nodes st).
Lemma work_ok_shape st st' w : shape st' = shape st -> work_ok st w -> work_ok st' w.
Proof.
  intros H [c [A [B [C D]]]]. destruct (shape_In _ _ c H A) as [c' [A' Q]]. apply shape_nodes in Q as [Q1 Q2]. exists c'. rewrite Q1, Q2. destruct (shape_all _ _ H) as [-> _]. auto.
Qed.
Theorem init_edges_ok E work : forall EV st, wf E EV st -> Forall (work_ok st) work ->
  exists st', init_edges st work = Ok st' /\ wf E (EV ++ map snd work) st' /\ shape st' = shape st.
Proof.
  induction work as [|[id e] work IH]; intros EV st W F; cbn [init_edges map snd].
  - exists st. rewrite app_nil_r. auto.
  - inversion F as [|? ? [c [A [B [C D]]]] F']; subst. cbn [fst snd] in *. apply in_flat_map in D as [d [D1 D2]].
    destruct (init_edge_ok E EV st W e c d A D1 C D2) as [st1 [Q1 [W1 S1]]]. rewrite <- B, Q1. cbn [obind].
    destruct (IH _ st1 W1) as [st2 [Q2 [W2 S2]]]; [eapply Forall_impl; [|exact F']; intros w; apply work_ok_shape; exact S1|].
    exists st2. split; [exact Q2|]. rewrite <- app_assoc in W2. split; [exact W2|congruence].
Qed.

(** * Scores *)
Lemma node_offset_at E EV st c n : wf E EV st -> In c (s_chains st) -> In n (chain_nodes c) ->
  exists b q, In b (c_bundles c) /\ In n (b_nodes b) /\ loc st n = Some (b, q) /\ node_offset (b, q) = pos (e_size E) (chain_nodes c) n.
Proof.
  intros W Hc Hn. apply in_chain_nodes in Hn as [b [B1 B2]]. exists b, (pos (e_size E) (b_nodes b) n). split; [exact B1|]. split; [exact B2|].
  split; [apply (loc_found E EV st c W Hc b n B1 B2)|]. apply (node_at E c b n (w_chain _ _ _ W c Hc)); auto.
  pose proof (w_nodes _ _ _ W) as ND. clear - Hc ND. unfold all_nodes in ND. induction (s_chains st) as [|x l IH]; [destruct Hc|]. cbn [flat_map] in ND. apply NoDup_app_inv in ND as [N1 [N2 _]].
  destruct Hc as [->|Hc]; auto.
Qed.
Lemma compute_score_ok E EV st c : wf E EV st -> In c (s_chains st) ->
  ComputeScore E st c = Ok (sumf (fun e => e_score E e (dist (e_size E) (chain_nodes c) e)) (flat_map b_edges (c_bundles c))).
Proof.
  intros W Hc. unfold ComputeScore. rewrite sumf_flat_map. apply gain_bundles_ok. intros b Hb.
  assert (X : forall es, incl es (b_edges b) -> score_edges E st (b_id b) es = Ok (sumf (fun e => e_score E e (dist (e_size E) (chain_nodes c) e)) es)); [|apply X; apply incl_refl].
  induction es as [|e es IH]; intros I; [reflexivity|]. cbn [score_edges]. assert (He : In e (b_edges b)) by (apply I; left; reflexivity).
  destruct (edges_inside E EV st c b e W Hc Hb He) as [I1 I2].
  destruct (node_offset_at E EV st c _ W Hc I1) as [b1 [q1 [B1 [B2 [B3 B4]]]]]. destruct (node_offset_at E EV st c _ W Hc I2) as [b2 [q2 [C1 [C2 [C3 C4]]]]].
  rewrite B3, C3. cbn [fst].
  assert (HA : apartm (s_map st) e = true).
  { assert (Y : In e (flat_map b_edges (c_bundles c))) by (apply in_flat_map; eauto). apply (Permutation_in _ (w_intra _ _ _ W c Hc)) in Y. apply filter_In in Y as [_ Y]. apply andb_true_iff in Y. tauto. }
  assert (HB : In (ce_src e) (b_nodes b)) by (apply (w_src _ _ _ W b e); [apply in_flat_map; eauto|exact He]).
  unfold apartm in HA. rewrite (w_map _ _ _ W b (ce_src e)), (w_map _ _ _ W b2 (ce_sink e)) in HA; auto; try (apply in_flat_map; eauto; fail).
  destruct (Z.eqb_spec (b_id b2) (b_id b)) as [Q|Q]; [rewrite Q, Z.eqb_refl in HA; discriminate|]. rewrite IH by (intros x Hx; apply I; right; exact Hx). cbn [obind].
  rewrite B4, C4. reflexivity.
Qed.
Definition score_c (E : env) (c : chain) : chain := set_score c (sumf (fun e => e_score E e (dist (e_size E) (chain_nodes c) e)) (flat_map b_edges (c_bundles c))).
Lemma scores_ok E EV st cs : wf E EV st -> incl cs (s_chains st) -> scores E st cs = Ok (map (score_c E) cs).
Proof.
  intros W. induction cs as [|c cs IH]; intros I; [reflexivity|]. cbn [scores map]. rewrite (compute_score_ok E EV st c W) by (apply I; left; reflexivity). cbn [obind].
  rewrite IH by (intros x Hx; apply I; right; exact Hx). reflexivity.
Qed.
Lemma get_map_f st f x : (forall c, c_id (f c) = c_id c) -> get_chain (State (map f (s_chains st)) (s_map st)) x = option_map f (get_chain st x).
Proof.
  intros H. unfold get_chain. cbn [s_chains]. induction (s_chains st) as [|c l IH]; [reflexivity|]. cbn [map find]. rewrite H. destruct (c_id c =? x); [reflexivity|exact IH].
Qed.
Lemma set_scores_ok E EV st : wf E EV st -> let st' := State (map (score_c E) (s_chains st)) (s_map st) in
  wf E EV st' /\ scored E st' /\ shape st' = shape st /\ (sorted st -> sorted st').
Proof.
  intros W st'.
  assert (AB : all_bundles st' = all_bundles st) by (unfold all_bundles, st'; cbn [s_chains]; rewrite flat_map_map; reflexivity).
  assert (AN : all_nodes st' = all_nodes st) by (unfold all_nodes, st'; cbn [s_chains]; rewrite flat_map_map; reflexivity).
  assert (AI : map c_id (s_chains st') = map c_id (s_chains st)) by (unfold st'; cbn [s_chains]; rewrite map_map; reflexivity).
  assert (OUT : forall x y, out st' x y = out st x y) by (intros x y; unfold out, st'; rewrite (get_map_f st (score_c E) x) by reflexivity; destruct (get_chain st x); reflexivity).
  assert (INN : forall x y, inn st' x y <-> inn st x y) by (intros x y; unfold inn, st'; rewrite (get_map_f st (score_c E) y) by reflexivity; destruct (get_chain st y); reflexivity).
  assert (LIV : forall x, live st' x <-> live st x) by (intros x; rewrite !live_ids, AI; reflexivity).
  assert (LOC : forall n, loc st' n = loc st n).
  { intros n. unfold loc, st'. cbn [s_map s_chains]. rewrite flat_map_map. reflexivity. }
  assert (IN : forall c', In c' (s_chains st') -> exists c, In c (s_chains st) /\ c' = score_c E c) by (intros c' H; apply in_map_iff in H as [c [<- H]]; eauto).
  split; [|split; [|split]].
  - constructor.
    + rewrite AI. apply (w_ids _ _ _ W).
    + rewrite AN. apply (w_nodes _ _ _ W).
    + rewrite AB. apply (w_bids _ _ _ W).
    + intros c' H. destruct (IN c' H) as [c [Hc ->]]. apply (w_chain _ _ _ W c Hc).
    + rewrite AB. apply (w_map _ _ _ W).
    + intros a' b' Ha Hb. destruct (IN a' Ha) as [a [Ha' ->]]. destruct (IN b' Hb) as [b [Hb' ->]]. apply (w_out _ _ _ W a b Ha' Hb').
    + intros x. rewrite OUT. apply (w_self _ _ _ W).
    + intros c' H. destruct (IN c' H) as [c [Hc ->]]. apply (w_keys _ _ _ W c Hc).
    + intros x y H. rewrite OUT in H. apply LIV, (w_live _ _ _ W _ _ H).
    + intros x y. rewrite INN, OUT. apply (w_inout _ _ _ W).
    + intros c' H. destruct (IN c' H) as [c [Hc ->]]. apply (w_intra _ _ _ W c Hc).
    + rewrite AB. apply (w_src _ _ _ W).
  - intros c' H. destruct (IN c' H) as [c [Hc ->]]. reflexivity.
  - unfold shape, st'. cbn [s_chains]. rewrite map_map. reflexivity.
  - intros S c' H. destruct (IN c' H) as [c [Hc ->]]. intros b Hb. eapply StronglySorted_impl_In; [apply (S c Hc b Hb)|]. intros x y _ _. cbv beta. unfold sink_idx. rewrite !LOC. auto.
Qed.

(** Chains of one bundle have no recorded edges. *)
Lemma one_bundle_sorted E EV st : wf E EV st -> (forall c, In c (s_chains st) -> length (c_bundles c) = 1%nat) -> sorted st.
Proof.
  intros W H c Hc b Hb. specialize (H c Hc). destruct (c_bundles c) as [|b0 [|]] eqn:Q; try discriminate. destruct Hb as [->|[]].
  assert (X : b_edges b = []); [|rewrite X; constructor]. destruct (b_edges b) as [|e es] eqn:QE; [reflexivity|]. exfalso.
  assert (He : In e (flat_map b_edges (c_bundles c))) by (rewrite Q; cbn [flat_map]; rewrite QE; left; reflexivity).
  apply (Permutation_in _ (w_intra _ _ _ W c Hc)) in He. apply filter_In in He as [_ He]. apply andb_true_iff in He as [I A]. unfold inside in I. apply andb_true_iff in I as [I1 I2]. apply memz_In in I1, I2.
  destruct (node_placed E EV st W c _ Hc I1) as [b1 [B1 [_ B3]]]. destruct (node_placed E EV st W c _ Hc I2) as [b2 [C1 [_ C3]]]. rewrite Q in B1, C1. destruct B1 as [<-|[]], C1 as [<-|[]].
  unfold apartm in A. rewrite B3, C3, Z.eqb_refl in A. discriminate.
Qed.

(** * InitChainEdges *)
Theorem init_chain_edges_ok P E st : wf E [] st -> (forall l, Permutation (p_ord P l) l) ->
  (forall n e, In n (all_nodes st) -> In e (e_outs E n) -> e_visit E e = true -> ce_src e = n /\ In (ce_sink e) (all_nodes st)) ->
  exists st', InitChainEdges P E st = Ok st' /\ wf E (map snd (edge_work P E st)) st' /\ scored E st' /\ shape st' = shape st.
Proof.
  intros W OP HE. unfold InitChainEdges.
  assert (F : Forall (work_ok st) (edge_work P E st)).
  { apply Forall_forall. intros [id e] H. unfold edge_work in H. apply in_flat_map in H as [i [Hi H]]. destruct (get_chain st i) as [c|] eqn:G; [|destruct H].
    apply in_map_iff in H as [e' [Q H]]. injection Q as Q1 Q2. subst. apply filter_In in H as [H V]. apply in_flat_map in H as [n [Hn H]]. apply get_In in G as [G GI].
    assert (HA : In n (all_nodes st)) by (apply in_flat_map; eauto). destruct (HE n e HA H V) as [S T]. exists c. cbn [fst snd]. rewrite S. auto. }
  destruct (init_edges_ok E (edge_work P E st) [] st W F) as [st1 [A [W1 S1]]]. cbn [app] in W1. rewrite A. cbn [obind].
  rewrite (scores_ok E _ st1 (s_chains st1) W1) by apply incl_refl. cbn [obind].
  destruct (set_scores_ok E _ st1 W1) as [B1 [B2 [B3 _]]]. eexists. split; [reflexivity|]. split; [exact B1|]. split; [exact B2|]. rewrite B3. exact S1.
Qed.
(** The edges recorded are those the builder looks at, out of the blocks of the chains. *)
Lemma edge_work_perm P E EV st : wf E EV st -> (forall l, Permutation (p_ord P l) l) ->
  Permutation (map snd (edge_work P E st)) (filter (e_visit E) (flat_map (e_outs E) (all_nodes st))).
Proof.
  intros W OP. unfold edge_work. set (f := fun id => match get_chain st id with Some c => map (pair id) (filter (e_visit E) (flat_map (e_outs E) (chain_nodes c))) | None => [] end).
  eapply perm_trans; [apply Permutation_map, Permutation_flat_map, OP|].
  assert (G : forall l, incl l (s_chains st) -> map snd (flat_map f (map c_id l)) = filter (e_visit E) (flat_map (e_outs E) (flat_map chain_nodes l))).
  { induction l as [|c l IH]; intros I; [reflexivity|]. cbn [map flat_map]. rewrite map_app, flat_map_app, filter_app, IH by (intros x Hx; apply I; right; exact Hx). f_equal.
    unfold f. rewrite get_of_In; [|apply (w_ids _ _ _ W)|apply I; left; reflexivity]. rewrite map_map. cbn [snd]. apply map_id. }
  rewrite (G (s_chains st)) by apply incl_refl. apply Permutation_refl.
Qed.
