(** The chain builder as a whole. *)
From Verif Require Import Base ISort ForcedModel ForcedSpec ForcedProofs ForcedProps ChainModel ChainSpec ChainAsmProofs ChainEdgeProofs ChainConsumeProofs ChainMergeProofs ChainMergeWfProofs ChainStepProofs ChainScoreProofs ChainBuildModel ChainBuildSpec ChainInitProofs ChainEdgeInitProofs ChainQueueProofs ChainQueueInvProofs ChainLoopProofs.

(** What is known of the lists of blocks the builder starts with. *)
Definition start_ok (P : prog) (srt eok : Prop) (ns : list Z) (t : bool) : Prop :=
  (srt -> t = true \/ length ns = 1%nat) /\ (eok -> forall n, In n ns -> p_entry P n = true -> hd 0 ns = n).

Section Main.
  Context (P : prog).
  Definition given_ok (srt eok : Prop) (g : bcfg) : Prop :=
    initial_ok P g /\ (srt -> p_reorder P = false \/ forall ns, In ns (g_init g) -> length ns = 1%nat) /\ (eok -> p_ifr P = false /\ entry_in_front P g).
  Definition inner_ok (inner : bcfg -> outcome (list (list Z))) (ncfgs : Z) (g : bcfg) : Prop :=
    coalesced_first P ncfgs g = true -> is_hot P g = true -> exists chains, inner g = Ok chains /\ Permutation (concat chains) (laid_out P g).

  Lemma init_cfgs_ok inner ncfgs srt eok gs : 
    (forall n e, In e (p_outs P n) -> ce_src e = n /\ 0 <= ce_weight e /\ In e (p_ins P (ce_sink e))) ->
    (forall n e, In e (p_ins P n) -> ce_sink e = n /\ 0 <= ce_weight e /\ In e (p_outs P (ce_src e))) ->
    forall st, fresh (env_of P ncfgs) (start_ok P srt eok) st -> NoDup (flat_map g_nodes gs) ->
    (forall n, In n (flat_map g_nodes gs) -> ~ In n (all_nodes st)) ->
    (forall g, In g gs -> given_ok srt eok g /\ inner_ok inner ncfgs g /\ forall e, In e (g_intra g) -> In (ce_src e) (g_nodes g) /\ In (ce_sink e) (g_nodes g) /\ In e (p_outs P (ce_src e))) ->
    exists st', init_cfgs P ncfgs inner st gs = Ok st' /\ fresh (env_of P ncfgs) (start_ok P srt eok) st' /\ Permutation (all_nodes st') (all_nodes st ++ flat_map (laid_out P) gs).
  Proof.
    intros HO HI. induction gs as [|g gs IH]; intros st F ND D H; cbn [init_cfgs flat_map].
    - exists st. rewrite app_nil_r. auto.
    - cbn [flat_map] in *. apply NoDup_app_inv in ND as [N1 [N2 DJ]]. destruct (H g (or_introl eq_refl)) as [[IO [GS GE]] [HIN HG]].
      assert (IC : exists st1, init_cfg P ncfgs inner st g = Ok st1 /\ fresh (env_of P ncfgs) (start_ok P srt eok) st1 /\ Permutation (all_nodes st1) (all_nodes st ++ laid_out P g)).
      { apply (init_cfg_ok P HO HI g N1 IO HG).
        - intros CF HH. destruct (HIN CF HH) as [chains [A B]]. exists chains. split; [exact A|]. split; [exact B|]. intros ns _ _. split; [auto|].
          intros EK. destruct (GE EK) as [IF _]. unfold coalesced_first in CF. rewrite IF in CF. discriminate.
        - split; [auto|]. intros EK n Hn HE. exfalso. destruct (GE EK) as [IF _]. apply filter_In in Hn as [_ Hn]. unfold hot_node in Hn. rewrite HE, IF in Hn. cbn [negb andb] in Hn. rewrite orb_true_r in Hn. discriminate.
        - intros _. split; [auto|]. intros EK n Hn HE. destruct (GE EK) as [_ [EF _]]. apply filter_In in Hn as [Hn HH]. specialize (EF n Hn HE).
          destruct (g_nodes g) as [|m l]; [destruct Hn|]. cbn [hd] in EF. subst m. cbn [filter]. rewrite HH. reflexivity.
        - intros RO ns Hns _. split.
          + intros S. right. destruct (GS S) as [X|X]; [congruence|]. auto.
          + intros EK. destruct (GE EK) as [_ [_ [_ EI]]]. intros n Hn HE. exact (EI ns n Hns Hn HE).
        - intros RO _ ps ns Q Hns. split; [auto|]. intros EK n Hn HE. destruct (GE EK) as [_ [_ [EFO _]]].
          destruct (C26_paths (Fcfg (g_intra g) (g_bb g))) as [ps' [Q' [A _]]]. rewrite Q in Q'. injection Q' as <-. destruct (A ns Hns) as [_ AD].
          apply in_split in Hn as [l1 [l2 ->]]. destruct l1 as [|y l1] using rev_ind; [reflexivity|]. exfalso.
          assert (X : forced (Fcfg (g_intra g) (g_bb g)) y n) by (apply AD; exists l1, l2; rewrite <- app_assoc; reflexivity). rewrite (EFO _ _ X) in HE. discriminate.
        - intros n. split; [auto|]. intros _ m [->|[]] _. reflexivity.
        - exact F.
        - intros n Hn. apply D, in_app_iff. left. exact Hn. }
      destruct IC as [st1 [-> [F1 P1]]]. cbn [obind].
      destruct (IH st1 F1 N2) as [st2 [A2 [F2 P2]]].
      + intros n Hn X. apply (Permutation_in _ P1) in X. apply in_app_iff in X as [X|X]; [apply (D n); [apply in_app_iff; right; exact Hn|exact X]|].
        apply (DJ n); [|exact Hn]. unfold laid_out in X. destruct (is_hot P g); [|destruct X]. destruct (p_split_functions P); [apply filter_In in X; tauto|exact X].
      + intros g' Hg'. apply H. right. exact Hg'.
      + exists st2. split; [exact A2|]. split; [exact F2|]. eapply perm_trans; [exact P2|]. rewrite app_assoc. apply Permutation_app_tail. exact P1.
  Qed.

  Lemma laid_out_In gs n : In n (flat_map g_nodes gs) -> frequency P n <> 0 -> In n (flat_map (laid_out P) gs).
  Proof.
    intros H HF. apply in_flat_map in H as [g [Hg Hn]]. apply in_flat_map. exists g. split; [exact Hg|]. unfold laid_out. rewrite (is_hot_of P g n Hn HF).
    destruct (p_split_functions P); [|exact Hn]. apply filter_In. split; [exact Hn|]. apply hot_of_freq. exact HF.
  Qed.
  Lemma laid_out_incl gs n : In n (flat_map (laid_out P) gs) -> In n (flat_map g_nodes gs).
  Proof.
    intros H. apply in_flat_map in H as [g [Hg Hn]]. apply in_flat_map. exists g. split; [exact Hg|]. unfold laid_out in Hn. destruct (is_hot P g); [|destruct Hn].
    destruct (p_split_functions P); [apply filter_In in Hn; tauto|exact Hn].
  Qed.
  Lemma closed_laid gs : graphs_ok P gs -> closed (env_of P (zlen gs)) (flat_map (laid_out P) gs).
  Proof.
    intros GO. pose proof (go_outs _ _ GO) as HO. pose proof (go_ins _ _ GO) as HI.
    assert (WV : forall e, should_visit P (zlen gs) e = true -> ce_weight e <> 0) by (intros e H Q; unfold should_visit in H; rewrite Q in H; discriminate).
    split; intros n e Hn He HV; apply laid_out_In; cbn [env_of e_outs e_ins e_visit] in *.
    - apply (go_inside _ _ GO n e (laid_out_incl _ _ Hn) HV). exact He.
    - destruct (HO n e He) as [_ [_ X]]. apply (freq_in P HO HI _ e X). auto.
    - apply (go_inside _ _ GO n e (laid_out_incl _ _ Hn) HV). exact He.
    - destruct (HI n e He) as [_ [_ X]]. apply (freq_out P HO HI _ e X). auto.
  Qed.

  (** The whole run. *)
  Record run_ok (srt eok : Prop) (gs : list bcfg) (st : state) (X0 : list (list Z)) (EV : list cedge) : Prop := RunOk {
    ro_wf : wf (env_of P (zlen gs)) EV st;
    ro_ev : Permutation EV (looked_at P gs);
    ro_srt : srt -> sorted st /\ scored (env_of P (zlen gs)) st;
    ro_nodes : Permutation (all_nodes st) (flat_map (laid_out P) gs);
    ro_steps : merge_steps (p_ifr P) (p_entry P) X0 (layouts st);
    ro_start : Permutation (concat X0) (flat_map (laid_out P) gs);
    ro_first : eok -> forall ns n, In ns X0 -> In n ns -> p_entry P n = true -> hd 0 ns = n;
    ro_one : zlen gs = 1 -> (length (s_chains st) <= 1)%nat }.
  Lemma Permutation_flat_map_in {A B} (f : A -> list B) l k : Permutation l k -> Permutation (flat_map f l) (flat_map f k).
  Proof. apply Permutation_flat_map. Qed.
  Lemma concat_layouts st : concat (layouts st) = all_nodes st.
  Proof. unfold layouts, all_nodes. rewrite flat_map_concat_map. reflexivity. Qed.
  Record start_run (srt eok : Prop) (gs : list bcfg) (st1 : state) (q1 : queue) (EV : list cedge) : Prop := StartRun {
    sr_inv : binv (env_of P (zlen gs)) EV srt (flat_map (laid_out P) gs) st1 q1;
    sr_ev : Permutation EV (looked_at P gs);
    sr_first : eok -> forall ns n, In ns (layouts st1) -> In n ns -> p_entry P n = true -> hd 0 ns = n;
    sr_own : forall c, In c (s_chains st1) -> In (c_id c) (chain_nodes c) }.
  Theorem init_all_ok inner gs srt eok : graphs_ok P gs ->
    (forall g, In g gs -> given_ok srt eok g /\ inner_ok inner (zlen gs) g) ->
    exists st0 st1 q1 EV, InitNodeChains P inner gs = Ok st0 /\ InitChainEdges P (env_of P (zlen gs)) st0 = Ok st1 /\ InitChainAssemblies P (env_of P (zlen gs)) st1 = Ok q1 /\
      start_run srt eok gs st1 q1 EV.
  Proof.
    intros GO HG. unfold InitNodeChains. set (E := env_of P (zlen gs)). set (Nl := flat_map (laid_out P) gs).
    assert (OP := go_ord _ _ GO).
    destruct (init_cfgs_ok inner (zlen gs) srt eok gs (go_outs _ _ GO) (go_ins _ _ GO) (State [] (fun _ => None))) as [st0 [A0 [F0 P0]]].
    { constructor; cbn [s_chains s_map all_nodes all_bundles flat_map]; [intros c []|constructor|intros b n []|reflexivity]. }
    { apply (go_nodup _ _ GO). }
    { intros n _ []. }
    { intros g Hg. destruct (HG g Hg) as [A B]. split; [exact A|]. split; [exact B|]. intros e He. apply (go_intra _ _ GO g e Hg He). }
    cbn [all_nodes s_chains flat_map app] in P0. fold Nl in P0.
    assert (CL : closed E Nl) by (apply closed_laid; exact GO). pose proof (fresh_wf _ _ _ F0) as W0. fold E in W0.
    destruct (closed_at E Nl st0 CL P0) as [VO0 _].
    destruct (init_chain_edges_ok P E st0 W0 OP) as [st1 [A1 [W1 [SC1 SH1]]]].
    { intros n e Hn He HV. split; [apply (go_outs _ _ GO n e He)|]. apply (VO0 n e Hn He HV). }
    set (EV := map snd (edge_work P E st0)) in *. destruct (shape_all _ _ SH1) as [AN1 _].
    assert (P1 : Permutation (all_nodes st1) Nl) by (rewrite AN1; exact P0).
    assert (SO1 : srt -> sorted st1).
    { intros S. apply (one_bundle_sorted E EV st1 W1). intros c Hc. destruct (shape_In st1 st0 c (eq_sym SH1) Hc) as [c0 [Hc0 SQ]].
      destruct (fr_ch _ _ _ F0 c0 Hc0) as [ns [t [NE [[SS _] ->]]]]. assert (LB : length (c_bundles c) = length (c_bundles (new_chain E ns t))).
      { unfold shape_of in SQ. injection SQ as _ SQ. rewrite <- (map_length b_nodes (c_bundles c)), <- SQ, map_length. reflexivity. }
      rewrite LB. destruct (SS S) as [-> | LN]; [reflexivity|]. destruct ns as [|n [|]]; try discriminate. destruct t; reflexivity. }
    destruct (closed_at E Nl st1 CL P1) as [VO1 VI1].
    destruct (init_assemblies_all E EV st1 W1 (go_size _ _ GO) VO1 VI1 srt SO1 P OP) as [q1 [A2 Q1]].
    exists st0, st1, q1, EV. split; [exact A0|]. split; [exact A1|]. split; [exact A2|]. constructor; [constructor; auto| | |].
    - eapply perm_trans; [apply (edge_work_perm P E [] st0 W0 OP)|]. unfold looked_at. change (e_visit E) with (should_visit P (zlen gs)). apply Permutation_filter, Permutation_flat_map. exact P0.
    - intros EK ns n Hns Hn HE. unfold layouts in Hns. apply in_map_iff in Hns as [c [<- Hc]]. destruct (shape_In st1 st0 c (eq_sym SH1) Hc) as [c0 [Hc0 SQ]]. apply shape_nodes in SQ as [_ SQ]. rewrite <- SQ in *.
      destruct (fr_ch _ _ _ F0 c0 Hc0) as [ns [t [NE [[_ EE] ->]]]]. rewrite new_chain_nodes in * by exact NE. apply (EE EK n Hn HE).
    - intros c Hc. destruct (shape_In st1 st0 c (eq_sym SH1) Hc) as [c0 [Hc0 SQ]]. apply shape_nodes in SQ as [SI SQ]. rewrite <- SI, <- SQ.
      destruct (fr_ch _ _ _ F0 c0 Hc0) as [ns [t [NE [_ ->]]]]. rewrite new_chain_nodes by exact NE. destruct ns as [|n ns]; [congruence|]. destruct t; left; reflexivity.
  Qed.
  Theorem build_with_ok inner gs srt eok : graphs_ok P gs -> (forall e x, 0 <= p_score P e x) ->
    (forall g, In g gs -> given_ok srt eok g /\ inner_ok inner (zlen gs) g) ->
    exists st X0 EV, build_with P inner gs = Ok st /\ run_ok srt eok gs st X0 EV.
  Proof.
    intros GO NN HG. unfold build_with. destruct (init_all_ok inner gs srt eok GO HG) as [st0 [st1 [q1 [EV [-> [A1 [A2 [B1 EP FI]]]]]]]]. cbn [obind]. rewrite A1. cbn [obind]. rewrite A2. cbn [obind].
    set (E := env_of P (zlen gs)) in *. set (Nl := flat_map (laid_out P) gs) in *. assert (OP := go_ord _ _ GO). assert (CL : closed E Nl) by (apply closed_laid; exact GO).
    destruct (merge_loop_ok P OP E EV (go_size _ _ GO) srt Nl CL (length (s_chains st1)) st1 q1 B1 (le_n _)) as [st2 [q2 [-> [B2 [M2 _]]]]]. cbn [obind].
    assert (FIN : forall st q, binv E EV srt Nl st q -> merge_steps (p_ifr P) (p_entry P) (layouts st1) (layouts st) -> (zlen gs = 1 -> (length (s_chains st) <= 1)%nat) ->
              exists X0 EV, run_ok srt eok gs st X0 EV).
    { intros st q [W SR Q NP] MS ONE. exists (layouts st1), EV. constructor; auto. rewrite concat_layouts. apply (bi_nodes _ _ _ _ _ _ B1). }
    destruct (Z.eqb_spec (zlen gs) 1) as [L1|L1].
    - destruct (coalesce_ok P OP E EV (go_size _ _ GO) srt Nl CL st2 q2 B2) as [st3 [q3 [-> [B3 [M3 L3]]]]]; [intros e x _; apply NN|]. cbn [obind].
      destruct (FIN st3 q3 B3) as [X0 [EV0 R]]; [eapply steps_trans; eassumption|auto|]. exists st3, X0, EV0. auto.
    - destruct (FIN st2 q2 B2 M2) as [X0 [EV0 R]]; [congruence|]. exists st2, X0, EV0. auto.
  Qed.
  (** The builder of one graph inside the builder of many. *)
  Lemma graphs_one gs g : graphs_ok P gs -> In g gs -> graphs_ok P [g].
  Proof.
    intros GO Hg. constructor.
    - cbn [flat_map]. rewrite app_nil_r. pose proof (go_nodup _ _ GO) as ND. clear - ND Hg. induction gs as [|x l IH]; [destruct Hg|]. cbn [flat_map] in ND. apply NoDup_app_inv in ND as [N1 [N2 _]]. destruct Hg as [->|Hg]; auto.
    - apply (go_outs _ _ GO).
    - apply (go_ins _ _ GO).
    - intros g' e [<-|[]]. apply (go_intra _ _ GO). exact Hg.
    - cbn [flat_map]. rewrite app_nil_r. intros n e Hn HV. apply (go_local _ _ GO g n e Hg Hn).
      + intros Q. unfold should_visit in HV. rewrite Q in HV. discriminate.
      + unfold should_visit in HV. change (zlen [g] >? 1) with false in HV. rewrite andb_false_r in HV. cbn [andb orb] in HV. unfold is_call, is_return in HV. destruct (ce_kind e); try reflexivity; rewrite ?andb_false_r in HV; discriminate.
    - intros g' n e [<-|[]]. apply (go_local _ _ GO). exact Hg.
    - apply (go_size _ _ GO).
    - apply (go_ord _ _ GO).
  Qed.
  Lemma build_one_ok gs g : graphs_ok P gs -> In g gs -> initial_ok P g -> (forall e x, 0 <= p_score P e x) ->
    exists chains, build_one P g = Ok chains /\ Permutation (concat chains) (laid_out P g).
  Proof.
    intros GO Hg IO NN. destruct (build_with_ok (fun _ => UB) [g] False False (graphs_one gs g GO Hg) NN) as [st [X0 [EV [Q R]]]].
    - intros g' [<-|[]]. split; [split; [exact IO|split; intros []]|]. intros CF. exfalso. unfold coalesced_first in CF. change (zlen [g] >? 1) with false in CF. rewrite andb_false_r in CF. discriminate.
    - unfold build_one. rewrite Q. cbn [obind]. eexists. split; [reflexivity|]. change (map chain_nodes (s_chains st)) with (layouts st). rewrite concat_layouts.
      eapply perm_trans; [apply (ro_nodes _ _ _ _ _ _ R)|]. cbn [flat_map]. rewrite app_nil_r. apply Permutation_refl.
  Qed.
  Theorem build_chains_ok gs srt eok : graphs_ok P gs -> (forall e x, 0 <= p_score P e x) -> (forall g, In g gs -> given_ok srt eok g) -> (p_ifr P = false -> zlen gs = 1) ->
    exists st X0 EV, BuildChains P gs = Ok st /\ run_ok srt eok gs st X0 EV.
  Proof.
    intros GO NN HG ONE. unfold BuildChains. assert (X : negb (p_ifr P) && negb (zlen gs =? 1) = false).
    { destruct (p_ifr P); [reflexivity|]. rewrite ONE by reflexivity. reflexivity. }
    rewrite X. apply build_with_ok; auto. intros g Hg. split; [auto|]. intros _ _. apply (build_one_ok gs g GO Hg); [apply HG; exact Hg|exact NN].
  Qed.
End Main.
