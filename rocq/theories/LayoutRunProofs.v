(** Proofs about the layout: the scores, the chains, the whole run. *)
From Verif Require Import Base ISort ForcedModel ForcedSpec ForcedProofs ForcedProps ChainModel ChainSpec ChainAsmProofs ChainEdgeProofs ChainMergeProofs ChainBuildModel ChainBuildSpec ChainInitProofs ChainLoopProofs ChainMainProofs ChainHistProofs ChainProps ClusterModel ClusterSpec ClusterProofs ClusterRunProofs ClusterProps LayoutModel LayoutSpec LayoutProofs.

(** * scores *)
Lemma sum_edges_ok P addr ad ok es : (forall e, In e es -> ok e = true -> addr (ce_sink e) = Ok (ad (ce_sink e)) /\ addr (ce_src e) = Ok (ad (ce_src e))) -> forall acc,
  sum_edges P addr ok acc es = Ok (acc + sumf (fun e => p_score P e (ad (ce_sink e) - ad (ce_src e) - p_size P (ce_src e))) (filter ok es)).
Proof.
  induction es as [|e es IH]; intros H acc; cbn [sum_edges filter]; [rewrite sumf_nil; f_equal; lia|].
  assert (IH' : forall acc, sum_edges P addr ok acc es = Ok (acc + sumf (fun e => p_score P e (ad (ce_sink e) - ad (ce_src e) - p_size P (ce_src e))) (filter ok es))) by (apply IH; intros; apply H; auto; right; assumption).
  destruct (ok e) eqn:Q; cbn [negb]; [|apply IH']. destruct (H e (or_introl eq_refl) Q) as [-> ->]. cbn [obind]. rewrite IH', sumf_cons. f_equal. lia.
Qed.
Lemma filter_filter {A} (p q : A -> bool) l : filter p (filter q l) = filter (fun x => q x && p x) l.
Proof. induction l as [|x l IH]; [reflexivity|]. cbn [filter]. destruct (q x); cbn [filter andb]; [destruct (p x); rewrite IH; reflexivity|exact IH]. Qed.
Lemma is_return_match e : negb (is_return e) = match ce_kind e with EReturn => false | _ => true end.
Proof. unfold is_return. destruct (ce_kind e); reflexivity. Qed.
Lemma cfg_scores_ok L ncfgs addr ad gs : 
  (forall g e, In g gs -> (In e (g_intra g) \/ (ncfgs >? 1 = true /\ In e (l_inter L g) /\ p_inter_section (q_prog (l_C L)) e = false)) -> ce_weight e <> 0 -> is_return e = false ->
     addr (ce_sink e) = Ok (ad (ce_sink e)) /\ addr (ce_src e) = Ok (ad (ce_src e))) -> forall m,
  NoDup (map fst m ++ map (l_func L) gs) ->
  cfg_scores L ncfgs addr m gs = Ok (m ++ map (fun g => (l_func L g, scores_of L (ncfgs >? 1) ad g)) gs).
Proof.
  induction gs as [|g gs IH]; intros H m ND; cbn [cfg_scores map]; [rewrite app_nil_r; reflexivity|].
  rewrite (sum_edges_ok _ addr ad).
  2:{ intros e He Q. apply (H g e (or_introl eq_refl) (or_introl He)); destruct (is_return e); lia. }
  cbn [obind]. rewrite Z.add_0_l.
  assert (X : (if ncfgs >? 1 then sum_edges (q_prog (l_C L)) addr (fun e => negb ((ce_weight e =? 0) || is_return e || p_inter_section (q_prog (l_C L)) e)) 0 (l_inter L g) else Ok 0) =
              Ok (snd (scores_of L (ncfgs >? 1) ad g))).
  { unfold scores_of. cbn [snd]. destruct (ncfgs >? 1) eqn:NC; [|reflexivity]. rewrite (sum_edges_ok _ addr ad).
    - rewrite Z.add_0_l. unfold score_at_addr. rewrite filter_filter. f_equal. f_equal. apply filter_ext. intros e. rewrite <- is_return_match. destruct (ce_weight e =? 0), (is_return e), (p_inter_section _ e); reflexivity.
    - intros e He Q. assert (Q' : ce_weight e <> 0 /\ is_return e = false /\ p_inter_section (q_prog (l_C L)) e = false) by (destruct (is_return e), (p_inter_section (q_prog (l_C L)) e); lia).
      destruct Q' as [A [B C]]. apply (H g e (or_introl eq_refl)); auto. }
  rewrite X. clear X. cbn [obind].
  assert (Y : sumf (fun e => p_score (q_prog (l_C L)) e (ad (ce_sink e) - ad (ce_src e) - p_size (q_prog (l_C L)) (ce_src e))) (filter (fun e => negb ((ce_weight e =? 0) || is_return e)) (g_intra g)) = fst (scores_of L (ncfgs >? 1) ad g)).
  { unfold scores_of, score_at_addr. cbn [fst]. f_equal. apply filter_ext. intros e. rewrite <- is_return_match. destruct (ce_weight e =? 0), (is_return e); reflexivity. }
  rewrite Y. clear Y. rewrite <- surjective_pairing.
  destruct (existsb _ m) eqn:E.
  { exfalso. apply existsb_exists in E as [p [E1 E2]]. apply Z.eqb_eq in E2. apply NoDup_app_inv in ND as [_ [_ D]]. apply (D (fst p)); [apply in_map; exact E1|]. left. congruence. }
  rewrite IH.
  - rewrite <- app_assoc. reflexivity.
  - intros g' e Hg'. apply H. right. exact Hg'.
  - rewrite map_app. cbn [map fst]. rewrite <- app_assoc. exact ND.
Qed.
Lemma score_at_map L f (sc : bcfg -> Z * Z) gs g : NoDup (map (l_func L) gs) -> In g gs -> l_func L g = f -> score_at (map (fun g => (l_func L g, sc g)) gs) f = Some (sc g).
Proof.
  intros N H <-. unfold score_at. assert (X : NoDup (map fst (map (fun g => (l_func L g, sc g)) gs))) by (rewrite map_map; exact N).
  pose proof (find_id fst _ (l_func L g, sc g) X) as Y. cbn [fst] in Y. rewrite Y; [reflexivity|]. apply in_map_iff. exists g. auto.
Qed.
Lemma address_map_ok P ns : forall a m x, address_map P a ns m x = match m x with Some y => Some y | None => if inb ns x then Some (a + pos (p_size P) ns x) else None end.
Proof.
  induction ns as [|n ns IH]; intros a m x; cbn [address_map]; [destruct (m x); reflexivity|]. rewrite IH. unfold inb. cbn [existsb pos]. destruct (m x); [reflexivity|]. rewrite (Z.eqb_sym n x).
  destruct (Z.eqb_spec x n) as [->|N]; cbn [orb]; [f_equal; lia|]. fold (inb ns x). destruct (inb ns x); [f_equal; lia|reflexivity].
Qed.

(** * chains *)
Lemma maxz_nonneg l : 0 <= maxz l.
Proof. unfold maxz. induction l as [|x l IH]; cbn [fold_right]; lia. Qed.
Lemma frequency_nonneg P n : 0 <= frequency P n.
Proof. unfold frequency. match goal with |- 0 <= Z.max ?a _ => assert (0 <= a) by apply maxz_nonneg end. lia. Qed.
Record cs_ok (P : prog) (gs : list bcfg) (cs : list chain) : Prop := {
  cs_nodes : Permutation (flat_map chain_nodes cs) (flat_map (laid_out P) gs);
  cs_sums : forall c, In c cs -> c_size c = tot (p_size P) (chain_nodes c) /\ c_freq c = tot (frequency P) (chain_nodes c) /\ In (c_id c) (chain_nodes c);
  cs_entry : p_ifr P = false -> (forall g, In g gs -> entry_in_front P g /\ (is_hot P g = true -> p_entry P (hd 0 (g_nodes g)) = true)) ->
    forall c, In c cs -> p_entry P (hd 0 (chain_nodes c)) = true }.
Lemma build_cs P gs : graphs_ok P gs -> (forall e x, 0 <= p_score P e x) -> (forall g, In g gs -> initial_ok P g) -> (p_ifr P = false -> zlen gs = 1) ->
  exists st, BuildChains P gs = Ok st /\ cs_ok P gs (s_chains st).
Proof.
  intros GO NN IO ONE. destruct (C30_partition P gs GO NN IO ONE) as [st [Q [NP [_ [_ [LE [BK [q H]]]]]]]]. exists st. split; [exact Q|].
  destruct (history_own P gs False False st q GO NN) as [EV [_ [_ OWN]]]; [intros g Hg; split; [auto|split; intros []]|exact H|].
  split; [exact NP|intros c Hc; destruct (bk_chain _ _ _ BK c Hc); auto|].
  intros IF EF c Hc. specialize (ONE IF). specialize (LE ONE). destruct gs as [|g [|g' gs]]; [discriminate| |rewrite !zlen_cons in ONE; pose proof (zlen_nonneg gs); lia].
  destruct (EF g (or_introl eq_refl)) as [EF1 EF2]. destruct (C27_entry_first P g GO NN (IO g (or_introl eq_refl)) IF EF1) as [st' [Q' EN]]. rewrite Q in Q'. injection Q' as <-.
  assert (CS : s_chains st = [c]). { destruct (s_chains st) as [|c1 [|c2 l]]; [destruct Hc|destruct Hc as [<-|[]]; reflexivity|cbn [length] in LE; lia]. }
  rewrite CS in NP. cbn [flat_map] in NP. rewrite !app_nil_r in NP.
  assert (NE : laid_out P g <> []). { intros X. rewrite X in NP. apply Permutation_sym, Permutation_nil in NP. pose proof (OWN c Hc) as Y. rewrite NP in Y. destruct Y. }
  assert (HH : is_hot P g = true) by (unfold laid_out in NE; destruct (is_hot P g); [reflexivity|congruence]).
  specialize (EF2 HH). set (n0 := hd 0 (g_nodes g)) in *.
  assert (N0 : In n0 (g_nodes g)).
  { unfold n0. unfold laid_out in NE. rewrite HH in NE. destruct (g_nodes g); [destruct (p_split_functions P); cbn [filter] in NE; congruence|left; reflexivity]. }
  assert (L0 : In n0 (laid_out P g)).
  { unfold laid_out. rewrite HH. destruct (p_split_functions P); [|exact N0]. apply filter_In. split; [exact N0|]. unfold hot_node. rewrite EF2, IF. cbn [negb andb]. rewrite orb_true_r. reflexivity. }
  rewrite (EN c n0 Hc); [exact EF2| |exact EF2]. apply (Permutation_in _ (Permutation_sym NP)). exact L0.
Qed.
Lemma cs_app P gs gs' cs cs' : cs_ok P gs cs -> cs_ok P gs' cs' -> cs_ok P (gs ++ gs') (cs ++ cs').
Proof.
  intros [A1 A2 A3] [B1 B2 B3]. split.
  - rewrite !flat_map_app. apply Permutation_app; assumption.
  - intros c Hc. apply in_app_iff in Hc as [Hc|Hc]; auto.
  - intros IF EF c Hc. apply in_app_iff in Hc as [Hc|Hc]; [apply A3|apply B3]; auto; intros g Hg; apply EF, in_app_iff; auto.
Qed.
Lemma each_cs P all : graphs_ok P all -> (forall e x, 0 <= p_score P e x) -> (forall g, In g all -> initial_ok P g) -> forall gs, incl gs all ->
  exists cs, chains_each P gs = Ok cs /\ cs_ok P gs cs.
Proof.
  intros GO NN IO. induction gs as [|g gs IH]; intros I; cbn [chains_each].
  - exists []. split; [reflexivity|]. split; [constructor|intros c []|intros _ _ c []].
  - destruct (build_cs P [g]) as [st [-> C1]]; [apply (graphs_one P all g GO), I; left; reflexivity|exact NN|intros g' [<-|[]]; apply IO, I; left; reflexivity|reflexivity|]. cbn [obind].
    destruct (IH (fun x Hx => I x (or_intror Hx))) as [cs [-> C2]]. cbn [obind]. exists (s_chains st ++ cs). split; [reflexivity|]. apply (cs_app P [g] gs); assumption.
Qed.
Lemma layout_cs P gs : graphs_ok P gs -> (forall e x, 0 <= p_score P e x) -> (forall g, In g gs -> initial_ok P g) ->
  exists cs, layout_chains P gs = Ok cs /\ cs_ok P gs cs.
Proof.
  intros GO NN IO. unfold layout_chains. destruct (p_ifr P) eqn:IF.
  - destruct (build_cs P gs GO NN IO) as [st [-> C]]; [congruence|]. exists (s_chains st). auto.
  - apply (each_cs P gs GO NN IO). apply incl_refl.
Qed.

Lemma tot_flat {A} f (g : A -> list Z) l : sumf (fun x => tot f (g x)) l = tot f (flat_map g l).
Proof. change (tot f (flat_map g l)) with (sumf f (flat_map g l)). rewrite sumf_flat_map. reflexivity. Qed.
Lemma laid_le P f gs : (forall n, 0 <= f n) -> tot f (flat_map (laid_out P) gs) <= tot f (flat_map g_nodes gs).
Proof.
  intros H. rewrite <- !tot_flat. induction gs as [|g gs IH]; [rewrite !sumf_nil; lia|]. rewrite !sumf_cons.
  assert (tot f (laid_out P g) <= tot f (g_nodes g)); [|lia]. unfold laid_out. change (tot f) with (sumf f). destruct (is_hot P g); [|apply sumf_nonneg; auto].
  destruct (p_split_functions P); [|lia]. rewrite sumf_filter. clear - H. induction (g_nodes g) as [|n l IH]; [rewrite !sumf_nil; lia|]. rewrite !sumf_cons. pose proof (H n). destruct (hot_node P g n); lia.
Qed.
Lemma laid_nodup P gs : NoDup (flat_map g_nodes gs) -> NoDup (flat_map (laid_out P) gs).
Proof.
  induction gs as [|g gs IH]; intros N; [constructor|]. cbn [flat_map] in *. apply NoDup_app_inv in N as [N1 [N2 D]]. apply NoDup_app_intro; [|apply IH; exact N2|].
  - unfold laid_out. destruct (is_hot P g); [|constructor]. destruct (p_split_functions P); [apply NoDup_filter; exact N1|exact N1].
  - intros x Hx Hy. apply (D x).
    + pose proof (laid_out_incl P [g] x) as X. cbn [flat_map] in X. rewrite !app_nil_r in X. auto.
    + apply (laid_out_incl P gs x Hy).
Qed.
Lemma own_nodup cs : NoDup (flat_map chain_nodes cs) -> (forall c, In c cs -> In (c_id c) (chain_nodes c)) -> NoDup (map c_id cs).
Proof.
  induction cs as [|c cs IH]; cbn [flat_map map]; intros N H; [constructor|]. apply NoDup_app_inv in N as [_ [N2 D]]. constructor; [|apply IH; auto; intros; apply H; right; assumption].
  intros X. apply in_map_iff in X as [d [Q Hd]]. apply (D (c_id c)); [apply H; left; reflexivity|]. apply in_flat_map. exists d. split; [exact Hd|]. rewrite <- Q. apply H. right. exact Hd.
Qed.

Section Section_.
  Context (L : lparams) (gs : list bcfg) (SO : section_ok L gs).
  Let P := q_prog (l_C L).
  Let GO : graphs_ok P gs := so_graphs _ _ SO.

  Lemma blocks_chains cs : blocks (map of_chain cs) = flat_map chain_nodes cs.
  Proof. unfold blocks. rewrite !flat_map_concat_map, map_map. reflexivity. Qed.
  Lemma counts_ends n e : In n (flat_map g_nodes gs) -> (In e (p_ins P n) \/ In e (p_outs P n)) -> counts P e = true ->
    In (ce_src e) (flat_map (laid_out P) gs) /\ In (ce_sink e) (flat_map (laid_out P) gs).
  Proof.
    intros Hn He CT. destruct (so_inside _ _ SO n e Hn He CT) as [A B]. fold P in A, B.
    assert (W0 : ce_weight e <> 0) by (unfold counts in CT; destruct (Z.eqb_spec (ce_weight e) 0); [discriminate|assumption]).
    assert (EO : In e (p_outs P (ce_src e)) /\ In e (p_ins P (ce_sink e))).
    { destruct He as [He|He].
      - destruct (go_ins _ _ GO n e He) as [Q [_ X]]. split; [exact X|rewrite Q; exact He].
      - destruct (go_outs _ _ GO n e He) as [Q [_ X]]. split; [rewrite Q; exact He|exact X]. }
    split; apply laid_out_In; auto.
    - apply (freq_out P (go_outs _ _ GO) (go_ins _ _ GO) _ e); tauto.
    - apply (freq_in P (go_outs _ _ GO) (go_ins _ _ GO) _ e); tauto.
  Qed.
  Lemma chains_good cs : cs_ok P gs cs -> chains_ok (l_C L) (map of_chain cs).
  Proof.
    intros [C1 C2 C3]. pose proof (laid_nodup P gs (go_nodup _ _ GO)) as NL.
    assert (ND : NoDup (flat_map chain_nodes cs)) by (eapply Permutation_NoDup; [apply Permutation_sym; exact C1|exact NL]).
    assert (IN : forall n, In n (blocks (map of_chain cs)) -> In n (flat_map g_nodes gs)).
    { intros n Hn. rewrite blocks_chains in Hn. apply (Permutation_in _ C1) in Hn. apply (laid_out_incl P gs n Hn). }
    assert (HC : forall h, In h (map of_chain cs) -> exists c, In c cs /\ h = of_chain c) by (intros h Hh; apply in_map_iff in Hh as [c [<- Hc]]; eauto).
    assert (TF : forall f, (forall n, 0 <= f n) -> 0 <= f 0) by auto.
    constructor; fold P.
    - rewrite map_map. cbn [of_chain h_id]. apply own_nodup; [exact ND|]. intros c Hc. apply C2. exact Hc.
    - rewrite blocks_chains. exact ND.
    - intros h Hh. apply HC in Hh as [c [Hc ->]]. cbn [of_chain h_nodes]. destruct (C2 c Hc) as [_ [_ X]]. intros Q. rewrite Q in X. destruct X.
    - intros h Hh. apply HC in Hh as [c [Hc ->]]. cbn [of_chain h_size]. destruct (C2 c Hc) as [-> _]. apply sumf_nonneg. intros n _. apply (go_size _ _ GO).
    - intros h Hh. apply HC in Hh as [c [Hc ->]]. cbn [of_chain h_freq]. destruct (C2 c Hc) as [_ [-> _]]. apply sumf_nonneg. intros n _. apply frequency_nonneg.
    - unfold csize. assert (Q : sumf h_size (map of_chain cs) = tot (p_size P) (flat_map chain_nodes cs)).
      { rewrite <- tot_flat. unfold sumf at 1. rewrite map_map. apply sumf_ext. intros c Hc. apply (C2 c Hc). }
      rewrite Q. change (tot (p_size P)) with (sumf (p_size P)). rewrite (sumf_perm _ _ _ C1). pose proof (laid_le P (p_size P) gs (go_size _ _ GO)) as X. pose proof (so_size _ _ SO) as Y. fold P in Y. unfold tot, sumf in *. lia.
    - unfold cfreq. assert (Q : sumf h_freq (map of_chain cs) = tot (frequency P) (flat_map chain_nodes cs)).
      { rewrite <- tot_flat. unfold sumf at 1. rewrite map_map. apply sumf_ext. intros c Hc. apply (C2 c Hc). }
      rewrite Q. change (tot (frequency P)) with (sumf (frequency P)). rewrite (sumf_perm _ _ _ C1). pose proof (laid_le P (frequency P) gs (frequency_nonneg P)) as X. pose proof (so_freq _ _ SO) as Y. fold P in Y. unfold tot, sumf in *. lia.
    - apply (so_thr _ _ SO).
    - intros n e Hn He. split; [apply (go_ins _ _ GO n e He)|]. apply (so_weight _ _ SO n e); [apply IN; exact Hn|exact He].
    - intros n e Hn He CT. rewrite blocks_chains. apply (Permutation_in _ (Permutation_sym C1)). apply (counts_ends n e (IN n Hn) (or_introl He) CT).
    - intros IF h Hh _. apply HC in Hh as [c [Hc ->]]. cbn [of_chain h_nodes]. apply C3; auto. intros g Hg. apply (so_entry _ _ SO IF g Hg).
  Qed.

  Theorem order_all_ok : exists cs ks zs, layout_chains P gs = Ok cs /\ BuildClusters (l_C L) (map of_chain cs) = Ok ks /\ OrderAll L gs = Ok zs /\
    chains_ok (l_C L) (map of_chain cs) /\
    Permutation (flat_map cluster_nodes ks) (flat_map (laid_out P) gs) /\ layout_info L gs (flat_map cluster_nodes ks) zs.
  Proof.
    destruct (layout_cs P gs GO (so_score _ _ SO) (so_initial _ _ SO)) as [cs [QC COK]]. pose proof (chains_good cs COK) as CG.
    destruct (C31_partition (l_C L) (map of_chain cs) CG) as [ks [QK [PK [NK _]]]]. set (ns := flat_map cluster_nodes ks).
    assert (PN : Permutation ns (flat_map (laid_out P) gs)).
    { eapply perm_trans; [|apply (cs_nodes _ _ _ COK)]. rewrite <- blocks_chains. unfold ns, cluster_nodes, blocks.
      assert (E : flat_map (fun k => flat_map h_nodes (k_chains k)) ks = flat_map h_nodes (flat_map k_chains ks)).
      { clear. induction ks as [|k l IH]; [reflexivity|]. cbn [flat_map]. rewrite flat_map_app, IH. reflexivity. }
      rewrite E. apply Permutation_flat_map. exact PK. }
    assert (IN : forall n, In n ns -> exists g, In g gs /\ In n (g_nodes g)).
    { intros n Hn. apply (Permutation_in _ PN) in Hn. apply laid_out_incl in Hn. apply in_flat_map in Hn. exact Hn. }
    assert (NF := so_funcs _ _ SO).
    assert (Q1 : orig_scores L gs = Ok (map (fun g => (l_func L g, scores_of L (zlen gs >? 1) (l_addr L) g)) gs)).
    { unfold orig_scores. rewrite (cfg_scores_ok L (zlen gs) _ (l_addr L)); [reflexivity|auto|exact NF]. }
    assert (Q2 : opt_scores L gs ns = Ok (map (fun g => (l_func L g, scores_of L (zlen gs >? 1) (pos (p_size P) ns) g)) gs)).
    { unfold opt_scores. fold P. rewrite (cfg_scores_ok L (zlen gs) _ (pos (p_size P) ns)); [reflexivity| |exact NF].
      intros g e Hg He W0 RT. fold P in He.
      assert (EE : In (ce_src e) (flat_map (laid_out P) gs) /\ In (ce_sink e) (flat_map (laid_out P) gs)).
      { destruct He as [He|[_ [He IS]]].
        - destruct (go_intra _ _ GO g e Hg He) as [A [B C]]. destruct (go_outs _ _ GO _ e C) as [_ [_ D]]. split; apply laid_out_In.
          + apply in_flat_map. eauto.
          + apply (freq_out P (go_outs _ _ GO) (go_ins _ _ GO) _ e C). exact W0.
          + apply in_flat_map. eauto.
          + apply (freq_in P (go_outs _ _ GO) (go_ins _ _ GO) _ e D). exact W0.
        - destruct (so_inter _ _ SO g e Hg He) as [A B]. fold P in B. apply (counts_ends (ce_src e) e); [apply in_flat_map; eauto|right; exact B|].
          unfold counts. rewrite IS, <- is_return_match, RT. apply Z.eqb_neq in W0. rewrite W0. reflexivity. }
      destruct EE as [E1 E2]. apply (Permutation_in _ (Permutation_sym PN)) in E1, E2. rewrite !address_map_ok. apply inb_In in E1, E2. rewrite E1, E2, !Z.add_0_l. auto. }
    set (so := fun f => match find (fun g => l_func L g =? f) gs with Some g => scores_of L (zlen gs >? 1) (l_addr L) g | None => (0, 0) end).
    set (sp := fun f => match find (fun g => l_func L g =? f) gs with Some g => scores_of L (zlen gs >? 1) (pos (p_size P) ns) g | None => (0, 0) end).
    assert (FG : forall g, In g gs -> find (fun g0 => l_func L g0 =? l_func L g) gs = Some g) by (intros g Hg; apply find_id; auto).
    assert (WK : walk L (map (fun g => (l_func L g, scores_of L (zlen gs >? 1) (l_addr L) g)) gs) (map (fun g => (l_func L g, scores_of L (zlen gs >? 1) (pos (p_size P) ns) g)) gs) (-1) 0 0 [] ns =
                 Ok (infos_of so sp (fold_left (extend L) ns []))).
    { apply (walk_ok L _ _ so sp ns) with (G := []). intros n Hn. destruct (IN n Hn) as [g [Hg Hng]]. rewrite (so_func _ _ SO g n Hg Hng).
      split; [apply (so_index _ _ SO g Hg)|]. unfold so, sp. rewrite (FG g Hg). split; apply score_at_map; auto. }
    set (G := fold_left (extend L) ns []) in *.
    exists cs, ks, (isort func_leb (map (sort_clusters L) (infos_of so sp G))). split; [exact QC|]. split; [exact QK|].
    split; [unfold OrderAll; fold P; rewrite QC; cbn [obind]; rewrite QK; cbn [obind]; fold ns; rewrite Q1; cbn [obind]; rewrite Q2; cbn [obind]; rewrite WK; reflexivity|].
    split; [exact CG|]. split; [exact PN|]. fold ns.
    assert (SP : Permutation (map (sort_clusters L) (infos_of so sp G)) (isort func_leb (map (sort_clusters L) (infos_of so sp G)))) by apply isort_perm.
    assert (SI : forall z, In z (isort func_leb (map (sort_clusters L) (infos_of so sp G))) -> exists z0, In z0 (infos_of so sp G) /\ z = sort_clusters L z0).
    { intros z Hz. apply isort_In in Hz. apply in_map_iff in Hz as [z0 [<- Hz]]. eauto. }
    split.
    - exists G. split; [|split].
      + apply (fold_groups L so sp ns) with (pre := []).
        * intros n Hn. destruct (IN n Hn) as [g [Hg Hng]]. rewrite (so_func _ _ SO g n Hg Hng). apply (so_index _ _ SO g Hg).
        * split; [reflexivity|intros f b []|intros f b n []|intros G1 f b f' b' G2 X; destruct G1; discriminate].
      + eapply perm_trans; [|apply (infos_clusters so sp G)]. unfold all_clusters. eapply perm_trans; [apply Permutation_flat_map, Permutation_sym; exact SP|].
        clear. induction (infos_of so sp G) as [|z l IH]; [constructor|]. cbn [map flat_map]. apply Permutation_app; [|exact IH]. cbn [sort_clusters z_clusters z_func]. apply Permutation_map, Permutation_sym, isort_perm.
      + rewrite <- (infos_cold so sp G). eapply perm_trans; [apply Permutation_map, Permutation_sym; exact SP|]. rewrite map_map. apply Permutation_refl.
    - assert (NDF : NoDup (map z_func (map (sort_clusters L) (infos_of so sp G)))) by (rewrite map_map; change (NoDup (map z_func (infos_of so sp G))); rewrite (infos_func so sp G); apply firsts_nodup).
      assert (NDS : NoDup (map z_func (isort func_leb (map (sort_clusters L) (infos_of so sp G))))) by (eapply Permutation_NoDup; [apply Permutation_map; exact SP|exact NDF]).
      eapply StronglySorted_NoDup_strict; [apply isort_sorted|exact (NoDup_map_inv _ _ NDS)|].
      + intros x y. unfold func_leb. lia.
      + intros x y z. unfold func_leb. lia.
      + intros a b Ha Hb NE LE. unfold le_prop, func_leb in LE. assert (z_func a <> z_func b); [|lia]. intros E. apply NE. exact (NoDup_map_inj z_func _ a b NDS Ha Hb E).
    - intros z Hz. apply SI in Hz as [z0 [Hz ->]]. cbn [sort_clusters z_clusters]. pose proof (infos_nonempty so sp G z0 Hz) as X. intros E. apply X.
      pose proof (isort_perm (bb_leb L) (z_clusters z0)) as Y. rewrite E in Y. apply Permutation_sym, Permutation_nil in Y. exact Y.
    - intros z Hz. apply SI in Hz as [z0 [Hz ->]]. cbn [sort_clusters z_clusters]. eapply StronglySorted_impl_In; [apply isort_sorted|].
      + intros x y. unfold bb_leb. lia.
      + intros x y w. unfold bb_leb. lia.
      + intros a b _ _ H. unfold le_prop, bb_leb in H. lia.
    - intros z g Hz Hg QF. apply SI in Hz as [z0 [Hz ->]]. cbn [sort_clusters z_orig z_opt z_func] in *. destruct (infos_scores so sp G z0 Hz) as [A B]. rewrite A, B. unfold so, sp. rewrite <- QF, (FG g Hg). auto.
  Qed.
End Section_.
