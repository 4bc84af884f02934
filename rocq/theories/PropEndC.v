(** Proofs about the Propeller run: what the layout needs of a section holds. *)
From Coq Require Import Sorted Permutation.
From Verif Require Import Base ISort StdSearch SymbolModel SymbolProofs MapperModel MapperSpec MapperProofs MapperProps
  CfgFreqModel CfgBuildModel CfgBuildSpec CfgBuildProofs CfgBuildTotal CfgBuildProps.
From Verif Require Import ForcedModel ForcedSpec ChainModel ChainSpec ChainAsmProofs ChainBuildModel ChainBuildSpec ChainInitProofs ClusterModel ClusterSpec ClusterProofs LayoutModel LayoutSpec LayoutRunProofs.
From Verif Require Import WriterModel WriterSpec PropEndModel PropEndSpec PropEndProofs PropEndA PropEndB.

Lemma sorted_filter_Z (p : Z -> bool) l : StronglySorted Z.lt l -> StronglySorted Z.lt (filter p l).
Proof.
  induction 1 as [|x l H IH F]; cbn [filter]; [constructor|]. destruct (p x); [|exact IH]. constructor; [exact IH|]. rewrite Forall_forall in *. intros y Hy. apply filter_In in Hy as [Hy _]. auto.
Qed.
Lemma sorted_seq_Z n : forall s, StronglySorted Z.lt (map Z.of_nat (seq s n)).
Proof.
  induction n as [|n IH]; intros s; cbn [seq map]; constructor; [apply IH|]. apply Forall_forall. intros y Hy. apply in_map_iff in Hy as [k [<- Hk]]. apply in_seq in Hk. lia.
Qed.
Lemma hd_least l x : StronglySorted Z.lt l -> In x l -> hd 0 l <= x /\ In (hd 0 l) l.
Proof.
  intros H Hx. destruct H as [|y l H F]; [destruct Hx|]. cbn [hd]. split; [|left; reflexivity]. destruct Hx as [->|Hx]; [lia|]. rewrite Forall_forall in F. specialize (F x Hx). lia.
Qed.
Lemma NoDup_flat_map {A C} (f : A -> list C) l : NoDup l -> (forall x, In x l -> NoDup (f x)) -> (forall x y z, In x l -> In y l -> In z (f x) -> In z (f y) -> x = y) -> NoDup (flat_map f l).
Proof.
  induction l as [|x l IH]; intros N H D; cbn [flat_map]; [constructor|]. inversion N as [|? ? N1 N2]; subst.
  apply NoDup_app_intro; [apply H; left; reflexivity|apply IH; [exact N2|intros; apply H; right; assumption|intros y y' z Hy Hy'; apply D; right; assumption]|].
  intros z Hz Hz'. apply in_flat_map in Hz' as [y [Hy Hz']]. assert (x = y) by (apply (D x y z); [left; reflexivity|right; exact Hy|exact Hz|exact Hz']). congruence.
Qed.
Lemma fold_sumf {A} (f : A -> Z) l : fold_right (fun x s => f x + s) 0 l = sumf f l.
Proof. induction l as [|x l IH]; [reflexivity|]. cbn [fold_right]. rewrite IH, sumf_cons. reflexivity. Qed.
Lemma sumf_map {A C} (g : A -> C) (f : C -> Z) l : sumf f (map g l) = sumf (fun x => f (g x)) l.
Proof. unfold sumf. rewrite map_map. reflexivity. Qed.
Lemma map_nth_seq {A} (l : list A) d : map (fun i => nth i l d) (seq 0 (length l)) = l.
Proof.
  induction l as [|x l IH]; [reflexivity|]. cbn [length seq map nth]. f_equal. rewrite <- seq_shift, map_map. exact IH.
Qed.

Section Sect.
  Context (v : version) (B : binary) (S : settings) (mp : mapper).
  Hypothesis BG : binary_good v B.
  Hypothesis SG : settings_good S.
  Hypothesis SH : shape (x_funcs B) (x_info B) mp.
  Context (dbg : bool) (has : bb_handle -> bool) (branches falls : list counter) (st : CfgBuildModel.cstate).
  Hypothesis HAS : forall h, has h = true <-> In h (mp_handles mp).
  Hypothesis BO : builder_ok mp has.
  Hypothesis CO : counts_ok branches falls.
  Hypothesis CE : CreateEdges dbg [] has mp (s_falls S) (s_reject S) branches falls = Ok (Some st).
  Hypothesis TR : 10 * transitions mp branches falls < 2 ^ 31.
  Notation EXP := (expected_weight mp branches falls).
  Notation P := (program B S mp st).
  Notation L := (layout_params B S mp st).

  Lemma nodes_sorted f : StronglySorted Z.lt (nodes_of_func mp f).
  Proof. apply sorted_filter_Z, sorted_seq_Z. Qed.
  Lemma nodes_nodup f : NoDup (nodes_of_func mp f).
  Proof. apply NoDup_filter, all_nodes_nodup. Qed.
  Lemma entry_node f : In f (mp_selected mp) -> exists i, (i < blk_count mp)%nat /\ blk_handle mp i = BbHandle f 0 /\ hd 0 (nodes_of_func mp f) = Z.of_nat i /\ In (Z.of_nat i) (nodes_of_func mp f).
  Proof.
    intros Hf. destruct (sh_in _ _ _ SH f Hf) as [Hl _]. assert (X : In (BbHandle f 0) (mp_handles mp)) by (apply (shape_In _ _ _ SH); cbn; split; [exact Hf|apply (bg_blocks _ _ BG); exact Hl]).
    apply In_blk in X as [i [Hi Ei]]. exists i. split; [exact Hi|]. split; [exact Ei|].
    assert (Fi : blk_func mp i = f) by (unfold blk_func; fold (blk_handle mp i); rewrite Ei; reflexivity).
    assert (In_i : In (Z.of_nat i) (nodes_of_func mp f)) by (apply (nodes_of_In mp f); eauto). split; [|exact In_i].
    destruct (hd_least _ _ (nodes_sorted f) In_i) as [H1 H2]. apply (nodes_of_In mp f) in H2 as [k [Hk [Ek Fk]]]. rewrite Ek in *.
    destruct (Nat.eq_dec k i) as [->|N]; [reflexivity|]. exfalso. pose proof (blk_lt _ _ _ SH k i ltac:(lia)) as C. rewrite Ei in C. cbn [bh_bb] in C. lia.
  Qed.
  Lemma graph_func f : In f (mp_selected mp) -> l_func L (graph mp st f) = Z.of_nat f.
  Proof.
    intros Hf. destruct (entry_node f Hf) as [i [Hi [Ei [Eh _]]]]. cbn [l_func layout_params g_nodes graph]. rewrite Eh, func_nat. unfold blk_func. fold (blk_handle mp i). rewrite Ei. reflexivity.
  Qed.
  Lemma total_edges : sumf ce_weight (all_edges mp st) = total_weight st.
  Proof. unfold all_edges, total_weight. rewrite sumf_map. cbn [ce_weight]. rewrite fold_sumf. reflexivity. Qed.
  Lemma total_bound : 10 * sumf ce_weight (all_edges mp st) < 2 ^ 31.
  Proof. rewrite total_edges. pose proof (total_le _ _ _ SH (bg_first _ _ BG) _ _ _ _ _ _ _ HAS BO (sg_falls _ SG) CO CE). lia. Qed.
  Notation facts := (edge_facts v B S mp BG SG SH dbg has branches falls st HAS BO CO CE).
  Lemma weights_pos e : In e (all_edges mp st) -> 0 <= ce_weight e.
  Proof. intros H. apply facts in H as [H _]. exact H. Qed.

  Context (nm : name) (fl : list nat).
  Hypothesis FN : NoDup fl.
  Hypothesis FI : forall f, In f fl <-> In f (kept B S mp st) /\ section_of B (Z.of_nat f) = nm.
  Notation gs := (map (graph mp st) fl).
  Lemma fl_sel f : In f fl -> In f (mp_selected mp).
  Proof. intros H. apply FI in H as [H _]. eapply kept_selected; exact H. Qed.
  Lemma gs_nodes n : In n (flat_map g_nodes gs) <-> exists i, (i < blk_count mp)%nat /\ n = Z.of_nat i /\ In (blk_func mp i) fl.
  Proof.
    rewrite in_flat_map. split.
    - intros [g [Hg Hn]]. apply in_map_iff in Hg as [f [<- Hf]]. cbn [g_nodes graph] in Hn. apply (nodes_of_In mp f) in Hn as [i [Hi [-> E]]]. exists i. subst f. auto.
    - intros [i [Hi [-> H]]]. exists (graph mp st (blk_func mp i)). split; [apply in_map; exact H|]. cbn [g_nodes graph]. apply (nodes_of_In mp). eauto.
  Qed.
  Lemma gs_nodup : NoDup (flat_map g_nodes gs).
  Proof.
    rewrite flat_map_concat_map, map_map, <- flat_map_concat_map. cbn [g_nodes graph]. apply NoDup_flat_map; [exact FN|intros; apply nodes_nodup|].
    intros f g z _ _ H1 H2. apply (nodes_of_In mp) in H1 as [i [_ [E1 F1]]]. apply (nodes_of_In mp) in H2 as [j [_ [E2 F2]]]. assert (i = j) by lia. congruence.
  Qed.
  (** A weighted edge between blocks of this section's functions. *)
  Lemma freq_of_edge e : In e (all_edges mp st) -> ce_weight e <> 0 ->
    exists a b, (a < blk_count mp)%nat /\ (b < blk_count mp)%nat /\ ce_src e = Z.of_nat a /\ ce_sink e = Z.of_nat b /\ In (blk_func mp a) (kept B S mp st) /\ In (blk_func mp b) (kept B S mp st) /\
      (ce_kind e = EBranch -> blk_func mp a = blk_func mp b /\ bh_bb (blk_handle mp b) <> 0%nat).
  Proof.
    intros H W. apply facts in H as [_ [a [b [Ha [Hb [E1 [E2 [E3 E4]]]]]]]]. exists a, b. do 4 (split; [assumption|]).
    assert (Xa : executed mp branches falls a) by (exists b; split; [exact Hb|left; congruence]). assert (Xb : executed mp branches falls b) by (exists a; split; [exact Ha|right; congruence]).
    split; [|split; [|exact E4]]; apply (kept_In v B S mp BG SG SH dbg has branches falls st HAS BO CO CE); [exists a|exists b]; auto.
  Qed.
  Lemma same_section e a b : ce_src e = Z.of_nat a -> ce_sink e = Z.of_nat b -> p_inter_section P e = false ->
    section_of B (Z.of_nat (blk_func mp a)) = section_of B (Z.of_nat (blk_func mp b)).
  Proof.
    intros E1 E2 H. cbn [p_inter_section program] in H. rewrite E1, E2, !func_nat in H. apply negb_false_iff in H. destruct (name_eqb_spec (section_of B (Z.of_nat (blk_func mp a))) (section_of B (Z.of_nat (blk_func mp b)))); [assumption|discriminate].
  Qed.
  (** An edge with one end in this section that does not leave it has both. *)
  Lemma both_ends e : In e (all_edges mp st) -> ce_weight e <> 0 -> p_inter_section P e = false ->
    In (ce_src e) (flat_map g_nodes gs) \/ In (ce_sink e) (flat_map g_nodes gs) ->
    In (ce_src e) (flat_map g_nodes gs) /\ In (ce_sink e) (flat_map g_nodes gs).
  Proof.
    intros H W SE OR. destruct (freq_of_edge e H W) as [a [b [Ha [Hb [E1 [E2 [Ka [Kb _]]]]]]]]. pose proof (same_section e a b E1 E2 SE) as ES.
    assert (X : In (blk_func mp a) fl /\ In (blk_func mp b) fl).
    { destruct OR as [O|O]; apply gs_nodes in O as [i [Hi [Ei Fi]]].
      - assert (i = a) by lia. subst i. split; [exact Fi|]. apply FI in Fi as [_ Fi]. apply FI. split; [exact Kb|congruence].
      - assert (i = b) by lia. subst i. split; [|exact Fi]. apply FI in Fi as [_ Fi]. apply FI. split; [exact Ka|congruence]. }
    rewrite E1, E2. split; apply gs_nodes; [exists a|exists b]; tauto.
  Qed.
  Lemma branch_not_inter e : In e (all_edges mp st) -> ce_weight e <> 0 -> ce_kind e = EBranch -> p_inter_section P e = false.
  Proof.
    intros H W K. destruct (freq_of_edge e H W) as [a [b [Ha [Hb [E1 [E2 [_ [_ E]]]]]]]]. destruct (E K) as [E' _]. cbn [p_inter_section program]. rewrite E1, E2, !func_nat, E'.
    destruct (name_eqb_spec (section_of B (Z.of_nat (blk_func mp b))) (section_of B (Z.of_nat (blk_func mp b)))); [reflexivity|congruence].
  Qed.
  Notation outsI := (outs_In B S mp st).
  Notation insI := (ins_In B S mp st).

  Lemma graphs_fit : graphs_ok P gs.
  Proof.
    constructor.
    - exact gs_nodup.
    - intros n e He. apply outsI in He as [He E]. split; [exact E|]. split; [exact (weights_pos e He)|]. apply insI. auto.
    - intros n e He. apply insI in He as [He E]. split; [exact E|]. split; [exact (weights_pos e He)|]. apply outsI. auto.
    - intros g e Hg He. apply in_map_iff in Hg as [f [<- Hf]]. cbn [g_intra g_nodes graph] in *. apply filter_In in He as [He X]. apply andb_prop in X as [X1 X2]. unfold stays in X2.
      destruct (facts e He) as [_ [a [b [Ha [Hb [E1 [E2 _]]]]]]]. rewrite E1, E2, !func_nat in *. split; [apply (nodes_of_In mp); exists a; split; [exact Ha|split; [reflexivity|lia]]|]. split; [apply (nodes_of_In mp); exists b; split; [exact Hb|split; [reflexivity|lia]]|]. apply outsI. auto.
    - intros n e Hn V. unfold should_visit in V. apply andb_prop in V as [V V3]. apply andb_prop in V as [V1 V2]. assert (W : ce_weight e <> 0) by lia.
      assert (NI : In e (all_edges mp st) -> p_inter_section P e = false).
      { intros He. apply orb_prop in V3 as [V3|V3]; [apply andb_prop in V3 as [_ V3]; apply negb_true_iff in V3; exact V3|]. apply branch_not_inter; [exact He|exact W|]. unfold is_call, is_return in *. destruct (ce_kind e); [reflexivity|discriminate..]. }
      split; intros He; [apply outsI in He as [He E]|apply insI in He as [He E]]; apply (both_ends e He W (NI He)); rewrite E; auto.
    - intros g n e Hg Hn W K. apply in_map_iff in Hg as [f [<- Hf]]. cbn [g_nodes graph] in *. apply (nodes_of_In mp) in Hn as [i [Hi [-> Fi]]].
      split; intros He; [apply outsI in He as [He E]|apply insI in He as [He E]]; destruct (freq_of_edge e He W) as [a [b [Ha [Hb [E1 [E2 [_ [_ X]]]]]]]]; destruct (X K) as [X1 _].
      + rewrite E2. apply (nodes_of_In mp). exists b. assert (a = i) by lia. subst a. split; [exact Hb|]. split; [reflexivity|congruence].
      + rewrite E1. apply (nodes_of_In mp). exists a. assert (b = i) by lia. subst b. split; [exact Ha|]. split; [reflexivity|congruence].
    - intros n. cbn [p_size program]. unfold GetBBEntry, GetFunctionEntry. rewrite (sh_funcs _ _ _ SH). destruct (bg_ok _ _ BG) as [_ [B1 _]].
      destruct (Nat.lt_ge_cases (bh_func (handle_of mp n)) (length (x_funcs B))) as [H1|H1]; [|rewrite (nth_overflow (x_funcs B)) by lia; destruct (bh_bb (handle_of mp n)); cbn; lia].
      destruct (Nat.lt_ge_cases (bh_bb (handle_of mp n)) (nents (x_funcs B) (bh_func (handle_of mp n)))) as [H2|H2]; [apply (B1 _ _ H1 H2)|].
      rewrite nth_overflow by exact H2. cbn. lia.
    - exact (sg_ord _ SG).
  Qed.
  Lemma kept_hot f : In f fl -> exists i, (i < blk_count mp)%nat /\ blk_func mp i = f /\ In (Z.of_nat i) (nodes_of_func mp f) /\ frequency P (Z.of_nat i) <> 0.
  Proof.
    intros H. apply FI in H as [H _]. apply (kept_In v B S mp BG SG SH dbg has branches falls st HAS BO CO CE) in H as [i [Hi [E X]]]. exists i. split; [exact Hi|]. split; [exact E|].
    split; [apply (nodes_of_In mp); eauto|]. apply (freq_executed v B S mp BG SG SH dbg has branches falls st HAS BO CO CE i Hi). exact X.
  Qed.
  Lemma sizes_fit : tot (p_size P) (flat_map g_nodes gs) < 2 ^ 31.
  Proof.
    eapply Z.le_lt_trans; [|exact (bg_size _ _ BG)].
    assert (PS : forall n, 0 <= p_size P n) by exact (go_size _ _ graphs_fit).
    change (tot (p_size P) (flat_map g_nodes gs)) with (sumf (p_size P) (flat_map g_nodes gs)).
    transitivity (sumf (p_size P) (all_nodes mp)).
    { apply sumf_incl; [exact gs_nodup| |auto]. intros n Hn. apply gs_nodes in Hn as [i [Hi [-> _]]]. apply (all_nodes_In mp). eauto. }
    assert (E1 : sumf (p_size P) (all_nodes mp) = sumf (fun h => be_size (GetBBEntry (mp_funcs mp) h)) (mp_handles mp)).
    { unfold all_nodes. rewrite sumf_map. rewrite <- (map_nth_seq (mp_handles mp) no_handle) at 2. rewrite sumf_map. apply sumf_ext. intros i _. cbn [p_size program]. rewrite handle_nat. reflexivity. }
    rewrite E1, (sh_handles _ _ _ SH), (sh_funcs _ _ _ SH). unfold handles_of. rewrite sumf_flat_map.
    set (sz := fun f : nat => fold_right (fun e t => be_size e + t) 0 (fm_entries (nth f (x_funcs B) no_func))).
    assert (E2 : forall f, sumf (fun h => be_size (GetBBEntry (x_funcs B) h)) (map (BbHandle f) (seq 0 (nents (x_funcs B) f))) = sz f).
    { intros f. rewrite sumf_map. unfold sz. rewrite fold_sumf. unfold nents. rewrite <- (map_nth_seq (fm_entries (nth f (x_funcs B) no_func)) no_entry) at 2. rewrite sumf_map. apply sumf_ext. intros b _. reflexivity. }
    rewrite (sumf_ext _ sz) by (intros; apply E2).
    transitivity (sumf sz (seq 0 (length (x_funcs B)))).
    { apply sumf_incl.
      - pose proof (sh_sorted _ _ _ SH) as SS. clear - SS. induction SS as [|x l H IH F]; constructor; [|exact IH]. intros Hi. rewrite Forall_forall in F. specialize (F x Hi). lia.
      - intros f Hf. apply in_seq. destruct (sh_in _ _ _ SH f Hf). lia.
      - intros f Hf. apply in_seq in Hf. unfold sz. rewrite fold_sumf. apply sumf_nonneg. intros e He. apply (In_nth _ _ no_entry) in He as [b [Hb <-]]. destruct (bg_ok _ _ BG) as [_ [B1 _]]. apply (B1 f b); [lia|exact Hb]. }
    rewrite fold_sumf. rewrite <- (map_nth_seq (x_funcs B) no_func) at 2. rewrite sumf_map. unfold sz. lia.
  Qed.
  Lemma freqs_fit : tot (frequency P) (flat_map g_nodes gs) < 2 ^ 31.
  Proof.
    change (tot (frequency P) (flat_map g_nodes gs)) with (sumf (frequency P) (flat_map g_nodes gs)).
    set (outs := fun n => sumf ce_weight (filter (fun e => ce_src e =? n) (all_edges mp st))). set (ins := fun n => sumf ce_weight (filter (fun e => ce_sink e =? n) (all_edges mp st))).
    assert (X : sumf (frequency P) (flat_map g_nodes gs) <= sumf outs (flat_map g_nodes gs) + sumf ins (flat_map g_nodes gs)).
    { rewrite <- sumf_plus. induction (flat_map g_nodes gs) as [|n ns IH]; [rewrite !sumf_nil; lia|]. rewrite !sumf_cons.
      pose proof (freq_bound v B S mp BG SG SH dbg has branches falls st HAS BO CO CE n). unfold outs at 1, ins at 1. lia. }
    pose proof (sumf_by_end ce_src ce_weight (all_edges mp st) _ gs_nodup weights_pos). pose proof (sumf_by_end ce_sink ce_weight (all_edges mp st) _ gs_nodup weights_pos).
    pose proof total_bound. pose proof (sumf_nonneg ce_weight (all_edges mp st) weights_pos). unfold outs, ins in X. lia.
  Qed.

  Lemma section_fits : section_ok L gs.
  Proof.
    constructor; cbn [l_C layout_params q_prog].
    - exact graphs_fit.
    - exact (sg_score _ SG).
    - intros g Hg. apply in_map_iff in Hg as [f [<- Hf]]. unfold initial_ok. cbn [g_init graph g_nodes concat]. split; [constructor|]. split; [intros n []|]. intros _ _ E.
      destruct (kept_hot f Hf) as [i [_ [_ [Hn F]]]]. assert (X : In (Z.of_nat i) (filter (hot_node P (graph mp st f)) (nodes_of_func mp f))) by (apply filter_In; split; [exact Hn|apply (hot_of_freq P); exact F]).
      rewrite E in X. destruct X.
    - intros g n Hg Hn. apply in_map_iff in Hg as [f [<- Hf]]. rewrite (graph_func f (fl_sel f Hf)). cbn [g_nodes graph] in Hn. apply (nodes_of_In mp) in Hn as [i [Hi [-> E]]]. cbn [p_func program]. rewrite func_nat, E. reflexivity.
    - rewrite map_map. assert (E : map (fun f => l_func L (graph mp st f)) fl = map Z.of_nat fl) by (apply map_ext_in; intros f Hf; apply graph_func, fl_sel, Hf). rewrite E. apply FinFun.Injective_map_NoDup; [intros a b X; lia|exact FN].
    - intros g Hg. apply in_map_iff in Hg as [f [<- Hf]]. rewrite (graph_func f (fl_sel f Hf)). lia.
    - intros n e Hn He C. unfold counts in C. apply andb_prop in C as [C C3]. apply andb_prop in C as [C1 C2]. apply negb_true_iff in C2. assert (W : ce_weight e <> 0) by lia.
      destruct He as [He|He]; [apply insI in He as [He E]|apply outsI in He as [He E]]; apply (both_ends e He W C2); rewrite E; auto.
    - intros g e Hg He. apply in_map_iff in Hg as [f [<- Hf]]. cbn [l_inter layout_params] in He. pose proof (graph_func f (fl_sel f Hf)) as GF. cbn [l_func layout_params] in GF. rewrite GF in He.
      unfold inter_edges in He. apply filter_In in He as [He X]. apply andb_prop in X as [X1 X2]. destruct (facts e He) as [_ [a [b [Ha [Hb [E1 _]]]]]]. rewrite E1, func_nat in X1. split; [|apply outsI; auto].
      cbn [g_nodes graph]. rewrite E1. apply (nodes_of_In mp). exists a. split; [exact Ha|]. split; [reflexivity|lia].
    - intros n e _ He. apply insI in He as [He _]. pose proof total_bound as TB. apply in_split in He as [l1 [l2 E]]. assert (X : sumf ce_weight (all_edges mp st) = sumf ce_weight l1 + (ce_weight e + sumf ce_weight l2)) by (rewrite E, sumf_app, sumf_cons; reflexivity).
      assert (0 <= sumf ce_weight l1) by (apply sumf_nonneg; intros x Hx; apply weights_pos; rewrite E; apply in_or_app; left; exact Hx).
      assert (0 <= sumf ce_weight l2) by (apply sumf_nonneg; intros x Hx; apply weights_pos; rewrite E; apply in_or_app; right; right; exact Hx). lia.
    - exact (sg_thr _ SG).
    - exact sizes_fit.
    - exact freqs_fit.
    - intros _ g Hg. apply in_map_iff in Hg as [f [<- Hf]]. destruct (entry_node f (fl_sel f Hf)) as [i [Hi [Ei [Eh _]]]]. split.
      + split; [|split].
        * intros n Hn En. cbn [g_nodes graph] in *. rewrite Eh. apply (nodes_of_In mp) in Hn as [k [Hk [-> Fk]]]. cbn [p_entry program] in En. rewrite handle_nat in En. f_equal.
          apply (blk_inj _ _ _ SH); [exact Hi|exact Hk|]. rewrite Ei. destruct (blk_handle mp k) as [f' b'] eqn:Q. cbn [bh_bb] in En. assert (f' = f) by (rewrite <- Fk; unfold blk_func; fold (blk_handle mp k); rewrite Q; reflexivity). f_equal; [congruence|lia].
        * intros a n [es1 [e [es2 [E [[W K] [_ [<- _]]]]]]]. cbn [fc_edges g_intra graph] in E. assert (He : In e (all_edges mp st)).
          { assert (X : In e (es1 ++ e :: es2)) by (apply in_or_app; right; left; reflexivity). rewrite <- E in X. apply filter_In in X as [X _]. exact X. }
          destruct (facts e He) as [_ [x [y [_ [_ [_ [E2 [_ X]]]]]]]]. destruct (X K) as [_ N]. cbn [p_entry program]. rewrite E2, handle_nat. lia.
        * intros ns n [].
      + intros _. cbn [g_nodes graph p_entry program]. rewrite Eh, handle_nat, Ei. reflexivity.
  Qed.
End Sect.
