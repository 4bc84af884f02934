(** C27-C30: the chains of the propeller code layout. *)
From Verif Require Import Base ISort ForcedModel ForcedSpec ForcedProofs ForcedProps ChainModel ChainSpec ChainAsmProofs ChainEdgeProofs ChainConsumeProofs ChainMergeProofs ChainMergeWfProofs ChainStepProofs ChainScoreProofs ChainBuildModel ChainBuildSpec ChainInitProofs ChainEdgeInitProofs ChainQueueProofs ChainQueueInvProofs ChainLoopProofs ChainMainProofs ChainHistProofs.

Lemma slice_order_fun s1 s2 u o l l' : slice_order s1 s2 u o l -> slice_order s1 s2 u o l' -> l = l'.
Proof. intros H H'. destruct H; inversion H'; reflexivity. Qed.
Lemma layout_score_perm sc sz l k ns : Permutation l k -> layout_score sc sz l ns = layout_score sc sz k ns.
Proof. intros H. unfold layout_score. apply sumf_perm, Permutation_filter. exact H. Qed.
Lemma build_cut E lc cs cu o p z a : BuildNodeChainAssembly E lc cs cu o p z = Ok (Some a) ->
  c_id cs <> c_id cu /\ valid_cut cs o p /\ a_order a = o /\ a_pos a = p.
Proof.
  unfold BuildNodeChainAssembly. destruct (Z.eqb_spec (c_id cs) (c_id cu)) as [|N]; [discriminate|].
  destruct (match o, p with kSU, None => false | kSU, Some _ => true | _, None => true | _, Some p => negb ((p <? zlen (c_bundles cs)) && (p >? 0)) end) eqn:VB; [discriminate|].
  intros H. split; [exact N|]. split.
  - unfold valid_cut. destruct o, p as [p|]; try discriminate; try exact I; apply negb_false_iff in VB; lia.
  - destruct (ComputeScoreGain _ _ _ _ _ _ _) as [g| |]; try discriminate. cbn [obind] in H. destruct (_ && _ && _) in H; [discriminate|].
    destruct (g <? 0); [discriminate|]. destruct ((g =? 0) && z); [discriminate|]. injection H as <-. auto.
Qed.

(** Building an assembly of two different chains never aborts if the cut is
    between two bundles, and aborts if it is not. *)
Theorem C27_assembly_total P gs st q cs cu o p z :
  graphs_ok P gs -> (forall e x, 0 <= p_score P e x) -> (forall g, In g gs -> initial_ok P g) ->
  history P gs st q -> In cs (s_chains st) -> In cu (s_chains st) -> c_id cs <> c_id cu ->
  (valid_cut cs o p -> exists r, BuildNodeChainAssembly (env_of P (zlen gs)) (loc st) cs cu o p z = Ok r) /\
  (~ valid_cut cs o p -> BuildNodeChainAssembly (env_of P (zlen gs)) (loc st) cs cu o p z = Abort).
Proof.
  intros GO NN IO H Hs Hu NE. set (E := env_of P (zlen gs)).
  destruct (history_inv P gs False False st q GO NN) as [EV [B EP]]; [intros g Hg; split; [auto|split; intros []]|exact H|].
  assert (VB : valid_cut cs o p <-> match o, p with
            | kSU, None => false
            | kSU, Some _ => true
            | _, None => true
            | _, Some p => negb ((p <? zlen (c_bundles cs)) && (p >? 0))
            end = false).
  { unfold valid_cut. destruct o, p as [p|]; try (split; [intros []|discriminate]); try (split; [reflexivity|intros; exact I]); rewrite negb_false_iff; lia. }
  unfold BuildNodeChainAssembly. destruct (Z.eqb_spec (c_id cs) (c_id cu)) as [|_]; [congruence|]. split.
  - intros V. rewrite (proj1 VB V). destruct (gain_any E EV st (bi_wf _ _ _ _ _ _ B) (go_size _ _ GO) cs cu Hs Hu NE o p V) as [g [-> _]]. cbn [obind].
    repeat match goal with |- context [if ?b then _ else _] => destruct b end; eauto.
  - intros V. destruct (match o, p with kSU, None => false | kSU, Some _ => true | _, None => true | _, Some p => negb ((p <? zlen (c_bundles cs)) && (p >? 0)) end) eqn:X; [reflexivity|].
    exfalso. apply V, VB. reflexivity.
Qed.

(** Merging the chains of any assembly: the new chain has the blocks of the
    first chain before the cut, those after it, and the second chain, in the
    order of the assembly; every block once; the other chains keep their
    blocks; and the entry block stays in front. *)
Theorem C27_merge P gs st q cs cu o p z a :
  graphs_ok P gs -> (forall e x, 0 <= p_score P e x) -> (forall g, In g gs -> initial_ok P g) ->
  history P gs st q -> get_chain st (c_id cs) = Some cs -> get_chain st (c_id cu) = Some cu ->
  BuildNodeChainAssembly (env_of P (zlen gs)) (loc st) cs cu o p z = Ok (Some a) ->
  exists st' c rest, MergeWith (env_of P (zlen gs)) st a = Ok st' /\ get_chain st' (c_id cs) = Some c /\
    before_cut cs p ++ after_cut cs p = chain_nodes cs /\
    slice_order (before_cut cs p) (after_cut cs p) (chain_nodes cu) o (chain_nodes c) /\
    Permutation (chain_nodes c) (chain_nodes cs ++ chain_nodes cu) /\ NoDup (chain_nodes c) /\
    Permutation (map chain_nodes (s_chains st)) (chain_nodes cs :: chain_nodes cu :: rest) /\
    Permutation (map chain_nodes (s_chains st')) (chain_nodes c :: rest) /\
    (p_ifr P = false -> starts_with_entry (p_entry P) (chain_nodes cs) || starts_with_entry (p_entry P) (chain_nodes cu) = true ->
     starts_with_entry (p_entry P) (chain_nodes c) = true).
Proof.
  intros GO NN IO H Gs Gu HB. set (E := env_of P (zlen gs)) in *.
  destruct (history_inv P gs False False st q GO NN) as [EV [B EP]]; [intros g Hg; split; [auto|split; intros []]|exact H|].
  pose proof (bi_wf _ _ _ _ _ _ B) as W. fold E in W. destruct (get_In _ _ _ Gs) as [Hs _]. destruct (get_In _ _ _ Gu) as [Hu _].
  destruct (build_cut _ _ _ _ _ _ _ _ HB) as [NE [V [QO QP]]].
  assert (AF : exists g, a = Assembly (c_id cs) (c_id cu) o p (ConstructSlices cs cu o p) g /\ entry_kept E cs cu (asm_nodes cs cu (ConstructSlices cs cu o p))).
  { unfold BuildNodeChainAssembly in HB. destruct (c_id cs =? c_id cu); [discriminate|].
    destruct (match o, p with kSU, None => false | kSU, Some _ => true | _, None => true | _, Some p => negb ((p <? zlen (c_bundles cs)) && (p >? 0)) end); [discriminate|].
    destruct (ComputeScoreGain _ _ _ _ _ _ _) as [g| |]; try discriminate. cbn [obind] in HB. rewrite (asm_first E cs cu o p (w_chain _ _ _ W cs Hs) (w_chain _ _ _ W cu Hu) V (go_size _ _ GO)), (first_node_hd E cs (w_chain _ _ _ W cs Hs)), (first_node_hd E cu (w_chain _ _ _ W cu Hu)) in HB.
    destruct (negb (e_ifr E) && _ && _) eqn:EC in HB; [discriminate|]. destruct (g <? 0); [discriminate|]. destruct ((g =? 0) && z); [discriminate|]. injection HB as <-. exists g. split; [reflexivity|].
    intros I F. rewrite I, F in EC. cbn [negb andb] in EC. apply negb_false_iff in EC. exact EC. }
  destruct AF as [g [-> EK]].
  destruct (merge_with_ok E EV st W cs cu Gs Gu NE o p V g) as [st' [cs' [others [R [QM M]]]]].
  pose proof (step_wf E EV st W cs cu Gs Gu NE _ _ _ _ _ _ _ M) as W'.
  set (L := asm_nodes cs cu (ConstructSlices cs cu o p)) in *. set (rest := filter (fun c => negb (c_id c =? c_id cs) && negb (c_id c =? c_id cu)) (s_chains st)) in *.
  pose proof (g_chains _ _ _ _ _ _ _ _ _ _ _ _ M) as CH. pose proof (g_id _ _ _ _ _ _ _ _ _ _ _ _ M) as GI. pose proof (new_nodes _ _ _ _ _ _ _ _ _ _ _ M) as NQ.
  assert (HN' : In cs' (s_chains st')) by (rewrite CH; apply in_app_iff; right; left; reflexivity).
  assert (ND : NoDup (chain_nodes cs')).
  { rewrite NQ. eapply Permutation_NoDup; [apply Permutation_sym, (g_nodesp _ _ _ _ _ _ _ _ _ _ _ _ M)|].
    exact (two_nodup E EV st W cs cu Hs Hu NE). }
  exists st', cs', (map chain_nodes rest). split; [exact QM|]. split; [rewrite <- GI; apply get_of_In; [apply (w_ids _ _ _ W')|exact HN']|].
  split; [apply flat_map_firstn_skipn|]. split; [rewrite NQ; exact (asm_order (fun _ => None) cs cu o p V)|].
  split; [rewrite NQ; apply (g_nodesp _ _ _ _ _ _ _ _ _ _ _ _ M)|]. split; [exact ND|].
  split; [exact (Permutation_map chain_nodes (g_perm _ _ _ _ _ _ _ _ _ _ _ _ M))|]. split.
  - rewrite CH, map_app. cbn [map]. eapply perm_trans; [apply Permutation_app_comm|]. cbn [app]. constructor.
    assert (X : map chain_nodes others = map chain_nodes rest); [|rewrite X; apply Permutation_refl].
    pose proof (g_core _ _ _ _ _ _ _ _ _ _ _ _ M) as GC. clear - GC. revert GC. generalize rest as l. induction others as [|d k IH]; intros [|d0 l] GC; try discriminate; [reflexivity|].
    cbn [map] in *. assert (C1 : core_of d = core_of d0) by (pose proof (f_equal (hd (core_of d)) GC) as X; exact X). pose proof (f_equal (@tl _) GC) as C2. cbn [tl] in C2.
    rewrite (IH l C2). apply core_parts in C1 as [_ [_ [C1 _]]]. rewrite C1. reflexivity.
  - pose proof (chain_nodes_nonempty E cs (w_chain _ _ _ W cs Hs)) as X1. pose proof (chain_nodes_nonempty E cu (w_chain _ _ _ W cu Hu)) as X2.
    pose proof (chain_nodes_nonempty E cs' (w_chain _ _ _ W' cs' HN')) as X3. rewrite !sw_hd by assumption. rewrite NQ. exact EK.
Qed.

(** In the result of the builder for one function the entry block is the first
    block of its chain, if nothing given puts a block before it. *)
Definition entry_first (entry : Z -> bool) (X : list (list Z)) : Prop := forall l n, In l X -> In n l -> entry n = true -> hd 0 l = n.
Lemma slice_order_perm s1 s2 u o l : slice_order s1 s2 u o l -> Permutation l ((s1 ++ s2) ++ u).
Proof.
  intros [| | | |].
  - rewrite app_assoc. apply Permutation_refl.
  - rewrite app_assoc. apply Permutation_app_tail, Permutation_app_comm.
  - rewrite <- app_assoc. apply Permutation_app_head, Permutation_app_comm.
  - eapply perm_trans; [apply Permutation_app_comm|]. apply Permutation_app_tail, Permutation_app_comm.
  - rewrite (app_assoc s2 u s1). eapply perm_trans; [apply Permutation_app_comm|]. rewrite app_assoc. apply Permutation_refl.
Qed.
Lemma step_entry_first entry X Y : merge_step false entry X Y -> (forall n m, In n (concat X) -> In m (concat X) -> entry n = true -> entry m = true -> n = m) ->
  entry_first entry X -> entry_first entry Y /\ Permutation (concat X) (concat Y).
Proof.
  intros [s1 s2 u o l R PX PY SO EN] U EF. pose proof (slice_order_perm _ _ _ _ _ SO) as LP. 
  assert (CP : forall A B : list (list Z), Permutation A B -> Permutation (concat A) (concat B)).
  { induction 1; cbn [concat]; [constructor|apply Permutation_app_head; assumption|rewrite !app_assoc; apply Permutation_app_tail, Permutation_app_comm|eapply perm_trans; eassumption]. }
  assert (PC : Permutation (concat X) (concat Y)).
  { eapply perm_trans; [apply (CP _ _ PX)|]. eapply perm_trans; [|apply Permutation_sym, (CP _ _ PY)]. cbn [concat]. rewrite app_assoc. apply Permutation_app_tail, Permutation_sym. exact LP. }
  split; [|exact PC]. intros k n Hk Hn HE. apply (Permutation_in _ PY) in Hk. destruct Hk as [<-|Hk].
  2:{ apply (EF k n); auto. apply (Permutation_in _ (Permutation_sym PX)). right. right. exact Hk. }
  assert (ST : starts_with_entry entry l = true).
  { apply EN; [reflexivity|]. apply (Permutation_in _ LP) in Hn. apply in_app_iff in Hn as [Hn|Hn]; apply orb_true_iff; [left|right].
    - pose proof (EF (s1 ++ s2) n ltac:(apply (Permutation_in _ (Permutation_sym PX)); left; reflexivity) Hn HE) as Q. rewrite sw_hd, Q; [exact HE|intros Z; rewrite Z in Hn; destruct Hn].
    - pose proof (EF u n ltac:(apply (Permutation_in _ (Permutation_sym PX)); right; left; reflexivity) Hn HE) as Q. rewrite sw_hd, Q; [exact HE|intros Z; rewrite Z in Hn; destruct Hn]. }
  assert (IN : forall m, In m l -> In m (concat X)).
  { intros m Hm. apply (Permutation_in _ (Permutation_sym PC)). apply (Permutation_in _ (Permutation_sym (CP _ _ PY))). cbn [concat]. apply in_app_iff. left. exact Hm. }
  destruct l as [|m l]; [destruct Hn|]. cbn [hd starts_with_entry] in *. apply U; auto. apply IN. left. reflexivity.
Qed.
Lemma steps_entry_first entry X Y : merge_steps false entry X Y -> (forall n m, In n (concat X) -> In m (concat X) -> entry n = true -> entry m = true -> n = m) ->
  entry_first entry X -> entry_first entry Y.
Proof.
  induction 1 as [|X Y T H H' IH]; intros U EF; [exact EF|]. destruct (step_entry_first _ _ _ H U EF) as [EF' PC]. apply IH; [|exact EF'].
  intros n m Hn Hm. apply U; apply (Permutation_in _ (Permutation_sym PC)); assumption.
Qed.
Theorem C27_entry_first P g : graphs_ok P [g] -> (forall e x, 0 <= p_score P e x) -> initial_ok P g -> p_ifr P = false -> entry_in_front P g ->
  exists st, BuildChains P [g] = Ok st /\
    forall c n, In c (s_chains st) -> In n (chain_nodes c) -> p_entry P n = true -> hd 0 (chain_nodes c) = n.
Proof.
  intros GO NN IO IF EF. destruct (build_chains_ok P [g] False True GO NN) as [st [X0 [EV [Q R]]]].
  - intros g' [<-|[]]. split; [exact IO|]. split; [intros []|auto].
  - reflexivity.
  - exists st. split; [exact Q|]. pose proof (ro_steps _ _ _ _ _ _ _ R) as MS. rewrite IF in MS.
    assert (EN : entry_first (p_entry P) (layouts st)).
    { eapply steps_entry_first; [exact MS| |exact (ro_first _ _ _ _ _ _ _ R I)].
      intros n m Hn Hm. apply (Permutation_in _ (ro_start _ _ _ _ _ _ _ R)) in Hn, Hm. apply laid_out_incl in Hn, Hm. cbn [flat_map] in Hn, Hm. rewrite app_nil_r in Hn, Hm.
      intros En Em. destruct EF as [EF _]. rewrite <- (EF n Hn En). apply EF; assumption. }
    intros c n Hc. apply EN. unfold layouts. apply in_map. exact Hc.
Qed.

(** ** C28 *)

(** Every edge with its ends in the two chains is scored with its distance in
    the block order of the assembly. *)
Theorem C28_edge_score P gs st q cs cu o p l e :
  graphs_ok P gs -> (forall e x, 0 <= p_score P e x) -> (forall g, In g gs -> initial_ok P g) ->
  history P gs st q -> In cs (s_chains st) -> In cu (s_chains st) -> c_id cs <> c_id cu -> valid_cut cs o p ->
  slice_order (before_cut cs p) (after_cut cs p) (chain_nodes cu) o l -> In (ce_src e) l -> In (ce_sink e) l ->
  ComputeEdgeScore (env_of P (zlen gs)) (loc st) cs cu o (ConstructSlices cs cu o p) e = Ok (p_score P e (dist (p_size P) l e)).
Proof.
  intros GO NN IO H Hs Hu NE V SO H1 H2. set (E := env_of P (zlen gs)).
  destruct (history_inv P gs False False st q GO NN) as [EV [B EP]]; [intros g Hg; split; [auto|split; intros []]|exact H|].
  pose proof (bi_wf _ _ _ _ _ _ B) as W. fold E in W.
  pose proof (asm_order (fun _ => None) cs cu o p V) as AO. cbv zeta in AO.
  assert (l = asm_nodes cs cu (ConstructSlices cs cu o p)) as -> by (eapply slice_order_fun; eassumption).
  assert (IB : forall n, In n (asm_nodes cs cu (ConstructSlices cs cu o p)) -> In n (chain_nodes cs) \/ In n (chain_nodes cu)).
  { intros n Hn. apply in_app_iff. apply slice_order_perm in AO. apply (Permutation_in _ AO) in Hn. rewrite flat_map_firstn_skipn in Hn. exact Hn. }
  apply (edge_score E (loc st) cs cu (go_size _ _ GO) (w_chain _ _ _ W cs Hs) (w_chain _ _ _ W cu Hu) (loc_found E EV st cs W Hs) (loc_found E EV st cu W Hu) (two_nodup E EV st W cs cu Hs Hu NE) NE o p e V); auto.
Qed.

(** The gain of an assembly is the score of the new block order less the scores
    of the two chains, unless an initial chain of several blocks was given. *)
Theorem C28_gain P gs st q cs cu o p z a l :
  graphs_ok P gs -> (forall e x, 0 <= p_score P e x) -> (forall g, In g gs -> initial_ok P g) ->
  (forall g ns, In g gs -> In ns (g_init g) -> p_reorder P = true -> length ns = 1%nat) ->
  history P gs st q -> In cs (s_chains st) -> In cu (s_chains st) ->
  BuildNodeChainAssembly (env_of P (zlen gs)) (loc st) cs cu o p z = Ok (Some a) -> (z = true \/ o = kSU) ->
  slice_order (before_cut cs p) (after_cut cs p) (chain_nodes cu) o l ->
  let score := layout_score (p_score P) (p_size P) (looked_at P gs) in
  a_gain a = score l - score (chain_nodes cs) - score (chain_nodes cu).
Proof.
  intros GO NN IO SI H Hs Hu HB ZO SO score. set (E := env_of P (zlen gs)) in *.
  destruct (history_inv P gs True False st q GO NN) as [EV [B EP]]; [intros g Hg; split; [auto|split; [|intros []]]|exact H|].
  { intros _. destruct (p_reorder P) eqn:RO; [right|left; reflexivity]. intros ns Hns. apply (SI g ns Hg Hns eq_refl). }
  pose proof (bi_wf _ _ _ _ _ _ B) as W. fold E in W. destruct (build_cut _ _ _ _ _ _ _ _ HB) as [NE [V [QO QP]]].
  destruct (build_ok E EV st W (go_size _ _ GO) cs cu Hs Hu NE o p z True V (fun s => proj1 (bi_srt _ _ _ _ _ _ B s) cs Hs) ZO) as [r [Q [RA _]]].
  rewrite HB in Q. injection Q as <-. specialize (RA a eq_refl). rewrite (af_exact _ _ _ _ _ _ RA I), QO, QP. unfold exact_gain.
  pose proof (asm_order (fun _ => None) cs cu o p V) as AO. cbv zeta in AO. pose proof (slice_order_fun _ _ _ _ _ _ SO AO) as ->.
  unfold score. rewrite !(layout_score_perm _ _ _ _ _ (Permutation_sym EP)). reflexivity.
Qed.
(** The two chains put one after the other: the gain is right in every case. *)
Theorem C28_gain_whole P gs st q cs cu :
  graphs_ok P gs -> (forall e x, 0 <= p_score P e x) -> (forall g, In g gs -> initial_ok P g) ->
  history P gs st q -> In cs (s_chains st) -> In cu (s_chains st) -> c_id cs <> c_id cu ->
  let score := layout_score (p_score P) (p_size P) (looked_at P gs) in
  ComputeScoreGain (env_of P (zlen gs)) (loc st) cs cu kSU None (ConstructSlices cs cu kSU None) =
  Ok (score (chain_nodes cs ++ chain_nodes cu) - score (chain_nodes cs) - score (chain_nodes cu)).
Proof.
  intros GO NN IO H Hs Hu NE score. set (E := env_of P (zlen gs)) in *.
  destruct (history_inv P gs False False st q GO NN) as [EV [B EP]]; [intros g Hg; split; [auto|split; intros []]|exact H|].
  pose proof (bi_wf _ _ _ _ _ _ B) as W. fold E in W.
  destruct (gain_any E EV st W (go_size _ _ GO) cs cu Hs Hu NE kSU None I) as [g [-> [_ X]]]. destruct (X eq_refl) as [-> _]. f_equal. unfold exact_gain.
  pose proof (asm_order (fun _ => None) cs cu kSU None I) as AO. cbv zeta in AO. 
  assert (LQ : asm_nodes cs cu (ConstructSlices cs cu kSU None) = chain_nodes cs ++ chain_nodes cu) by (apply (slice_order_fun _ _ _ _ _ _ AO); unfold chain_nodes at 2; rewrite <- (flat_map_firstn_skipn b_nodes (length (c_bundles cs)) (c_bundles cs)), <- app_assoc; constructor).
  rewrite LQ.  unfold score. rewrite !(layout_score_perm _ _ _ _ _ (Permutation_sym EP)). reflexivity.
Qed.
(** The score kept for a chain is that of its edges between different bundles. *)
Theorem C28_chain_score P gs st q c :
  graphs_ok P gs -> (forall e x, 0 <= p_score P e x) -> (forall g, In g gs -> initial_ok P g) ->
  (forall g ns, In g gs -> In ns (g_init g) -> p_reorder P = true -> length ns = 1%nat) ->
  history P gs st q -> In c (s_chains st) ->
  c_score c = layout_score (p_score P) (p_size P) (filter (fun e => negb (same_bundle st e)) (looked_at P gs)) (chain_nodes c).
Proof.
  intros GO NN IO SI H Hc. set (E := env_of P (zlen gs)) in *.
  destruct (history_inv P gs True False st q GO NN) as [EV [B EP]]; [intros g Hg; split; [auto|split; [|intros []]]|exact H|].
  { intros _. destruct (p_reorder P) eqn:RO; [right|left; reflexivity]. intros ns Hns. apply (SI g ns Hg Hns eq_refl). }
  pose proof (bi_wf _ _ _ _ _ _ B) as W. fold E in W. pose proof (proj2 (bi_srt _ _ _ _ _ _ B I) c Hc) as SC. rewrite SC.
  rewrite (sumf_perm _ _ _ (w_intra _ _ _ W c Hc)). unfold layout_score. rewrite filter_filter.
  rewrite <- (sumf_perm _ _ _ (Permutation_filter (fun x => negb (same_bundle st x) && inside (chain_nodes c) x) _ _ EP)).
  rewrite (filter_ext_in _ (fun x => negb (same_bundle st x) && inside (chain_nodes c) x) EV); [reflexivity|].
  intros e He. cbv beta. destruct (inside (chain_nodes c) e) eqn:I1; [|rewrite andb_false_r; reflexivity]. rewrite andb_true_r. cbn [andb].
  pose proof I1 as I2. unfold inside in I2. apply andb_true_iff in I2 as [J1 J2]. apply memz_In in J1, J2.
  assert (IN : forall e, In e EV -> In (ce_src e) (all_nodes st) /\ In (ce_sink e) (all_nodes st)).
  { intros e' He'. pose proof (bi_nodes _ _ _ _ _ _ B) as NP. apply (Permutation_in _ EP) in He'. unfold looked_at in He'. apply filter_In in He' as [He' HV]. apply in_flat_map in He' as [n [Hn He']].
    destruct (go_outs _ _ GO n e' He') as [Q _]. rewrite Q. split; apply (Permutation_in _ (Permutation_sym NP)); [exact Hn|]. apply (proj1 (closed_laid P gs GO) n e' Hn He' HV). }
  rewrite (same_bundle_apart E EV st W IN e He), negb_involutive. reflexivity.
Qed.

(** ** C29 *)
Theorem C29_books P gs st q :
  graphs_ok P gs -> (forall e x, 0 <= p_score P e x) -> (forall g, In g gs -> initial_ok P g) -> history P gs st q -> books P gs st.
Proof.
  intros GO NN IO H. destruct (history_inv P gs False False st q GO NN) as [EV [B EP]]; [intros g Hg; split; [auto|split; intros []]|exact H|].
  exact (wf_books P gs EV st GO (bi_wf _ _ _ _ _ _ B) EP (bi_nodes _ _ _ _ _ _ B)).
Qed.
(** The edges that are looked at: those taken out of the blocks laid out, but no
    returns, and calls only if several functions are laid out together. *)
Theorem C29_looked_at P gs e : In e (looked_at P gs) <->
  (exists g n, In g gs /\ In n (laid_out P g) /\ In e (p_outs P n)) /\ ce_weight e <> 0 /\
  (ce_kind e = EBranch \/ (ce_kind e = ECall /\ p_ifr P = true /\ 1 < zlen gs /\ p_inter_section P e = false)).
Proof.
  unfold looked_at. rewrite filter_In, in_flat_map. unfold should_visit, is_call, is_return. rewrite !andb_true_iff, orb_true_iff, !andb_true_iff, !negb_true_iff, Z.eqb_neq.
  assert (X : (exists n, In n (flat_map (laid_out P) gs) /\ In e (p_outs P n)) <-> (exists g n, In g gs /\ In n (laid_out P g) /\ In e (p_outs P n))).
  { split; [intros [n [A B]]; apply in_flat_map in A as [g [A C]]; exists g, n; auto|intros [g [n [A [B C]]]]; exists n; split; [apply in_flat_map; eauto|exact C]]. }
  rewrite X. rewrite Z.gtb_lt. destruct (ce_kind e); intuition (congruence || discriminate).
Qed.

(** No merge of two live chains for which an assembly is found fails. *)
Theorem C29_merge_total P gs st q cs cu o p z a :
  graphs_ok P gs -> (forall e x, 0 <= p_score P e x) -> (forall g, In g gs -> initial_ok P g) -> history P gs st q ->
  In cs (s_chains st) -> In cu (s_chains st) -> (z = true \/ o = kSU) ->
  BuildNodeChainAssembly (env_of P (zlen gs)) (loc st) cs cu o p z = Ok (Some a) ->
  exists st' q', MergeChains P (env_of P (zlen gs)) st q a = Ok (st', q') /\ history P gs st' q' /\
    length (s_chains st) = S (length (s_chains st')).
Proof.
  intros GO NN IO H Hs Hu ZO HB. set (E := env_of P (zlen gs)) in *.
  destruct (history_inv P gs False False st q GO NN) as [EV [B EP]]; [intros g Hg; split; [auto|split; intros []]|exact H|].
  pose proof (bi_wf _ _ _ _ _ _ B) as W. fold E in W. destruct (build_cut _ _ _ _ _ _ _ _ HB) as [NE [V [QO QP]]].
  pose proof (get_of_In _ _ (w_ids _ _ _ W) Hs) as Gs. pose proof (get_of_In _ _ (w_ids _ _ _ W) Hu) as Gu.
  destruct (build_ok E EV st W (go_size _ _ GO) cs cu Hs Hu NE o p z False V (fun s => match s with end) ZO) as [r [Q [RA _]]].
  rewrite HB in Q. injection Q as <-. specialize (RA a eq_refl).
  assert (AO : asm_ok E EV False st (a_split a) (a_unsplit a) a) by (exists cs, cu; rewrite (af_split _ _ _ _ _ _ RA), (af_unsplit _ _ _ _ _ _ RA); auto).
  destruct (merge_chains_ok P (go_ord _ _ GO) E EV (go_size _ _ GO) False _ (closed_laid P gs GO) st q a B AO) as [st1 [q2 [M [_ [_ [LN _]]]]]].
  exists st1, q2. split; [exact M|]. split; [|exact LN]. exact (h_any P gs st q cs cu o p z a st1 q2 H Gs Gu HB ZO M).
Qed.

(** ** C30 *)

(** Some edge of the block was taken. *)
Definition executed (P : prog) (n : Z) : Prop := exists e, (In e (p_outs P n) \/ In e (p_ins P n)) /\ ce_weight e <> 0.
Lemma sumz_zero l : (forall x, In x l -> 0 <= x) -> sumz l = 0 -> forall x, In x l -> x = 0.
Proof.
  induction l as [|y l IH]; intros H Q x Hx; [destruct Hx|]. cbn [sumz fold_right] in Q. fold (sumz l) in Q.
  assert (0 <= sumz l) by (clear - H; induction l as [|z l IH]; [cbn; lia|]; cbn [sumz fold_right]; fold (sumz l); pose proof (H z (or_intror (or_introl eq_refl))); assert (0 <= sumz l) by (apply IH; intros w [->|Hw]; apply H; [left; reflexivity|right; right; exact Hw]); lia).
  pose proof (H y (or_introl eq_refl)). destruct Hx as [->|Hx]; [lia|]. apply IH; auto; [intros; apply H; right; assumption|lia].
Qed.
Lemma executed_iff P gs n : graphs_ok P gs -> (frequency P n <> 0 <-> executed P n).
Proof.
  intros GO. pose proof (go_outs _ _ GO) as HO. pose proof (go_ins _ _ GO) as HI. split.
  - intros F. destruct (existsb (fun e => negb (ce_weight e =? 0)) (p_outs P n ++ p_ins P n)) eqn:X.
    + apply existsb_exists in X as [e [He X]]. exists e. apply in_app_iff in He. split; [exact He|]. apply negb_true_iff, Z.eqb_neq in X. exact X.
    + exfalso. apply F. assert (Z0 : forall e, In e (p_outs P n ++ p_ins P n) -> ce_weight e = 0).
      { intros e He. destruct (Z.eqb_spec (ce_weight e) 0) as [|Q]; [assumption|]. exfalso. assert (Y : existsb (fun e => negb (ce_weight e =? 0)) (p_outs P n ++ p_ins P n) = true) by (apply existsb_exists; exists e; split; [exact He|apply negb_true_iff, Z.eqb_neq; exact Q]). congruence. }
      assert (S0 : forall p l, (forall e, In e l -> ce_weight e = 0) -> sumz (map ce_weight (filter p l)) = 0 /\ maxz (map ce_weight (filter p l)) = 0).
      { clear. intros p l. induction l as [|e l IH]; intros H; [split; reflexivity|]. destruct IH as [A B]; [intros; apply H; right; assumption|]. cbn [filter]. destruct (p e); [|auto]. cbn [map sumz maxz fold_right]. fold (sumz (map ce_weight (filter p l))) (maxz (map ce_weight (filter p l))). rewrite (H e (or_introl eq_refl)), A, B. split; reflexivity. }
      unfold frequency. rewrite !(fun p l H => proj1 (S0 p l H)), !(fun p l H => proj2 (S0 p l H)); try reflexivity; intros e He; apply Z0, in_app_iff; auto.
  - intros [e [[He|He] W]]; [apply (freq_out P HO HI n e He W)|apply (freq_in P HO HI n e He W)].
Qed.
Theorem C30_partition P gs :
  graphs_ok P gs -> (forall e x, 0 <= p_score P e x) -> (forall g, In g gs -> initial_ok P g) -> (p_ifr P = false -> zlen gs = 1) ->
  exists st, BuildChains P gs = Ok st /\
    Permutation (flat_map chain_nodes (s_chains st)) (flat_map (laid_out P) gs) /\
    (forall n, In n (flat_map g_nodes gs) -> executed P n -> count_occ Z.eq_dec (flat_map chain_nodes (s_chains st)) n = 1%nat) /\
    (forall n, (count_occ Z.eq_dec (flat_map chain_nodes (s_chains st)) n <= 1)%nat) /\
    (zlen gs = 1 -> (length (s_chains st) <= 1)%nat) /\
    books P gs st /\ exists q, history P gs st q.
Proof.
  intros GO NN IO ONE. destruct (build_chains_ok P gs False False GO NN) as [st [X0 [EV [Q R]]]]; [intros g Hg; split; [auto|split; intros []]|exact ONE|].
  exists st. split; [exact Q|]. pose proof (ro_nodes _ _ _ _ _ _ _ R) as NP. split; [exact NP|].
  pose proof (w_nodes _ _ _ (ro_wf _ _ _ _ _ _ _ R)) as ND. split; [|split; [|split; [|split]]].
  - intros n Hn HF. apply (proj1 (NoDup_count_occ' Z.eq_dec _) ND). apply (Permutation_in _ (Permutation_sym NP)). apply laid_out_In; [exact Hn|]. apply (executed_iff P gs n GO). exact HF.
  - intros n. apply (proj1 (NoDup_count_occ Z.eq_dec _) ND).
  - apply (ro_one _ _ _ _ _ _ _ R).
  - exact (wf_books P gs EV st GO (ro_wf _ _ _ _ _ _ _ R) (ro_ev _ _ _ _ _ _ _ R) NP).
  - apply build_history. exact Q.
Qed.

(** Which blocks that are: all blocks of a function with an edge if functions
    are not split; else the executed ones, the entry if functions are laid out
    one by one, and all landing pads if one of them is executed. *)
Theorem C30_laid_out P gs g n : graphs_ok P gs -> In g gs ->
  (In n (laid_out P g) <->
   In n (g_nodes g) /\ (exists m e, In m (g_nodes g) /\ (In e (p_outs P m) \/ In e (p_ins P m))) /\
   (p_split_functions P = true ->
      executed P n \/ (p_entry P n = true /\ p_ifr P = false) \/
      (p_lp P n = true /\ exists m, In m (g_nodes g) /\ p_lp P m = true /\ executed P m))).
Proof.
  intros GO Hg. unfold laid_out. destruct (is_hot P g) eqn:IH.
  - assert (HM : exists m e, In m (g_nodes g) /\ (In e (p_outs P m) \/ In e (p_ins P m))).
    { unfold is_hot in IH. apply existsb_exists in IH as [m [Hm X]]. exists m. destruct (p_outs P m) as [|e l] eqn:Q1; [destruct (p_ins P m) as [|e l] eqn:Q2; [discriminate|]|]; exists e; cbn [In]; tauto. }
    assert (LP : has_hot_landing_pads P g = true <-> exists m, In m (g_nodes g) /\ p_lp P m = true /\ executed P m).
    { unfold has_hot_landing_pads. rewrite existsb_exists. split; intros [m H]; exists m.
      - destruct H as [A B]. apply andb_true_iff in B as [B C]. apply negb_true_iff, Z.eqb_neq in C. rewrite <- (executed_iff P gs m GO). auto.
      - destruct H as [A [B C]]. split; [exact A|]. apply andb_true_iff. split; [exact B|]. apply negb_true_iff, Z.eqb_neq. apply (executed_iff P gs m GO). exact C. }
    assert (HN : hot_node P g n = true <-> executed P n \/ (p_entry P n = true /\ p_ifr P = false) \/ (p_lp P n = true /\ exists m, In m (g_nodes g) /\ p_lp P m = true /\ executed P m)).
    { unfold hot_node. rewrite !orb_true_iff, !andb_true_iff, LP, !negb_true_iff, Z.eqb_neq, (executed_iff P gs n GO). tauto. }
    destruct (p_split_functions P); [rewrite filter_In, HN|]; intuition discriminate.
  - split; [intros []|]. intros [_ [[m [e [Hm He]]] _]]. unfold is_hot in IH.
    assert (X : existsb (fun n => match p_outs P n, p_ins P n with [], [] => false | _, _ => true end) (g_nodes g) = true); [|congruence].
    apply existsb_exists. exists m. split; [exact Hm|]. destruct (p_outs P m), (p_ins P m); try reflexivity. destruct He as [[]|[]].
Qed.

(** ** Concrete programs *)

(** A function given by its blocks and edges; every block is 10 long, block 0
    is the entry, an edge scores its weight if it jumps over nothing, a tenth of
    it for a short jump forward, and nothing otherwise. *)
Definition ex_score (e : cedge) (d : Z) : Z :=
  if d =? 0 then 10 * Z.max 0 (ce_weight e) else if (0 <? d) && (d <=? 15) then Z.max 0 (ce_weight e) else 0.
Definition ex_prog (ES : list cedge) (ifr split : bool) : prog :=
  Prog (fun _ => 10) (fun _ => 0) (fun n => n =? 0) (fun _ => false)
       (fun n => filter (fun e => ce_src e =? n) ES) (fun n => filter (fun e => ce_sink e =? n) ES)
       (fun _ => false) ex_score ifr split 4 true true (fun l => l).
Lemma ex_graphs ES ifr split g : NoDup (g_nodes g) -> g_intra g = ES ->
  (forall e, In e ES -> In (ce_src e) (g_nodes g) /\ In (ce_sink e) (g_nodes g) /\ 0 <= ce_weight e) ->
  graphs_ok (ex_prog ES ifr split) [g].
Proof.
  intros ND QI H. constructor; cbn [flat_map ex_prog p_outs p_ins p_size p_ord]; rewrite ?app_nil_r.
  - exact ND.
  - intros n e He. apply filter_In in He as [He Q]. apply Z.eqb_eq in Q. split; [exact Q|]. split; [apply H; exact He|]. apply filter_In. split; [exact He|apply Z.eqb_refl].
  - intros n e He. apply filter_In in He as [He Q]. apply Z.eqb_eq in Q. split; [exact Q|]. split; [apply H; exact He|]. apply filter_In. split; [exact He|apply Z.eqb_refl].
  - intros g' e [<-|[]] He. rewrite QI in He. destruct (H e He) as [A [B C]]. split; [exact A|]. split; [exact B|]. apply filter_In. split; [exact He|apply Z.eqb_refl].
  - intros n e _ _. split; intros He; apply filter_In in He as [He _]; apply H; exact He.
  - intros g' n e [<-|[]] _ _ _. split; intros He; apply filter_In in He as [He _]; apply H; exact He.
  - intros n. lia.
  - intros l. apply Permutation_refl.
Qed.
Lemma ex_score_nonneg e x : 0 <= ex_score e x.
Proof. unfold ex_score. destruct (x =? 0); [lia|]. destruct (_ && _); lia. Qed.

(** A function with a branch, a loop and a cold block 5. *)
Definition ex_edges : list cedge :=
  [CEdge 0 1 90 EBranch; CEdge 0 2 10 EBranch; CEdge 1 3 90 EBranch; CEdge 2 3 10 EBranch; CEdge 3 1 40 EBranch; CEdge 3 4 60 EBranch].
Definition ex_cfg : bcfg := BCfg [0; 1; 2; 3; 4; 5] ex_edges (fun n => n) [].
Definition ex_P : prog := ex_prog ex_edges false true.
Lemma ex_ok : graphs_ok ex_P [ex_cfg] /\ (forall e x, 0 <= p_score ex_P e x) /\ initial_ok ex_P ex_cfg /\ entry_in_front ex_P ex_cfg.
Proof.
  split; [|split; [|split]].
  - apply ex_graphs; [repeat constructor; cbn; lia|reflexivity|].
    intros e He. cbn in He. repeat (destruct He as [<-|He]; [cbn; lia|]). destruct He.
  - exact ex_score_nonneg.
  - split; [constructor|]. split; [intros n []|discriminate].
  - split; [|split].
    + intros n Hn En. cbn [ex_P ex_prog p_entry] in En. apply Z.eqb_eq in En. subst n. reflexivity.
    + intros a n [es1 [e [es2 [QE [_ [_ [Q _]]]]]]]. assert (He : In e ex_edges) by (change ex_edges with (fc_edges (Fcfg (g_intra ex_cfg) (g_bb ex_cfg))); rewrite QE; apply in_app_iff; right; left; reflexivity). cbn in He. cbn [ex_P ex_prog p_entry]. repeat (destruct He as [<-|He]; [cbn in Q; subst n; reflexivity|]). destruct He.
    + intros ns n [].
Qed.
Definition run_blocks (P : prog) (gs : list bcfg) : option (list (list Z)) :=
  match BuildChains P gs with Ok st => Some (map chain_nodes (s_chains st)) | _ => None end.
Example C30_nonvacuous : run_blocks ex_P [ex_cfg] = Some [[0; 1; 3; 4; 2]] /\ map (frequency ex_P) [0; 1; 2; 3; 4; 5] = [100; 130; 10; 100; 60; 0].
Proof. split; vm_compute; reflexivity. Qed.

(** Histories of concrete programs. *)
Definition begin_run (P : prog) (gs : list bcfg) : outcome (state * queue) :=
  let E := env_of P (zlen gs) in
  let! st0 := InitNodeChains P (build_one P) gs in let! st := InitChainEdges P E st0 in
  let! q := InitChainAssemblies P E st in Ok (st, q).
Definition and_merge (P : prog) (gs : list bcfg) (x y : Z) (o : merge_order) (p : option Z) (z : bool) (sq : state * queue) : outcome (state * queue) :=
  let E := env_of P (zlen gs) in
  match get_chain (fst sq) x, get_chain (fst sq) y with
  | Some cs, Some cu =>
      let! a := BuildNodeChainAssembly E (loc (fst sq)) cs cu o p z in
      match a with Some a => MergeChains P E (fst sq) (snd sq) a | None => Abort end
  | _, _ => UB
  end.
Lemma begin_history P gs st q : begin_run P gs = Ok (st, q) -> history P gs st q.
Proof.
  unfold begin_run. destruct (InitNodeChains P (build_one P) gs) as [st0| |] eqn:A0; try discriminate. cbn [obind].
  destruct (InitChainEdges P _ st0) as [st1| |] eqn:A1; try discriminate. cbn [obind]. destruct (InitChainAssemblies P _ st1) as [q1| |] eqn:A2; try discriminate. cbn [obind].
  intros H. injection H as <- <-. eapply h_init; eassumption.
Qed.
Lemma and_merge_history P gs x y o p z st q st' q' : history P gs st q -> (z = true \/ o = kSU) -> and_merge P gs x y o p z (st, q) = Ok (st', q') -> history P gs st' q'.
Proof.
  intros H ZO M. unfold and_merge in M. cbn [fst snd] in M. destruct (get_chain st x) as [cs|] eqn:Gs; [|discriminate]. destruct (get_chain st y) as [cu|] eqn:Gu; [|discriminate].
  destruct (BuildNodeChainAssembly _ _ cs cu o p z) as [[a|]| |] eqn:B; try discriminate. cbn [obind] in M. destruct (get_In _ _ _ Gs) as [_ Is]. destruct (get_In _ _ _ Gu) as [_ Iu].
  apply (h_any P gs st q cs cu o p z a st' q' H); [rewrite Is; exact Gs|rewrite Iu; exact Gu|exact B|exact ZO|exact M].
Qed.
Definition done (r : outcome (state * queue)) : state * queue := match r with Ok sq => sq | _ => (State [] (fun _ => None), []) end.
Lemma done_eq r : match r with Ok _ => true | _ => false end = true -> r = Ok (fst (done r), snd (done r)).
Proof. destruct r as [[s q]| |]; [reflexivity|discriminate|discriminate]. Qed.

(** Two merges; the second one splits the chain of the first. *)
Definition ex_s0 := done (begin_run ex_P [ex_cfg]).
Definition ex_s1 := done (and_merge ex_P [ex_cfg] 0 2 kSU None true (fst ex_s0, snd ex_s0)).
Definition ex_s2 := done (and_merge ex_P [ex_cfg] 0 1 kS1US2 (Some 1) true (fst ex_s1, snd ex_s1)).
Example C27_nonvacuous : history ex_P [ex_cfg] (fst ex_s2) (snd ex_s2) /\
  map chain_nodes (s_chains (fst ex_s0)) = [[0]; [1]; [2]; [3]; [4]] /\
  map chain_nodes (s_chains (fst ex_s1)) = [[1]; [3]; [4]; [0; 2]] /\
  map chain_nodes (s_chains (fst ex_s2)) = [[3]; [4]; [0; 1; 2]].
Proof.
  split; [|split; [|split]]; [|vm_compute; reflexivity|vm_compute; reflexivity|vm_compute; reflexivity].
  apply (and_merge_history ex_P [ex_cfg] 0 1 kS1US2 (Some 1) true (fst ex_s1) (snd ex_s1)); [|auto|apply done_eq; vm_compute; reflexivity].
  apply (and_merge_history ex_P [ex_cfg] 0 2 kSU None true (fst ex_s0) (snd ex_s0)); [|auto|apply done_eq; vm_compute; reflexivity].
  apply begin_history, done_eq. vm_compute. reflexivity.
Qed.
(** In that state: the gain of the assembly that puts 3 behind 1 is positive and
    the books have these values. *)
Definition ex_chain (s : state) (x : Z) : chain := match get_chain s x with Some c => c | None => new_chain (env_of ex_P 1) [0] true end.
Example C28_nonvacuous :
  (match BuildNodeChainAssembly (env_of ex_P 1) (loc (fst ex_s2)) (ex_chain (fst ex_s2) 0) (ex_chain (fst ex_s2) 3) kS1US2 (Some 2) true with
   | Ok (Some a) => Some (a_gain a) | _ => None end) = Some 890 /\
  layout_score ex_score (fun _ => 10) (looked_at ex_P [ex_cfg]) [0; 1; 3; 2] = 1800 /\
  layout_score ex_score (fun _ => 10) (looked_at ex_P [ex_cfg]) [0; 1; 2] = 910 /\
  c_score (ex_chain (fst ex_s2) 0) = 910.
Proof. split; [vm_compute; reflexivity|]. split; [vm_compute; reflexivity|]. split; vm_compute; reflexivity. Qed.
Example C29_nonvacuous : books ex_P [ex_cfg] (fst ex_s2) /\
  map (fun b => (b_nodes b, b_index b, b_offset b, map ce_sink (b_edges b))) (c_bundles (ex_chain (fst ex_s2) 0)) =
    [([0], 0, 0, [1; 2]); ([1], 1, 10, []); ([2], 2, 20, [])] /\
  c_out (ex_chain (fst ex_s2) 0) = [(3, [CEdge 2 3 10 EBranch; CEdge 1 3 90 EBranch])] /\ c_in (ex_chain (fst ex_s2) 0) = [3].
Proof.
  split; [|split; [|split]]; [|vm_compute; reflexivity|vm_compute; reflexivity|vm_compute; reflexivity].
  destruct ex_ok as [A [B [C _]]]. apply (C29_books ex_P [ex_cfg] (fst ex_s2) (snd ex_s2) A B); [intros g [<-|[]]; exact C|]. apply C27_nonvacuous.
Qed.

(** The hypothesis on initial chains in C28_gain is needed: InitChainEdges does
    not sort the edges inside an initial chain of several blocks, so that the
    gain of splitting it misses some of them. *)
Definition bad_edges : list cedge := [CEdge 0 2 50 EBranch; CEdge 0 1 10 EBranch; CEdge 1 3 10 EBranch].
Definition bad_cfg : bcfg := BCfg [0; 1; 2; 3] bad_edges (fun n => n) [[0; 1; 2]].
Definition bad_P : prog := ex_prog bad_edges false true.
Definition bad_s0 := done (begin_run bad_P [bad_cfg]).
Theorem C28_initial_chains_refuted :
  graphs_ok bad_P [bad_cfg] /\ initial_ok bad_P bad_cfg /\ history bad_P [bad_cfg] (fst bad_s0) (snd bad_s0) /\
  map chain_nodes (s_chains (fst bad_s0)) = [[0; 1; 2]; [3]] /\
  (exists a, BuildNodeChainAssembly (env_of bad_P 1) (loc (fst bad_s0)) (ex_chain (fst bad_s0) 0) (ex_chain (fst bad_s0) 3) kS1US2 (Some 2) true = Ok (Some a) /\ a_gain a = 100) /\
  (let score := layout_score ex_score (fun _ => 10) (looked_at bad_P [bad_cfg]) in score [0; 1; 3; 2] - score [0; 1; 2] - score [3] = 50) /\
  run_blocks bad_P [bad_cfg] = Some [[0; 1; 3; 2]].
Proof.
  split; [apply ex_graphs; [repeat constructor; cbn; lia|reflexivity|]; intros e He; cbn in He; repeat (destruct He as [<-|He]; [cbn; lia|]); destruct He|].
  split; [split; [repeat constructor; cbn; lia|]; split; [|discriminate]; intros n Hn; cbn in Hn; repeat (destruct Hn as [<-|Hn]; [split; [cbn; lia|reflexivity]|]); destruct Hn|].
  split; [apply begin_history, done_eq; vm_compute; reflexivity|]. split; [vm_compute; reflexivity|]. split; [|split; vm_compute; reflexivity].
  eexists. split; [vm_compute; reflexivity|reflexivity].
Qed.
(** An assembly whose edges between the two chains score nothing counts as
    without gain, even if the split of the first chain is one. *)
Definition sc_edges : list cedge := [CEdge 0 1 5 EBranch; CEdge 1 0 10 EBranch; CEdge 0 2 1 EBranch; CEdge 1 2 1 EBranch].
Definition sc_P : prog := ex_prog sc_edges true true.
Definition sc_cfg : bcfg := BCfg [0; 1; 2] sc_edges (fun n => n) [].
Definition sc_s0 := done (begin_run sc_P [sc_cfg]).
Definition sc_s1 := done (and_merge sc_P [sc_cfg] 0 1 kSU None true (fst sc_s0, snd sc_s0)).
Theorem C28_zero_shortcut_refuted :
  graphs_ok sc_P [sc_cfg] /\ initial_ok sc_P sc_cfg /\ history sc_P [sc_cfg] (fst sc_s1) (snd sc_s1) /\
  let cs := ex_chain (fst sc_s1) 0 in let cu := ex_chain (fst sc_s1) 2 in
  (chain_nodes cs = [0; 1] /\ chain_nodes cu = [2]) /\
  ComputeScoreGain (env_of sc_P 1) (loc (fst sc_s1)) cs cu kUS2S1 (Some 1) (ConstructSlices cs cu kUS2S1 (Some 1)) = Ok 0 /\
  let score := layout_score ex_score (fun _ => 10) (looked_at sc_P [sc_cfg]) in score [2; 1; 0] - score [0; 1] - score [2] = 50.
Proof.
  split; [apply ex_graphs; [repeat constructor; cbn; lia|reflexivity|]; intros e He; cbn in He; repeat (destruct He as [<-|He]; [cbn; lia|]); destruct He|].
  split; [split; [constructor|]; split; [intros n []|discriminate]|].
  split; [|split; [split; vm_compute; reflexivity|split; vm_compute; reflexivity]].
  apply (and_merge_history sc_P [sc_cfg] 0 1 kSU None true (fst sc_s0) (snd sc_s0)); [|auto|apply done_eq; vm_compute; reflexivity].
  apply begin_history, done_eq. vm_compute. reflexivity.
Qed.
(** The hypothesis entry_in_front of C27_entry_first is needed: a forced edge
    into the entry block puts a block before it, in the only chain of the
    function (the cluster builder then stops at its CHECK). *)
Definition back_edges : list cedge := [CEdge 0 1 5 EBranch; CEdge 0 2 5 EBranch; CEdge 1 3 5 EBranch; CEdge 2 3 5 EBranch; CEdge 3 0 10 EBranch].
Definition back_P : prog := ex_prog back_edges false true.
Definition back_cfg : bcfg := BCfg [0; 1; 2; 3] back_edges (fun n => n) [].
Theorem C27_entry_behind_refuted :
  graphs_ok back_P [back_cfg] /\ initial_ok back_P back_cfg /\ p_ifr back_P = false /\ p_entry back_P 0 = true /\ hd 1 (g_nodes back_cfg) = 0 /\
  run_blocks back_P [back_cfg] = Some [[2; 3; 0; 1]].
Proof.
  split; [apply ex_graphs; [repeat constructor; cbn; lia|reflexivity|]; intros e He; cbn in He; repeat (destruct He as [<-|He]; [cbn; lia|]); destruct He|].
  split; [split; [constructor|]; split; [intros n []|discriminate]|].
  split; [reflexivity|]. split; [reflexivity|]. split; [reflexivity|]. vm_compute. reflexivity.
Qed.
Print Assumptions C27_assembly_total.
Print Assumptions C27_merge.
Print Assumptions C27_entry_first.
Print Assumptions C28_edge_score.
Print Assumptions C28_gain.
Print Assumptions C28_gain_whole.
Print Assumptions C28_chain_score.
Print Assumptions C29_books.
Print Assumptions C29_merge_total.
Print Assumptions C30_partition.
Print Assumptions C29_looked_at.
Print Assumptions C30_laid_out.
