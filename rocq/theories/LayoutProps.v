(** C32: the cluster information lists every laid-out block exactly once. *)
From Verif Require Import Base ISort ForcedModel ForcedSpec ChainModel ChainSpec ChainBuildModel ChainBuildSpec ChainAsmProofs ChainProps ClusterModel ClusterSpec ClusterProofs ClusterRunProofs ClusterProps
  LayoutModel LayoutSpec LayoutProofs LayoutRunProofs.

(** The layout [ns] of a section exists: the chains are built, clustered, and
    [ns] lists the blocks of the clusters; the result describes [ns] (see
    LayoutSpec) and [ns] has the blocks to be laid out, in some order. *)
Theorem C32_layout L gs : section_ok L gs ->
  exists cs ks zs, layout_chains (q_prog (l_C L)) gs = Ok cs /\ BuildClusters (l_C L) (map of_chain cs) = Ok ks /\ OrderAll L gs = Ok zs /\
    chains_ok (l_C L) (map of_chain cs) /\
    Permutation (flat_map cluster_nodes ks) (flat_map (laid_out (q_prog (l_C L))) gs) /\ layout_info L gs (flat_map cluster_nodes ks) zs.
Proof. exact (order_all_ok L gs). Qed.
Print Assumptions C32_layout.

Definition info_blocks (zs : list finfo) : list Z := flat_map (fun z => flat_map y_blocks (z_clusters z)) zs.
Lemma all_blocks zs : flat_map (fun p : Z * (Z * list Z) => snd (snd p)) (all_clusters zs) = info_blocks zs.
Proof.
  unfold all_clusters, info_blocks. induction zs as [|z zs IH]; [reflexivity|]. cbn [flat_map]. rewrite flat_map_app, IH. f_equal.
  rewrite !flat_map_concat_map, map_map. reflexivity.
Qed.
Lemma numbered_blocks (G : list (Z * list Z)) : forall i, flat_map (fun p : Z * (Z * list Z) => snd (snd p)) (numbered i G) = flat_map snd G.
Proof. induction G as [|g G IH]; intros i; [reflexivity|]. cbn [numbered flat_map snd]. rewrite IH. reflexivity. Qed.
(** Every block to be laid out is listed, exactly once, in the information of
    its own function, and no other block is. *)
Theorem C32_each_block_once L gs zs : section_ok L gs -> OrderAll L gs = Ok zs ->
  NoDup (info_blocks zs) /\ (forall n, In n (info_blocks zs) <-> In n (flat_map (laid_out (q_prog (l_C L))) gs)) /\
  NoDup (map z_func zs) /\
  forall z y n, In z zs -> In y (z_clusters z) -> In n (y_blocks y) -> p_func (q_prog (l_C L)) n = z_func z.
Proof.
  intros SO Q. destruct (C32_layout L gs SO) as [cs [ks [zs' [_ [_ [Q' [_ [PN LI]]]]]]]]. rewrite Q in Q'. injection Q' as <-. set (ns := flat_map cluster_nodes ks) in *.
  destruct LI as [[G [[GC GF GE GM] [PC PO]]] LO _ _ _].
  assert (PB : Permutation (info_blocks zs) ns).
  { rewrite <- all_blocks, <- GC, <- (numbered_blocks G 0). apply Permutation_flat_map. exact PC. }
  assert (NL : NoDup (flat_map (laid_out (q_prog (l_C L))) gs)) by (apply laid_nodup, (go_nodup _ _ (so_graphs _ _ SO))).
  split; [eapply Permutation_NoDup; [apply Permutation_sym; eapply perm_trans; [exact PB|exact PN]|exact NL]|]. split; [|split].
  - intros n. assert (PP := perm_trans PB PN). split; apply Permutation_in; [exact PP|apply Permutation_sym; exact PP].
  - clear - LO. induction LO as [|a l S1 IH F]; [constructor|]. cbn [map]. constructor; [|exact IH]. intros H. apply in_map_iff in H as [b [E Hb]]. rewrite Forall_forall in F. apply F in Hb. lia.
  - intros z y n Hz Hy Hn. assert (H : In (y_index y, (z_func z, y_blocks y)) (all_clusters zs)).
    { unfold all_clusters. apply in_flat_map. exists z. split; [exact Hz|]. apply in_map_iff. eauto. }
    apply (Permutation_in _ PC) in H. apply numbered_In in H as [_ H]. apply (GF _ _ H). exact Hn.
Qed.
Print Assumptions C32_each_block_once.

(** The layout indices are 0..n-1 and the cold indices 0..m-1, each used once,
    where n is the number of clusters and m the number of functions; and the
    clusters in the order of their indices make up the layout. *)
Theorem C32_indices L gs zs : section_ok L gs -> OrderAll L gs = Ok zs ->
  Permutation (map fst (all_clusters zs)) (range (zlen (all_clusters zs))) /\ Permutation (map z_cold zs) (range (zlen zs)) /\
  exists cs ks, layout_chains (q_prog (l_C L)) gs = Ok cs /\ BuildClusters (l_C L) (map of_chain cs) = Ok ks /\
    flat_map (fun i => flat_map (fun p => if fst p =? i then snd (snd p) else []) (all_clusters zs)) (range (zlen (all_clusters zs))) = flat_map cluster_nodes ks.
Proof.
  intros SO Q. destruct (C32_layout L gs SO) as [cs [ks [zs' [QC [QK [Q' [_ [PN LI]]]]]]]]. rewrite Q in Q'. injection Q' as <-.
  destruct LI as [[G [[GC GF GE GM] [PC PO]]] LO _ _ _].
  assert (LG : length (all_clusters zs) = length G).
  { rewrite (Permutation_length PC). rewrite <- (map_length snd), numbered_snd. reflexivity. }
  assert (RG : range (zlen (all_clusters zs)) = map fst (numbered 0 G)).
  { unfold range, zlen. rewrite Nat2Z.id, LG, numbered_fst. apply map_ext. intros k. lia. }
  split; [rewrite RG; apply Permutation_map; exact PC|]. split.
  - assert (LZ : length zs = length (firsts (map fst G))).
    { rewrite <- (map_length (fun z => (z_cold z, z_func z))), (Permutation_length PO), <- (map_length snd), numbered_snd. reflexivity. }
    unfold range, zlen. rewrite Nat2Z.id, LZ. pose proof (Permutation_map fst PO) as X. rewrite map_map in X. cbn [fst] in X. rewrite numbered_fst in X.
    eapply perm_trans; [exact X|]. apply Permutation_refl'. apply map_ext. intros k. lia.
  - exists cs, ks. split; [exact QC|]. split; [exact QK|]. rewrite RG, <- GC.
    assert (NK : NoDup (map fst (all_clusters zs))) by (eapply Permutation_NoDup; [apply Permutation_sym, Permutation_map; exact PC|apply numbered_NoDup]).
    assert (ONE : forall (A : list (Z * (Z * list Z))) i b f, NoDup (map fst A) -> In (i, (f, b)) A -> flat_map (fun p => if fst p =? i then snd (snd p) else []) A = b).
    { clear. induction A as [|[j [f' b']] A IH]; intros i b f N H; [destruct H|]. cbn [map fst] in N. inversion N as [|? ? N1 N2]; subst. cbn [flat_map fst snd]. destruct H as [H|H].
      - injection H as -> -> ->. rewrite Z.eqb_refl. assert (Z0 : flat_map (fun p : Z * (Z * list Z) => if fst p =? i then snd (snd p) else []) A = []); [|rewrite Z0; apply app_nil_r].
        clear - N1. induction A as [|[j [g c]] A IH]; [reflexivity|]. cbn [flat_map fst snd map] in *. destruct (Z.eqb_spec j i) as [->|NE]; [exfalso; apply N1; left; reflexivity|]. cbn [app]. apply IH. intros H. apply N1. right. exact H.
      - destruct (Z.eqb_spec j i) as [->|NE]; [exfalso; apply N1; apply in_map_iff; exists (i, (f, b)); auto|]. cbn [app]. eapply IH; eauto. }
    assert (AL : forall X, incl X (numbered 0 G) -> flat_map (fun i => flat_map (fun p => if fst p =? i then snd (snd p) else []) (all_clusters zs)) (map fst X) = flat_map (fun p : Z * (Z * list Z) => snd (snd p)) X).
    { induction X as [|[i [f b]] X IH]; intros HX; [reflexivity|]. cbn [map flat_map fst snd]. rewrite IH by (intros p Hp; apply HX; right; exact Hp). f_equal.
      apply (ONE _ i b f NK). apply (Permutation_in _ (Permutation_sym PC)). apply HX. left. reflexivity. }
    rewrite AL by (intros p Hp; exact Hp). apply numbered_blocks.
Qed.
Print Assumptions C32_indices.

(** The entry block is the first of its cluster; and two clusters whose indices
    follow each other belong to different functions, or the second one starts
    with an entry block: blocks of one function that follow each other in the
    layout stay in one cluster. *)
Theorem C32_entry_and_together L gs zs : section_ok L gs -> OrderAll L gs = Ok zs ->
  (forall z y n, In z zs -> In y (z_clusters z) -> In n (y_blocks y) -> p_entry (q_prog (l_C L)) n = true -> hd 0 (y_blocks y) = n) /\
  (forall z y z' y', In z zs -> In y (z_clusters z) -> In z' zs -> In y' (z_clusters z') -> y_index y' = y_index y + 1 ->
     z_func z <> z_func z' \/ p_entry (q_prog (l_C L)) (hd 0 (y_blocks y')) = true).
Proof.
  intros SO Q. destruct (C32_layout L gs SO) as [cs [ks [zs' [_ [_ [Q' [_ [PN LI]]]]]]]]. rewrite Q in Q'. injection Q' as <-.
  destruct LI as [[G [[GC GF GE GM] [PC PO]]] LO _ _ _].
  assert (AC : forall z y, In z zs -> In y (z_clusters z) -> In (y_index y, (z_func z, y_blocks y)) (numbered 0 G)).
  { intros z y Hz Hy. apply (Permutation_in _ PC). unfold all_clusters. apply in_flat_map. exists z. split; [exact Hz|]. apply in_map_iff. eauto. }
  split.
  - intros z y n Hz Hy Hn En. apply AC in Hy; [|exact Hz]. apply numbered_In in Hy as [_ Hy]. pose proof (GE _ _ n Hy) as X. destruct (y_blocks y) as [|m b]; [destruct Hn|]. cbn [hd tl] in *. destruct Hn as [->|Hn]; [reflexivity|]. rewrite (X Hn) in En. discriminate.
  - intros z y z' y' Hz Hy Hz' Hy' QI. apply AC in Hy, Hy'; auto. rewrite QI in Hy'.
    assert (SPL : forall (A : Type) (H : list A) k i a b, In (i, a) (numbered k H) -> In (i + 1, b) (numbered k H) -> exists H1 H2, H = H1 ++ a :: b :: H2).
    { clear. induction H as [|x H IH]; intros k i a b Ha Hb; [destruct Ha|]. cbn [numbered] in Ha, Hb. destruct Ha as [Ha|Ha].
      - injection Ha as -> ->. destruct Hb as [Hb|Hb]; [injection Hb as E _; lia|]. exists []. destruct H as [|x' H]; [destruct Hb|]. cbn [numbered] in Hb. destruct Hb as [Hb|Hb]; [injection Hb as ->; exists H; reflexivity|].
        apply numbered_In in Hb. lia.
      - destruct Hb as [Hb|Hb]; [injection Hb as E _; apply numbered_In in Ha; lia|]. destruct (IH _ _ _ _ Ha Hb) as [H1 [H2 ->]]. exists (x :: H1), H2. reflexivity. }
    destruct (SPL _ _ _ _ _ _ Hy Hy') as [H1 [H2 E]]. exact (GM _ _ _ _ _ _ E).
Qed.
Print Assumptions C32_entry_and_together.

(** * Example
    Function 0 has the blocks 0, 1, 2, 3 (3 is cold) and function 1 the blocks
    10, 11; block 1 calls function 1. *)
Definition la_intra0 : list cedge := [CEdge 0 1 90 EBranch; CEdge 0 2 10 EBranch; CEdge 1 2 30 EBranch; CEdge 1 3 0 EBranch].
Definition la_intra1 : list cedge := [CEdge 10 11 80 EBranch].
Definition la_calls : list cedge := [CEdge 1 10 80 ECall].
Definition la_returns : list cedge := [CEdge 11 1 80 EReturn].
Definition la_edges : list cedge := la_intra0 ++ la_intra1 ++ la_calls ++ la_returns.
Definition la_prog (ifr : bool) : prog :=
  Prog (fun _ => 10) (fun n => n / 10) (fun n => n mod 10 =? 0) (fun _ => false) (fun n => filter (fun e => ce_src e =? n) la_edges) (fun n => filter (fun e => ce_sink e =? n) la_edges)
    (fun _ => false) ex_score ifr true 0 true true (fun l => l).
Definition la_g0 : bcfg := BCfg [0; 1; 2; 3] la_intra0 (fun n => n) [].
Definition la_g1 : bcfg := BCfg [10; 11] la_intra1 (fun n => n) [].
Definition la_L (ifr : bool) : lparams :=
  LParams (CParams (la_prog ifr) 1000 true (fun f s => (1000 * f) / Z.max s 1) 5) (fun g => hd 0 (g_nodes g) / 10) (fun n => n) (fun n => 10 * n)
    (fun g => if hd 0 (g_nodes g) =? 0 then la_calls else la_returns).
Definition la_run (ifr : bool) := match OrderAll (la_L ifr) [la_g0; la_g1] with
  | Ok zs => Some (map (fun z => (z_func z, map (fun y => (y_index y, y_blocks y)) (z_clusters z), z_orig z, z_opt z, z_cold z)) zs) | _ => None end.
Lemma la_ok ifr : section_ok (la_L ifr) [la_g0; la_g1].
Proof.
  assert (EI : forall e, In e la_edges -> In (ce_src e) [0; 1; 2; 3; 10; 11] /\ In (ce_sink e) [0; 1; 2; 3; 10; 11] /\ 0 <= ce_weight e <= 90).
  { intros e He. cbn in He. repeat (destruct He as [<-|He]; [cbn; lia|]). destruct He. }
  constructor; cbn [la_L l_C q_prog q_thr la_prog p_score p_ifr l_func].
  - constructor.
    + vm_compute. repeat constructor; cbn; lia.
    + intros n e He. apply filter_In in He as [He Q]. apply Z.eqb_eq in Q. split; [exact Q|]. split; [apply EI; exact He|]. apply filter_In. split; [exact He|apply Z.eqb_refl].
    + intros n e He. apply filter_In in He as [He Q]. apply Z.eqb_eq in Q. split; [exact Q|]. split; [apply EI; exact He|]. apply filter_In. split; [exact He|apply Z.eqb_refl].
    + intros g e [<-|[<-|[]]] He; cbn in He; repeat (destruct He as [<-|He]; [vm_compute; tauto|]); destruct He.
    + intros n e _ _. split; intros He; apply filter_In in He as [He _]; apply EI; exact He.
    + intros g n e [<-|[<-|[]]] Hn _ KI; cbn in Hn; split; intros He; apply filter_In in He as [He Q]; apply Z.eqb_eq in Q; subst n; cbn in He; repeat (destruct He as [<-|He]; [cbn in *; lia || discriminate|]); destruct He.
    + intros n. cbn. lia.
    + intros l. apply Permutation_refl.
  - exact ex_score_nonneg.
  - intros g [<-|[<-|[]]]; (split; [constructor|split; [intros n []|discriminate]]).
  - intros g n [<-|[<-|[]]] Hn; cbn in Hn; repeat (destruct Hn as [<-|Hn]; [reflexivity|]); destruct Hn.
  - vm_compute. repeat constructor; cbn; lia.
  - intros g [<-|[<-|[]]]; vm_compute; discriminate.
  - intros n e _ [He|He] _; apply filter_In in He as [He _]; split; apply EI; exact He.
  - intros g e [<-|[<-|[]]] He; cbn in He; repeat (destruct He as [<-|He]; [vm_compute; tauto|]); destruct He.
  - intros n e _ He. apply filter_In in He as [He _]. apply EI in He. lia.
  - lia.
  - vm_compute. reflexivity.
  - vm_compute. reflexivity.
  - intros _ g Hg. split; [|destruct Hg as [<-|[<-|[]]]; reflexivity]. split; [|split].
    + intros n Hn En. destruct Hg as [<-|[<-|[]]]; cbn in Hn; repeat (destruct Hn as [<-|Hn]; [first [reflexivity|discriminate]|]); destruct Hn.
    + intros a n [es1 [e [es2 [QE [_ [_ [Q _]]]]]]]. assert (He : In e (g_intra g)) by (change (g_intra g) with (fc_edges (Fcfg (g_intra g) (g_bb g))); rewrite QE; apply in_app_iff; right; left; reflexivity).
      subst n. destruct Hg as [<-|[<-|[]]]; cbn in He; repeat (destruct He as [<-|He]; [reflexivity|]); destruct He.
    + intros ns n Hns. destruct Hg as [<-|[<-|[]]]; destruct Hns.
Qed.
(** When functions are reordered together, function 1 goes between the blocks of
    function 0. *)
Example C32_nonvacuous : section_ok (la_L true) [la_g0; la_g1] /\
  la_run false = Some [(0, [(0, [0; 1; 2])], (1210, 0), (1210, 80), 0); (1, [(1, [10; 11])], (800, 0), (800, 0), 1)] /\
  la_run true = Some [(0, [(0, [0; 1]); (2, [2])], (1210, 0), (900, 800), 0); (1, [(1, [10; 11])], (800, 0), (800, 0), 1)].
Proof. split; [apply la_ok|]. split; vm_compute; reflexivity. Qed.
