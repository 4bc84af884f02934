(** C31: clustering the chains. *)
From Verif Require Import Base ISort ForcedModel ChainModel ChainSpec ChainAsmProofs ChainBuildModel ChainBuildSpec ChainProps ClusterModel ClusterSpec ClusterProofs ClusterRunProofs.

(** The clusters contain every chain once; each is named after its first chain,
    its size and frequency are the sums over its chains, and it is one chain or
    at most twice the limit in size. *)
Theorem C31_partition C hs : chains_ok C hs -> exists ks, BuildClusters C hs = Ok ks /\
  Permutation (flat_map k_chains ks) hs /\ NoDup (flat_map (fun k => blocks (k_chains k)) ks) /\
  forall k, In k ks -> k_chains k <> [] /\ k_id k = cname (k_chains k) /\ k_size k = csize (k_chains k) /\ k_freq k = cfreq (k_chains k) /\
    ((exists h, k_chains k = [h]) \/ k_size k <= 2 * q_thr C).
Proof.
  intros CO. assert (G : exists ks f, BuildClusters C hs = Ok ks /\ cinv C hs (CState ks f)).
  { destruct (q_clustering C) eqn:ON.
    - destruct (build_on C hs CO ON) as [ks [st [l [Q [V _]]]]]. eauto.
    - unfold BuildClusters. destruct (new_ok C hs CO) as [st [-> [V L]]]. cbn [obind]. rewrite ON. cbn [negb].
      exists (isort id_leb (t_clusters st)), (t_of st). split; [reflexivity|]. apply cinv_perm; [exact V|apply isort_perm]. }
  destruct G as [ks [f [Q V]]]. exists ks. split; [exact Q|]. split; [exact (ci_perm _ _ _ V)|]. split; [exact (blocks_nodup C hs CO _ V)|].
  intros k Hk. destruct (ci_k _ _ _ V k Hk) as [A [B [D E]]]. repeat split; auto. destruct (ci_lim _ _ _ V k Hk) as [L|L]; [left|right; exact L].
  destruct (k_chains k) as [|h [|h' r]]; try discriminate. exists h. reflexivity.
Qed.

(** With clustering: the chains that other chains lead to are looked at, that
    with most incoming weight first, and each time its cluster is put behind the
    cluster that feeds the chain most, if there is one that may be in front of
    it.  The clusters are in the order of decreasing density. *)
Theorem C31_greedy C hs : chains_ok C hs -> q_clustering C = true -> exists ks l Y, BuildClusters C hs = Ok ks /\
  by_incoming (q_prog C) hs l /\ look_all C l (map (fun h => [h]) hs) Y /\ Permutation Y (map k_chains ks) /\
  StronglySorted (fun a b => q_dens C (cfreq (k_chains b)) (csize (k_chains b)) < q_dens C (cfreq (k_chains a)) (csize (k_chains a)) \/
    (q_dens C (cfreq (k_chains b)) (csize (k_chains b)) = q_dens C (cfreq (k_chains a)) (csize (k_chains a)) /\ cname (k_chains a) < cname (k_chains b))) ks.
Proof.
  intros CO ON. destruct (build_on C hs CO ON) as [ks [st [l [Q [V [BI [LA [PL SS]]]]]]]]. exists ks, l, (layers st). split; [exact Q|]. split; [exact BI|]. split; [exact LA|]. split; [exact PL|].
  assert (ND : NoDup ks) by (apply (NoDup_map_inv k_id), (ci_ids _ _ _ V)).
  eapply StronglySorted_NoDup_strict; [exact SS|exact ND|]. intros a b Ha Hb NE L. unfold le_prop, dens_leb in L.
  destruct (ci_k _ _ _ V a Ha) as [_ [QA1 [QA2 QA3]]]. destruct (ci_k _ _ _ V b Hb) as [_ [QB1 [QB2 QB3]]].
  rewrite <- QA1, <- QA2, <- QA3, <- QB1, <- QB2, <- QB3. assert (k_id a <> k_id b); [|lia].
  intros E. apply NE. exact (ids_inj C hs _ V a b Ha Hb E).
Qed.

(** Without clustering: every chain a cluster, in the original order. *)
Theorem C31_off C hs : chains_ok C hs -> q_clustering C = false -> exists ks, BuildClusters C hs = Ok ks /\
  Permutation (map k_chains ks) (map (fun h => [h]) hs) /\ StronglySorted (fun a b => cname (k_chains a) < cname (k_chains b)) ks.
Proof.
  intros CO OFF. destruct (build_off C hs CO OFF) as [ks [Q [PK SS]]]. exists ks. split; [exact Q|]. split.
  - apply Permutation_sym. pose proof (Permutation_map k_chains PK) as X. rewrite map_map in X. exact X.
  - assert (ND : NoDup (map k_id ks)) by (eapply Permutation_NoDup; [apply Permutation_map; exact PK|rewrite map_map; exact (co_ids _ _ CO)]).
    assert (CN : forall k, In k ks -> k_id k = cname (k_chains k)).
    { intros k Hk. apply (Permutation_in _ (Permutation_sym PK)) in Hk. apply in_map_iff in Hk as [h [<- _]]. reflexivity. }
    eapply StronglySorted_NoDup_strict; [exact SS|exact (NoDup_map_inv k_id _ ND)|]. intros a b Ha Hb NE L. unfold le_prop, id_leb in L. rewrite <- (CN a Ha), <- (CN b Hb).
    assert (k_id a <> k_id b); [|lia]. intros E. apply NE. exact (NoDup_map_inj k_id ks a b ND Ha Hb E).
Qed.

(** * Examples *)
(** Functions are single blocks: 0 calls 1 and 2, 2 calls 3, 4 calls 1 a bit,
    5 stands alone and is cold. *)
Definition cl_edges : list cedge := [CEdge 0 1 50 ECall; CEdge 0 2 20 ECall; CEdge 2 3 20 ECall; CEdge 4 1 8 ECall; CEdge 1 0 50 EReturn].
Definition cl_prog (ES : list cedge) (ifr : bool) (entry : Z -> bool) : prog :=
  Prog (fun _ => 10) (fun n => n) entry (fun _ => false) (fun n => filter (fun e => ce_src e =? n) ES) (fun n => filter (fun e => ce_sink e =? n) ES)
    (fun _ => false) (fun _ _ => 0) ifr false 0 true true (fun l => l).
Definition cl_C (thr : Z) : cparams := CParams (cl_prog cl_edges false (fun _ => true)) thr true (fun f s => (1000 * f) / Z.max s 1) 5.
Definition cl_hs : list kchain := map (fun n => KChain n [n] 10 (frequency (cl_prog cl_edges false (fun _ => true)) n)) [0; 1; 2; 3; 4; 5].
Lemma cl_ok thr : 0 <= thr <= 2 ^ 27 -> chains_ok (cl_C thr) cl_hs.
Proof.
  intros T. constructor; cbn [q_prog q_thr cl_C]; auto.
  - change (NoDup [0; 1; 2; 3; 4; 5]). repeat constructor; cbn; lia.
  - change (NoDup [0; 1; 2; 3; 4; 5]). repeat constructor; cbn; lia.
  - intros h H. apply in_map_iff in H as [n [<- _]]. discriminate.
  - intros h H. apply in_map_iff in H as [n [<- _]]. cbn [h_size]. lia.
  - intros h H. apply in_map_iff in H as [n [<- H]]. cbn [h_freq]. repeat (destruct H as [<-|H]; [vm_compute; discriminate|]). destruct H.
  - vm_compute. reflexivity.
  - vm_compute. reflexivity.
  - intros n e _ H. cbn [cl_prog p_ins] in H. apply filter_In in H as [H _]. repeat (destruct H as [<-|H]; [vm_compute; split; [discriminate|reflexivity]|]). destruct H.
  - intros n e _ H _. cbn [cl_prog p_ins] in H. apply filter_In in H as [H _]. change (blocks cl_hs) with [0; 1; 2; 3; 4; 5]. repeat (destruct H as [<-|H]; [cbn; tauto|]). destruct H.
Qed.
Definition cl_run (thr : Z) := match BuildClusters (cl_C thr) cl_hs with Ok ks => Some (map (fun k => (map h_id (k_chains k), k_size k, k_freq k)) ks) | _ => None end.
(** With a limit of 10 single blocks are merged, but the clusters of size 20
    are left alone. *)
Example C31_nonvacuous : chains_ok (cl_C 100) cl_hs /\ cl_run 100 = Some [([0; 1; 2; 3], 40, 148); ([4], 10, 8); ([5], 10, 0)] /\
  cl_run 10 = Some [([0; 1], 20, 108); ([2; 3], 20, 40); ([4], 10, 8); ([5], 10, 0)].
Proof. split; [apply cl_ok; lia|]. split; vm_compute; reflexivity. Qed.

(** The chain of a function may start with another block than the entry (see
    C27_entry_behind_refuted); then, with a call from another chain, the cluster
    builder aborts when functions are laid out one by one. *)
Definition ab_edges : list cedge := back_edges ++ [CEdge 10 0 10 ECall].
Definition ab_P : prog := ex_prog ab_edges false true.
Definition ab_C : cparams := CParams ab_P 1000 true (fun f s => (1000 * f) / Z.max s 1) 5.
Theorem C31_abort_refuted :
  run_blocks ab_P [back_cfg] = Some [[2; 3; 0; 1]] /\
  BuildClusters ab_C [KChain 2 [2; 3; 0; 1] 40 25; KChain 10 [10] 10 10] = Abort.
Proof. split; vm_compute; reflexivity. Qed.
(** A call edge taken 300000000 times: ten times its weight is not an int. *)
Definition ov_edges : list cedge := [CEdge 0 1 300000000 ECall].
Theorem C31_overflow_refuted :
  BuildClusters (CParams (cl_prog ov_edges false (fun _ => true)) 1000 true (fun f s => (1000 * f) / Z.max s 1) 5)
    [KChain 0 [0] 10 300000000; KChain 1 [1] 10 300000000] = UB.
Proof. vm_compute. reflexivity. Qed.

Print Assumptions C31_partition.
Print Assumptions C31_greedy.
Print Assumptions C31_off.
