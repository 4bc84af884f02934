(** Proofs about the clusters: the steps and the whole run. *)
From Verif Require Import Base ISort ForcedModel ChainModel ChainSpec ChainAsmProofs ChainBuildModel ClusterModel ClusterSpec ClusterProofs.

Lemma layers_perm (ks R : list cluster) (a : cluster) : Permutation ks (a :: R) -> Permutation (map k_chains ks) (k_chains a :: map k_chains R).
Proof. intros H. exact (Permutation_map k_chains H). Qed.
Lemma flat_map_map_chains ks : flat_map k_chains ks = concat (map k_chains ks).
Proof. apply flat_map_concat_map. Qed.
Lemma filter_id {A} (p : A -> bool) l : (forall x, In x l -> p x = true) -> filter p l = l.
Proof. induction l as [|x l IH]; intros H; [reflexivity|]. cbn [filter]. rewrite (H x (or_introl eq_refl)), IH; [reflexivity|]. intros; apply H; right; assumption. Qed.

Section Run.
  Context (C : cparams) (hs : list kchain) (CO : chains_ok C hs).
  Let P := q_prog C.

  Lemma into_ins h e : In e (into P h) -> exists n, In n (h_nodes h) /\ In e (p_ins P n).
  Proof.
    unfold into. destruct (p_ifr P); intros H; apply in_flat_map in H as [n [H1 H2]]; exists n; split; auto.
    destruct (h_nodes h) as [|m l]; [destruct H1|]. destruct H1 as [<-|[]]. left. reflexivity.
  Qed.

  Lemma MergeClusters_ok st kl k : cinv C hs st -> In kl (t_clusters st) -> In k (t_clusters st) -> k_id kl <> k_id k ->
    k_size kl <= q_thr C -> k_size k <= q_thr C ->
    exists st' R, MergeClusters st kl k = Ok st' /\ cinv C hs st' /\
      Permutation (t_clusters st) (kl :: k :: R) /\ Permutation (layers st') ((k_chains kl ++ k_chains k) :: map k_chains R).
  Proof.
    intros V HL HK D L1 L2. destruct (two_sums C hs CO st V kl k HL HK D) as [S1 [S2 [S3 [F1 [F2 F3]]]]].
    unfold MergeClusters. assert (G : is_int (k_freq kl + k_freq k) && is_int (k_size kl + k_size k) = true) by (change (2 ^ 31) with 2147483648 in *; unfold is_int; lia).
    rewrite G. cbn [negb]. clear G.
    set (new := Cluster (k_id kl) (k_chains kl ++ k_chains k) (k_size kl + k_size k) (k_freq kl + k_freq k)).
    set (g := fun k0 : cluster => if k_id k0 =? k_id kl then new else k0). set (f := fun k0 : cluster => negb (k_id k0 =? k_id k)).
    destruct (two_perm k_id _ kl k (ci_ids _ _ _ V) HL HK D) as [R PR].
    assert (NR : NoDup (map k_id (kl :: k :: R))) by (eapply Permutation_NoDup; [apply Permutation_map; exact PR|apply (ci_ids _ _ _ V)]).
    cbn [map] in NR. inversion NR as [|? ? N1 NR1]; subst. inversion NR1 as [|? ? N2 N3]; subst.
    assert (PN : Permutation (map g (filter f (t_clusters st))) (new :: R)).
    { eapply perm_trans; [apply Permutation_map, (Permutation_filter f); exact PR|]. cbn [filter]. unfold f at 1 2. rewrite Z.eqb_refl. cbn [negb].
      destruct (Z.eqb_spec (k_id kl) (k_id k)) as [|_]; [congruence|]. cbn [negb map]. unfold g at 1. rewrite Z.eqb_refl. constructor.
      rewrite filter_id; [|intros x Hx; unfold f; destruct (Z.eqb_spec (k_id x) (k_id k)) as [E|]; [exfalso; apply N2; rewrite <- E; apply in_map; exact Hx|reflexivity]].
      rewrite (map_ext_in g (fun x => x)), map_id; [apply Permutation_refl|]. intros x Hx. unfold g. destruct (Z.eqb_spec (k_id x) (k_id kl)) as [E|]; [|reflexivity].
      exfalso. apply N1. right. rewrite <- E. apply in_map. exact Hx. }
    assert (INR : forall x, In x R -> In x (t_clusters st)) by (intros x Hx; apply (Permutation_in _ (Permutation_sym PR)); right; right; exact Hx).
    exists (CState (map g (filter f (t_clusters st))) (fun i => if existsb (fun h => h_id h =? i) (k_chains k) then Some (k_id kl) else t_of st i)), R.
    split; [reflexivity|]. destruct (ci_k _ _ _ V kl HL) as [K1 [K2 [K3 K4]]]. destruct (ci_k _ _ _ V k HK) as [J1 [J2 [J3 J4]]].
    split; [|split; [exact PR|exact (Permutation_map k_chains PN)]].
    assert (CASE : forall x, In x (map g (filter f (t_clusters st))) -> x = new \/ In x R) by (intros x Hx; apply (Permutation_in _ PN) in Hx; destruct Hx; auto).
    split; cbn [t_clusters t_of].
    - eapply perm_trans; [apply Permutation_flat_map; exact PN|]. cbn [flat_map new k_chains]. eapply perm_trans; [|apply (ci_perm _ _ _ V)].
      eapply perm_trans; [|apply Permutation_sym, Permutation_flat_map; exact PR]. cbn [flat_map]. rewrite app_assoc. apply Permutation_refl.
    - eapply Permutation_NoDup; [apply Permutation_sym, Permutation_map; exact PN|]. cbn [map new k_id]. constructor; [intros X; apply N1; right; exact X|exact N3].
    - intros x Hx. apply CASE in Hx as [->|Hx]; [|apply (ci_k _ _ _ V); auto]. cbn [new k_id k_chains k_size k_freq].
      split; [destruct (k_chains kl); [congruence|discriminate]|]. split; [rewrite K2; destruct (k_chains kl); [congruence|reflexivity]|].
      unfold csize, cfreq in *. rewrite !sumf_app. lia.
    - intros x y Hx Hy. apply CASE in Hx as [->|Hx].
      + cbn [new k_id k_chains] in *. destruct (existsb _ _) eqn:E; [reflexivity|]. apply in_app_iff in Hy as [Hy|Hy]; [apply (ci_of _ _ _ V); auto|].
        exfalso. assert (X : existsb (fun h0 => h_id h0 =? h_id y) (k_chains k) = true); [apply existsb_exists; exists y; split; [exact Hy|apply Z.eqb_refl]|congruence].
      + destruct (existsb _ _) eqn:E; [|apply (ci_of _ _ _ V); auto]. exfalso. apply existsb_exists in E as [z [E1 E2]]. apply Z.eqb_eq in E2.
        pose proof (ci_of _ _ _ V x y (INR _ Hx) Hy) as Q1. pose proof (ci_of _ _ _ V k z HK E1) as Q2. rewrite E2, Q1 in Q2. injection Q2 as Q2.
        apply N2. rewrite <- Q2. apply in_map. exact Hx.
    - intros x Hx. apply CASE in Hx as [->|Hx]; [right; cbn [new k_size]; lia|apply (ci_lim _ _ _ V); auto].
  Qed.

  Lemma wget_In w j x : NoDup (map fst w) -> In (j, x) w -> wget w j = x.
  Proof. intros N H. unfold wget. pose proof (find_id fst w (j, x) N H) as Q. cbn [fst] in Q. rewrite Q. reflexivity. Qed.
  Lemma wget_pos w j : wget w j <> 0 -> In (j, wget w j) w.
  Proof. unfold wget. destruct (find _ w) as [[a b]|] eqn:F; [|congruence]. intros _. apply find_some in F as [F1 F2]. cbn [fst snd] in *. apply Z.eqb_eq in F2. subst. exact F1. Qed.

  Lemma MergeWithBest_ok st h : cinv C hs st -> In h hs -> q_min C <= q_dens C (h_freq h) (h_size h) -> incoming P h <> 0 ->
    exists st', MergeWithBest C hs st h = Ok st' /\ cinv C hs st' /\ look C h (layers st) (layers st').
  Proof.
    intros V Hh DN IC. pose proof Hh as HK. apply (Permutation_in _ (Permutation_sym (ci_perm _ _ _ V))) in HK. apply in_flat_map in HK as [k [HK HI]].
    unfold MergeWithBest. rewrite (cluster_of_ok C hs st V k h HK HI). destruct (ci_k _ _ _ V k HK) as [K1 [K2 [K3 K4]]].
    assert (NOTH : forall (Q : forall c, In c (t_clusters st) -> c <> k -> may_follow (q_thr C) (k_chains c) (k_chains k) -> feeds P (k_chains c) h = 0), look C h (layers st) (layers st)).
    { intros Q. destruct (in_split _ _ HK) as [l1 [l2 E]]. assert (PK : Permutation (t_clusters st) (k :: l1 ++ l2)) by (rewrite E; apply Permutation_sym, Permutation_middle).
      apply (look_nothing C h _ _ (k_chains k) (map k_chains (l1 ++ l2))); [exact (layers_perm _ _ _ PK)|reflexivity|exact HI|]. right. intros c Hc MF. apply in_map_iff in Hc as [c0 [<- Hc]].
      apply Q; [apply (Permutation_in _ (Permutation_sym PK)); right; exact Hc| |exact MF]. intros ->.
      assert (ND : NoDup (map k_id (k :: l1 ++ l2))) by (eapply Permutation_NoDup; [apply Permutation_map; exact PK|apply (ci_ids _ _ _ V)]). cbn [map] in ND. inversion ND as [|? ? X _]. apply X. apply in_map. exact Hc. }
    destruct (k_size k >? q_thr C) eqn:BIG.
    { exists st. split; [reflexivity|]. split; [exact V|]. apply NOTH. intros c _ _ [_ [X _]]. lia. }
    assert (LK : k_size k <= q_thr C) by lia.
    assert (W : exists w, (if p_ifr (q_prog C) then inspect_edges C hs st (h_id h) k [] (flat_map (p_ins (q_prog C)) (h_nodes h))
                 else match h_nodes h with [] => UB | n :: _ => if p_entry (q_prog C) n then inspect_edges C hs st (h_id h) k [] (p_ins (q_prog C) n) else Abort end) = Ok w /\
                 winv C st k (into P h) w).
    { destruct (inspect_ok C hs CO st V h k HK HI LK (into P h) [] [] (winv_nil C st k) (into_ins h)) as [w [Q W]]. exists w. split; [|exact W].
      unfold into in Q. fold P. destruct (p_ifr P) eqn:IF; [exact Q|]. pose proof (co_entry _ _ CO) as CE. fold P in CE. specialize (CE IF h Hh IC). pose proof (co_nonempty _ _ CO h Hh) as NE.
      destruct (h_nodes h) as [|n l]; [congruence|]. cbn [hd] in CE. rewrite CE. cbn [firstn flat_map] in Q. rewrite app_nil_r in Q. exact Q. }
    destruct W as [w [-> W]]. cbn [obind].
    assert (FD : forall c, fed C (into P h) c = feeds P c h) by reflexivity.
    destruct (best_pred w) as [[l x]|] eqn:BP.
    - apply best_some in BP as [BI BM]. destruct (wi_in _ _ _ _ _ W l x BI) as [XP [kl [KL [QL [NL MF]]]]]. subst l.
      rewrite (find_id k_id _ kl (ci_ids _ _ _ V) KL). destruct MF as [M1 [M2 M3]]. destruct (ci_k _ _ _ V kl KL) as [_ [KN [KS _]]].
      destruct (MergeClusters_ok st kl k V KL HK NL) as [st' [R [-> [V' [PR PL]]]]]; [lia|lia|].
      exists st'. split; [reflexivity|]. split; [exact V'|].
      assert (FX : feeds P (k_chains kl) h = x).
      { rewrite <- FD. rewrite <- (wi_get _ _ _ _ _ W kl KL NL (conj M1 (conj M2 M3))). apply wget_In; [apply (wi_keys _ _ _ _ _ W)|exact BI]. }
      apply (look_merge C h _ _ (k_chains kl) (k_chains k) (map k_chains R)); auto.
      + exact (Permutation_map k_chains PR).
      + split; auto.
      + fold P. lia.
      + intros c Hc MC. apply in_map_iff in Hc as [c0 [<- Hc]]. fold P. rewrite FX.
        assert (H0 : In c0 (t_clusters st)) by (apply (Permutation_in _ (Permutation_sym PR)); right; right; exact Hc).
        assert (ND : NoDup (map k_id (kl :: k :: R))) by (eapply Permutation_NoDup; [apply Permutation_map; exact PR|apply (ci_ids _ _ _ V)]). cbn [map] in ND.
        inversion ND as [|? ? N1 ND1]; subst. inversion ND1 as [|? ? N2 _]; subst.
        assert (D0 : k_id c0 <> k_id k) by (intros E; apply N2; rewrite <- E; apply in_map; exact Hc).
        assert (D1 : k_id c0 <> k_id kl) by (intros E; apply N1; right; rewrite <- E; apply in_map; exact Hc).
        rewrite <- (FD (k_chains c0)), <- (wi_get _ _ _ _ _ W c0 H0 D0 MC). destruct (ci_k _ _ _ V c0 H0) as [_ [CN _]].
        destruct (Z.eq_dec (wget w (k_id c0)) 0) as [Z0|Z0]; [left; lia|]. pose proof (BM _ (wget_pos w _ Z0)) as X. cbn [fst snd] in X. lia.
    - exists st. split; [reflexivity|]. split; [exact V|]. apply NOTH. intros c Hc NC MC. apply best_none in BP. subst w.
      rewrite <- FD, <- (wi_get _ _ _ _ _ W c Hc); [reflexivity| |exact MC]. intros E. apply NC. eapply ids_inj; eauto.
  Qed.
  Lemma merge_all_ok l : forall st, cinv C hs st -> (forall h, In h l -> In h hs /\ incoming P h <> 0) ->
    exists st', merge_all C hs st l = Ok st' /\ cinv C hs st' /\ look_all C l (layers st) (layers st').
  Proof.
    induction l as [|h l IH]; intros st V H.
    - exists st. split; [reflexivity|]. split; [exact V|constructor].
    - cbn [merge_all]. destruct (H h (or_introl eq_refl)) as [H1 H2]. destruct (Z.ltb_spec (q_dens C (h_freq h) (h_size h)) (q_min C)) as [L|L].
      + destruct (IH st V) as [st' [Q [V' LA]]]; [intros; apply H; right; assumption|]. exists st'. split; [exact Q|]. split; [exact V'|]. econstructor; [|exact LA].
        pose proof H1 as HK. apply (Permutation_in _ (Permutation_sym (ci_perm _ _ _ V))) in HK. apply in_flat_map in HK as [k [HK HI]]. destruct (in_split _ _ HK) as [l1 [l2 E]].
        apply (look_nothing C h _ _ (k_chains k) (map k_chains (l1 ++ l2))); [|reflexivity|exact HI|left; exact L].
        apply layers_perm. rewrite E. apply Permutation_sym, Permutation_middle.
      + destruct (MergeWithBest_ok st h V H1 L H2) as [st1 [-> [V1 LK]]]. cbn [obind]. destruct (IH st1 V1) as [st' [Q [V' LA]]]; [intros; apply H; right; assumption|].
        exists st'. split; [exact Q|]. split; [exact V'|]. econstructor; eassumption.
  Qed.

  (** * the weights *)
  Lemma sum_weight_ok h es : In h hs -> (forall e, In e es -> exists n, In n (h_nodes h) /\ In e (p_ins P n)) -> forall acc,
    sum_weight C hs (h_id h) acc es = Ok (acc + sumf ce_weight (filter (fun e => counts P e && negb (inb (h_nodes h) (ce_src e))) es)).
  Proof.
    intros Hh. induction es as [|e es IH]; intros H acc; cbn [sum_weight filter]; [rewrite sumf_nil; f_equal; lia|]. fold P.
    assert (IH' : forall acc, sum_weight C hs (h_id h) acc es = Ok (acc + sumf ce_weight (filter (fun e => counts P e && negb (inb (h_nodes h) (ce_src e))) es))) by (apply IH; intros; apply H; right; assumption). clear IH.
    destruct (H e (or_introl eq_refl)) as [n [Hn He]].
    destruct ((ce_weight e =? 0) || is_return e || p_inter_section P e) eqn:SK.
    - assert (CT : counts P e = false) by (unfold counts, is_return in *; destruct (ce_weight e =? 0), (p_inter_section P e), (ce_kind e); cbn in *; congruence).
      rewrite CT. cbn [andb]. apply IH'.
    - assert (CT : counts P e = true) by (unfold counts, is_return in *; destruct (ce_weight e =? 0), (p_inter_section P e), (ce_kind e); cbn in *; congruence).
      rewrite CT. cbn [andb]. assert (Hb : In n (blocks hs)) by (unfold blocks; apply in_flat_map; exists h; auto).
      destruct (chain_of_ok hs _ (co_src _ _ CO n e Hb He CT)) as [h' [A1 [A2 ->]]]. destruct (Z.eqb_spec (h_id h') (h_id h)) as [E|E].
      + assert (h' = h) by (eapply (NoDup_map_inj h_id); [apply (co_ids _ _ CO)|exact A1|exact Hh|exact E]). subst h'. apply inb_In in A2. rewrite A2. apply IH'.
      + destruct (inb (h_nodes h) (ce_src e)) eqn:IB.
        * exfalso. apply E. apply inb_In in IB. f_equal. eapply NoDup_flat_map_inj; [apply (co_nodes _ _ CO)|exact A1|exact Hh|exact A2|exact IB].
        * cbn [negb]. rewrite IH', sumf_cons. f_equal. lia.
  Qed.
  Lemma weights_ok l : (forall h, In h l -> In h hs) ->
    weights_to C hs l = Ok (map (fun h => (h, incoming P h)) (filter (fun h => negb (incoming P h =? 0)) l)).
  Proof.
    induction l as [|h l IH]; intros H; [reflexivity|]. cbn [weights_to filter]. rewrite sum_weight_ok; [|apply H; left; reflexivity|].
    2:{ intros e He. apply in_flat_map in He. exact He. }
    cbn [obind]. rewrite IH by (intros; apply H; right; assumption). cbn [obind]. rewrite Z.add_0_l.
    match goal with |- context [?x =? 0] => change x with (incoming P h) end.
    destruct (incoming P h =? 0); reflexivity.
  Qed.
  Lemma weight_total a b : weight_leb a b = true \/ weight_leb b a = true.
  Proof. unfold weight_leb. lia. Qed.
  Lemma weight_trans a b c : weight_leb a b = true -> weight_leb b c = true -> weight_leb a c = true.
  Proof. unfold weight_leb. lia. Qed.
  Lemma order_ok : exists l, weights_to C hs hs = Ok l /\ by_incoming P hs (map fst (isort weight_leb l)).
  Proof.
    rewrite weights_ok by auto. eexists. split; [reflexivity|]. set (f := filter (fun h => negb (incoming P h =? 0)) hs). set (l := map _ f).
    assert (NH : NoDup hs) by (apply (NoDup_map_inv h_id), (co_ids _ _ CO)).
    assert (NF : NoDup f) by (apply NoDup_filter; exact NH).
    assert (EL : map fst l = f) by (unfold l; rewrite map_map; cbn [fst]; apply map_id).
    pose proof (isort_perm weight_leb l) as PL. pose proof (Permutation_map fst PL) as PF. rewrite EL in PF.
    split; [eapply Permutation_NoDup; eassumption|]. split.
    - intros h. split; intros H.
      + apply (Permutation_in _ (Permutation_sym PF)) in H. apply filter_In in H as [H1 H2]. split; [exact H1|lia].
      + apply (Permutation_in _ PF). apply filter_In. split; [tauto|]. destruct H as [_ H]. lia.
    - pose proof (isort_sorted weight_leb weight_total weight_trans l) as SS. revert SS.
      assert (Q : forall p, In p (isort weight_leb l) -> snd p = incoming P (fst p) /\ In (fst p) hs).
      { intros p Hp. apply isort_In in Hp. unfold l in Hp. apply in_map_iff in Hp as [h [<- Hp]]. apply filter_In in Hp as [Hp _]. auto. }
      assert (N : NoDup (map fst (isort weight_leb l))) by (eapply Permutation_NoDup; eassumption).
      pose proof (co_ids _ _ CO) as IDS. revert Q N. clear - IDS.
      induction (isort weight_leb l) as [|p k IH]; intros Q N SS; [constructor|]. inversion SS as [|? ? S1 S2]; subst. cbn [map] in *. inversion N as [|? ? N1 N2]; subst.
      constructor; [apply IH; auto; intros; apply Q; right; assumption|]. rewrite Forall_forall in *. intros h Hh. apply in_map_iff in Hh as [q [<- Hq]].
      pose proof (S2 q Hq) as X. unfold le_prop, weight_leb in X. destruct (Q p (or_introl eq_refl)) as [Q1 Q2]. destruct (Q q (or_intror Hq)) as [Q3 Q4]. rewrite Q1, Q3 in X.
      assert (D : h_id (fst p) <> h_id (fst q)); [|lia]. intros E. apply N1. rewrite (NoDup_map_inj h_id hs _ _ IDS Q2 Q4 E). apply in_map. exact Hq.
  Qed.

  (** * the constructor *)
  Lemma init_ok l : forall ks, NoDup (map k_id ks ++ map h_id l) -> init_clusters l ks = Ok (ks ++ map (fun h => Cluster (h_id h) [h] (h_size h) (h_freq h)) l).
  Proof.
    induction l as [|h l IH]; intros ks N; cbn [init_clusters map]; [rewrite app_nil_r; reflexivity|].
    destruct (existsb _ ks) eqn:E.
    - exfalso. apply existsb_exists in E as [k [E1 E2]]. apply Z.eqb_eq in E2. apply NoDup_app_inv in N as [_ [_ N]]. apply (N (k_id k)); [apply in_map; exact E1|]. cbn [map In]. left. congruence.
    - rewrite IH; [rewrite <- app_assoc; reflexivity|]. rewrite map_app. cbn [map k_id]. rewrite <- app_assoc. exact N.
  Qed.
  Lemma new_ok : exists st, new_builder hs = Ok st /\ cinv C hs st /\ layers st = map (fun h => [h]) hs.
  Proof.
    unfold new_builder. rewrite init_ok by (cbn [map app]; apply (co_ids _ _ CO)). cbn [obind app]. eexists. split; [reflexivity|].
    set (ks := map (fun h => Cluster (h_id h) [h] (h_size h) (h_freq h)) hs).
    assert (IN : forall k, In k ks -> exists h, In h hs /\ k = Cluster (h_id h) [h] (h_size h) (h_freq h)) by (intros k H; apply in_map_iff in H as [h [<- H]]; eauto).
    split; [|unfold layers; cbn [t_clusters]; unfold ks; rewrite map_map; reflexivity]. split; cbn [t_clusters t_of].
    - assert (E : flat_map k_chains ks = hs); [|rewrite E; apply Permutation_refl]. unfold ks. clear. induction hs as [|h l IH]; [reflexivity|]. cbn [map flat_map k_chains app]. rewrite IH. reflexivity.
    - unfold ks. rewrite map_map. exact (co_ids _ _ CO).
    - intros k H. apply IN in H as [h [H ->]]. cbn [k_id k_chains k_size k_freq cname]. unfold csize, cfreq. rewrite !sumf_cons, !sumf_nil. split; [discriminate|]. lia.
    - intros k h H HI. apply IN in H as [h' [H ->]]. cbn [k_id k_chains] in *. destruct HI as [<-|[]]. destruct (existsb _ _) eqn:E; [reflexivity|].
      assert (X : existsb (fun h0 => h_id h0 =? h_id h') hs = true); [apply existsb_exists; exists h'; split; [exact H|apply Z.eqb_refl]|congruence].
    - intros k H. apply IN in H as [h [H ->]]. left. reflexivity.
  Qed.
  Lemma dens_total a b : dens_leb C a b = true \/ dens_leb C b a = true.
  Proof. unfold dens_leb. lia. Qed.
  Lemma dens_trans a b c : dens_leb C a b = true -> dens_leb C b c = true -> dens_leb C a c = true.
  Proof. unfold dens_leb. lia. Qed.

  Lemma cinv_perm st ks : cinv C hs st -> Permutation (t_clusters st) ks -> cinv C hs (CState ks (t_of st)).
  Proof.
    intros V PK. assert (I : forall k, In k ks -> In k (t_clusters st)) by (intros k H; apply (Permutation_in _ (Permutation_sym PK)); exact H). split; cbn [t_clusters t_of].
    - eapply perm_trans; [apply Permutation_flat_map, Permutation_sym; exact PK|apply (ci_perm _ _ _ V)].
    - eapply Permutation_NoDup; [apply Permutation_map; exact PK|apply (ci_ids _ _ _ V)].
    - intros k H. apply (ci_k _ _ _ V). auto.
    - intros k h H. apply (ci_of _ _ _ V). auto.
    - intros k H. apply (ci_lim _ _ _ V). auto.
  Qed.
  Lemma build_on : q_clustering C = true -> exists ks st l, BuildClusters C hs = Ok ks /\ cinv C hs (CState ks (t_of st)) /\ by_incoming P hs l /\
    look_all C l (map (fun h => [h]) hs) (layers st) /\ Permutation (layers st) (map k_chains ks) /\ StronglySorted (le_prop (dens_leb C)) ks.
  Proof.
    intros ON. unfold BuildClusters. destruct new_ok as [st0 [-> [V0 L0]]]. cbn [obind]. rewrite ON. cbn [negb].
    destruct order_ok as [ws [-> BI]]. cbn [obind]. destruct (merge_all_ok (map fst (isort weight_leb ws)) st0 V0) as [st [-> [V LA]]].
    { intros h H. apply BI. exact H. }
    cbn [obind]. exists (isort (dens_leb C) (t_clusters st)), st, (map fst (isort weight_leb ws)). split; [reflexivity|].
    split; [apply cinv_perm; [exact V|apply isort_perm]|]. split; [exact BI|]. split; [rewrite <- L0; exact LA|].
    split; [unfold layers; apply Permutation_map, isort_perm|apply isort_sorted; [exact dens_total|exact dens_trans]].
  Qed.
  Lemma build_off : q_clustering C = false -> exists ks, BuildClusters C hs = Ok ks /\ Permutation (map (fun h => Cluster (h_id h) [h] (h_size h) (h_freq h)) hs) ks /\
    StronglySorted (le_prop id_leb) ks.
  Proof.
    intros OFF. unfold BuildClusters. unfold new_builder. rewrite init_ok by (cbn [map app]; apply (co_ids _ _ CO)). cbn [obind app]. rewrite OFF. cbn [negb t_clusters].
    eexists. split; [reflexivity|]. split; [apply isort_perm|]. apply isort_sorted; unfold id_leb; intros; lia.
  Qed.
End Run.
