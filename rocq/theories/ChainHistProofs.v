(** Every history of the chain builder keeps the books right. *)
From Verif Require Import Base ISort ForcedModel ForcedSpec ForcedProofs ForcedProps ChainModel ChainSpec ChainAsmProofs ChainEdgeProofs ChainConsumeProofs ChainMergeProofs ChainMergeWfProofs ChainStepProofs ChainScoreProofs ChainBuildModel ChainBuildSpec ChainInitProofs ChainEdgeInitProofs ChainQueueProofs ChainQueueInvProofs ChainLoopProofs ChainMainProofs.

(** A filter taken apart by disjoint predicates. *)
Lemma filter_parts {A K} (p : K -> A -> bool) (EV : list A) (ks : list K) : NoDup ks ->
  (forall k k' e, In k ks -> In k' ks -> k <> k' -> In e EV -> p k e = true -> p k' e = true -> False) ->
  Permutation (flat_map (fun k => filter (p k) EV) ks) (filter (fun e => existsb (fun k => p k e) ks) EV).
Proof.
  induction ks as [|k ks IH]; intros ND D; cbn [flat_map existsb].
  - assert (Q : filter (fun _ : A => false) EV = []) by (clear; induction EV; [reflexivity|assumption]). rewrite Q. constructor.
  - inversion ND as [|? ? Hn ND']; subst. eapply perm_trans; [apply Permutation_app_head, IH; [exact ND'|intros k1 k2 e H1 H2; apply D; right; assumption]|].
    apply filter_or_perm; [|reflexivity]. intros e He. destruct (p k e) eqn:Q; [|reflexivity]. cbn [andb]. destruct (existsb _ ks) eqn:X; [|reflexivity]. exfalso.
    apply existsb_exists in X as [k' [H1 H2]]. apply (D k k' e); auto; [left; reflexivity|right; exact H1|]. intros ->. auto.
Qed.
Lemma flat_map_perm_ext {A B} (f g : A -> list B) l : (forall x, In x l -> Permutation (f x) (g x)) -> Permutation (flat_map f l) (flat_map g l).
Proof.
  induction l as [|x l IH]; intros H; cbn [flat_map]; [constructor|]. apply Permutation_app; [apply H; left; reflexivity|apply IH; intros; apply H; right; assumption].
Qed.
Lemma NoDup_map_inv' {A B} (f : A -> B) l : NoDup (map f l) -> NoDup l.
Proof. apply NoDup_map_inv. Qed.

Section Books.
  Context (E : env) (EV : list cedge) (st : state) (W : wf E EV st) (IN : forall e, In e EV -> In (ce_src e) (all_nodes st) /\ In (ce_sink e) (all_nodes st)).
  Lemma chain_unique c d n : In c (s_chains st) -> In d (s_chains st) -> In n (chain_nodes c) -> In n (chain_nodes d) -> c = d.
  Proof.
    intros Hc Hd H1 H2. pose proof (w_nodes _ _ _ W) as ND. unfold all_nodes in ND. clear - Hc Hd H1 H2 ND. induction (s_chains st) as [|x l IH]; [destruct Hc|].
    cbn [flat_map] in ND. apply NoDup_app_inv in ND as [_ [ND D]]. destruct Hc as [->|Hc], Hd as [->|Hd]; auto; exfalso;
      eapply D; try eassumption; apply in_flat_map; eauto.
  Qed.
  Lemma bundle_unique c b b' n : In c (s_chains st) -> In b (c_bundles c) -> In b' (c_bundles c) -> In n (b_nodes b) -> In n (b_nodes b') -> b = b'.
  Proof.
    intros Hc Hb Hb' H1 H2. assert (ND : NoDup (chain_nodes c)).
    { pose proof (w_nodes _ _ _ W) as ND. unfold all_nodes in ND. clear - Hc ND. induction (s_chains st) as [|x l IH]; [destruct Hc|]. cbn [flat_map] in ND. apply NoDup_app_inv in ND as [N1 [ND D]]. destruct Hc as [->|Hc]; auto. }
    unfold chain_nodes in ND. clear - Hb Hb' H1 H2 ND. induction (c_bundles c) as [|x l IH]; [destruct Hb|].
    cbn [flat_map] in ND. apply NoDup_app_inv in ND as [_ [ND D]]. destruct Hb as [->|Hb], Hb' as [->|Hb']; auto; exfalso;
      eapply D; try eassumption; apply in_flat_map; eauto.
  Qed.
  Lemma chain_of n : In n (all_nodes st) -> exists c, In c (s_chains st) /\ In n (chain_nodes c).
  Proof. intros H. apply in_flat_map in H. exact H. Qed.
  Lemma same_bundle_apart e : In e EV -> same_bundle st e = negb (apartm (s_map st) e).
  Proof.
    intros He. destruct (IN e He) as [H1 H2]. apply chain_of in H1 as [c [Hc H1]]. apply chain_of in H2 as [d [Hd H2]].
    destruct (node_placed E EV st W c _ Hc H1) as [b1 [B1 [B2 B3]]]. destruct (node_placed E EV st W d _ Hd H2) as [b2 [C1 [C2 C3]]].
    unfold apartm. rewrite B3, C3, negb_involutive. destruct (Z.eqb_spec (b_id b1) (b_id b2)) as [Q|Q].
    - assert (b1 = b2) as <- by (eapply (NoDup_cons_In_neq b_id); [apply (w_bids _ _ _ W)| | |exact Q]; apply in_flat_map; eauto).
      unfold same_bundle. apply existsb_exists. exists b1. split; [apply in_flat_map; eauto|]. unfold inside. apply andb_true_iff. split; apply memz_In; assumption.
    - destruct (same_bundle st e) eqn:X; [|reflexivity]. exfalso. unfold same_bundle in X. apply existsb_exists in X as [b [X1 X2]]. unfold inside in X2. apply andb_true_iff in X2 as [X2 X3]. apply memz_In in X2, X3.
      apply in_flat_map in X1 as [c' [K1 K2]]. assert (c' = c) as -> by (apply (chain_unique c' c (ce_src e)); try assumption; apply in_chain_nodes; eauto).
      assert (c = d) as <- by (apply (chain_unique c d (ce_sink e)); try assumption; apply in_chain_nodes; eauto).
      apply Q. f_equal. transitivity b; [eapply bundle_unique; eassumption|eapply bundle_unique; eassumption].
  Qed.
  (** The edges recorded for one chain. *)
  Lemma recorded_chain c : In c (s_chains st) ->
    Permutation (flat_map b_edges (c_bundles c) ++ flat_map snd (c_out c)) (filter (fun e => memz (ce_src e) (chain_nodes c) && apartm (s_map st) e) EV).
  Proof.
    intros Hc. pose proof (get_of_In _ _ (w_ids _ _ _ W) Hc) as Gc.
    set (pk := fun (k : Z * list cedge) (e : cedge) => existsb (fun d => (c_id d =? fst k) && from_to (chain_nodes c) (chain_nodes d) e) (s_chains st)).
    assert (OUT : forall y es, In (y, es) (c_out c) -> exists d, In d (s_chains st) /\ c_id d = y /\ c_id c <> y /\ es = outs c d).
    { intros y es H. pose proof (proj1 (w_keys _ _ _ W c Hc)) as NK. pose proof (aget_NoDup_In Z.eqb Z_eqb_reflect y es (c_out c) NK) as X. specialize (X H) as X'. clear X.
      assert (O : out st (c_id c) y = Some es) by (unfold out; rewrite Gc; exact X').
      destruct (w_live _ _ _ W (c_id c) y) as [d Gd]; [congruence|]. destruct (get_In _ _ _ Gd) as [Hd Id]. exists d. split; [exact Hd|]. split; [exact Id|]. split.
      - intros Q. rewrite <- Q in O. rewrite (w_self _ _ _ W) in O. discriminate.
      - unfold outs. rewrite Id, X'. reflexivity. }
    assert (PK : forall k e, In k (c_out c) -> exists d, In d (s_chains st) /\ c_id d = fst k /\ c_id c <> fst k /\ snd k = outs c d /\ pk k e = from_to (chain_nodes c) (chain_nodes d) e).
    { intros [y es] e Hk. destruct (OUT y es Hk) as [d [D1 [D2 [D3 D4]]]]. exists d. cbn [fst snd]. repeat (split; [assumption|]). unfold pk. cbn [fst].
      destruct (from_to (chain_nodes c) (chain_nodes d) e) eqn:F.
      - apply existsb_exists. exists d. split; [exact D1|]. rewrite F, D2, Z.eqb_refl. reflexivity.
      - destruct (existsb _ _) eqn:X; [|reflexivity]. exfalso. apply existsb_exists in X as [d' [X1 X2]]. apply andb_true_iff in X2 as [X2 X3]. apply Z.eqb_eq in X2.
        assert (d' = d) as -> by (eapply (NoDup_cons_In_neq c_id); [apply (w_ids _ _ _ W)|exact X1|exact D1|congruence]). congruence. }
    assert (P2 : Permutation (flat_map snd (c_out c)) (filter (fun e => existsb (fun k => pk k e) (c_out c)) EV)).
    { eapply perm_trans; [apply (flat_map_perm_ext _ (fun k => filter (pk k) EV))|].
      - intros k Hk. destruct (PK k (CEdge 0 0 0 ECall) Hk) as [d [D1 [D2 [D3 [D4 _]]]]]. rewrite D4. eapply perm_trans; [apply (w_out _ _ _ W c d Hc D1); congruence|].
        erewrite filter_ext; [apply Permutation_refl|]. intros e. destruct (PK k e Hk) as [d' [D1' [D2' [_ [_ Q]]]]].
        assert (d' = d) as -> by (eapply (NoDup_cons_In_neq c_id); [apply (w_ids _ _ _ W)|exact D1'|exact D1|congruence]). symmetry. exact Q.
      - apply filter_parts.
        + apply (NoDup_map_inv fst). apply (w_keys _ _ _ W c Hc).
        + intros k k' e Hk Hk' NE He H1 H2. destruct (PK k e Hk) as [d [D1 [D2 [_ [D4 Q]]]]]. destruct (PK k' e Hk') as [d' [D1' [D2' [_ [D4' Q']]]]]. rewrite Q in H1. rewrite Q' in H2.
          unfold from_to in H1, H2. apply andb_true_iff in H1 as [_ H1], H2 as [_ H2]. apply memz_In in H1, H2. assert (d = d') as <- by (eapply chain_unique; eassumption).
          apply NE. destruct k, k'. cbn [fst snd] in *. congruence. }
    eapply perm_trans; [apply Permutation_app; [apply (w_intra _ _ _ W c Hc)|exact P2]|].
    apply filter_or_perm.
    - intros e He. destruct (inside (chain_nodes c) e) eqn:I1; [|reflexivity]. destruct (apartm (s_map st) e); [|reflexivity]. cbn [andb].
      destruct (existsb _ _) eqn:X; [|reflexivity]. exfalso. apply existsb_exists in X as [k [Hk X]]. destruct (PK k e Hk) as [d [D1 [D2 [D3 [_ Q]]]]]. rewrite Q in X.
      unfold inside in I1. unfold from_to in X. apply andb_true_iff in I1 as [_ I1], X as [_ X]. apply memz_In in I1, X. assert (QCD : c = d) by (eapply (chain_unique c d (ce_sink e)); eassumption). congruence.
    - intros e He. destruct (memz (ce_src e) (chain_nodes c)) eqn:M1; cbn [andb].
      + destruct (IN e He) as [_ H2]. apply chain_of in H2 as [d [Hd H2]]. assert (M1' := M1). apply memz_In in M1'.
        destruct (Z.eq_dec (c_id c) (c_id d)) as [Q|Q].
        * assert (c = d) as <- by (eapply (NoDup_cons_In_neq c_id); [apply (w_ids _ _ _ W)|exact Hc|exact Hd|exact Q]).
          unfold inside. rewrite M1. assert (M2 : memz (ce_sink e) (chain_nodes c) = true) by (apply memz_In; exact H2). rewrite M2. cbn [andb].
          destruct (apartm (s_map st) e) eqn:A; [reflexivity|]. cbn [orb]. symmetry. destruct (existsb _ _) eqn:X; [|reflexivity]. exfalso.
          apply existsb_exists in X as [k [Hk X]]. destruct (PK k e Hk) as [d [D1 [D2 [D3 [_ Q']]]]]. rewrite Q' in X. unfold from_to in X. apply andb_true_iff in X as [_ X]. apply memz_In in X.
          assert (QCD : c = d) by (eapply (chain_unique c d (ce_sink e)); eassumption). congruence.
        * assert (A : apartm (s_map st) e = true).
          { unfold apartm. destruct (node_placed E EV st W c _ Hc M1') as [b1 [B1 [B2 B3]]]. destruct (node_placed E EV st W d _ Hd H2) as [b2 [C1 [C2 C3]]]. rewrite B3, C3.
            apply negb_true_iff, Z.eqb_neq. intros QB. assert (b1 = b2) as <- by (eapply (NoDup_cons_In_neq b_id); [apply (w_bids _ _ _ W)| | |exact QB]; apply in_flat_map; eauto).
            apply Q. f_equal. eapply (chain_unique c d (ce_src e)); try assumption. apply in_chain_nodes. eauto. }
          rewrite A. symmetry. apply orb_true_iff. right. assert (FT : from_to (chain_nodes c) (chain_nodes d) e = true) by (unfold from_to; rewrite M1; apply memz_In; exact H2).
          assert (HO : In e (outs c d)) by (apply (Permutation_in _ (Permutation_sym (w_out _ _ _ W c d Hc Hd Q))); apply filter_In; auto).
          unfold outs in HO. destruct (aget Z.eqb (c_id d) (c_out c)) as [es|] eqn:AG; [|destruct HO].
          apply (aget_In Z.eqb Z_eqb_reflect) in AG. apply existsb_exists. exists (c_id d, es). split; [exact AG|]. unfold pk. cbn [fst]. apply existsb_exists. exists d. split; [exact Hd|]. rewrite Z.eqb_refl, FT. reflexivity.
      + unfold inside. rewrite M1. cbn [andb orb]. symmetry. destruct (existsb _ _) eqn:X; [|reflexivity]. exfalso.
        apply existsb_exists in X as [k [Hk X]]. destruct (PK k e Hk) as [d [D1 [D2 [D3 [_ Q']]]]]. rewrite Q' in X. unfold from_to in X. rewrite M1 in X. discriminate.
  Qed.
  Lemma recorded_all : Permutation (recorded st) (filter (fun e => negb (same_bundle st e)) EV).
  Proof.
    unfold recorded. eapply perm_trans; [apply flat_map_perm_ext; intros c Hc; apply recorded_chain; exact Hc|].
    eapply perm_trans; [apply (filter_parts (fun c e => memz (ce_src e) (chain_nodes c) && apartm (s_map st) e) EV (s_chains st))|].
    - apply (NoDup_map_inv c_id), (w_ids _ _ _ W).
    - intros c d e Hc Hd NE He H1 H2. apply andb_true_iff in H1 as [H1 _], H2 as [H2 _]. apply memz_In in H1, H2. apply NE. eapply chain_unique; eassumption.
    - rewrite (filter_ext_in _ (fun e => negb (same_bundle st e)) EV); [apply Permutation_refl|]. intros e He. cbv beta. rewrite (same_bundle_apart e He), negb_involutive.
      destruct (IN e He) as [H1 _]. apply chain_of in H1 as [c [Hc H1]]. destruct (apartm (s_map st) e) eqn:A.
      + apply existsb_exists. exists c. split; [exact Hc|]. rewrite (proj2 (memz_In _ _) H1). reflexivity.
      + destruct (existsb _ _) eqn:X; [|reflexivity]. exfalso. apply existsb_exists in X as [d [_ X]]. rewrite andb_false_r in X. discriminate.
  Qed.
End Books.

Lemma pos_split sz l n : In n l -> exists l1 l2, l = l1 ++ n :: l2 /\ pos sz l n = tot sz l1.
Proof.
  induction l as [|m l IH]; intros H; [destruct H|]. cbn [pos]. destruct (Z.eqb_spec m n) as [->|Q].
  - exists [], l. auto.
  - destruct H as [H|H]; [congruence|]. destruct (IH H) as [l1 [l2 [-> X]]]. exists (m :: l1), l2. split; [reflexivity|]. rewrite X. reflexivity.
Qed.
Lemma bundles_at_freq E cid bs1 b bs2 idx off : bundles_ok E cid idx off (bs1 ++ b :: bs2) -> b_freq b = tot (e_freq E) (b_nodes b).
Proof. intros H. apply bundles_ok_app in H as [_ H]. inversion H; subst. assumption. Qed.

Lemma wf_books P gs EV st : graphs_ok P gs -> wf (env_of P (zlen gs)) EV st -> Permutation EV (looked_at P gs) ->
  Permutation (all_nodes st) (flat_map (laid_out P) gs) -> books P gs st.
Proof.
  intros GO W EP NP. set (E := env_of P (zlen gs)) in *.
  assert (IN : forall e, In e EV -> In (ce_src e) (all_nodes st) /\ In (ce_sink e) (all_nodes st)).
  { intros e He. apply (Permutation_in _ EP) in He. unfold looked_at in He. apply filter_In in He as [He HV]. apply in_flat_map in He as [n [Hn He]].
    destruct (go_outs _ _ GO n e He) as [Q _]. rewrite Q. split; apply (Permutation_in _ (Permutation_sym NP)); [exact Hn|].
    apply (proj1 (closed_laid P gs GO) n e Hn He HV). }
  constructor.
  - exact NP.
  - apply (w_nodes _ _ _ W).
  - split; [apply (w_ids _ _ _ W)|apply (w_bids _ _ _ W)].
  - intros n Hn. apply (Permutation_in _ (Permutation_sym NP)) in Hn. apply chain_of in Hn as [c [Hc Hn]].
    destruct (node_placed E EV st W c n Hc Hn) as [b [B1 [B2 B3]]]. destruct (pos_split (e_size E) _ _ B2) as [l1 [l2 [Q1 Q2]]].
    exists c, b, l1, l2. split; [exact Hc|]. split; [exact B1|]. split; [exact Q1|]. split; [rewrite B3, Q2; reflexivity|].
    intros c' b' Hc' Hb' Hn'. assert (c' = c) as -> by (apply (chain_unique E EV st W c' c n Hc' Hc); [apply in_chain_nodes; eauto|exact Hn]).
    split; [reflexivity|]. exact (bundle_unique E EV st W c b' b n Hc Hb' B1 Hn' B2).
  - intros c bs1 b bs2 Hc Q. pose proof (w_chain _ _ _ W c Hc) as [O _]. rewrite Q in O. pose proof (bundles_at_freq _ _ _ _ _ _ _ O) as F. apply bundles_at in O as [A1 [A2 [A3 [A4 A5]]]].
    split; [exact A1|]. split; [lia|]. split; [rewrite A3; reflexivity|]. split; [exact A4|]. split; [exact A5|exact F].
  - intros c Hc. pose proof (w_chain _ _ _ W c Hc) as [_ [_ X]]. exact X.
  - eapply perm_trans; [apply (recorded_all E EV st W IN)|]. apply Permutation_filter. exact EP.
  - intros c b e Hc Hb He. split; [apply (w_src _ _ _ W b e); [apply in_flat_map; eauto|exact He]|]. apply (edges_inside E EV st c b e W Hc Hb He).
  - intros c y es Hc H. pose proof (get_of_In _ _ (w_ids _ _ _ W) Hc) as Gc. pose proof (proj1 (w_keys _ _ _ W c Hc)) as NK.
    pose proof (aget_NoDup_In Z.eqb Z_eqb_reflect y es (c_out c) NK H) as X. assert (O : out st (c_id c) y = Some es) by (unfold out; rewrite Gc; exact X).
    destruct (w_live _ _ _ W (c_id c) y) as [d Gd]; [congruence|]. destruct (get_In _ _ _ Gd) as [Hd Id].
    assert (NE : c_id c <> y). { intros Q. rewrite <- Q in O. rewrite (w_self _ _ _ W) in O. discriminate. }
    exists d. split; [exact Hd|]. split; [exact Id|]. split; [exact NE|]. intros e He.
    assert (HO : In e (outs c d)) by (unfold outs; rewrite Id, X; exact He). apply (Permutation_in _ (w_out _ _ _ W c d Hc Hd ltac:(congruence))) in HO.
    apply filter_In in HO as [_ HO]. unfold from_to in HO. apply andb_true_iff in HO as [H1 H2]. apply memz_In in H1, H2. auto.
  - intros c Hc. apply (w_keys _ _ _ W c Hc).
  - intros d x Hd. pose proof (get_of_In _ _ (w_ids _ _ _ W) Hd) as Gd. pose proof (w_inout _ _ _ W x (c_id d)) as IO. unfold inn in IO. rewrite Gd in IO. rewrite IO. unfold out. split.
    + destruct (get_chain st x) as [c|] eqn:Gc; [|congruence]. intros H. destruct (get_In _ _ _ Gc) as [Hc Ic]. exists c. split; [exact Hc|]. split; [exact Ic|].
      destruct (aget Z.eqb (c_id d) (c_out c)) as [es|] eqn:A; [|congruence]. apply (aget_In Z.eqb Z_eqb_reflect) in A. apply (in_map fst) in A. exact A.
    + intros [c [Hc [Ic H]]]. rewrite <- Ic, (get_of_In _ _ (w_ids _ _ _ W) Hc). apply in_map_iff in H as [[y es] [Q H]]. cbn [fst] in Q. subst y.
      rewrite (aget_NoDup_In Z.eqb Z_eqb_reflect _ es _ (proj1 (w_keys _ _ _ W c Hc)) H). congruence.
Qed.

Lemma slice_order_perm0 s1 s2 u o l : slice_order s1 s2 u o l -> Permutation l ((s1 ++ s2) ++ u).
Proof.
  intros [| | | |].
  - rewrite app_assoc. apply Permutation_refl.
  - rewrite app_assoc. apply Permutation_app_tail, Permutation_app_comm.
  - rewrite <- app_assoc. apply Permutation_app_head, Permutation_app_comm.
  - eapply perm_trans; [apply Permutation_app_comm|]. apply Permutation_app_tail, Permutation_app_comm.
  - rewrite (app_assoc s2 u s1). eapply perm_trans; [apply Permutation_app_comm|]. rewrite app_assoc. apply Permutation_refl.
Qed.
(** Every state of a history is a state of the builder. *)
Theorem history_own P gs srt eok st q : graphs_ok P gs -> (forall e x, 0 <= p_score P e x) -> (forall g, In g gs -> given_ok P srt eok g) -> history P gs st q ->
  exists EV, binv (env_of P (zlen gs)) EV srt (flat_map (laid_out P) gs) st q /\ Permutation EV (looked_at P gs) /\
    forall c, In c (s_chains st) -> In (c_id c) (chain_nodes c).
Proof.
  intros GO NN HG H. set (E := env_of P (zlen gs)).
  assert (HI : forall g, In g gs -> given_ok P srt eok g /\ inner_ok P (build_one P) (zlen gs) g).
  { intros g Hg. split; [auto|]. intros _ _. apply (build_one_ok P gs g GO Hg); [apply HG; exact Hg|exact NN]. }
  destruct (init_all_ok P (build_one P) gs srt eok GO HI) as [s0 [s1 [q1 [EV [A0 [A1 [A2 SR]]]]]]].
  exists EV. rewrite and_comm, and_assoc. split; [apply (sr_ev _ _ _ _ _ _ _ SR)|]. pose proof (closed_laid P gs GO) as CL. fold E in CL.
  assert (STEP : forall st q a st1, asm_ok E EV srt st (a_split a) (a_unsplit a) a -> binv E EV srt (flat_map (laid_out P) gs) st q -> wf E EV st1 ->
    (forall cs cu, get_chain st (a_split a) = Some cs -> get_chain st (a_unsplit a) = Some cu -> exists c, get_chain st1 (a_split a) = Some c /\ chain_nodes c = asm_nodes cs cu (a_slices a)) ->
    (forall i c, i <> a_split a -> get_chain st1 i = Some c -> exists d, get_chain st i = Some d /\ chain_nodes d = chain_nodes c) ->
    (forall c, In c (s_chains st) -> In (c_id c) (chain_nodes c)) -> forall c, In c (s_chains st1) -> In (c_id c) (chain_nodes c)).
  { clear. intros st q a st1 [cs [cu [Gs [Gu [NE F]]]]] B W1 NEW OLD OWN c Hc. pose proof (get_of_In _ _ (w_ids _ _ _ W1) Hc) as Gc.
    destruct (Z.eq_dec (c_id c) (a_split a)) as [Q|Q].
    - destruct (NEW cs cu Gs Gu) as [c' [G' NQ]]. rewrite Q in Gc. assert (c' = c) as -> by congruence. rewrite NQ, Q.
      destruct (get_In _ _ _ Gs) as [Hs Is]. pose proof (OWN cs Hs) as X. rewrite Is in X. rewrite (af_slices _ _ _ _ _ _ F).
      pose proof (asm_order (fun _ => None) cs cu (a_order a) (a_pos a) (af_cut _ _ _ _ _ _ F)) as AO. cbv zeta in AO. apply slice_order_perm0 in AO. rewrite flat_map_firstn_skipn in AO.
      apply (Permutation_in _ (Permutation_sym AO)), in_app_iff. left. exact X.
    - destruct (OLD _ _ Q Gc) as [d [Gd ND]]. rewrite <- ND. destruct (get_In _ _ _ Gd) as [Hd Id]. rewrite <- Id. apply OWN. exact Hd. }
  induction H as [st0 st q H0 H1 H2|st q a st' q' H IH HB HM|st q cs cu o p z a st' q' H IH Gs Gu HB Z0 HM].
  - rewrite A0 in H0. injection H0 as <-. fold E in A1, H1. rewrite A1 in H1. injection H1 as <-. fold E in A2, H2. rewrite A2 in H2. injection H2 as <-. split; [apply (sr_own _ _ _ _ _ _ _ SR)|apply (sr_inv _ _ _ _ _ _ _ SR)].
  - destruct IH as [OWN IH]. destruct (merge_chains_ok P (go_ord _ _ GO) E EV (go_size _ _ GO) srt _ CL st q a IH (best_ok E EV srt _ st q a IH HB)) as [st1 [q2 [M [B [_ [_ [_ [NEW OLD]]]]]]]].
    fold E in HM. rewrite M in HM. injection HM as <- <-. split; [|exact B]. exact (STEP st q a st1 (best_ok E EV srt _ st q a IH HB) IH (bi_wf _ _ _ _ _ _ B) NEW OLD OWN).
  - destruct IH as [OWN IH]. fold E in HB, HM. destruct (get_In _ _ _ Gs) as [Hs _]. destruct (get_In _ _ _ Gu) as [Hu _].
    assert (NE : c_id cs <> c_id cu). { intros Q. unfold BuildNodeChainAssembly in HB. rewrite Q, Z.eqb_refl in HB. discriminate. }
    assert (V : valid_cut cs o p).
    { unfold BuildNodeChainAssembly in HB. destruct (Z.eqb_spec (c_id cs) (c_id cu)) as [|_]; [congruence|].
      destruct (match o, p with kSU, None => false | kSU, Some _ => true | _, None => true | _, Some p => negb ((p <? zlen (c_bundles cs)) && (p >? 0)) end) eqn:VB; [discriminate|].
      unfold valid_cut. destruct o, p as [p|]; try discriminate; try exact I; apply negb_false_iff in VB; lia. }
    destruct (build_ok E EV st (bi_wf _ _ _ _ _ _ IH) (go_size _ _ GO) cs cu Hs Hu NE o p z srt V (fun s => proj1 (bi_srt _ _ _ _ _ _ IH s) cs Hs) Z0) as [r [Q [RA _]]].
    rewrite HB in Q. injection Q as <-. specialize (RA a eq_refl).
    assert (AO : asm_ok E EV srt st (a_split a) (a_unsplit a) a) by (exists cs, cu; rewrite (af_split _ _ _ _ _ _ RA), (af_unsplit _ _ _ _ _ _ RA); auto).
    destruct (merge_chains_ok P (go_ord _ _ GO) E EV (go_size _ _ GO) srt _ CL st q a IH AO) as [st1 [q2 [M [B [_ [_ [_ [NEW OLD]]]]]]]].
    rewrite M in HM. injection HM as <- <-. split; [|exact B]. exact (STEP st q a st1 AO IH (bi_wf _ _ _ _ _ _ B) NEW OLD OWN).
Qed.

Theorem history_inv P gs srt eok st q : graphs_ok P gs -> (forall e x, 0 <= p_score P e x) -> (forall g, In g gs -> given_ok P srt eok g) -> history P gs st q ->
  exists EV, binv (env_of P (zlen gs)) EV srt (flat_map (laid_out P) gs) st q /\ Permutation EV (looked_at P gs).
Proof. intros GO NN HG H. destruct (history_own P gs srt eok st q GO NN HG H) as [EV [A [B _]]]. eauto. Qed.

(** The result of the builder is the end of a history. *)
Lemma loop_history P gs fuel : forall st q st' q', history P gs st q -> merge_loop P (env_of P (zlen gs)) fuel st q = Ok (st', q') -> history P gs st' q'.
Proof.
  induction fuel as [|fuel IH]; intros st q st' q' H M; cbn [merge_loop] in M; destruct (best_of q) as [a|] eqn:B; try discriminate.
  - injection M as <- <-. exact H.
  - destruct (MergeChains P _ st q a) as [[s1 q1]| |] eqn:Q; try discriminate. cbn [obind] in M. eapply IH; [|exact M]. eapply h_best; eassumption.
  - injection M as <- <-. exact H.
Qed.
Lemma rest_history P gs front ids : forall st q st' q', history P gs st q -> merge_rest P (env_of P (zlen gs)) st q front ids = Ok (st', q') -> history P gs st' q'.
Proof.
  induction ids as [|r ids IH]; intros st q st' q' H M; cbn [merge_rest] in M; [injection M as <- <-; exact H|].
  destruct (r =? front); [eapply IH; eassumption|]. destruct (MergeTwo P _ st q front r) as [[s1 q1]| |] eqn:Q; try discriminate. cbn [obind] in M. eapply IH; [|exact M].
  unfold MergeTwo in Q. destruct (get_chain st front) as [cl|] eqn:Gl; [|discriminate]. destruct (get_chain st r) as [cr|] eqn:Gr; [|discriminate].
  destruct (BuildNodeChainAssembly _ (loc st) cl cr kSU None false) as [[a|]| |] eqn:B; try discriminate. cbn [obind] in Q.
  destruct (get_In _ _ _ Gl) as [_ Il]. destruct (get_In _ _ _ Gr) as [_ Ir]. eapply h_any with (cs := cl) (cu := cr); try eassumption; [rewrite Il; exact Gl|rewrite Ir; exact Gr|auto].
Qed.
Theorem build_history P gs st : BuildChains P gs = Ok st -> exists q, history P gs st q.
Proof.
  unfold BuildChains. destruct (negb (p_ifr P) && negb (zlen gs =? 1)); [discriminate|]. unfold build_with.
  destruct (InitNodeChains P (build_one P) gs) as [st0| |] eqn:A0; try discriminate. cbn [obind].
  destruct (InitChainEdges P _ st0) as [st1| |] eqn:A1; try discriminate. cbn [obind].
  destruct (InitChainAssemblies P _ st1) as [q1| |] eqn:A2; try discriminate. cbn [obind].
  destruct (merge_loop P _ _ st1 q1) as [[st2 q2]| |] eqn:A3; try discriminate. cbn [obind].
  assert (H2 : history P gs st2 q2) by (eapply loop_history; [|exact A3]; eapply h_init; eassumption).
  destruct (zlen gs =? 1); [|intros Q; injection Q as <-; eauto].
  destruct (CoalesceChains P _ st2 q2) as [[st3 q3]| |] eqn:A4; try discriminate. cbn [obind]. intros Q. injection Q as <-. exists q3.
  unfold CoalesceChains in A4. destruct (map c_id _) as [|front ids]; [injection A4 as <- <-; exact H2|]. eapply rest_history; eassumption.
Qed.
