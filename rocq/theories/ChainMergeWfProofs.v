(** NodeChain::MergeWith keeps the chain data consistent. *)
From Verif Require Import Base ISort ForcedModel ChainModel ChainSpec ChainAsmProofs ChainEdgeProofs ChainConsumeProofs ChainMergeProofs.

Lemma map_core_In {A} (g : chain -> A) (h : chain -> A) l k d : map g l = map h k -> In d l -> exists d0, In d0 k /\ g d = h d0.
Proof.
  intros Q H. apply (in_map g) in H. rewrite Q in H. apply in_map_iff in H as [d0 [A1 A2]]. exists d0. auto.
Qed.
Lemma NoDup_cons_In_neq {A} (f : A -> Z) l a b : NoDup (map f l) -> In a l -> In b l -> f a = f b -> a = b.
Proof.
  induction l as [|x l IH]; intros ND Ha Hb Q; [destruct Ha|]. cbn [map] in ND. inversion ND as [|? ? Hn ND']; subst.
  destruct Ha as [->|Ha], Hb as [->|Hb]; auto.
  - exfalso. apply Hn. rewrite Q. apply in_map. exact Hb.
  - exfalso. apply Hn. rewrite <- Q. apply in_map. exact Ha.
Qed.
Lemma find_app {A} (p : A -> bool) l k : find p (l ++ k) = match find p l with Some x => Some x | None => find p k end.
Proof. induction l as [|x l IH]; [reflexivity|]. cbn [app find]. destruct (p x); [reflexivity|exact IH]. Qed.
Lemma find_filter {A} (p q : A -> bool) l : (forall x, p x = true -> q x = true) -> find p (filter q l) = find p l.
Proof.
  intros H. induction l as [|x l IH]; [reflexivity|]. cbn [filter find]. destruct (p x) eqn:Px.
  - rewrite (H x Px). cbn [find]. rewrite Px. reflexivity.
  - destruct (q x); cbn [find]; [rewrite Px|]; exact IH.
Qed.
Lemma sort_edges_shape idx b : (b_chain (sort_edges idx b), b_index (sort_edges idx b), b_offset (sort_edges idx b), b_nodes (sort_edges idx b), b_size (sort_edges idx b), b_freq (sort_edges idx b)) =
    (b_chain b, b_index b, b_offset b, b_nodes b, b_size b, b_freq b) /\ b_id (sort_edges idx b) = b_id b.
Proof. split; reflexivity. Qed.

Lemma filter_all {A} (q : A -> bool) l : (forall x, In x l -> q x = true) -> filter q l = l.
Proof. intros H. induction l as [|x l IH]; [reflexivity|]. cbn [filter]. rewrite H by (left; reflexivity). rewrite IH by (intros; apply H; right; assumption). reflexivity. Qed.
(** What MergeWith does. *)
Record merged (E : env) (st : state) (cs cu : chain) (L : list Z) (g : Z) (st' : state) (cs' : chain) (others rest : list chain) (R : list bundle) (P : list cedge) : Prop := Merged {
  g_rest : rest = filter (fun c => negb (c_id c =? c_id cs) && negb (c_id c =? c_id cu)) (s_chains st);
  g_perm : Permutation (s_chains st) (cs :: cu :: rest);
  g_core : map core_of others = map core_of rest;
  g_chains : s_chains st' = others ++ [cs'];
  g_id : c_id cs' = c_id cs;
  g_bundles : c_bundles cs' = map (fun b => sort_edges (sink_index (map (keep_apart (s_map st')) R) (s_map st')) (keep_apart (s_map st') b)) R;
  g_size : c_size cs' = c_size cs + c_size cu;
  g_freq : c_freq cs' = c_freq cs + c_freq cu;
  g_score : c_score cs' = c_score cs + (c_score cu + g) -
    sumf (fun e => e_score E e (mdist E (s_map st') e)) (filter (fun e => negb (apartm (s_map st') e)) (flat_map b_edges R));
  g_func : c_func cs' = if func_eqb (c_func cs) (c_func cu) then c_func cs else None;
  g_ok : bundles_ok E (c_id cs) 0 0 R;
  g_nodes : flat_map b_nodes R = L;
  g_nodesp : Permutation L (chain_nodes cs ++ chain_nodes cu);
  g_edges : Permutation (flat_map b_edges R) (flat_map b_edges (c_bundles cs) ++ flat_map b_edges (c_bundles cu) ++ P);
  g_map : mapok E (s_map st') R;
  g_mapo : forall n, ~ In n L -> s_map st' n = s_map st n;
  g_bids : NoDup (map b_id R) /\ incl (map b_id R) (map b_id (c_bundles cs ++ c_bundles cu));
  g_coarse : forall b, In b (c_bundles cs ++ c_bundles cu) -> exists b', In b' R /\ incl (b_nodes b) (b_nodes b');
  g_src : srcok R;
  g_out : forall x y, out st' x y = if x =? c_id cu then None else if y =? c_id cu then None else
       if x =? c_id cs then if y =? c_id cs then None else appo (out st (c_id cs) y) (out st (c_id cu) y)
       else if y =? c_id cs then appo (out st x (c_id cs)) (out st x (c_id cu)) else out st x y;
  g_inn : forall x y, inn st' x y <-> out st' x y <> None;
  g_keys : keys_ok st' }.

Section Merge.
  Context (E : env) (EV : list cedge) (st : state) (W : wf E EV st) (cs cu : chain)
          (Gs : get_chain st (c_id cs) = Some cs) (Gu : get_chain st (c_id cu) = Some cu) (NE : c_id cs <> c_id cu)
          (o : merge_order) (p : option Z) (V : valid_cut cs o p) (g : Z).
  Local Notation P := (outs cu cs ++ outs cs cu).
  Local Notation sls := (ConstructSlices cs cu o p).
  Local Notation L := (asm_nodes cs cu sls).
  Local Notation mp := (s_map st).

  Let HIs : In cs (s_chains st) := proj1 (get_In _ _ _ Gs).
  Let HIu : In cu (s_chains st) := proj1 (get_In _ _ _ Gu).
  Local Notation rest := (filter (fun c => negb (c_id c =? c_id cs) && negb (c_id c =? c_id cu)) (s_chains st)).
  Lemma restp : Permutation (s_chains st) (cs :: cu :: rest).
  Proof. apply two_out; try assumption. apply (w_ids _ _ _ W). Qed.
  Lemma bundles_perm : Permutation (all_bundles st) (c_bundles cs ++ c_bundles cu ++ flat_map c_bundles rest).
  Proof. unfold all_bundles. exact (Permutation_flat_map c_bundles _ _ restp). Qed.
  Lemma nodes_perm : Permutation (all_nodes st) (chain_nodes cs ++ chain_nodes cu ++ flat_map chain_nodes rest).
  Proof. unfold all_nodes. exact (Permutation_flat_map chain_nodes _ _ restp). Qed.
  Lemma bids_nd : NoDup (map b_id (c_bundles cs ++ c_bundles cu) ++ map b_id (flat_map c_bundles rest)).
  Proof. rewrite <- map_app, <- app_assoc. exact (Permutation_NoDup (Permutation_map b_id bundles_perm) (w_bids _ _ _ W)). Qed.
  Lemma nodes_nd : NoDup ((chain_nodes cs ++ chain_nodes cu) ++ flat_map chain_nodes rest).
  Proof. rewrite <- app_assoc. exact (Permutation_NoDup nodes_perm (w_nodes _ _ _ W)). Qed.
  Lemma P_src e : In e P -> exists b, In b (c_bundles cs ++ c_bundles cu) /\ In (ce_src e) (b_nodes b) /\ srcbid mp e = b_id b.
  Proof.
    intros H. apply in_app_iff in H as [H|H].
    - destruct (outs_ends E EV st W cu cs e HIu HIs (fun q => NE (eq_sym q)) H) as [A _]. destruct (node_placed E EV st W cu _ HIu A) as [b [B1 [B2 B3]]].
      exists b. rewrite in_app_iff. split; [auto|]. split; [exact B2|]. unfold srcbid. rewrite B3. reflexivity.
    - destruct (outs_ends E EV st W cs cu e HIs HIu NE H) as [A _]. destruct (node_placed E EV st W cs _ HIs A) as [b [B1 [B2 B3]]].
      exists b. rewrite in_app_iff. split; [auto|]. split; [exact B2|]. unfold srcbid. rewrite B3. reflexivity.
  Qed.
  Lemma edge_mapped e : In e (flat_map b_edges (c_bundles cs) ++ flat_map b_edges (c_bundles cu) ++ P) ->
    (In (ce_src e) (chain_nodes cs ++ chain_nodes cu) /\ In (ce_sink e) (chain_nodes cs ++ chain_nodes cu)) /\ apartm mp e = true.
  Proof.
    assert (X : forall c, In c (s_chains st) -> In e (flat_map b_edges (c_bundles c)) -> (In (ce_src e) (chain_nodes c) /\ In (ce_sink e) (chain_nodes c)) /\ apartm mp e = true).
    { intros c Hc He. apply (Permutation_in _ (w_intra _ _ _ W c Hc)) in He. apply filter_In in He as [_ He]. apply andb_true_iff in He as [A B].
      unfold inside in A. apply andb_true_iff in A as [A1 A2]. apply memz_In in A1, A2. auto. }
    assert (Y : forall c d, In c (s_chains st) -> In d (s_chains st) -> c_id c <> c_id d -> (forall bc bd, In bc (c_bundles c) -> In bd (c_bundles d) -> b_id bc <> b_id bd) -> In e (outs c d) ->
      (In (ce_src e) (chain_nodes c) /\ In (ce_sink e) (chain_nodes d)) /\ apartm mp e = true).
    { intros c d Hc Hd N DJ He. destruct (outs_ends E EV st W c d e Hc Hd N He) as [A1 A2]. split; [auto|].
      destruct (node_placed E EV st W c _ Hc A1) as [b1 [B1 [_ B3]]]. destruct (node_placed E EV st W d _ Hd A2) as [b2 [D1 [_ D3]]].
      unfold apartm. rewrite B3, D3. apply negb_true_iff, Z.eqb_neq. apply DJ; assumption. }
    assert (DJ : forall bc bd, In bc (c_bundles cs) -> In bd (c_bundles cu) -> b_id bc <> b_id bd).
    { intros bc bd H1 H2 Q. pose proof bids_nd as ND. apply NoDup_app_inv in ND as [ND _]. rewrite map_app in ND. apply NoDup_app_inv in ND as [_ [_ D]].
      apply (D (b_id bc)); [apply in_map; exact H1|rewrite Q; apply in_map; exact H2]. }
    rewrite !in_app_iff. intros [H|[H|[H|H]]].
    - destruct (X cs HIs H). intuition.
    - destruct (X cu HIu H). intuition.
    - destruct (Y cu cs HIu HIs (fun q => NE (eq_sym q)) (fun a b H1 H2 Q => DJ b a H2 H1 (eq_sym Q)) H). intuition.
    - destruct (Y cs cu HIs HIu NE DJ H). intuition.
  Qed.

  Lemma merge_with_ok : exists st' cs' others R,
    MergeWith E st (Assembly (c_id cs) (c_id cu) o p sls g) = Ok st' /\ merged E st cs cu L g st' cs' others rest R P.
  Proof.
    unfold MergeWith. cbn [a_split a_unsplit a_slices a_gain].
    destruct (merge_edges_ok E EV st W cs cu Gs Gu NE) as [st1 [E1 [[C1 M1] [K1 [O1 I1]]]]]. rewrite E1. cbn [obind].
    (* the chains of st1 *)
    assert (GET : forall x c, get_chain st x = Some c -> exists c1, get_chain st1 x = Some c1 /\ core_of c1 = push_core mp P (core_of c)).
    { intros x c Hx. apply get_In in Hx as [Hx Qx]. assert (X : In (push_core mp P (core_of c)) (core st1)) by (rewrite C1; apply in_map, in_map; exact Hx).
      unfold core in X. apply in_map_iff in X as [c1 [X1 X2]]. exists c1. split; [|exact X1].
      assert (c_id c1 = x) as <- by (unfold core_of, push_core in X1; injection X1 as X1 _ _ _ _ _; congruence).
      apply get_of_In; [|exact X2]. rewrite (core_push_ids _ _ _ _ C1). apply (w_ids _ _ _ W). }
    destruct (GET _ _ Gs) as [cs1 [Gs1 Cs1]]. destruct (GET _ _ Gu) as [cu1 [Gu1 Cu1]]. rewrite Gs1, Gu1.
    unfold core_of, push_core in Cs1, Cu1. injection Cs1 as S1 S2 S3 S4 S5 S6. injection Cu1 as U1 U2 U3 U4 U5 U6.
    assert (RB : ShouldRebundle E cs1 cu1 = ShouldRebundle E cs cu) by (unfold ShouldRebundle; rewrite S2, U2, S3, U3; unfold zlen; rewrite !map_length; reflexivity).
    rewrite RB, S1, S2, S4, S5, S6, U2, U4, U5, U6.
    assert (LB : zlen (c_bundles cs1) + zlen (c_bundles cu1) = zlen (c_bundles cs) + zlen (c_bundles cu)) by (rewrite S3, U3; unfold zlen; rewrite !map_length; reflexivity).
    rewrite LB.
    assert (AB : asm_bundles cs1 cu1 sls = map (push_b mp P) (asm_bundles cs cu sls)).
    { unfold asm_bundles. induction sls as [|s l IH]; [reflexivity|]. cbn [flat_map]. rewrite map_app, IH. f_equal.
      pose proof (map_sl_bundles (push_b mp P) cs cu s) as Q. cbv zeta in Q. rewrite <- Q. unfold sl_bundles, sl_chain. rewrite <- S3, <- U3. destruct (sl_split s); reflexivity. }
    rewrite AB. destruct (consume E (ShouldRebundle E cs cu) (c_id cs) (map (push_b mp P) (asm_bundles cs cu sls)) [] 0 0 (s_map st1)) as [R mp'] eqn:HC.
    pose proof (asm_bundles_perm cs cu o p V) as AP.
    assert (NLS : Permutation L (chain_nodes cs ++ chain_nodes cu)) by (exact (asm_perm (fun _ => None) cs cu o p V)).
    destruct (consume_ok _ _ _ _ _ _ _ _ _ _ HC) as [B1 [B2 [B3 [B4 [B5 [B6 [B7 [B8 [B9 [B10 B11]]]]]]]]]].
    { constructor. }
    { reflexivity. }
    { reflexivity. }
    { apply Forall_forall. intros b Hb. apply in_map_iff in Hb as [b0 [<- Hb0]]. apply (Permutation_in _ AP) in Hb0.
      assert (X : bundle_sane E b0); [|exact X]. apply in_app_iff in Hb0 as [Hb|Hb].
      - destruct (w_chain _ _ _ W cs HIs) as [X _]. apply bundles_ok_sane in X. rewrite Forall_forall in X. auto.
      - destruct (w_chain _ _ _ W cu HIu) as [X _]. apply bundles_ok_sane in X. rewrite Forall_forall in X. auto. }
    { cbn [app]. rewrite M1. intros b n Hb Hn. apply in_map_iff in Hb as [b0 [<- Hb0]]. apply (Permutation_in _ AP) in Hb0. apply (w_map _ _ _ W b0 n); [|exact Hn].
      apply in_app_iff in Hb0 as [Hb|Hb]; apply in_flat_map; eauto. }
    { cbn [app]. rewrite push_nodes. change (NoDup L). eapply Permutation_NoDup; [apply Permutation_sym, NLS|]. pose proof nodes_nd as X. apply NoDup_app_inv in X. tauto. }
    cbn [app] in *. rewrite M1 in *. change (zlen (@nil bundle)) with 0 in *. rewrite push_nodes in *. fold L in B2, B5.
    assert (LA : zlen (map (push_b mp P) (asm_bundles cs cu sls)) = zlen (c_bundles cs) + zlen (c_bundles cu)).
    { unfold zlen. rewrite map_length, (Permutation_length AP), app_length. lia. }
    rewrite LA in *.
    assert (ED : Permutation (flat_map b_edges R) (flat_map b_edges (c_bundles cs) ++ flat_map b_edges (c_bundles cu) ++ P)).
    { rewrite B3. eapply perm_trans; [apply Permutation_flat_map, Permutation_map; exact AP|].
      eapply perm_trans; [apply push_edges_perm; pose proof bids_nd as X; apply NoDup_app_inv in X; tauto|]. rewrite flat_map_app, <- app_assoc. do 2 apply Permutation_app_head.
      rewrite filter_all; [apply Permutation_refl|].
      intros e He. apply memz_In. destruct (P_src e He) as [b [Q1 [_ Q3]]]. rewrite Q3. apply in_map. exact Q1. }
    assert (MAPD : forall n, In n (chain_nodes cs ++ chain_nodes cu) -> mp' n <> None).
    { intros n Hn. apply (Permutation_in _ (Permutation_sym NLS)) in Hn. rewrite <- B2 in Hn. apply in_flat_map in Hn as [b [Q1 Q2]]. rewrite (B4 b n Q1 Q2). discriminate. }
    assert (RM : (if negb (zlen (c_bundles cs) + zlen (c_bundles cu) =? zlen R) then remove_intra_bundles E mp' R else Ok (R, 0)) =
      Ok (map (keep_apart mp') R, sumf (fun e => e_score E e (mdist E mp' e)) (filter (fun e => negb (apartm mp' e)) (flat_map b_edges R)))).
    { destruct (Z.eqb_spec (zlen (c_bundles cs) + zlen (c_bundles cu)) (zlen R)) as [Q|Q]; cbn [negb].
      - assert (SM : forall n, mp' n = mp n) by (apply B11; lia).
        assert (AL : forall e, In e (flat_map b_edges R) -> apartm mp' e = true).
        { intros e He. apply (Permutation_in _ ED) in He. apply edge_mapped in He as [_ He]. unfold apartm in *. rewrite !SM. exact He. }
        f_equal. f_equal.
        + rewrite <- (map_id R) at 1. apply map_ext_in. intros b Hb. unfold keep_apart.
          rewrite filter_all; [symmetry; apply set_edges_id|]. intros e He. apply AL. apply in_flat_map. eauto.
        + assert (filter (fun e => negb (apartm mp' e)) (flat_map b_edges R) = []) as ->; [|reflexivity].
          clear - AL. induction (flat_map b_edges R) as [|e l IH]; [reflexivity|]. cbn [filter]. rewrite AL by (left; reflexivity). apply IH. intros; apply AL; right; assumption.
      - apply remove_bundles_ok. intros e He. apply (Permutation_in _ ED) in He. apply edge_mapped in He as [[H1 H2] _]. auto. }
    rewrite RM. cbn [obind].
    set (others := filter (fun c => negb (c_id c =? c_id cs) && negb (c_id c =? c_id cu)) (s_chains st1)).
    assert (CO : map core_of others = map core_of rest).
    { assert (X : map core_of others = map (push_core mp P) (map core_of rest)).
      { unfold others. unfold core in C1. clear - C1. revert C1. generalize (s_chains st1) as l1. induction (s_chains st) as [|c l IH]; intros [|c1 l1] Q; try discriminate; [reflexivity|].
        cbn [map] in Q. pose proof (f_equal (@tl _) Q) as Q2. cbn [tl] in Q2. assert (Q1 : core_of c1 = push_core mp P (core_of c)) by (pose proof (f_equal (hd (core_of c1)) Q) as X; exact X). clear Q. rename Q2 into Q. assert (Qi : c_id c1 = c_id c) by (unfold core_of, push_core in Q1; injection Q1 as Q1 _ _ _ _ _; exact Q1).
        cbn [filter]. rewrite Qi. destruct (negb (c_id c =? c_id cs) && negb (c_id c =? c_id cu)); cbn [map]; rewrite (IH l1 Q); [|reflexivity]. f_equal. exact Q1. }
      rewrite X, map_map. apply map_ext_in. intros c Hc. unfold core_of, push_core. do 2 f_equal.
      rewrite <- (map_id (c_bundles c)) at 2. apply map_ext_in. intros b Hb. apply push_b_id. intros e He Q. destruct (P_src e He) as [b' [Q1 [_ Q3]]].
      pose proof bids_nd as ND. apply NoDup_app_inv in ND as [_ [_ D]]. apply (D (b_id b')); [apply in_map; exact Q1|]. rewrite <- Q3, Q. apply in_map. apply in_flat_map. eauto. }
    eexists _, _, others, R. split; [reflexivity|].
    set (cs' := Chain _ _ _ _ _ _ _ _).
    assert (GT' : forall x, get_chain (State (others ++ [cs']) mp') x = if x =? c_id cu then None else if x =? c_id cs then Some cs' else get_chain st1 x).
    { intros x. unfold get_chain. cbn [s_chains]. rewrite find_app. cbn [find]. change (c_id cs') with (c_id cs).
      destruct (Z.eqb_spec x (c_id cu)) as [->|Nu]; [|destruct (Z.eqb_spec x (c_id cs)) as [->|Ns]].
      - destruct (find (fun c => c_id c =? c_id cu) others) as [d|] eqn:F.
        + exfalso. apply find_some in F as [F1 F2]. unfold others in F1. apply filter_In in F1 as [_ F1]. rewrite F2 in F1. cbn [negb] in F1. rewrite andb_false_r in F1. discriminate.
        + replace (c_id cs =? c_id cu) with false by (symmetry; apply Z.eqb_neq; exact NE). reflexivity.
      - destruct (find (fun c => c_id c =? c_id cs) others) as [d|] eqn:F.
        + exfalso. apply find_some in F as [F1 F2]. unfold others in F1. apply filter_In in F1 as [_ F1]. rewrite F2 in F1. discriminate.
        + rewrite Z.eqb_refl. reflexivity.
      - unfold others. rewrite find_filter; [destruct (find (fun c => c_id c =? x) (s_chains st1)); [reflexivity|]; replace (c_id cs =? x) with false by (symmetry; apply Z.eqb_neq; congruence); reflexivity|].
        intros c Hc. apply Z.eqb_eq in Hc. rewrite Hc. apply andb_true_iff. split; apply negb_true_iff, Z.eqb_neq; assumption. }
    assert (OUT' : forall x y, out (State (others ++ [cs']) mp') x y = if x =? c_id cu then None else out st1 x y).
    { intros x y. unfold out. rewrite GT'. destruct (x =? c_id cu); [reflexivity|]. destruct (Z.eqb_spec x (c_id cs)) as [->|]; [|reflexivity]. rewrite Gs1. reflexivity. }
    assert (INN' : forall x y, inn (State (others ++ [cs']) mp') x y <-> if y =? c_id cu then False else inn st1 x y).
    { intros x y. unfold inn. rewrite GT'. destruct (y =? c_id cu); [reflexivity|]. destruct (Z.eqb_spec y (c_id cs)) as [->|]; [|reflexivity]. rewrite Gs1. reflexivity. }
    assert (OUT2 : forall x y, out (State (others ++ [cs']) mp') x y = if x =? c_id cu then None else if y =? c_id cu then None else
       if x =? c_id cs then if y =? c_id cs then None else appo (out st (c_id cs) y) (out st (c_id cu) y)
       else if y =? c_id cs then appo (out st x (c_id cs)) (out st x (c_id cu)) else out st x y).
    { intros x y. rewrite OUT'. destruct (Z.eqb_spec x (c_id cu)); [reflexivity|]. rewrite O1 by assumption. reflexivity. }
    constructor; cbn [s_chains s_map c_id c_bundles c_size c_freq c_score c_func cs']; auto.
    - apply restp.
    - rewrite map_map. reflexivity.
    - split; [apply B6|].
      + rewrite map_map. change (NoDup (map b_id (asm_bundles cs cu sls))). eapply Permutation_NoDup; [apply Permutation_map, Permutation_sym, AP|]. pose proof bids_nd as X. apply NoDup_app_inv in X. tauto.
      + intros x Hx. apply B7 in Hx. rewrite map_map in Hx. change (In x (map b_id (asm_bundles cs cu sls))) in Hx. eapply Permutation_in; [apply Permutation_map; exact AP|exact Hx].
    - intros b Hb. apply (Permutation_in _ (Permutation_sym AP)) in Hb. destruct (B8 (push_b mp P b)) as [b' [Q1 Q2]]; [apply in_map; exact Hb|]. eauto.
    - apply B9. intros b e Hb He. apply in_map_iff in Hb as [b0 [<- Hb]]. unfold push_b in He |- *. cbn [set_edges b_edges b_nodes] in *. apply (Permutation_in _ AP) in Hb.
      assert (HA : In b0 (all_bundles st)) by (apply in_app_iff in Hb as [Hb|Hb]; apply in_flat_map; eauto).
      apply in_app_iff in He as [He|He]; [apply (w_src _ _ _ W b0 e HA He)|]. apply filter_In in He as [He1 He2]. apply Z.eqb_eq in He2.
      destruct (P_src e He1) as [b2 [Q1 [Q2 Q3]]]. assert (HA2 : In b2 (all_bundles st)) by (apply in_app_iff in Q1 as [Q1|Q1]; apply in_flat_map; eauto).
      assert (b0 = b2) as -> by (eapply (NoDup_cons_In_neq b_id); [apply (w_bids _ _ _ W)|exact HA|exact HA2|congruence]). exact Q2.
    - intros x y. rewrite INN', OUT2. destruct (Z.eqb_spec y (c_id cu)) as [->|Ny].
      + split; [tauto|]. destruct (x =? c_id cu); congruence.
      + destruct (get_chain st y) as [cy|] eqn:Gy.
        * rewrite (I1 x y (ex_intro _ cy Gy) Ny). destruct (Z.eqb_spec x (c_id cu)) as [->|Nx]; [intuition|].
          destruct (Z.eqb_spec x (c_id cs)) as [->|Nxs].
          -- destruct (Z.eqb_spec y (c_id cs)) as [->|Nys]; [intuition|]. rewrite appo_some. intuition.
          -- destruct (Z.eqb_spec y (c_id cs)) as [->|Nys]; [rewrite appo_some|]; intuition.
        * assert (D : forall z, out st z y = None).
          { intros z. destruct (out st z y) eqn:Q; [|reflexivity]. exfalso. destruct (w_live _ _ _ W z y) as [d Hd]; congruence. }
          assert (D1 : get_chain st1 y = None).
          { destruct (get_chain st1 y) as [d|] eqn:Q; [|reflexivity]. exfalso. assert (X : live st1 y) by (exists d; exact Q).
            rewrite (chs_live st st1 P y (conj C1 M1)) in X. destruct X; congruence. }
          assert (Nys : y <> c_id cs) by congruence. unfold inn. rewrite D1, !D. cbn [appo].
          replace (y =? c_id cs) with false by (symmetry; apply Z.eqb_neq; exact Nys). destruct (x =? c_id cu), (x =? c_id cs); intuition.
    - intros c Hc. cbn [s_chains] in Hc. apply in_app_iff in Hc as [Hc|[<-|[]]].
      + apply K1. unfold others in Hc. apply filter_In in Hc. tauto.
      + apply (K1 cs1). apply (get_In _ _ _ Gs1).
  Qed.
End Merge.
