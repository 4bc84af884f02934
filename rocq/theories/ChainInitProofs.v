(** InitNodeChains establishes the chain invariant. *)
From Verif Require Import Base ISort ForcedModel ForcedSpec ForcedProofs ForcedProps ChainModel ChainSpec ChainAsmProofs ChainEdgeProofs ChainConsumeProofs ChainMergeProofs ChainMergeWfProofs ChainBuildModel ChainBuildSpec.

Lemma single_bundles_ok E cid ns : forall idx off, bundles_ok E cid idx off (single_bundles E ns cid idx off) /\ flat_map b_nodes (single_bundles E ns cid idx off) = ns.
Proof.
  induction ns as [|n ns IH]; intros idx off; cbn [single_bundles]; [split; [constructor|reflexivity]|].
  destruct (IH (idx + 1) (off + e_size E n)) as [A B]. split.
  - constructor; try reflexivity; [discriminate|]. unfold new_bundle; cbn [b_size map]. unfold sumz; cbn [fold_right].
    replace (e_size E n + 0) with (e_size E n) by lia. exact A.
  - cbn [flat_map]. rewrite B. reflexivity.
Qed.
Lemma single_bundles_shape E cid ns b : forall idx off, In b (single_bundles E ns cid idx off) -> b_edges b = [] /\ In (b_id b) (b_nodes b).
Proof.
  induction ns as [|n ns IH]; intros idx off; cbn [single_bundles]; [intros []|]. intros [<-|H]; [|eapply IH; exact H].
  split; [reflexivity|left; reflexivity].
Qed.
Lemma hd_In (l : list Z) : l <> [] -> In (hd 0 l) l.
Proof. destruct l; [congruence|left; reflexivity]. Qed.
Lemma new_chain_nodes E ns t : ns <> [] -> chain_nodes (new_chain E ns t) = ns.
Proof.
  intros N. unfold chain_nodes, new_chain; cbn [c_bundles]. destruct t; [cbn [flat_map new_bundle b_nodes]; apply app_nil_r|]. apply single_bundles_ok.
Qed.
Lemma new_chain_ok E ns t : ns <> [] -> chain_ok E (new_chain E ns t).
Proof.
  intros N. unfold chain_ok. rewrite new_chain_nodes by exact N. split; [|split; [|split; reflexivity]].
  - unfold new_chain; cbn [c_id c_bundles]. destruct t; [|apply single_bundles_ok]. constructor; try reflexivity; [exact N|constructor].
  - unfold new_chain; cbn [c_bundles]. destruct t; [discriminate|]. destruct ns; [congruence|discriminate].
Qed.
Lemma new_chain_shape E ns t b : ns <> [] -> In b (c_bundles (new_chain E ns t)) -> b_edges b = [] /\ In (b_id b) (b_nodes b).
Proof.
  intros N. unfold new_chain; cbn [c_bundles]. destruct t; [|apply single_bundles_shape]. intros [<-|[]]. split; [reflexivity|]. apply hd_In. exact N.
Qed.
Lemma NoDup_reps {A} (f : A -> list Z) (g : A -> Z) l : NoDup (flat_map f l) -> (forall x, In x l -> In (g x) (f x)) -> NoDup (map g l).
Proof.
  induction l as [|x l IH]; intros ND H; cbn [map flat_map] in *; [constructor|]. apply NoDup_app_inv in ND as [_ [N2 D]]. constructor.
  - intros Q. apply in_map_iff in Q as [y [Q Hy]]. apply (D (g x)); [apply H; left; reflexivity|]. rewrite <- Q. apply in_flat_map. exists y.
    split; [exact Hy|apply H; right; exact Hy].
  - apply IH; [exact N2|]. intros; apply H; right; assumption.
Qed.
Lemma all_nodes_bundles st : all_nodes st = flat_map b_nodes (all_bundles st).
Proof. unfold all_nodes, all_bundles, chain_nodes. induction (s_chains st) as [|c l IH]; [reflexivity|]. cbn [flat_map]. rewrite flat_map_app, IH. reflexivity. Qed.

(** The state while the chains are being added; [Q] holds of the lists added. *)
Record fresh (E : env) (Q : list Z -> bool -> Prop) (st : state) : Prop := Fresh {
  fr_ch : forall c, In c (s_chains st) -> exists ns t, ns <> [] /\ Q ns t /\ c = new_chain E ns t;
  fr_nd : NoDup (all_nodes st);
  fr_map : mapok E (s_map st) (all_bundles st);
  fr_none : forall n, ~ In n (all_nodes st) -> s_map st n = None }.

Lemma fresh_shape E Q st b : fresh E Q st -> In b (all_bundles st) -> b_edges b = [] /\ In (b_id b) (b_nodes b).
Proof.
  intros F H. apply in_flat_map in H as [c [Hc Hb]]. destruct (fr_ch _ _ _ F c Hc) as [ns [t [N [_ ->]]]]. eapply new_chain_shape; eassumption.
Qed.
Lemma fresh_ids E Q st c : fresh E Q st -> In c (s_chains st) -> In (c_id c) (chain_nodes c).
Proof. intros F Hc. destruct (fr_ch _ _ _ F c Hc) as [ns [t [N [_ ->]]]]. rewrite new_chain_nodes by exact N. apply hd_In. exact N. Qed.
Lemma filter_nil {A} (p : A -> bool) : filter p [] = []. Proof. reflexivity. Qed.
Theorem fresh_wf E Q st : fresh E Q st -> wf E [] st.
Proof.
  intros F.
  assert (OUT : forall x y, out st x y = None).
  { intros x y. unfold out. destruct (get_chain st x) as [c|] eqn:G; [|reflexivity]. apply get_In in G as [G _].
    destruct (fr_ch _ _ _ F c G) as [ns [t [N [_ ->]]]]. reflexivity. }
  assert (OUTS : forall c d, In c (s_chains st) -> outs c d = []).
  { intros c d Hc. destruct (fr_ch _ _ _ F c Hc) as [ns [t [N [_ ->]]]]. reflexivity. }
  constructor.
  - apply (NoDup_reps chain_nodes); [apply (fr_nd _ _ _ F)|]. intros c Hc. apply (fresh_ids E Q st c F Hc).
  - apply (fr_nd _ _ _ F).
  - apply (NoDup_reps b_nodes); [rewrite <- all_nodes_bundles; apply (fr_nd _ _ _ F)|]. intros b Hb. apply (fresh_shape E Q st b F Hb).
  - intros c Hc. destruct (fr_ch _ _ _ F c Hc) as [ns [t [N [_ ->]]]]. apply new_chain_ok. exact N.
  - apply (fr_map _ _ _ F).
  - intros c d Hc _ _. rewrite OUTS by exact Hc. constructor.
  - intros x. apply OUT.
  - intros c Hc. destruct (fr_ch _ _ _ F c Hc) as [ns [t [N [_ ->]]]]. split; constructor.
  - intros x y H. rewrite OUT in H. congruence.
  - intros x y. rewrite OUT. split; [|congruence]. unfold inn. destruct (get_chain st y) as [c|] eqn:G; [|intros []]. apply get_In in G as [G _].
    destruct (fr_ch _ _ _ F c G) as [ns [t [N [_ ->]]]]. intros [].
  - intros c Hc. rewrite filter_nil. assert (X : flat_map b_edges (c_bundles c) = []); [|rewrite X; constructor].
    assert (Y : forall b, In b (c_bundles c) -> b_edges b = []) by (intros b Hb; apply (fresh_shape E Q st b F); apply in_flat_map; eauto).
    clear - Y. induction (c_bundles c) as [|b bs IH]; [reflexivity|]. cbn [flat_map]. rewrite (Y b) by (left; reflexivity). apply IH. intros; apply Y; right; assumption.
  - intros b e Hb He. destruct (fresh_shape E Q st b F Hb) as [X _]. rewrite X in He. destruct He.
Qed.

(** * Adding chains *)
Lemma place_nodes_ok E bid ns : forall off mp, NoDup ns -> (forall n, In n ns -> mp n = None) ->
  exists mp', place_nodes E bid ns off mp = Ok mp' /\ (forall n, In n ns -> mp' n = Some (bid, off + pos (e_size E) ns n)) /\
    (forall n, ~ In n ns -> mp' n = mp n).
Proof.
  induction ns as [|m ns IH]; intros off mp ND H; cbn [place_nodes].
  - exists mp. split; [reflexivity|]. split; [intros n []|reflexivity].
  - inversion ND as [|? ? Hn ND']; subst. rewrite (H m (or_introl eq_refl)).
    destruct (IH (off + e_size E m) (fun x => if x =? m then Some (bid, off) else mp x) ND') as [mp' [A [B C]]].
    { intros n Hn'. destruct (Z.eqb_spec n m) as [Qn|Qn]; [subst; contradiction|]. apply H. right. exact Hn'. }
    exists mp'. split; [exact A|]. split.
    + intros n [<-|Hn']; cbn [pos].
      * rewrite C by exact Hn. rewrite !Z.eqb_refl. f_equal. f_equal. lia.
      * rewrite B by exact Hn'. destruct (Z.eqb_spec m n) as [Qn|Qn]; [subst; contradiction|]. f_equal. f_equal. lia.
    + intros n Hn'. rewrite C by (intros X; apply Hn'; right; exact X). destruct (Z.eqb_spec n m) as [Qn|Qn]; [exfalso; apply Hn'; left; auto|reflexivity].
Qed.
Lemma place_bundles_ok E bs : forall mp, NoDup (flat_map b_nodes bs) -> (forall n, In n (flat_map b_nodes bs) -> mp n = None) ->
  exists mp', place_bundles E bs mp = Ok mp' /\ mapok E mp' bs /\ (forall n, ~ In n (flat_map b_nodes bs) -> mp' n = mp n).
Proof.
  induction bs as [|b bs IH]; intros mp ND H; cbn [place_bundles flat_map] in *.
  - exists mp. split; [reflexivity|]. split; [intros b n []|reflexivity].
  - apply NoDup_app_inv in ND as [N1 [N2 D]].
    destruct (place_nodes_ok E (b_id b) (b_nodes b) 0 mp N1) as [mp1 [A1 [B1 C1]]]; [intros n Hn; apply H, in_app_iff; left; exact Hn|].
    rewrite A1. cbn [obind]. destruct (IH mp1 N2) as [mp2 [A2 [B2 C2]]].
    { intros n Hn. rewrite C1 by (intros X; exact (D n X Hn)). apply H, in_app_iff. right. exact Hn. }
    exists mp2. split; [exact A2|]. split.
    + intros b' n [<-|Hb] Hn; [|apply B2; assumption]. rewrite C2 by (apply D; exact Hn). rewrite B1 by exact Hn. reflexivity.
    + intros n Hn. rewrite C2, C1; [reflexivity| |]; intros X; apply Hn, in_app_iff; auto.
Qed.
Lemma mapok_app E mp bs1 bs2 : mapok E mp bs1 -> mapok E mp bs2 -> mapok E mp (bs1 ++ bs2).
Proof. intros A B b n Hb Hn. apply in_app_iff in Hb as [Hb|Hb]; [apply A|apply B]; assumption. Qed.
Lemma add_ok E Q st ns t : fresh E Q st -> NoDup ns -> (forall n, In n ns -> ~ In n (all_nodes st)) -> (ns <> [] -> Q ns t) ->
  exists st', AddNewChain E st ns t = Ok st' /\ fresh E Q st' /\ all_nodes st' = all_nodes st ++ ns.
Proof.
  intros F ND D HQ. destruct ns as [|m ns0] eqn:EN.
  { exists st. split; [reflexivity|]. split; [exact F|]. rewrite app_nil_r. reflexivity. }
  rewrite <- EN in *. assert (N : ns <> []) by (rewrite EN; discriminate). specialize (HQ N).
  assert (CN := new_chain_nodes E ns t N).
  assert (QA : AddNewChain E st ns t = (let! mp := place_bundles E (c_bundles (new_chain E ns t)) (s_map st) in
      if existsb (fun d => c_id d =? c_id (new_chain E ns t)) (s_chains st) then Abort else Ok (State (s_chains st ++ [new_chain E ns t]) mp))) by (rewrite EN; reflexivity).
  rewrite QA. clear QA. unfold chain_nodes in CN. set (c := new_chain E ns t) in *.
  destruct (place_bundles_ok E (c_bundles c) (s_map st)) as [mp [A [B C]]].
  { rewrite CN. exact ND. } { rewrite CN. intros n Hn. apply (fr_none _ _ _ F). apply D. exact Hn. }
  rewrite A. cbn [obind]. rewrite CN in C.
  assert (X : existsb (fun d => c_id d =? c_id c) (s_chains st) = false).
  { destruct (existsb _ _) eqn:X; [|reflexivity]. exfalso. apply existsb_exists in X as [d [Hd X]]. apply Z.eqb_eq in X.
    apply (D (c_id c)); [unfold c; cbn [c_id new_chain]; apply hd_In; exact N|]. apply in_flat_map. exists d. split; [exact Hd|]. rewrite <- X. apply (fresh_ids E Q st d F Hd). }
  rewrite X. eexists. split; [reflexivity|].
  assert (AN : all_nodes (State (s_chains st ++ [c]) mp) = all_nodes st ++ ns).
  { unfold all_nodes. cbn [s_chains]. rewrite flat_map_app. cbn [flat_map]. unfold chain_nodes at 2. rewrite CN, app_nil_r. reflexivity. }
  split; [|exact AN]. constructor.
  - intros d Hd. cbn [s_chains] in Hd. apply in_app_iff in Hd as [Hd|[<-|[]]]; [apply (fr_ch _ _ _ F d Hd)|]. exists ns, t. split; [exact N|]. split; [exact HQ|reflexivity].
  - rewrite AN. apply NoDup_app_intro; [apply (fr_nd _ _ _ F)|exact ND|]. intros x Hx Hn. exact (D x Hn Hx).
  - unfold all_bundles. cbn [s_chains s_map]. rewrite flat_map_app. cbn [flat_map]. rewrite app_nil_r. apply mapok_app; [|exact B].
    intros b n Hb Hn. rewrite C; [apply (fr_map _ _ _ F); assumption|]. intros Y. apply (D n Y). rewrite all_nodes_bundles. apply in_flat_map. exists b. auto.
  - intros n Hn. rewrite AN in Hn. cbn [s_map]. rewrite C by (intros Y; apply Hn, in_app_iff; auto). apply (fr_none _ _ _ F). intros Y; apply Hn, in_app_iff; auto.
Qed.
Lemma add_all_ok E Q t l : forall st, fresh E Q st -> NoDup (concat l) -> (forall n, In n (concat l) -> ~ In n (all_nodes st)) -> (forall ns, In ns l -> ns <> [] -> Q ns t) ->
  exists st', add_all E st l t = Ok st' /\ fresh E Q st' /\ all_nodes st' = all_nodes st ++ concat l.
Proof.
  induction l as [|ns l IH]; intros st F ND D HQ; cbn [add_all concat] in *.
  - exists st. rewrite app_nil_r. auto.
  - apply NoDup_app_inv in ND as [N1 [N2 D2]]. destruct (add_ok E Q st ns t F N1) as [st1 [A1 [F1 L1]]].
    { intros n Hn. apply D, in_app_iff. left. exact Hn. } { apply HQ. left. reflexivity. }
    rewrite A1. cbn [obind]. destruct (IH st1 F1 N2) as [st2 [A2 [F2 L2]]].
    { intros n Hn. rewrite L1. intros X. apply in_app_iff in X as [X|X]; [apply (D n); [apply in_app_iff; auto|exact X]|exact (D2 n X Hn)]. }
    { intros ms Hm. apply HQ. right. exact Hm. }
    exists st2. split; [exact A2|]. split; [exact F2|]. rewrite L2, L1, app_assoc. reflexivity.
Qed.
Lemma add_singles_ok E Q ns : forall st, fresh E Q st -> NoDup ns -> (forall n, In n ns -> Q [n] false) ->
  exists st', add_singles E st ns = Ok st' /\ fresh E Q st' /\ all_nodes st' = all_nodes st ++ filter (fun n => negb (memz n (all_nodes st))) ns.
Proof.
  induction ns as [|n ns IH]; intros st F ND HQ; cbn [add_singles filter].
  - exists st. rewrite app_nil_r. auto.
  - inversion ND as [|? ? Hn ND']; subst. destruct (memz n (all_nodes st)) eqn:M; cbn [negb].
    + assert (X : s_map st n <> None).
      { apply memz_In in M. rewrite all_nodes_bundles in M. apply in_flat_map in M as [b [Hb M]]. rewrite (fr_map _ _ _ F b n Hb M). discriminate. }
      destruct (s_map st n); [|congruence]. apply IH; auto. intros; apply HQ; right; assumption.
    + apply memz_false in M. rewrite (fr_none _ _ _ F n M). destruct (add_ok E Q st [n] false F) as [st1 [A1 [F1 L1]]].
      { constructor; [intros []|constructor]. } { intros x [<-|[]]. exact M. } { intros _. apply HQ. left. reflexivity. }
      rewrite A1. cbn [obind]. destruct (IH st1 F1 ND') as [st2 [A2 [F2 L2]]]; [intros; apply HQ; right; assumption|].
      exists st2. split; [exact A2|]. split; [exact F2|]. rewrite L2, L1, <- app_assoc. f_equal. cbn [app]. f_equal.
      apply filter_ext_in. intros x Hx. rewrite memz_app. cbn [memz existsb]. unfold memz at 2. cbn [existsb]. destruct (Z.eqb_spec x n) as [Qx|Qx]; [subst; contradiction|].
      rewrite orb_false_r. reflexivity.
Qed.

(** * One control flow graph *)
Lemma maxz_ge x l : In x l -> x <= maxz l.
Proof. induction l as [|y l IH]; [intros []|]. intros [->|H]; unfold maxz; cbn [fold_right]; [lia|]. specialize (IH H). unfold maxz in IH. lia. Qed.
Lemma sumz_ge x l : (forall y, In y l -> 0 <= y) -> In x l -> x <= sumz l.
Proof.
  induction l as [|y l IH]; intros P; [intros []|]. intros H.
  assert (G : 0 <= sumz l).
  { clear - P. induction l as [|z l IH]; [unfold sumz; cbn; lia|]. cbn [sumz fold_right]. assert (0 <= z) by (apply P; right; left; reflexivity).
    assert (0 <= sumz l) by (apply IH; intros w [->|Hw]; apply P; [left; reflexivity|right; right; exact Hw]). unfold sumz in *. lia. }
  assert (Py := P y (or_introl eq_refl)). destruct H as [->|H].
  - unfold sumz in *. cbn [fold_right]. lia.
  - assert (IH' := IH (fun z Hz => P z (or_intror Hz)) H). unfold sumz in *. cbn [fold_right]. lia.
Qed.
Section Cfg.
  Context (P : prog).
  Context (HO : forall n e, In e (p_outs P n) -> ce_src e = n /\ 0 <= ce_weight e /\ In e (p_ins P (ce_sink e))).
  Context (HI : forall n e, In e (p_ins P n) -> ce_sink e = n /\ 0 <= ce_weight e /\ In e (p_outs P (ce_src e))).
  Lemma freq_out n e : In e (p_outs P n) -> ce_weight e <> 0 -> frequency P n <> 0.
  Proof.
    intros He W. destruct (HO n e He) as [_ [W0 _]]. unfold frequency. destruct (is_call e) eqn:C.
    - assert (ce_weight e <= maxz (map ce_weight (filter is_call (p_outs P n)))) by (apply maxz_ge, in_map, filter_In; auto). lia.
    - assert (ce_weight e <= sumz (map ce_weight (filter (fun e => negb (is_call e)) (p_outs P n)))).
      { apply sumz_ge; [|apply in_map, filter_In; rewrite C; auto]. intros y Hy. apply in_map_iff in Hy as [e' [<- He']]. apply filter_In in He' as [He' _]. apply (HO n e' He'). }
      lia.
  Qed.
  Lemma freq_in n e : In e (p_ins P n) -> ce_weight e <> 0 -> frequency P n <> 0.
  Proof.
    intros He W. destruct (HI n e He) as [_ [W0 _]]. unfold frequency. destruct (is_return e) eqn:C.
    - assert (ce_weight e <= maxz (map ce_weight (filter is_return (p_ins P n)))) by (apply maxz_ge, in_map, filter_In; auto). lia.
    - assert (ce_weight e <= sumz (map ce_weight (filter (fun e => negb (is_return e)) (p_ins P n)))).
      { apply sumz_ge; [|apply in_map, filter_In; rewrite C; auto]. intros y Hy. apply in_map_iff in Hy as [e' [<- He']]. apply filter_In in He' as [He' _]. apply (HI n e' He'). }
      lia.
  Qed.
  Lemma hot_of_freq g n : frequency P n <> 0 -> hot_node P g n = true.
  Proof. intros H. unfold hot_node. destruct (Z.eqb_spec (frequency P n) 0); [congruence|]. reflexivity. Qed.
  Lemma is_hot_of g n : In n (g_nodes g) -> frequency P n <> 0 -> is_hot P g = true.
  Proof.
    intros Hn HF. unfold is_hot. apply existsb_exists. exists n. split; [exact Hn|]. destruct (p_outs P n) as [|] eqn:A, (p_ins P n) as [|] eqn:B; try reflexivity.
    exfalso. apply HF. unfold frequency. rewrite A, B. reflexivity.
  Qed.

  Context (g : bcfg) (ND : NoDup (g_nodes g)) (IO : initial_ok P g).
  Context (HG : forall e, In e (g_intra g) -> In (ce_src e) (g_nodes g) /\ In (ce_sink e) (g_nodes g) /\ In e (p_outs P (ce_src e))).

  Lemma path_nodes ps p n : GetForcedPaths (Fcfg (g_intra g) (g_bb g)) = Ok ps -> In p ps -> In n p -> In n (g_nodes g) /\ hot_node P g n = true.
  Proof.
    intros HP Hp Hn. destruct (C26_paths (Fcfg (g_intra g) (g_bb g))) as [ps' [Q [A _]]]. rewrite HP in Q. injection Q as <-. destruct (A p Hp) as [L AD].
    assert (X : exists a b, adjacent p a b /\ (n = a \/ n = b)).
    { apply in_split in Hn as [l1 [l2 ->]]. destruct l2 as [|b l2].
      - destruct l1 as [|y l1] using rev_ind; [cbn in L; lia|]. exists y, n. split; [|auto]. exists l1, []. rewrite <- app_assoc. reflexivity.
      - exists n, b. split; [|auto]. exists l1, l2. reflexivity. }
    destruct X as [a [b [X XN]]]. apply AD in X as [es1 [e [es2 [QE [[W _] [QS [QK _]]]]]]]. cbn [fc_edges] in QE.
    assert (He : In e (g_intra g)) by (rewrite QE; apply in_app_iff; right; left; reflexivity).
    destruct (HG e He) as [I1 [I2 I3]]. rewrite QS in *. rewrite QK in *. destruct XN as [-> | ->].
    - split; [exact I1|]. apply hot_of_freq. eapply freq_out; eassumption.
    - split; [exact I2|]. apply hot_of_freq. destruct (HO _ _ I3) as [_ [_ I4]]. rewrite QK in I4. eapply freq_in; eassumption.
  Qed.

  Context (ncfgs : Z) (inner : bcfg -> outcome (list (list Z))) (Q : list Z -> bool -> Prop).
  Local Notation E := (env_of P ncfgs).
  Context (HIN : coalesced_first P ncfgs g = true -> is_hot P g = true -> exists chains, inner g = Ok chains /\ Permutation (concat chains) (laid_out P g) /\
             forall ns, In ns chains -> ns <> [] -> Q ns true).
  Context (Qcold : Q (filter (fun n => negb (hot_node P g n)) (g_nodes g)) true)
          (Qhot : p_reorder P = false -> Q (filter (hot_node P g) (g_nodes g)) true)
          (Qinit : p_reorder P = true -> forall ns, In ns (g_init g) -> ns <> [] -> Q ns false)
          (Qpath : p_reorder P = true -> g_init g = [] -> forall ps ns, GetForcedPaths (Fcfg (g_intra g) (g_bb g)) = Ok ps -> In ns ps -> Q ns true)
          (Qone : forall n, Q [n] false).

  Lemma hot_cold_perm : Permutation (filter (fun n => negb (hot_node P g n)) (g_nodes g) ++ filter (hot_node P g) (g_nodes g)) (g_nodes g).
  Proof.
    rewrite <- (filter_all (fun _ => true) (g_nodes g)) at 3 by reflexivity. apply filter_or_perm; intros x _; destruct (hot_node P g x); reflexivity.
  Qed.
  Lemma chains_then_singles l hot : NoDup l -> NoDup hot -> incl l hot -> Permutation (l ++ filter (fun n => negb (memz n l)) hot) hot.
  Proof.
    intros N1 N2 I. apply NoDup_Permutation; [|exact N2|].
    - apply NoDup_app_intro; [exact N1|apply NoDup_filter; exact N2|]. intros x Hx H. apply filter_In in H as [_ H]. apply memz_In in Hx. rewrite Hx in H. discriminate.
    - intros x. rewrite in_app_iff, filter_In. split; [intros [H|[H _]]; [apply I|]; exact H|]. intros H. destruct (memz x l) eqn:M; [left; apply memz_In; exact M|right]. auto.
  Qed.
  Lemma init_cfg_ok st : fresh E Q st -> (forall n, In n (g_nodes g) -> ~ In n (all_nodes st)) ->
    exists st', init_cfg P ncfgs inner st g = Ok st' /\ fresh E Q st' /\ Permutation (all_nodes st') (all_nodes st ++ laid_out P g).
  Proof.
    intros F D. unfold init_cfg. unfold laid_out in *. destruct (is_hot P g) eqn:HH; cbn [negb].
    2:{ exists st. rewrite app_nil_r. auto. }
    set (hot := filter (hot_node P g) (g_nodes g)) in *. set (cold := filter (fun n => negb (hot_node P g n)) (g_nodes g)) in *.
    assert (Nh : NoDup hot) by (apply NoDup_filter; exact ND). assert (Nc : NoDup cold) by (apply NoDup_filter; exact ND).
    destruct (coalesced_first P ncfgs g) eqn:CF.
    { destruct (HIN eq_refl eq_refl) as [chains [-> [PC QC]]]. cbn [obind].
      assert (NL : NoDup (concat chains)).
      { eapply Permutation_NoDup; [apply Permutation_sym, PC|]. destruct (p_split_functions P); assumption. }
      assert (IL : incl (concat chains) (g_nodes g)).
      { intros x Hx. apply (Permutation_in _ PC) in Hx. destruct (p_split_functions P); [apply filter_In in Hx; tauto|exact Hx]. }
      destruct (add_all_ok E Q true chains st F NL) as [st' [A [F' L']]]; [intros n Hn; apply D, IL; exact Hn|exact QC|].
      exists st'. split; [exact A|]. split; [exact F'|]. rewrite L'. apply Permutation_app_head. exact PC. }
    assert (S1 : exists st1, (if p_split_functions P then Ok st else AddNewChain E st cold true) = Ok st1 /\ fresh E Q st1 /\
              all_nodes st1 = all_nodes st ++ (if p_split_functions P then [] else cold)).
    { destruct (p_split_functions P); [exists st; rewrite app_nil_r; auto|]. apply add_ok; [exact F|exact Nc| |intros _; exact Qcold].
      intros n Hn. apply filter_In in Hn as [Hn _]. apply D. exact Hn. }
    destruct S1 as [st1 [A1 [F1 L1]]]. rewrite A1. cbn [obind].
    assert (D1 : forall n, In n hot -> ~ In n (all_nodes st1)).
    { intros n Hn X. rewrite L1 in X. apply filter_In in Hn as [Hn HN]. apply in_app_iff in X as [X|X]; [exact (D n Hn X)|].
      destruct (p_split_functions P); [destruct X|]. apply filter_In in X as [_ X]. rewrite HN in X. discriminate. }
    assert (FIN : forall st', fresh E Q st' -> Permutation (all_nodes st') (all_nodes st1 ++ hot) ->
              Permutation (all_nodes st') (all_nodes st ++ (if p_split_functions P then hot else g_nodes g))).
    { intros st' F' PP. eapply perm_trans; [exact PP|]. rewrite L1, <- app_assoc. apply Permutation_app_head. destruct (p_split_functions P); [apply Permutation_refl|]. apply hot_cold_perm. }
    destruct (p_reorder P) eqn:RO; cbn [negb].
    - assert (S2 : exists st2 l, match g_init g with
                  | [] => let! paths := GetForcedPaths (Fcfg (g_intra g) (g_bb g)) in add_all E st1 paths true
                  | chains => add_all E st1 chains false
                  end = Ok st2 /\ fresh E Q st2 /\ all_nodes st2 = all_nodes st1 ++ l /\ NoDup l /\ incl l hot).
      { destruct IO as [I1 [I2 I3]]. destruct (g_init g) as [|c0 cs0] eqn:GI.
        - destruct (C26_paths (Fcfg (g_intra g) (g_bb g))) as [ps [PQ [_ [PN _]]]]. rewrite PQ. cbn [obind].
          assert (IL : incl (concat ps) hot).
          { intros x Hx. apply in_concat in Hx as [p [Hp Hx]]. destruct (path_nodes ps p x PQ Hp Hx) as [X1 X2]. apply filter_In. auto. }
          destruct (add_all_ok E Q true ps st1 F1 PN) as [st2 [A2 [F2 L2]]]; [intros n Hn; apply D1, IL; exact Hn|intros ns Hns _; exact (Qpath eq_refl eq_refl ps ns PQ Hns)|].
          exists st2, (concat ps). auto.
        - rewrite <- GI in *. assert (IL : incl (concat (g_init g)) hot) by (intros x Hx; apply filter_In; apply I2; exact Hx).
          destruct (add_all_ok E Q false (g_init g) st1 F1 I1) as [st2 [A2 [F2 L2]]]; [intros n Hn; apply D1, IL; exact Hn|intros ns Hns; apply Qinit; auto|].
          exists st2, (concat (g_init g)). auto. }
      destruct S2 as [st2 [l [A2 [F2 [L2 [NL IL]]]]]]. rewrite A2. cbn [obind].
      destruct (add_singles_ok E Q hot st2 F2 Nh) as [st3 [A3 [F3 L3]]]; [intros n _; apply Qone|]. exists st3. split; [exact A3|]. split; [exact F3|]. apply FIN; [exact F3|].
      rewrite L3, L2, <- app_assoc. apply Permutation_app_head.
      assert (X : filter (fun n => negb (memz n (all_nodes st1 ++ l))) hot = filter (fun n => negb (memz n l)) hot).
      { apply filter_ext_in. intros x Hx. rewrite memz_app. apply D1 in Hx. apply memz_false in Hx. rewrite Hx. reflexivity. }
      rewrite X. apply chains_then_singles; assumption.
    - destruct IO as [_ [_ I3]]. specialize (I3 RO HH). fold hot in I3. destruct (add_ok E Q st1 hot true F1 Nh D1) as [st2 [A2 [F2 L2]]]; [auto|].
      exists st2. split; [destruct hot; [congruence|exact A2]|]. split; [exact F2|]. apply FIN; [exact F2|]. rewrite L2. apply Permutation_refl.
  Qed.
End Cfg.
