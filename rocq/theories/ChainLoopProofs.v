(** The builder's merges. *)
From Verif Require Import Base ISort ForcedModel ChainModel ChainSpec ChainAsmProofs ChainEdgeProofs ChainConsumeProofs ChainMergeProofs ChainMergeWfProofs ChainStepProofs ChainScoreProofs ChainBuildModel ChainBuildSpec ChainEdgeInitProofs ChainQueueProofs ChainQueueInvProofs.

Definition layouts (st : state) : list (list Z) := map chain_nodes (s_chains st).
Definition closed (E : env) (N : list Z) : Prop :=
  (forall n e, In n N -> In e (e_outs E n) -> e_visit E e = true -> In (ce_sink e) N) /\
  (forall n e, In n N -> In e (e_ins E n) -> e_visit E e = true -> In (ce_src e) N).
(** The state of the builder between merges. *)
Record binv (E : env) (EV : list cedge) (srt : Prop) (N : list Z) (st : state) (q : queue) : Prop := Binv {
  bi_wf : wf E EV st;
  bi_srt : srt -> sorted st /\ scored E st;
  bi_q : qinv E EV srt (fun _ _ => False) st q;
  bi_nodes : Permutation (all_nodes st) N }.
Lemma sw_hd entry l : l <> [] -> starts_with_entry entry l = entry (hd 0 l).
Proof. destruct l; [congruence|reflexivity]. Qed.
Lemma chain_nodes_nonempty E c : chain_ok E c -> chain_nodes c <> [].
Proof. intros O N. pose proof (first_node_In E c O) as X. rewrite N in X. destruct X. Qed.
Lemma closed_at E N st : closed E N -> Permutation (all_nodes st) N ->
  (forall n e, In n (all_nodes st) -> In e (e_outs E n) -> e_visit E e = true -> In (ce_sink e) (all_nodes st)) /\
  (forall n e, In n (all_nodes st) -> In e (e_ins E n) -> e_visit E e = true -> In (ce_src e) (all_nodes st)).
Proof.
  intros [A B] P. split; intros n e Hn He HV; apply (Permutation_in _ (Permutation_sym P)); apply (Permutation_in _ P) in Hn; eauto.
Qed.

Section Loop.
  Context (P : prog) (OP : forall l, Permutation (p_ord P l) l) (E : env) (EV : list cedge) (SZ : forall n, 0 <= e_size E n)
          (srt : Prop) (N : list Z) (CL : closed E N).
  Theorem merge_chains_ok st q a : binv E EV srt N st q -> asm_ok E EV srt st (a_split a) (a_unsplit a) a ->
    exists st' q', MergeChains P E st q a = Ok (st', q') /\ binv E EV srt N st' q' /\
      merge_step (e_ifr E) (e_entry E) (layouts st) (layouts st') /\ length (s_chains st) = S (length (s_chains st')) /\
      (forall i, In i (map c_id (s_chains st')) <-> In i (map c_id (s_chains st)) /\ i <> a_unsplit a) /\
      (forall cs cu, get_chain st (a_split a) = Some cs -> get_chain st (a_unsplit a) = Some cu -> exists c, get_chain st' (a_split a) = Some c /\ chain_nodes c = asm_nodes cs cu (a_slices a)) /\
      (forall i c, i <> a_split a -> get_chain st' i = Some c -> exists d, get_chain st i = Some d /\ chain_nodes d = chain_nodes c).
  Proof.
    intros [W SR Q NP] [cs [cu [Gs [Gu [NE F]]]]]. destruct F as [FV FS FU FL FN FE FY].
    destruct a as [xs xu o p sls g]. cbn [a_split a_unsplit a_order a_pos a_slices a_gain] in *. subst xs xu sls.
    unfold MergeChains. cbn [a_split a_unsplit a_order a_pos a_slices a_gain]. destruct (Z.ltb_spec g 0) as [|_]; [lia|]. rewrite Gu.
    destruct (merge_with_ok E EV st W cs cu Gs Gu NE o p FV g) as [st' [cs' [others [R [QM M]]]]]. rewrite QM. cbn [obind].
    set (L := asm_nodes cs cu (ConstructSlices cs cu o p)) in *. set (rest := filter (fun c => negb (c_id c =? c_id cs) && negb (c_id c =? c_id cu)) (s_chains st)) in *.
    destruct (get_In _ _ _ Gs) as [Hs _]. destruct (get_In _ _ _ Gu) as [Hu _].
    pose proof (step_wf E EV st W cs cu Gs Gu NE _ _ _ _ _ _ _ M) as W'.
    pose proof (g_chains _ _ _ _ _ _ _ _ _ _ _ _ M) as CH. pose proof (g_id _ _ _ _ _ _ _ _ _ _ _ _ M) as GI.
    destruct (others_nodes _ _ _ _ _ _ _ _ _ _ _ M) as [ON [_ OI]]. pose proof (new_nodes _ _ _ _ _ _ _ _ _ _ _ M) as NN.
    assert (HN' : In cs' (s_chains st')) by (rewrite CH; apply in_app_iff; right; left; reflexivity).
    assert (G' : get_chain st' (c_id cs) = Some cs') by (rewrite <- GI; apply get_of_In; [apply (w_ids _ _ _ W')|exact HN']).
    assert (SR' : srt -> sorted st' /\ scored E st').
    { intros S. destruct (SR S) as [S1 S2]. split; [exact (step_sorted E EV st W cs cu Gs Gu NE _ _ _ _ _ _ _ M S1)|].
      exact (step_scored E EV st W cs cu Gs Gu NE _ _ _ _ _ _ _ M o p SZ FV eq_refl (FE S) S2). }
    assert (NP' : Permutation (all_nodes st') (all_nodes st)).
    { unfold all_nodes. rewrite CH, flat_map_app. cbn [flat_map]. rewrite app_nil_r, ON, NN. eapply perm_trans; [apply Permutation_app_comm|].
      eapply perm_trans; [apply Permutation_app_tail, (g_nodesp _ _ _ _ _ _ _ _ _ _ _ _ M)|]. rewrite <- app_assoc. apply Permutation_sym.
      exact (Permutation_flat_map chain_nodes _ _ (g_perm _ _ _ _ _ _ _ _ _ _ _ _ M)). }
    assert (NPN : Permutation (all_nodes st') N) by (eapply perm_trans; eassumption).
    (* other chains *)
    assert (SAME : forall i c, i <> c_id cs -> i <> c_id cu -> get_chain st i = Some c -> exists c', get_chain st' i = Some c' /\ core_of c' = core_of c).
    { intros i c N1 N2 G. destruct (get_In _ _ _ G) as [Hc Ic]. assert (HR : In c rest).
      { apply filter_In. split; [exact Hc|]. apply andb_true_iff. split; apply negb_true_iff, Z.eqb_neq; congruence. }
      destruct (map_core_In core_of core_of rest others c (eq_sym (g_core _ _ _ _ _ _ _ _ _ _ _ _ M)) HR) as [c' [C1 C2]].
      exists c'. split; [|congruence]. assert (c_id c' = i) as <- by (unfold core_of in C2; injection C2 as C2 _ _ _ _ _; congruence).
      apply get_of_In; [apply (w_ids _ _ _ W')|]. rewrite CH. apply in_app_iff. left. exact C1. }
    assert (BACK : forall i c, i <> c_id cs -> get_chain st' i = Some c -> exists d, get_chain st i = Some d /\ core_of c = core_of d).
    { intros i c N1 G. destruct (get_In _ _ _ G) as [Hc Ic]. destruct (case_new E st cs cu L g st' cs' others rest R M c Hc) as [->|[d [_ [D2 D3]]]]; [congruence|].
      exists d. split; [|exact D3]. pose proof (core_parts _ _ D3) as [D4 _]. rewrite <- Ic, D4. apply get_of_In; [apply (w_ids _ _ _ W)|exact D2]. }
    pose proof (g_out _ _ _ _ _ _ _ _ _ _ _ _ M) as GO.
    (* the queue *)
    destruct Q as [QN QI]. destruct (remove_pairs_ok (c_id cu) (p_ord P (candidates cu)) q QN) as [RN RI].
    set (q1 := remove_pairs q (c_id cu) (p_ord P (candidates cu))) in *.
    assert (Q1 : qinv E EV srt (fun x y => (x = c_id cs \/ y = c_id cs) /\ conn st' x y) st' q1).
    { split; [exact RN|]. intros x y b HB. apply RI in HB as [HB [N1 N2]]. destruct (QI x y b HB) as [[]|[[d1 [d2 [D1 [D2 [D3 D4]]]]] CN]].
      assert (XU : x <> c_id cu).
      { intros ->. apply N1. split; [reflexivity|]. apply (Permutation_in _ (Permutation_sym (OP _))). apply (candidates_ok E EV st W (c_id cu) cu y Gu). exact CN. }
      assert (YU : y <> c_id cu).
      { intros ->. apply N2. split; [reflexivity|]. apply (Permutation_in _ (Permutation_sym (OP _))). apply (candidates_ok E EV st W (c_id cu) cu x Gu). apply conn_sym. exact CN. }
      assert (CN' : conn st' x y).
      { unfold conn in *. rewrite !GO. destruct (Z.eqb_spec x (c_id cu)) as [|_]; [congruence|]. destruct (Z.eqb_spec y (c_id cu)) as [|_]; [congruence|].
        destruct (Z.eqb_spec x (c_id cs)) as [Qx|Qx], (Z.eqb_spec y (c_id cs)) as [Qy|Qy]; rewrite ?appo_some; try (rewrite Qx in CN); try (rewrite Qy in CN); try tauto.
        congruence. }
      destruct (Z.eq_dec x (c_id cs)) as [Qx|Qx]; [left; tauto|]. destruct (Z.eq_dec y (c_id cs)) as [Qy|Qy]; [left; tauto|]. right. split; [|exact CN'].
      destruct (SAME x d1 Qx XU D1) as [e1 [E1 K1]]. destruct (SAME y d2 Qy YU D2) as [e2 [E2 K2]]. exists e1, e2. split; [exact E1|]. split; [exact E2|]. split; [exact D3|].
      destruct (core_parts _ _ K1) as [I1 [B1 [C1 _]]]. destruct (core_parts _ _ K2) as [I2 [B2 [C2 _]]]. destruct D4 as [A1 A2 A3 A4 A5 A6 A7]. constructor.
      - unfold valid_cut in *. rewrite B1. exact A1.
      - congruence.
      - congruence.
      - rewrite A4. symmetry. apply slices_ext; assumption.
      - exact A5.
      - intros S. rewrite (A6 S). symmetry. apply gain_ext; assumption.
      - unfold entry_kept in *. rewrite (asm_nodes_ext d1 d2 e1 e2), C1, C2 by assumption. exact A7. }
    rewrite G'. destruct (closed_at E N st' CL NPN) as [VO VI].
    destruct (update_both_ok E EV st' W' SZ VO VI srt (fun z => proj1 (SR' z)) (p_ord P (candidates cs')) _ q1 (c_id cs) Q1) as [q2 [-> Q2]].
    { intros u HU. apply (Permutation_in _ (OP _)) in HU. apply (candidates_ok E EV st' W' (c_id cs) cs' u G'). exact HU. }
    cbn [obind]. exists st', q2. split; [reflexivity|]. split; [|split; [|split; [|split; [|split]]]].
    - constructor; auto. eapply qinv_weaken; [|exact Q2]. cbv beta. intros x y [[XY CN] [N1 N2]]. destruct XY as [Qx|Qy].
      + apply N1. split; [exact Qx|]. apply (Permutation_in _ (Permutation_sym (OP _))). apply (candidates_ok E EV st' W' (c_id cs) cs' y G'). rewrite <- Qx. exact CN.
      + apply N2. split; [exact Qy|]. apply (Permutation_in _ (Permutation_sym (OP _))). apply (candidates_ok E EV st' W' (c_id cs) cs' x G'). rewrite <- Qy. apply conn_sym. exact CN.
    - pose proof (asm_order (fun _ => None) cs cu o p FV) as AO. cbv zeta in AO. eapply ms_one with (R := map chain_nodes rest); [| |exact AO|].
      + rewrite flat_map_firstn_skipn. unfold layouts. exact (Permutation_map chain_nodes (g_perm _ _ _ _ _ _ _ _ _ _ _ _ M)).
      + unfold layouts. rewrite CH, map_app. cbn [map]. rewrite NN. fold L. eapply perm_trans; [apply Permutation_app_comm|]. cbn [app]. constructor.
        assert (X : map chain_nodes others = map chain_nodes rest); [|rewrite X; apply Permutation_refl].
        pose proof (g_core _ _ _ _ _ _ _ _ _ _ _ _ M) as GC. clear - GC. revert GC. generalize rest as l. induction others as [|d k IH]; intros [|d0 l] GC; try discriminate; [reflexivity|].
        cbn [map] in *. assert (C1 : core_of d = core_of d0) by (pose proof (f_equal (hd (core_of d)) GC) as X; exact X). pose proof (f_equal (@tl _) GC) as C2. cbn [tl] in C2.
        rewrite (IH l C2). apply core_parts in C1 as [_ [_ [C1 _]]]. rewrite C1. reflexivity.
      + rewrite flat_map_firstn_skipn. fold L. fold (chain_nodes cs). pose proof (chain_nodes_nonempty E cs (w_chain _ _ _ W cs Hs)) as X1. pose proof (chain_nodes_nonempty E cu (w_chain _ _ _ W cu Hu)) as X2.
        pose proof (chain_nodes_nonempty E cs' (w_chain _ _ _ W' cs' HN')) as X3. rewrite NN in X3. rewrite !sw_hd by assumption. exact FY.
    - pose proof (Permutation_length (g_perm _ _ _ _ _ _ _ _ _ _ _ _ M)) as PL. cbn [length] in PL. rewrite CH, app_length. cbn [length].
      pose proof (f_equal (@length _) (g_core _ _ _ _ _ _ _ _ _ _ _ _ M)) as LC. rewrite !map_length in LC. lia.
    - intros i. rewrite CH, map_app. cbn [map]. rewrite OI, GI, in_app_iff. cbn [In].
      pose proof (Permutation_map c_id (g_perm _ _ _ _ _ _ _ _ _ _ _ _ M)) as PI. cbn [map] in PI. pose proof (Permutation_NoDup PI (w_ids _ _ _ W)) as ND. inversion ND as [|? ? D1 ND1]; subst. inversion ND1 as [|? ? D2 ND2]; subst.
      split.
      + intros [H|[<-|[]]]; (split; [apply (Permutation_in _ (Permutation_sym PI))|]); [right; right; exact H|congruence|left; reflexivity|congruence].
      + intros [H NI]. apply (Permutation_in _ PI) in H as [H|[H|H]]; [right; left; exact H|congruence|left; exact H].
    - intros cs0 cu0 H1 H2. assert (cs0 = cs) by congruence. assert (cu0 = cu) by congruence. subst cs0 cu0. exists cs'. auto.
    - intros i c NI G. destruct (BACK i c NI G) as [d [D1 D2]]. exists d. split; [exact D1|]. apply core_parts in D2 as [_ [_ [D2 _]]]. auto.
  Qed.
  Lemma steps_trans ifr entry A B C : merge_steps ifr entry A B -> merge_steps ifr entry B C -> merge_steps ifr entry A C.
  Proof. clear. induction 1; intros H'; [exact H'|]. eapply mss_step; [eassumption|]. auto. Qed.
  Lemma best_ok st q a : binv E EV srt N st q -> best_of q = Some a -> asm_ok E EV srt st (a_split a) (a_unsplit a) a.
  Proof.
    intros [W SR [QN QI] NP] H. apply best_of_In in H as [[x y] H]. apply (aget_NoDup_In pair_eqb pair_reflect) in H; [|exact QN].
    destruct (QI x y a H) as [[]|[[cs [cu [G1 [G2 [NE F]]]]] _]]. exists cs, cu. destruct (get_In _ _ _ G1) as [_ I1]. destruct (get_In _ _ _ G2) as [_ I2].
    rewrite (af_split _ _ _ _ _ _ F), (af_unsplit _ _ _ _ _ _ F), I1, I2. auto.
  Qed.
  Theorem merge_loop_ok fuel : forall st q, binv E EV srt N st q -> (length (s_chains st) <= fuel)%nat ->
    exists st' q', merge_loop P E fuel st q = Ok (st', q') /\ binv E EV srt N st' q' /\ merge_steps (e_ifr E) (e_entry E) (layouts st) (layouts st') /\ best_of q' = None.
  Proof.
    induction fuel as [|fuel IH]; intros st q B L; cbn [merge_loop]; destruct (best_of q) as [a|] eqn:Q.
    - exfalso. destruct (best_ok st q a B Q) as [cs [cu [G _]]]. apply get_In in G as [G _]. destruct (s_chains st); [destruct G|cbn [length] in L; lia].
    - exists st, q. split; [reflexivity|]. split; [exact B|]. split; [constructor|exact Q].
    - destruct (merge_chains_ok st q a B (best_ok st q a B Q)) as [st1 [q1 [-> [B1 [M1 [L1 _]]]]]]. cbn [obind].
      destruct (IH st1 q1 B1) as [st2 [q2 [-> [B2 [M2 Q2]]]]]; [lia|]. exists st2, q2. split; [reflexivity|]. split; [exact B2|]. split; [|exact Q2]. eapply mss_step; eassumption.
    - exists st, q. split; [reflexivity|]. split; [exact B|]. split; [constructor|exact Q].
  Qed.

  (** * CoalesceChains *)
  Context (NNEG : forall e x, In e EV -> 0 <= e_score E e x).
  Definition front_entry (st : state) (front : Z) : Prop :=
    e_ifr E = false -> forall cf i c, get_chain st front = Some cf -> get_chain st i = Some c -> e_entry E (hd 0 (chain_nodes c)) = true -> e_entry E (hd 0 (chain_nodes cf)) = true.
  Lemma merge_two_ok st q l r cl cr : binv E EV srt N st q -> get_chain st l = Some cl -> get_chain st r = Some cr -> l <> r -> front_entry st l ->
    exists st' q', MergeTwo P E st q l r = Ok (st', q') /\ binv E EV srt N st' q' /\ merge_step (e_ifr E) (e_entry E) (layouts st) (layouts st') /\
      (forall i, In i (map c_id (s_chains st')) <-> In i (map c_id (s_chains st)) /\ i <> r) /\ front_entry st' l.
  Proof.
    intros B Gl Gr NE FE. unfold MergeTwo. rewrite Gl, Gr. destruct (get_In _ _ _ Gl) as [Hl Il]. destruct (get_In _ _ _ Gr) as [Hr Ir]. assert (NE' : c_id cl <> c_id cr) by congruence.
    pose proof (bi_wf _ _ _ _ _ _ B) as W.
    destruct (build_ok E EV st W SZ cl cr Hl Hr NE' kSU None false srt I (fun z => proj1 (bi_srt _ _ _ _ _ _ B z) cl Hl) (or_intror eq_refl)) as [ra [-> [RA RS]]]. cbn [obind].
    destruct (RS eq_refl eq_refl NNEG) as [a [-> AO]]; [intros IF EN; exact (FE IF cl r cr Gl Gr EN)|].
    pose proof (RA a eq_refl) as F. pose proof (af_split _ _ _ _ _ _ F) as A1. pose proof (af_unsplit _ _ _ _ _ _ F) as A2. rewrite Il in A1. rewrite Ir in A2.
    destruct (merge_chains_ok st q a B) as [st' [q' [-> [B' [M [_ [IDS [NW OT]]]]]]]].
    { rewrite A1, A2. exists cl, cr. auto. }
    exists st', q'. split; [reflexivity|]. split; [exact B'|]. split; [exact M|]. split; [intros i; rewrite IDS, A2; reflexivity|].
    intros IF cf i c Gf Gi EN. rewrite A1, A2 in *. destruct (NW cl cr Gl Gr) as [cn [Gn NN]]. rewrite Gf in Gn. injection Gn as <-.
    assert (HD : hd 0 (chain_nodes cf) = hd 0 (chain_nodes cl)).
    { rewrite NN, (af_slices _ _ _ _ _ _ F). assert (AP : a_pos a = None) by (pose proof (af_cut _ _ _ _ _ _ F) as V; unfold valid_cut in V; rewrite AO in V; destruct (a_pos a); [contradiction|reflexivity]).
      rewrite AO, AP. unfold asm_nodes, asm_bundles, ConstructSlices. cbn [flat_map]. unfold sl_bundles, sl_chain. cbn [sl_split sl_begin sl_end skipn]. rewrite !Nat.sub_0_r, !firstn_all, app_nil_r, flat_map_app.
      apply hd_app. apply (chain_nodes_nonempty E cl (w_chain _ _ _ W cl Hl)). }
    rewrite HD. destruct (Z.eq_dec i l) as [->|NI].
    - rewrite Gf in Gi. injection Gi as <-. rewrite HD in EN. exact EN.
    - destruct (OT i c NI Gi) as [d [D1 D2]]. rewrite <- D2 in EN. exact (FE IF cl i d Gl D1 EN).
  Qed.
  Lemma merge_rest_ok ids : forall st q front, binv E EV srt N st q -> live st front -> NoDup ids -> (forall i, In i ids -> live st i) -> front_entry st front ->
    exists st' q', merge_rest P E st q front ids = Ok (st', q') /\ binv E EV srt N st' q' /\ merge_steps (e_ifr E) (e_entry E) (layouts st) (layouts st') /\
      (forall i, In i (map c_id (s_chains st')) <-> In i (map c_id (s_chains st)) /\ ~ (In i ids /\ i <> front)) /\ front_entry st' front.
  Proof.
    induction ids as [|r ids IH]; intros st q front B LF ND LI FE; cbn [merge_rest].
    - exists st, q. split; [reflexivity|]. split; [exact B|]. split; [constructor|]. split; [|exact FE]. cbn [In]. tauto.
    - inversion ND as [|? ? Hn ND']; subst. destruct (Z.eqb_spec r front) as [Q|Q].
      + destruct (IH st q front B LF ND') as [st' [q' [A1 [A2 [A3 [A4 A5]]]]]]; [intros; apply LI; right; assumption|exact FE|]. exists st', q'. split; [exact A1|]. split; [exact A2|]. split; [exact A3|]. split; [|exact A5].
        intros i. rewrite A4. cbn [In]. split; intros [X Y]; (split; [exact X|]); intros [Z1 Z2]; apply Y; (split; [|exact Z2]); [destruct Z1 as [Z1|Z1]; [congruence|exact Z1]|right; exact Z1].
      + destruct LF as [cf Gf]. destruct (LI r (or_introl eq_refl)) as [cr Gr].
        destruct (merge_two_ok st q front r cf cr B Gf Gr (fun z => Q (eq_sym z)) FE) as [st1 [q1 [-> [B1 [M1 [I1 F1]]]]]]. cbn [obind].
        assert (LV : forall i, live st i -> i <> r -> live st1 i) by (intros i Hi NI; apply live_ids, I1; split; [apply live_ids; exact Hi|exact NI]).
        destruct (IH st1 q1 front B1) as [st' [q' [A1 [A2 [A3 [A4 A5]]]]]]; [apply LV; [exists cf; exact Gf|congruence]|exact ND'|intros i Hi; apply LV; [apply LI; right; exact Hi|intros ->; contradiction]|exact F1|].
        exists st', q'. split; [exact A1|]. split; [exact A2|]. split; [eapply mss_step; eassumption|]. split; [|exact A5].
        intros i. rewrite A4, I1. cbn [In]. split.
        * intros [[X Y] Z]. split; [exact X|]. intros [[K|K] K2]; [congruence|tauto].
        * intros [X Y]. split; [split; [exact X|]|]; [intros ->; apply Y; auto|]. intros [K K2]. apply Y. auto.
  Qed.
End Loop.

Lemma isort_front E l c0 : In c0 l -> e_entry E (first_node c0) = true ->
  match isort (fun c1 c2 => negb (coalesce_ltb E c2 c1)) l with c :: _ => e_entry E (first_node c) = true | [] => False end.
Proof.
  induction l as [|x l IH]; intros H HE; [destruct H|]. cbn [isort fold_right]. fold (isort (fun c1 c2 => negb (coalesce_ltb E c2 c1)) l).
  destruct H as [->|H].
  - destruct (isort _ l) as [|y k]; cbn [insert]; [exact HE|]. assert (X : coalesce_ltb E y c0 = false) by (unfold coalesce_ltb; rewrite HE; reflexivity). rewrite X. exact HE.
  - specialize (IH H HE). destruct (isort _ l) as [|y k]; [destruct IH|]. cbn [insert]. destruct (e_entry E (first_node x)) eqn:EX.
    + assert (X : coalesce_ltb E y x = false) by (unfold coalesce_ltb; rewrite EX; reflexivity). rewrite X. exact EX.
    + assert (X : coalesce_ltb E y x = true) by (unfold coalesce_ltb; rewrite EX, IH; reflexivity). rewrite X. exact IH.
Qed.
Theorem coalesce_ok P (OP : forall l, Permutation (p_ord P l) l) E EV (SZ : forall n, 0 <= e_size E n) (srt : Prop) N (CL : closed E N) st q :
  binv E EV srt N st q -> (forall e x, In e EV -> 0 <= e_score E e x) ->
  exists st' q', CoalesceChains P E st q = Ok (st', q') /\ binv E EV srt N st' q' /\ merge_steps (e_ifr E) (e_entry E) (layouts st) (layouts st') /\
    (length (s_chains st') <= 1)%nat.
Proof.
  intros B NNEG. unfold CoalesceChains. set (so := isort (fun c1 c2 => negb (coalesce_ltb E c2 c1)) (s_chains st)). pose proof (isort_perm (fun c1 c2 => negb (coalesce_ltb E c2 c1)) (s_chains st)) as SP. fold so in SP.
  pose proof (bi_wf _ _ _ _ _ _ B) as W. destruct so as [|c l] eqn:SQ.
  - cbn [map]. exists st, q. split; [reflexivity|]. split; [exact B|]. split; [constructor|]. apply Permutation_sym, Permutation_nil in SP. rewrite SP. cbn. lia.
  - cbn [map]. set (ids := c_id c :: map c_id l). assert (IP : Permutation (map c_id (s_chains st)) ids) by exact (Permutation_map c_id SP).
    assert (LV : forall i, In i ids -> live st i) by (intros i Hi; apply live_ids; apply (Permutation_in _ (Permutation_sym IP)); exact Hi).
    assert (ND : NoDup ids) by (eapply Permutation_NoDup; [exact IP|apply (w_ids _ _ _ W)]).
    assert (FE : front_entry E st (c_id c)).
    { intros IF cf i d Gf Gi EN. destruct (get_In _ _ _ Gi) as [Hd _]. destruct (get_In _ _ _ Gf) as [Hf If].
      assert (Hc : In c (s_chains st)) by (apply (Permutation_in _ (Permutation_sym SP)); left; reflexivity).
      assert (cf = c) as -> by (apply (NoDup_cons_In_neq c_id (s_chains st)); auto; apply (w_ids _ _ _ W)).
      rewrite <- (first_node_hd E) in EN |- * by (apply (w_chain _ _ _ W); assumption). pose proof (isort_front E (s_chains st) d Hd EN) as X. fold so in X. rewrite SQ in X. exact X. }
    destruct (merge_rest_ok P OP E EV SZ srt N CL NNEG ids st q (c_id c) B (LV _ (or_introl eq_refl)) ND LV FE) as [st' [q' [A1 [A2 [A3 [A4 A5]]]]]].
    exists st', q'. split; [exact A1|]. split; [exact A2|]. split; [exact A3|].
    pose proof (w_ids _ _ _ (bi_wf _ _ _ _ _ _ A2)) as ND'. destruct (s_chains st') as [|c1 [|c2 k]] eqn:QC; cbn [length]; try lia. exfalso. cbn [map] in *.
    assert (X : forall i, In i (c_id c1 :: c_id c2 :: map c_id k) -> i = c_id c).
    { intros i Hi. destruct (Z.eq_dec i (c_id c)) as [|NI]; [assumption|exfalso]. apply A4 in Hi as [Hi1 Hi2]. apply Hi2. split; [|exact NI]. apply (Permutation_in _ IP). exact Hi1. }
    inversion ND' as [|? ? D _]; subst. apply D. left. rewrite (X (c_id c1)), (X (c_id c2)); [reflexivity|right; left; reflexivity|left; reflexivity].
Qed.
