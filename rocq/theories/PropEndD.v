(** Proofs about the Propeller run: the functions of one section. *)
From Coq Require Import Sorted Permutation.
From Verif Require Import Base ISort StdSearch SymbolModel SymbolProofs MapperModel MapperSpec MapperProofs MapperProps
  CfgFreqModel CfgBuildModel CfgBuildSpec CfgBuildProofs CfgBuildTotal CfgBuildProps.
From Verif Require Import ForcedModel ForcedSpec ChainModel ChainSpec ChainAsmProofs ChainBuildModel ChainBuildSpec ChainInitProofs ClusterModel ClusterSpec ClusterProofs LayoutModel LayoutSpec LayoutRunProofs LayoutProps.
From Verif Require Import WriterModel WriterSpec WriterProps PropEndModel PropEndSpec PropEndProofs PropEndA PropEndB PropEndC.

Lemma sorted_NoDup {A} (R : A -> A -> Prop) l : (forall x, ~ R x x) -> StronglySorted R l -> NoDup l.
Proof. intros I H. induction H as [|x l H IH F]; constructor; [|exact IH]. intros Hi. rewrite Forall_forall in F. exact (I x (F x Hi)). Qed.
Lemma existsb_nat f l : existsb (fun g => Z.of_nat g =? Z.of_nat f) l = true <-> In f l.
Proof. rewrite existsb_exists. split; [intros [g [Hg E]]; assert (g = f) by lia; subst; exact Hg|intros H; exists f; split; [exact H|lia]]. Qed.

Section One.
  Context (v : version) (B : binary) (S : settings) (mp : mapper).
  Hypothesis BG : binary_good v B.
  Hypothesis SG : settings_good S.
  Hypothesis SH : shape (x_funcs B) (x_info B) mp.
  Context (dbg : bool) (has : bb_handle -> bool) (branches falls : list counter) (st : CfgBuildModel.cstate).
  Hypothesis HAS : forall h, has h = true <-> In h (mp_handles mp).
  Hypothesis BO : builder_ok mp has.
  Hypothesis CO : counts_ok branches falls.
  Hypothesis CE : CreateEdges dbg [] has mp (s_falls S) (s_reject S) branches falls = Ok (Some st).
  Hypothesis TR : 10 * transitions mp branches falls < 2 ^ 31.
  Notation P := (program B S mp st).
  Notation L := (layout_params B S mp st).
  Notation cfgs := (written_cfg B S mp st).
  Notation ids := (block_id B mp).
  Context (nm : name) (fl : list nat).
  Hypothesis FN : NoDup fl.
  Hypothesis FI : forall f, In f fl <-> In f (kept B S mp st) /\ section_of B (Z.of_nat f) = nm.
  Notation gs := (map (graph mp st) fl).
  Notation fits := (section_fits v B S mp BG SG SH dbg has branches falls st HAS BO CO CE TR nm fl FN FI).
  Notation freqx := (freq_executed v B S mp BG SG SH dbg has branches falls st HAS BO CO CE).
  Notation hot := (kept_hot v B S mp BG SG SH dbg has branches falls st HAS BO CO CE nm fl FI).

  Lemma selected f : In f fl -> In f (mp_selected mp).
  Proof. intros H. apply FI in H as [H _]. unfold kept in H. apply filter_In in H as [H _]. exact H. Qed.
  Lemma fl_kept f : In f fl -> In f (kept B S mp st).
  Proof. intros H. apply FI in H as [H _]. exact H. Qed.
  Lemma graph_hot f : In f fl -> is_hot P (graph mp st f) = true.
  Proof.
    intros H. destruct (hot f H) as [i [Hi [Ef [In_i N]]]]. unfold is_hot. apply existsb_exists. exists (Z.of_nat i). split; [exact In_i|].
    destruct (p_outs P (Z.of_nat i)) eqn:E1; [|reflexivity]. destruct (p_ins P (Z.of_nat i)) eqn:E2; [|reflexivity].
    exfalso. apply N. unfold frequency. rewrite E1, E2. reflexivity.
  Qed.
  Lemma laid_wanted f i : In f fl -> (i < blk_count mp)%nat -> blk_func mp i = f ->
    (In (Z.of_nat i) (laid_out P (graph mp st f)) <-> wanted B S mp branches falls i).
  Proof.
    intros Hf Hi Ef. assert (In_i : In (Z.of_nat i) (nodes_of_func mp f)) by (apply (nodes_of_In mp); eauto).
    unfold laid_out. rewrite (graph_hot f Hf). cbn [p_split_functions program g_nodes graph]. unfold wanted. destruct (s_split_functions S); [|split; auto].
    rewrite filter_In. unfold hot_node. cbn [p_entry p_ifr p_lp program]. rewrite !Bool.orb_true_iff, !Bool.andb_true_iff, handle_nat.
    assert (E1 : negb (frequency P (Z.of_nat i) =? 0) = true <-> executed mp branches falls i) by (rewrite <- (freqx i Hi); lia).
    assert (E2 : has_hot_landing_pads P (graph mp st f) = true <-> exists k, (k < blk_count mp)%nat /\ blk_func mp k = blk_func mp i /\ x_lp B (blk_handle mp k) = true /\ executed mp branches falls k).
    { unfold has_hot_landing_pads. rewrite existsb_exists. cbn [g_nodes graph p_lp program]. split.
      - intros [n [Hn X]]. apply (nodes_of_In mp) in Hn as [k [Hk [-> Ek]]]. rewrite handle_nat in X. apply Bool.andb_true_iff in X as [X1 X2]. exists k.
        split; [exact Hk|]. split; [congruence|]. split; [exact X1|]. apply (freqx k Hk). lia.
      - intros [k [Hk [Ek [X1 X2]]]]. exists (Z.of_nat k). split; [apply (nodes_of_In mp); exists k; split; [exact Hk|]; split; [reflexivity|congruence]|].
        rewrite handle_nat, X1. apply (freqx k Hk) in X2. cbn [andb]. lia. }
    rewrite E1, E2. destruct (s_ifr S); cbn [negb]; rewrite ?Nat.eqb_eq; clear - In_i; intuition (auto; discriminate).
  Qed.
  Lemma cfg_of f : In f fl -> cfgs (Z.of_nat f) = Some (WCfg (aliases_of (x_info B) f) (x_module B f) []
      (map (fun n => WNode (block_id B mp n) (frequency P n)
              (map (fun e => (match ce_kind e with EBranch => true | _ => false end, x_bb B (handle_of mp (ce_sink e)), ce_weight e)) (p_outs P n)))
         (nodes_of_func mp f))).
  Proof.
    intros H. unfold written_cfg. rewrite (proj2 (existsb_nat f _) (fl_kept f H)). rewrite Nat2Z.id. reflexivity.
  Qed.
  Lemma block_inj i k : (i < blk_count mp)%nat -> (k < blk_count mp)%nat -> blk_func mp i = blk_func mp k ->
    x_bb B (blk_handle mp i) = x_bb B (blk_handle mp k) -> i = k.
  Proof.
    intros Hi Hk Ef Eb. apply (blk_inj _ _ _ SH); [exact Hi|exact Hk|].
    destruct (proj1 (shape_In _ _ _ SH _) (blk_In mp i Hi)) as [A1 A2]. destruct (proj1 (shape_In _ _ _ SH _) (blk_In mp k Hk)) as [B1 B2].
    destruct (sh_in _ _ _ SH _ A1) as [L1 _]. unfold blk_func in Ef. fold (blk_handle mp i) (blk_handle mp k) in Ef.
    destruct (blk_handle mp i) as [fi bi], (blk_handle mp k) as [fk bk]. cbn [bh_func bh_bb] in *. subst fk. f_equal. exact (bg_ids _ _ BG fi bi bk L1 A2 B2 Eb).
  Qed.

  Context (zs : list finfo) (scores : finfo -> text).
  Hypothesis OA : OrderAll L gs = Ok zs.

  Lemma info_wf : section_wf cfgs (map (to_info ids scores) zs).
  Proof.
    apply (C33_from_layout L gs zs ids scores cfgs fits OA).
    - intros g Hg. apply in_map_iff in Hg as [f [<- Hf]]. rewrite (graph_func v B S mp BG SH st f (selected f Hf)).
      eexists. split; [exact (cfg_of f Hf)|]. cbn [w_nodes g_nodes graph]. rewrite map_map. reflexivity.
    - intros g n m Hg Hn Hm E. apply in_map_iff in Hg as [f [<- Hf]]. cbn [g_nodes graph] in *. apply (nodes_of_In mp) in Hn as [i [Hi [-> Ei]]]. apply (nodes_of_In mp) in Hm as [k [Hk [-> Ek]]].
      unfold block_id in E. rewrite !handle_nat in E. injection E as E _. f_equal. apply block_inj; auto. congruence.
    - intros g n Hg Hn E. cbn [block_id i_index] in E. cbn [q_prog l_C layout_params p_entry program]. lia.
  Qed.
  Lemma info_layout : exists ns, layout_info L gs ns zs.
  Proof. destruct (C32_layout L gs fits) as [cs [ks [zs' [_ [_ [Q [_ [_ LI]]]]]]]]. rewrite OA in Q. injection Q as <-. eauto. Qed.

  Lemma info_func z : In z zs -> exists f, In f fl /\ z_func z = Z.of_nat f.
  Proof.
    intros Hz. destruct info_layout as [ns LI]. destruct (C32_each_block_once L gs zs fits OA) as [_ [LO [_ FB]]].
    pose proof (li_nonempty _ _ _ _ LI z Hz) as NE. destruct (z_clusters z) as [|y ys] eqn:E; [congruence|].
    pose proof (sw_nonempty _ _ info_wf (to_info ids scores z) (WCluster (y_index y) (map ids (y_blocks y))) (in_map _ _ _ Hz)) as NB. cbn [to_info wi_clusters] in NB. rewrite E in NB.
    specialize (NB (or_introl eq_refl)). cbn [wc_blocks] in NB. destruct (y_blocks y) as [|n ns'] eqn:EY; [cbn in NB; congruence|].
    assert (X : In n (info_blocks zs)) by (apply in_flat_map; exists z; split; [exact Hz|]; apply in_flat_map; exists y; rewrite E, EY; split; left; reflexivity).
    apply LO in X. apply in_flat_map in X as [g [Hg Hn]]. apply in_map_iff in Hg as [f [<- Hf]]. exists f. split; [exact Hf|].
    rewrite <- (FB z y n Hz) by (rewrite ?E, ?EY; left; reflexivity). cbn [q_prog l_C layout_params p_func program].
    assert (Hn' : In n (nodes_of_func mp f)). { unfold laid_out in Hn. destruct (is_hot _ _); [|destruct Hn]. destruct (p_split_functions _); [apply filter_In in Hn as [Hn _]|]; exact Hn. }
    apply (nodes_of_In mp) in Hn' as [i [Hi [-> Ei]]]. rewrite func_nat. congruence.
  Qed.
  (** The blocks of one function. *)
  Lemma func_blocks z f n : In z zs -> z_func z = Z.of_nat f ->
    (In n (flat_map y_blocks (z_clusters z)) <-> exists i, (i < blk_count mp)%nat /\ n = Z.of_nat i /\ blk_func mp i = f /\ wanted B S mp branches falls i).
  Proof.
    intros Hz Ez. destruct (info_func z Hz) as [f' [Hf Ef]]. assert (f' = f) by lia. subst f'. clear Ef.
    destruct (C32_each_block_once L gs zs fits OA) as [_ [LO [NF FB]]]. cbn [q_prog l_C layout_params] in *. split.
    - intros H. apply in_flat_map in H as [y [Hy Hn]]. pose proof (FB z y n Hz Hy Hn) as Fn. cbn [p_func program] in Fn.
      assert (X : In n (info_blocks zs)) by (apply in_flat_map; exists z; split; [exact Hz|]; apply in_flat_map; eauto).
      apply LO in X. apply in_flat_map in X as [g [Hg Hn']]. apply in_map_iff in Hg as [f' [<- Hf']].
      assert (Hn'' : In n (nodes_of_func mp f')). { unfold laid_out in Hn'. destruct (is_hot _ _); [|destruct Hn']. destruct (p_split_functions _); [apply filter_In in Hn' as [Hn' _]|]; exact Hn'. }
      apply (nodes_of_In mp) in Hn'' as [i [Hi [-> Ei]]]. rewrite func_nat in Fn. assert (Q : f' = f) by lia. rewrite Q in *. clear Q. exists i. split; [exact Hi|]. split; [reflexivity|]. split; [exact Ei|].
      apply (laid_wanted f i Hf Hi Ei). exact Hn'.
    - intros [i [Hi [-> [Ei W]]]]. apply (laid_wanted f i Hf Hi Ei) in W.
      assert (X : In (Z.of_nat i) (info_blocks zs)) by (apply LO; apply in_flat_map; exists (graph mp st f); split; [apply in_map; exact Hf|exact W]).
      apply in_flat_map in X as [z' [Hz' X]]. pose proof X as X'. apply in_flat_map in X' as [y [Hy Hn]]. pose proof (FB z' y _ Hz' Hy Hn) as Fn. cbn [p_func program] in Fn. rewrite func_nat in Fn.
      assert (z' = z); [|subst z'; exact X]. eapply (ClusterProofs.NoDup_map_inj z_func); [exact NF|exact Hz'|exact Hz|congruence].
  Qed.
  Lemma func_listed f : In f fl -> exists z, In z zs /\ z_func z = Z.of_nat f.
  Proof.
    intros Hf. destruct (hot f Hf) as [i [Hi [Ei [_ N]]]]. destruct (C32_each_block_once L gs zs fits OA) as [_ [LO [_ FB]]]. cbn [q_prog l_C layout_params] in *.
    assert (X : In (Z.of_nat i) (info_blocks zs)). { apply LO. apply in_flat_map. exists (graph mp st f). split; [apply in_map; exact Hf|]. apply (laid_wanted f i Hf Hi Ei). right. left. apply (freqx i Hi). exact N. }
    apply in_flat_map in X as [z [Hz X]]. apply in_flat_map in X as [y [Hy Hn]]. exists z. split; [exact Hz|]. rewrite <- (FB z y _ Hz Hy Hn). cbn [p_func program]. rewrite func_nat. congruence.
  Qed.

  Lemma func_entry z f : In z zs -> z_func z = Z.of_nat f -> function_entry B S mp branches falls f (entry_of cfgs (to_info ids scores z)).
  Proof.
    intros Hz Ez. destruct (info_func z Hz) as [f' [Hf Ef]]. assert (f' = f) by lia. subst f'. clear Ef.
    assert (EE : entry_of cfgs (to_info ids scores z) = FEntry (aliases_of (x_info B) f) (x_module B f) [] (map (fun y => map (fun n => (x_bb B (handle_of mp n), 0)) (y_blocks y)) (z_clusters z))).
    { unfold entry_of, to_info. cbn [wi_func wi_clusters]. rewrite Ez, (cfg_of f Hf). cbn [w_names w_module w_paths map]. f_equal. rewrite map_map. apply map_ext. intros y. cbn [wc_blocks]. rewrite map_map. reflexivity. }
    rewrite EE. destruct (C32_entry_and_together L gs zs fits OA) as [EF _]. destruct (C32_each_block_once L gs zs fits OA) as [ND _].
    assert (CC : concat (map (fun y => map (fun n => (x_bb B (handle_of mp n), 0)) (y_blocks y)) (z_clusters z)) = map (fun n => (x_bb B (handle_of mp n), 0)) (flat_map y_blocks (z_clusters z))).
    { rewrite flat_map_concat_map, concat_map, map_map. reflexivity. }
    assert (NZ : NoDup (flat_map y_blocks (z_clusters z))).
    { apply in_split in Hz as [z1 [z2 ->]]. unfold info_blocks in ND. rewrite flat_map_app in ND. apply NoDup_app_inv in ND as [_ [ND _]]. cbn [flat_map] in ND. apply NoDup_app_inv in ND as [ND _]. exact ND. }
    constructor; cbn [f_names f_module f_paths f_clusters]; try reflexivity.
    - rewrite CC.
      assert (G : forall l, NoDup l -> (forall n, In n l -> exists i, (i < blk_count mp)%nat /\ n = Z.of_nat i /\ blk_func mp i = f) -> NoDup (map (fun n => (x_bb B (handle_of mp n), 0)) l)).
      { induction l as [|n l IH]; intros NL G; cbn [map]; [constructor|]. inversion NL as [|? ? N1 N2]; subst. constructor; [|apply IH; [exact N2|intros; apply G; right; assumption]].
        intros H. apply in_map_iff in H as [m [E Hm]]. injection E as E. destruct (G n (or_introl eq_refl)) as [i [Hi [En Fi]]]. destruct (G m (or_intror Hm)) as [k [Hk [Em Fk]]]. rewrite En, Em in E. rewrite !handle_nat in E.
        apply N1. rewrite En. replace i with k; [rewrite <- Em; exact Hm|]. apply block_inj; auto. congruence. }
      apply G; [exact NZ|]. intros n Hn. apply (func_blocks z f n Hz Ez) in Hn as [i [Hi [En [Fi _]]]]. eauto.
    - intros b. rewrite CC, in_map_iff. split.
      + intros [n [<- Hn]]. apply (func_blocks z f n Hz Ez) in Hn as [i [Hi [-> [Fi W]]]]. exists i. rewrite handle_nat. auto.
      + intros [i [Hi [Fi [W ->]]]]. exists (Z.of_nat i). rewrite handle_nat. split; [reflexivity|]. apply (func_blocks z f _ Hz Ez). eauto.
    - intros c Hc. apply in_map_iff in Hc as [y [<- Hy]]. pose proof (sw_nonempty _ _ info_wf (to_info ids scores z) (WCluster (y_index y) (map ids (y_blocks y))) (in_map _ _ _ Hz)) as NB.
      cbn [to_info wi_clusters wc_blocks] in NB. specialize (NB (in_map (fun y => WCluster (y_index y) (map ids (y_blocks y))) _ _ Hy)). destruct (y_blocks y); cbn [map] in *; congruence.
    - intros c Hc Hin. apply in_map_iff in Hc as [y [<- Hy]].
      assert (T : tl (map (fun n => (x_bb B (handle_of mp n), 0)) (y_blocks y)) = map (fun n => (x_bb B (handle_of mp n), 0)) (tl (y_blocks y))) by (destruct (y_blocks y); reflexivity).
      rewrite T in Hin. apply in_map_iff in Hin as [n [E Hn]]. injection E as E.
      assert (Hn' : In n (y_blocks y)) by (destruct (y_blocks y); [destruct Hn|right; exact Hn]).
      assert (HB : In n (flat_map y_blocks (z_clusters z))) by (apply in_flat_map; eauto). apply (func_blocks z f n Hz Ez) in HB as [i [Hi [-> [Fi _]]]]. rewrite handle_nat in E.
      destruct (entry_node v B mp BG SH f (selected f Hf)) as [k [Hk [Ek [_ In_k]]]].
      assert (i = k). { apply block_inj; auto; [|congruence]. apply (nodes_of_In mp) in In_k as [k' [_ [E' F']]]. assert (k' = k) by lia. congruence. }
      subst k. assert (PE : p_entry (q_prog (l_C L)) (Z.of_nat i) = true) by (cbn [q_prog l_C layout_params p_entry program]; rewrite handle_nat, Ek; reflexivity).
      pose proof (EF z y _ Hz Hy Hn' PE) as HD. assert (ND' : NoDup (y_blocks y)).
      { apply in_split in Hy as [y1 [y2 Ey]]. rewrite Ey, flat_map_app in NZ. apply NoDup_app_inv in NZ as [_ [NZ _]]. cbn [flat_map] in NZ. apply NoDup_app_inv in NZ as [NZ _]. exact NZ. }
      destruct (y_blocks y) as [|m l]; [destruct Hn|]. cbn [hd tl] in *. inversion ND'; subst. contradiction.
  Qed.

  (** There is one entry block. *)
  Lemma one_entry z b b' : In z zs -> In b (placed (to_info ids scores z)) -> In b' (placed (to_info ids scores z)) -> i_index b = 0 -> i_index b' = 0 -> b = b'.
  Proof.
    intros Hz Hb Hb' Ib Ib'. destruct (info_func z Hz) as [f [_ Ez]].
    assert (G : forall x, In x (placed (to_info ids scores z)) -> i_index x = 0 -> x = ids (node_of mp (BbHandle f 0))).
    { intros x Hx Ix. unfold placed in Hx. cbn [to_info wi_clusters] in Hx. apply in_flat_map in Hx as [c [Hc Hx]]. apply in_map_iff in Hc as [y [<- Hy]]. cbn [wc_blocks] in Hx. apply in_map_iff in Hx as [n [<- Hn]].
      assert (HB : In n (flat_map y_blocks (z_clusters z))) by (apply in_flat_map; eauto). apply (func_blocks z f n Hz Ez) in HB as [i [Hi [-> [Fi _]]]].
      cbn [block_id i_index] in Ix. rewrite handle_nat in Ix. assert (E : blk_handle mp i = BbHandle f 0).
      { unfold blk_func in Fi. fold (blk_handle mp i) in Fi. destruct (blk_handle mp i) as [fi bi]. cbn [bh_func bh_bb] in *. f_equal; [exact Fi|lia]. }
      rewrite <- E. unfold node_of. rewrite (index_blk _ _ _ SH i Hi). reflexivity. }
    rewrite (G b Hb Ib), (G b' Hb' Ib'). reflexivity.
  Qed.

  Lemma section_entries : exists il, StronglySorted lt il /\ (forall f, In f il <-> In f fl) /\
    Forall2 (function_entry B S mp branches falls) il (map (entry_of cfgs) (map (to_info ids scores) zs)) /\
    il = map (fun w => Z.to_nat (wi_func w)) (map (to_info ids scores) zs).
  Proof.
    destruct info_layout as [ns LI]. pose proof (li_order _ _ _ _ LI) as SO. exists (map (fun z => Z.to_nat (z_func z)) zs).
    assert (NN : forall z, In z zs -> z_func z = Z.of_nat (Z.to_nat (z_func z)) /\ In (Z.to_nat (z_func z)) fl) by (intros z Hz; destruct (info_func z Hz) as [f [Hf ->]]; rewrite Nat2Z.id; auto).
    split; [|split; [|split; [|rewrite map_map; reflexivity]]].
    - clear - SO NN. induction SO as [|z l SO IH F]; cbn [map]; constructor; [apply IH; intros; apply NN; right; assumption|].
      rewrite Forall_forall in *. intros f Hf. apply in_map_iff in Hf as [z' [<- Hz']]. specialize (F z' Hz'). destruct (NN z (or_introl eq_refl)) as [A1 _]. destruct (NN z' (or_intror Hz')) as [A2 _]. lia.
    - intros f. rewrite in_map_iff. split; [intros [z [<- Hz]]; apply NN; exact Hz|]. intros Hf. destruct (func_listed f Hf) as [z [Hz Ez]]. exists z. split; [rewrite Ez; apply Nat2Z.id|exact Hz].
    - rewrite map_map. assert (G : forall l, incl l zs -> Forall2 (function_entry B S mp branches falls) (map (fun z => Z.to_nat (z_func z)) l) (map (fun z => entry_of cfgs (to_info ids scores z)) l)).
      { induction l as [|z l IH]; intros HI; cbn [map]; constructor; [|apply IH; intros x Hx; apply HI; right; exact Hx]. apply func_entry; [apply HI; left; reflexivity|]. apply NN, HI. left. reflexivity. }
      apply G, incl_refl.
  Qed.
End One.
