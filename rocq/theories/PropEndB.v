(** Proofs about the Propeller run: the graphs of a section fit together. *)
From Coq Require Import Sorted Permutation.
From Verif Require Import Base ISort StdSearch SymbolModel SymbolProofs MapperModel MapperSpec MapperProofs MapperProps
  CfgFreqModel CfgBuildModel CfgBuildSpec CfgBuildProofs CfgBuildTotal CfgBuildProps.
From Verif Require Import ForcedModel ForcedSpec ChainModel ChainSpec ChainAsmProofs ChainBuildModel ChainBuildSpec ChainInitProofs ClusterModel ClusterSpec ClusterProofs LayoutModel LayoutSpec LayoutRunProofs.
From Verif Require ChainProps.
From Verif Require Import WriterModel WriterSpec PropEndModel PropEndSpec PropEndProofs PropEndA.

(** * Sums *)
Lemma sumf_incl {A} (f : A -> Z) l k : NoDup l -> incl l k -> (forall x, In x k -> 0 <= f x) -> sumf f l <= sumf f k.
Proof.
  revert k. induction l as [|x l IH]; intros k N I P; [rewrite sumf_nil; apply sumf_nonneg; exact P|].
  inversion N as [|? ? N1 N2]; subst. assert (Hx : In x k) by (apply I; left; reflexivity). apply in_split in Hx as [k1 [k2 ->]].
  rewrite sumf_cons, sumf_app, sumf_cons. assert (X : sumf f l <= sumf f (k1 ++ k2)).
  { apply IH; [exact N2| |intros y Hy; apply P, in_or_app; apply in_app_or in Hy as [|]; [left|right; right]; assumption].
    intros y Hy. pose proof (I y (or_intror Hy)) as Z0. apply in_or_app. apply in_app_or in Z0 as [Z0|[->|Z0]]; [left; exact Z0|contradiction|right; exact Z0]. }
  rewrite sumf_app in X. lia.
Qed.
Lemma maxz_le_sumz l : (forall x, In x l -> 0 <= x) -> maxz l <= sumz l /\ 0 <= sumz l.
Proof.
  induction l as [|x l IH]; intros H; cbn [maxz sumz fold_right]; [lia|]. fold (maxz l) (sumz l).
  specialize (IH (fun y Hy => H y (or_intror Hy))). specialize (H x (or_introl eq_refl)). lia.
Qed.
Lemma sumf_sub {A} (f : A -> Z) p l : (forall x, In x l -> 0 <= f x) -> sumf f (filter p l) <= sumf f l.
Proof.
  induction l as [|x l IH]; intros H; cbn [filter]; [lia|]. specialize (IH (fun y Hy => H y (or_intror Hy))). specialize (H x (or_introl eq_refl)).
  rewrite (sumf_cons f x l). destruct (p x); [rewrite sumf_cons|]; lia.
Qed.
(** Edges sorted by an end. *)
Lemma sumf_by_end (g : cedge -> Z) (f : cedge -> Z) (es : list cedge) ns : NoDup ns -> (forall e, In e es -> 0 <= f e) ->
  sumf (fun n => sumf f (filter (fun e => g e =? n) es)) ns <= sumf f es.
Proof.
  intros N P. rewrite <- sumf_flat_map. revert N. induction es as [|e es IH]; intros N.
  - replace (flat_map _ ns) with (@nil cedge); [lia|]. clear. induction ns as [|n ns IH]; [reflexivity|]. cbn [flat_map filter app]. exact IH.
  - specialize (IH (fun x Hx => P x (or_intror Hx)) N). specialize (P e (or_introl eq_refl)). rewrite sumf_cons.
    enough (X : sumf f (flat_map (fun n => filter (fun e0 => g e0 =? n) (e :: es)) ns) <= f e + sumf f (flat_map (fun n => filter (fun e0 => g e0 =? n) es) ns)) by lia.
    clear IH. induction ns as [|n ns IH]; cbn [flat_map]; [rewrite sumf_nil; lia|]. inversion N as [|? ? N1 N2]; subst. rewrite !sumf_app.
    change (filter (fun e0 => g e0 =? n) (e :: es)) with (if g e =? n then e :: filter (fun e0 => g e0 =? n) es else filter (fun e0 => g e0 =? n) es).
    destruct (Z.eqb_spec (g e) n) as [E|E].
    + rewrite sumf_cons. enough (flat_map (fun n0 => filter (fun e0 => g e0 =? n0) (e :: es)) ns = flat_map (fun n0 => filter (fun e0 => g e0 =? n0) es) ns) as -> by lia.
      rewrite !flat_map_concat_map. f_equal. apply map_ext_in. intros m Hm. cbn [filter]. destruct (Z.eqb_spec (g e) m); [exfalso; apply N1; congruence|reflexivity].
    + specialize (IH N2). lia.
Qed.

Section Graph.
  Context (v : version) (B : binary) (S : settings) (mp : mapper).
  Hypothesis BG : binary_good v B.
  Hypothesis SG : settings_good S.
  Hypothesis SH : shape (x_funcs B) (x_info B) mp.
  Context (dbg : bool) (has : bb_handle -> bool) (branches falls : list counter) (st : CfgBuildModel.cstate).
  Hypothesis HAS : forall h, has h = true <-> In h (mp_handles mp).
  Hypothesis BO : builder_ok mp has.
  Hypothesis CO : counts_ok branches falls.
  Hypothesis CE : CreateEdges dbg [] has mp (s_falls S) (s_reject S) branches falls = Ok (Some st).
  Notation EXP := (expected_weight mp branches falls).
  Notation P := (program B S mp st).

  Lemma handle_nat i : handle_of mp (Z.of_nat i) = blk_handle mp i.
  Proof. unfold handle_of. rewrite Nat2Z.id. reflexivity. Qed.
  Lemma func_nat i : func_of mp (Z.of_nat i) = Z.of_nat (blk_func mp i).
  Proof. unfold func_of. rewrite handle_nat. reflexivity. Qed.
  Lemma all_nodes_In n : In n (all_nodes mp) <-> exists i, (i < blk_count mp)%nat /\ n = Z.of_nat i.
  Proof.
    unfold all_nodes. rewrite in_map_iff. split; [intros [i [<- H]]|intros [i [H ->]]]; exists i; rewrite in_seq in *; unfold blk_count in *; split; try reflexivity; lia.
  Qed.
  Lemma all_nodes_nodup : NoDup (all_nodes mp).
  Proof. unfold all_nodes. apply FinFun.Injective_map_NoDup; [intros a b E; lia|apply seq_NoDup]. Qed.
  Lemma nodes_of_In f n : In n (nodes_of_func mp f) <-> exists i, (i < blk_count mp)%nat /\ n = Z.of_nat i /\ blk_func mp i = f.
  Proof.
    unfold nodes_of_func. rewrite filter_In, all_nodes_In. split.
    - intros [[i [Hi ->]] E]. exists i. rewrite func_nat in E. split; [exact Hi|]. split; [reflexivity|lia].
    - intros [i [Hi [-> E]]]. split; [eauto|]. rewrite func_nat. lia.
  Qed.
  Lemma all_edges_In e : In e (all_edges mp st) <-> exists a b kd, (a < blk_count mp)%nat /\ (b < blk_count mp)%nat /\
    In ((blk_handle mp a, blk_handle mp b), (EXP a b, kd)) (cs_edges st) /\ e = CEdge (Z.of_nat a) (Z.of_nat b) (EXP a b) (kind_of_edge kd).
  Proof.
    unfold all_edges. rewrite in_map_iff. split.
    - intros [[k [w kd]] [<- H]]. destruct (edges_In (x_funcs B) (x_info B) mp SH (bg_first _ _ BG) dbg has _ _ branches falls st HAS BO (sg_falls _ SG) CO CE k w kd H) as [a [b [Ha [Hb [-> [-> _]]]]]].
      exists a, b, kd. split; [exact Ha|]. split; [exact Hb|]. split; [exact H|]. cbn [fst snd]. unfold node_of. rewrite !(index_blk (x_funcs B) (x_info B) mp SH) by assumption. reflexivity.
    - intros [a [b [kd [Ha [Hb [H ->]]]]]]. exists ((blk_handle mp a, blk_handle mp b), (EXP a b, kd)). split; [|exact H].
      cbn [fst snd]. unfold node_of. rewrite !(index_blk (x_funcs B) (x_info B) mp SH) by assumption. reflexivity.
  Qed.
  Lemma edge_facts e : In e (all_edges mp st) -> 0 <= ce_weight e /\
    exists a b, (a < blk_count mp)%nat /\ (b < blk_count mp)%nat /\ ce_src e = Z.of_nat a /\ ce_sink e = Z.of_nat b /\ ce_weight e = EXP a b /\
      (ce_kind e = EBranch -> blk_func mp a = blk_func mp b /\ bh_bb (blk_handle mp b) <> 0%nat).
  Proof.
    intros H. apply all_edges_In in H as [a [b [kd [Ha [Hb [H ->]]]]]]. cbn [ce_weight ce_src ce_sink ce_kind]. split; [apply (expected_nonneg _ mp (bg_first _ _ BG) branches falls CO)|].
    exists a, b. split; [exact Ha|]. split; [exact Hb|]. split; [reflexivity|]. split; [reflexivity|]. split; [reflexivity|]. intros K.
    destruct (edges_In (x_funcs B) (x_info B) mp SH (bg_first _ _ BG) dbg has _ _ branches falls st HAS BO (sg_falls _ SG) CO CE _ _ _ H) as [a' [b' [Ha' [Hb' [E [_ L]]]]]].
    injection E as E1 E2. apply (blk_inj (x_funcs B) (x_info B) mp SH) in E1; [|assumption..]. apply (blk_inj (x_funcs B) (x_info B) mp SH) in E2; [|assumption..]. subst a' b'.
    apply L. destruct kd; cbn in K; congruence.
  Qed.
  Lemma outs_In n e : In e (p_outs P n) <-> In e (all_edges mp st) /\ ce_src e = n.
  Proof. cbn [p_outs program]. rewrite in_app_iff, !filter_In. destruct (Z.eqb_spec (ce_src e) n), (stays mp e); cbn; intuition congruence. Qed.
  Lemma ins_In n e : In e (p_ins P n) <-> In e (all_edges mp st) /\ ce_sink e = n.
  Proof. cbn [p_ins program]. rewrite in_app_iff, !filter_In. destruct (Z.eqb_spec (ce_sink e) n), (stays mp e); cbn; intuition congruence. Qed.
  Lemma split_perm {A} (p q : A -> bool) l : Permutation (filter (fun x => p x && q x) l ++ filter (fun x => p x && negb (q x)) l) (filter p l).
  Proof.
    induction l as [|x l IH]; cbn [filter app]; [constructor|]. destruct (p x), (q x); cbn [andb negb app]; [constructor; exact IH| |exact IH|exact IH].
    etransitivity; [symmetry; apply Permutation_middle|]. constructor. exact IH.
  Qed.
  Lemma outs_perm n : Permutation (p_outs P n) (filter (fun e => ce_src e =? n) (all_edges mp st)).
  Proof. cbn [p_outs program]. apply (split_perm (fun e => ce_src e =? n)). Qed.
  Lemma ins_perm n : Permutation (p_ins P n) (filter (fun e => ce_sink e =? n) (all_edges mp st)).
  Proof. cbn [p_ins program]. apply (split_perm (fun e => ce_sink e =? n)). Qed.

  (** Executed blocks. *)
  Lemma weight_pos n e : In e (p_outs P n) \/ In e (p_ins P n) -> 0 <= ce_weight e.
  Proof. intros [H|H]; [apply outs_In in H as [H _]|apply ins_In in H as [H _]]; apply edge_facts in H as [H _]; exact H. Qed.
  Lemma freq_zero n : (forall e, In e (p_outs P n) \/ In e (p_ins P n) -> ce_weight e = 0) -> frequency P n = 0.
  Proof.
    intros H. assert (Z0 : forall l, (forall x, In x l -> x = 0) -> maxz l = 0 /\ sumz l = 0).
    { induction l as [|x l IH]; intros Hl; [split; reflexivity|]. destruct (IH (fun y Hy => Hl y (or_intror Hy))) as [A1 A2]. cbn [maxz sumz fold_right]. fold (maxz l) (sumz l). rewrite (Hl x (or_introl eq_refl)). lia. }
    unfold frequency.
    assert (ZO : forall p, maxz (map ce_weight (filter p (p_outs P n))) = 0 /\ sumz (map ce_weight (filter p (p_outs P n))) = 0).
    { intros p. apply Z0. intros x Hx. apply in_map_iff in Hx as [e [<- He]]. apply filter_In in He as [He _]. apply H. left. exact He. }
    assert (ZI : forall p, maxz (map ce_weight (filter p (p_ins P n))) = 0 /\ sumz (map ce_weight (filter p (p_ins P n))) = 0).
    { intros p. apply Z0. intros x Hx. apply in_map_iff in Hx as [e [<- He]]. apply filter_In in He as [He _]. apply H. right. exact He. }
    destruct (ZO is_call) as [A1 _], (ZI is_return) as [A2 _], (ZO (fun e => negb (is_call e))) as [_ A3], (ZI (fun e => negb (is_return e))) as [_ A4].
    rewrite A1, A2, A3, A4. reflexivity.
  Qed.
  Lemma freq_bound n : 0 <= frequency P n <= sumf ce_weight (filter (fun e => ce_src e =? n) (all_edges mp st)) + sumf ce_weight (filter (fun e => ce_sink e =? n) (all_edges mp st)).
  Proof.
    split; [apply frequency_nonneg|]. rewrite <- (sumf_perm _ _ _ (outs_perm n)), <- (sumf_perm _ _ _ (ins_perm n)). unfold frequency.
    assert (WO : forall e, In e (p_outs P n) -> 0 <= ce_weight e) by (intros e He; apply (weight_pos n); auto).
    assert (WI : forall e, In e (p_ins P n) -> 0 <= ce_weight e) by (intros e He; apply (weight_pos n); auto).
    assert (GO : forall p, maxz (map ce_weight (filter p (p_outs P n))) <= sumf ce_weight (p_outs P n) /\ sumz (map ce_weight (filter p (p_outs P n))) <= sumf ce_weight (p_outs P n)).
    { intros p. pose proof (sumf_sub ce_weight p (p_outs P n) WO) as X. unfold sumf in X at 1.
      destruct (maxz_le_sumz (map ce_weight (filter p (p_outs P n)))) as [Y _]; [|lia]. intros x Hx. apply in_map_iff in Hx as [e [<- He]]. apply filter_In in He as [He _]. auto. }
    assert (GI : forall p, maxz (map ce_weight (filter p (p_ins P n))) <= sumf ce_weight (p_ins P n) /\ sumz (map ce_weight (filter p (p_ins P n))) <= sumf ce_weight (p_ins P n)).
    { intros p. pose proof (sumf_sub ce_weight p (p_ins P n) WI) as X. unfold sumf in X at 1.
      destruct (maxz_le_sumz (map ce_weight (filter p (p_ins P n)))) as [Y _]; [|lia]. intros x Hx. apply in_map_iff in Hx as [e [<- He]]. apply filter_In in He as [He _]. auto. }
    pose proof (sumf_nonneg ce_weight _ WO). pose proof (sumf_nonneg ce_weight _ WI).
    destruct (GO is_call), (GI is_return), (GO (fun e => negb (is_call e))), (GI (fun e => negb (is_return e))). lia.
  Qed.
  Lemma freq_executed i : (i < blk_count mp)%nat -> (frequency P (Z.of_nat i) <> 0 <-> executed mp branches falls i).
  Proof.
    intros Hi. assert (HO : forall n e, In e (p_outs P n) -> ce_src e = n /\ 0 <= ce_weight e /\ In e (p_ins P (ce_sink e))).
    { intros n e He. apply outs_In in He as [He E]. split; [exact E|]. split; [apply edge_facts; exact He|]. apply ins_In. auto. }
    assert (HI : forall n e, In e (p_ins P n) -> ce_sink e = n /\ 0 <= ce_weight e /\ In e (p_outs P (ce_src e))).
    { intros n e He. apply ins_In in He as [He E]. split; [exact E|]. split; [apply edge_facts; exact He|]. apply outs_In. auto. }
    split.
    - intros F. destruct (existsb (fun e => negb (ce_weight e =? 0)) (p_outs P (Z.of_nat i) ++ p_ins P (Z.of_nat i))) eqn:X.
      + apply existsb_exists in X as [e [He X]]. apply in_app_iff in He. assert (W : ce_weight e <> 0) by lia. clear X F. destruct He as [He|He].
        * apply outs_In in He as [He E]. apply edge_facts in He as [_ [a [b [Ha [Hb [E1 [E2 [E3 _]]]]]]]]. exists b. split; [exact Hb|]. left. assert (a = i) by lia. subst a. congruence.
        * apply ins_In in He as [He E]. apply edge_facts in He as [_ [a [b [Ha [Hb [E1 [E2 [E3 _]]]]]]]]. exists a. split; [exact Ha|]. right. assert (b = i) by lia. subst b. congruence.
      + exfalso. apply F. apply freq_zero. intros e He. apply in_app_iff in He. destruct (Z.eq_dec (ce_weight e) 0); [assumption|]. exfalso. enough (true = false) by discriminate. rewrite <- X. symmetry. apply existsb_exists. exists e. split; [exact He|lia].
    - intros [j [Hj [N|N]]].
      + destruct (edges_exist mp dbg has _ _ branches falls st BO (sg_falls _ SG) CO CE i j Hi Hj N) as [kd H].
        apply (ChainInitProofs.freq_out P HO HI _ (CEdge (Z.of_nat i) (Z.of_nat j) (EXP i j) (kind_of_edge kd))); [|exact N]. apply outs_In. split; [|reflexivity]. apply all_edges_In. exists i, j, kd. auto.
      + destruct (edges_exist mp dbg has _ _ branches falls st BO (sg_falls _ SG) CO CE j i Hj Hi N) as [kd H].
        apply (ChainInitProofs.freq_in P HO HI _ (CEdge (Z.of_nat j) (Z.of_nat i) (EXP j i) (kind_of_edge kd))); [|exact N]. apply ins_In. split; [|reflexivity]. apply all_edges_In. exists j, i, kd. auto.
  Qed.
  Lemma kept_In f : In f (kept B S mp st) <-> hot_function mp branches falls f.
  Proof.
    unfold kept. rewrite filter_In. split.
    - intros [_ X]. apply existsb_exists in X as [n [Hn X]]. apply nodes_of_In in Hn as [i [Hi [-> E]]]. exists i. split; [exact Hi|]. split; [exact E|]. apply (freq_executed i Hi). lia.
    - intros [i [Hi [E X]]]. split; [subst f; exact (proj1 (proj1 (shape_In _ _ _ SH _) (blk_In mp i Hi)))|]. apply existsb_exists. exists (Z.of_nat i). split; [apply nodes_of_In; eauto|]. apply (freq_executed i Hi) in X. lia.
  Qed.
  Lemma kept_selected f : In f (kept B S mp st) -> In f (mp_selected mp). Proof. intros H. apply filter_In in H as [H _]. exact H. Qed.
End Graph.
