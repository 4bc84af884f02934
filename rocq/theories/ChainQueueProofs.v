(** The queue of assemblies and the merge of two chains by the builder. *)
From Verif Require Import Base ISort ForcedModel ChainModel ChainSpec ChainAsmProofs ChainEdgeProofs ChainConsumeProofs ChainMergeProofs ChainMergeWfProofs ChainStepProofs ChainScoreProofs ChainBuildModel ChainEdgeInitProofs.

(** * Things that depend on the bundles only *)
Lemma sl_bundles_ext cs cu cs' cu' s : c_bundles cs' = c_bundles cs -> c_bundles cu' = c_bundles cu -> sl_bundles cs' cu' s = sl_bundles cs cu s.
Proof. intros A B. unfold sl_bundles, sl_chain. destruct (sl_split s); rewrite ?A, ?B; reflexivity. Qed.
Lemma slices_ext cs cu cs' cu' o p : c_bundles cs' = c_bundles cs -> c_bundles cu' = c_bundles cu -> ConstructSlices cs' cu' o p = ConstructSlices cs cu o p.
Proof. intros A B. unfold ConstructSlices. rewrite A, B. reflexivity. Qed.
Lemma asm_nodes_ext cs cu cs' cu' sls : c_bundles cs' = c_bundles cs -> c_bundles cu' = c_bundles cu -> asm_nodes cs' cu' sls = asm_nodes cs cu sls.
Proof. intros A B. unfold asm_nodes, asm_bundles. f_equal. apply flat_map_ext_eq. intros s. apply sl_bundles_ext; assumption. Qed.
Lemma gain_ext E EV cs cu cs' cu' o p : c_bundles cs' = c_bundles cs -> c_bundles cu' = c_bundles cu -> exact_gain E cs' cu' EV o p = exact_gain E cs cu EV o p.
Proof. intros A B. unfold exact_gain. rewrite (slices_ext cs cu cs' cu') by assumption. rewrite (asm_nodes_ext cs cu cs' cu') by assumption. unfold chain_nodes. rewrite A, B. reflexivity. Qed.

(** * First and last blocks *)
Lemma hd_app (l k : list Z) : l <> [] -> hd 0 (l ++ k) = hd 0 l. Proof. destruct l; [congruence|reflexivity]. Qed.
Lemma bundle_nonempty E c b : chain_ok E c -> In b (c_bundles c) -> b_nodes b <> [].
Proof. intros [B _] H. apply bundles_ok_sane in B. rewrite Forall_forall in B. apply (B b H). Qed.
Lemma first_node_hd E c : chain_ok E c -> first_node c = hd 0 (chain_nodes c).
Proof.
  intros O. unfold first_node, chain_nodes. pose proof (bundle_nonempty E c) as N. destruct (c_bundles c) as [|b bs]; [reflexivity|]. cbn [flat_map].
  rewrite hd_app; [reflexivity|]. apply N; [exact O|left; reflexivity].
Qed.
Lemma chain_first E c : chain_ok E c -> exists b bs n ns, c_bundles c = b :: bs /\ b_nodes b = n :: ns.
Proof.
  intros O. assert (N := fun b => bundle_nonempty E c b O). destruct O as [_ [NB _]]. destruct (c_bundles c) as [|b bs]; [congruence|].
  specialize (N b (or_introl eq_refl)). destruct (b_nodes b) as [|n ns] eqn:Q; [congruence|]. exists b, bs, n, ns. auto.
Qed.
Lemma first_node_In E c : chain_ok E c -> In (first_node c) (chain_nodes c).
Proof.
  intros O. destruct (chain_first E c O) as [b [bs [n [ns [Q1 Q2]]]]]. unfold first_node, chain_nodes. rewrite Q1. cbn [flat_map]. rewrite Q2. left. reflexivity.
Qed.
Lemma last_In (l : list Z) : l <> [] -> In (last l 0) l.
Proof. destruct l as [|x l] using rev_ind; [congruence|]. rewrite last_last. intros _. apply in_app_iff. right. left. reflexivity. Qed.
Lemma last_node_In E c : chain_ok E c -> In (last_node c) (chain_nodes c).
Proof.
  intros O. unfold last_node, chain_nodes. destruct (rev (c_bundles c)) as [|b bs] eqn:Q.
  - destruct (chain_first E c O) as [b [bs [n [ns [Q1 _]]]]]. rewrite Q1 in Q. cbn [rev] in Q. destruct (rev bs); discriminate.
  - assert (H : In b (c_bundles c)) by (apply in_rev; rewrite Q; left; reflexivity). apply in_flat_map. exists b. split; [exact H|]. apply last_In. eapply bundle_nonempty; eassumption.
Qed.
Lemma asm_first E cs cu o p : chain_ok E cs -> chain_ok E cu -> valid_cut cs o p -> (forall n, 0 <= e_size E n) ->
  asm_first_node cs cu (ConstructSlices cs cu o p) = hd 0 (asm_nodes cs cu (ConstructSlices cs cu o p)).
Proof.
  intros Os Ou V SZ.
  assert (X : exists s sls, ConstructSlices cs cu o p = s :: sls) by (unfold ConstructSlices; destruct o; eauto). destruct X as [s [sls X]].
  assert (H : exists b bs, sl_bundles cs cu s = b :: bs /\ b_nodes b <> []).
  { assert (GS : good_slice cs cu s).
    { eapply (good_slices E); try eassumption. rewrite X. left. reflexivity. }
    unfold good_slice in GS. unfold sl_bundles. assert (L : length (firstn (sl_end s - sl_begin s) (skipn (sl_begin s) (c_bundles (sl_chain cs cu s)))) = (sl_end s - sl_begin s)%nat).
    { rewrite firstn_length, skipn_length. lia. }
    destruct (firstn _ _) as [|b bs] eqn:F; [cbn in L; lia|]. exists b, bs. split; [reflexivity|].
    assert (HB : In b (c_bundles (sl_chain cs cu s))).
    { rewrite <- (firstn_skipn (sl_begin s)). apply in_app_iff. right. rewrite <- (firstn_skipn (sl_end s - sl_begin s)). apply in_app_iff. left. rewrite F. left. reflexivity. }
    eapply (bundle_nonempty E); [|exact HB]. unfold sl_chain. destruct (sl_split s); assumption. }
  destruct H as [b [bs [H1 H2]]]. rewrite X. unfold asm_first_node, asm_nodes, asm_bundles. cbn [flat_map]. rewrite H1. cbn [app flat_map]. rewrite hd_app by exact H2. reflexivity.
Qed.

(** * Building an assembly *)
(** The block an assembly starts with is an entry if one of the chains starts with one. *)
Definition entry_kept (E : env) (cs cu : chain) (L : list Z) : Prop :=
  e_ifr E = false -> e_entry E (hd 0 (chain_nodes cs)) || e_entry E (hd 0 (chain_nodes cu)) = true -> e_entry E (hd 0 L) = true.
Record asm_for (E : env) (EV : list cedge) (srt : Prop) (cs cu : chain) (a : assembly) : Prop := AsmFor {
  af_cut : valid_cut cs (a_order a) (a_pos a);
  af_split : a_split a = c_id cs;
  af_unsplit : a_unsplit a = c_id cu;
  af_slices : a_slices a = ConstructSlices cs cu (a_order a) (a_pos a);
  af_nonneg : 0 <= a_gain a;
  af_exact : srt -> a_gain a = exact_gain E cs cu EV (a_order a) (a_pos a);
  af_entry : entry_kept E cs cu (asm_nodes cs cu (a_slices a)) }.
Lemma asm_for_eta a : a = Assembly (a_split a) (a_unsplit a) (a_order a) (a_pos a) (a_slices a) (a_gain a). Proof. destruct a; reflexivity. Qed.

Section Build.
  Context (E : env) (EV : list cedge) (st : state) (W : wf E EV st) (SZ : forall n, 0 <= e_size E n) (cs cu : chain)
          (Hs : In cs (s_chains st)) (Hu : In cu (s_chains st)) (NE : c_id cs <> c_id cu).
  Lemma two_nodup : NoDup (chain_nodes cs ++ chain_nodes cu).
  Proof.
    pose proof (two_out _ _ _ (w_ids _ _ _ W) Hs Hu NE) as X. pose proof (Permutation_NoDup (Permutation_flat_map chain_nodes _ _ X) (w_nodes _ _ _ W)) as Y.
    cbn [flat_map] in Y. rewrite app_assoc in Y. apply NoDup_app_inv in Y. tauto.
  Qed.
  Lemma chain_bids c : In c (s_chains st) -> NoDup (map b_id (c_bundles c)).
  Proof.
    intros Hc. pose proof (w_bids _ _ _ W) as X. unfold all_bundles in X. clear - X Hc. induction (s_chains st) as [|y l IH]; [destruct Hc|].
    cbn [flat_map] in X. rewrite map_app in X. apply NoDup_app_inv in X as [X1 [X2 _]]. destruct Hc as [->|Hc]; auto.
  Qed.
  Lemma gain_any o p : valid_cut cs o p -> exists g, ComputeScoreGain E (loc st) cs cu o p (ConstructSlices cs cu o p) = Ok g /\
    (sorted_chain st cs -> g = exact_gain E cs cu EV o p \/ g = 0 /\ o <> kSU) /\
    (o = kSU -> g = exact_gain E cs cu EV o p /\ ((forall e x, In e EV -> 0 <= e_score E e x) -> 0 <= g)).
  Proof.
    intros V. destruct (gain_total E (loc st) cs cu SZ (w_chain _ _ _ W cs Hs) (w_chain _ _ _ W cu Hu) (loc_found E EV st cs W Hs) (loc_found E EV st cu W Hu) two_nodup NE EV
      (w_out _ _ _ W cs cu Hs Hu NE) (w_out _ _ _ W cu cs Hu Hs (fun q => NE (eq_sym q))) (intra_apart E EV st cs W Hs) o p V) as [g G].
    assert (SRC : forall b e, In b (c_bundles cs) -> In e (b_edges b) -> In (ce_src e) (b_nodes b)) by (intros b e Hb He; apply (w_src _ _ _ W b e); [apply in_flat_map; eauto|exact He]).
    exists g. split; [exact G|]. split.
    - intros SO. destruct (gain_ok E (loc st) cs cu SZ (w_chain _ _ _ W cs Hs) (w_chain _ _ _ W cu Hu) (loc_found E EV st cs W Hs) (loc_found E EV st cu W Hu) two_nodup NE EV
        (w_out _ _ _ W cs cu Hs Hu NE) (w_out _ _ _ W cu cs Hu Hs (fun q => NE (eq_sym q))) (intra_apart E EV st cs W Hs) SRC (chain_bids cs Hs) SO o p V) as [g' [G' X]].
      rewrite G in G'. injection G' as <-. exact X.
    - intros O. destruct (gain_su E (loc st) cs cu SZ (w_chain _ _ _ W cs Hs) (w_chain _ _ _ W cu Hu) (loc_found E EV st cs W Hs) (loc_found E EV st cu W Hu) two_nodup NE EV
        (w_out _ _ _ W cs cu Hs Hu NE) (w_out _ _ _ W cu cs Hu Hs (fun q => NE (eq_sym q))) (intra_apart E EV st cs W Hs) SRC (chain_bids cs Hs) o p V O) as [G' X].
      rewrite G in G'. injection G' as ->. split; [reflexivity|]. intros NN. rewrite X.
      assert (Y : forall q, 0 <= sumf (newsc E cs cu o p) (filter q EV)).
      { intros q. clear - NN. induction EV as [|e l IH]; [reflexivity|]. cbn [filter]. assert (0 <= sumf (newsc E cs cu o p) (filter q l)) by (apply IH; intros; apply NN; right; assumption).
        destruct (q e); [|assumption]. rewrite sumf_cons. pose proof (NN e (dist (e_size E) (asm_nodes cs cu (ConstructSlices cs cu o p)) e) (or_introl eq_refl)). unfold newsc at 1. lia. }
      pose proof (Y (from_to (chain_nodes cs) (chain_nodes cu))). pose proof (Y (from_to (chain_nodes cu) (chain_nodes cs))). lia.
  Qed.
  Lemma build_ok o p z (srt : Prop) : valid_cut cs o p -> (srt -> sorted_chain st cs) -> z = true \/ o = kSU ->
    exists r, BuildNodeChainAssembly E (loc st) cs cu o p z = Ok r /\
      (forall a, r = Some a -> asm_for E EV srt cs cu a) /\
      (o = kSU -> z = false -> (forall e x, In e EV -> 0 <= e_score E e x) ->
        (e_ifr E = false -> e_entry E (hd 0 (chain_nodes cu)) = true -> e_entry E (hd 0 (chain_nodes cs)) = true) -> exists a, r = Some a /\ a_order a = kSU).
  Proof.
    intros V SO ZO. unfold BuildNodeChainAssembly. destruct (Z.eqb_spec (c_id cs) (c_id cu)) as [|_]; [congruence|].
    assert (VB : match o, p with
            | kSU, None => false
            | kSU, Some _ => true
            | _, None => true
            | _, Some p => negb ((p <? zlen (c_bundles cs)) && (p >? 0))
            end = false).
    { unfold valid_cut in V. destruct o, p as [p|]; try contradiction; try reflexivity; apply negb_false_iff; lia. }
    rewrite VB. destruct (gain_any o p V) as [g [-> [X1 X2]]]. cbn [obind].
    rewrite (asm_first E cs cu o p (w_chain _ _ _ W cs Hs) (w_chain _ _ _ W cu Hu) V SZ), (first_node_hd E cs (w_chain _ _ _ W cs Hs)), (first_node_hd E cu (w_chain _ _ _ W cu Hu)).
    set (L := asm_nodes cs cu (ConstructSlices cs cu o p)). set (ec := negb (e_ifr E) && _ && _).
    exists (if ec then None else if g <? 0 then None else if (g =? 0) && z then None else Some (Assembly (c_id cs) (c_id cu) o p (ConstructSlices cs cu o p) g)).
    split; [destruct ec, (g <? 0), ((g =? 0) && z); reflexivity|]. split.
    - intros a. destruct ec eqn:EC; [discriminate|]. destruct (Z.ltb_spec g 0); [discriminate|]. destruct ((g =? 0) && z) eqn:GZ; [discriminate|]. intros Q. injection Q as <-.
      constructor; cbn [a_split a_unsplit a_order a_pos a_slices a_gain]; auto.
      + intros S. destruct (X1 (SO S)) as [Q|[Q1 Q2]]; [exact Q|]. destruct ZO as [-> | Q]; [|congruence]. rewrite Q1 in GZ. discriminate.
      + fold L. intros I F. unfold ec in EC. rewrite I, F in EC. cbn [negb andb] in EC. apply negb_false_iff in EC. exact EC.
    - intros O ZF NN EF. destruct (X2 O) as [_ Y]. specialize (Y NN). rewrite ZF, andb_false_r.
      assert (EC : ec = false).
      { unfold ec. destruct (e_ifr E) eqn:I; [reflexivity|]. cbn [negb andb]. destruct (e_entry E (hd 0 (chain_nodes cs)) || e_entry E (hd 0 (chain_nodes cu))) eqn:F; [|reflexivity]. cbn [andb].
        apply negb_false_iff. assert (HL : hd 0 L = hd 0 (chain_nodes cs)).
        { assert (QQ : L = chain_nodes cs ++ chain_nodes cu).
          { unfold L, asm_nodes, asm_bundles, ConstructSlices. rewrite O. cbn [flat_map]. unfold sl_bundles, sl_chain. cbn [sl_split sl_begin sl_end skipn]. rewrite !Nat.sub_0_r, !firstn_all, app_nil_r, flat_map_app. reflexivity. }
          rewrite QQ. apply hd_app. intros N. pose proof (first_node_In E cs (w_chain _ _ _ W cs Hs)) as FI. rewrite N in FI. destruct FI. }
        rewrite HL. apply orb_true_iff in F as [F|F]; [exact F|auto]. }
      rewrite EC. destruct (Z.ltb_spec g 0); [lia|]. eauto.
  Qed.
End Build.

(** * The best assembly of two chains *)
Lemma bundle_index E cid bs b : forall idx off, bundles_ok E cid idx off bs -> In b bs -> b_chain b = cid /\ idx <= b_index b < idx + zlen bs.
Proof.
  intros idx off O H. apply in_split in H as [l1 [l2 ->]]. apply bundles_at in O. unfold zlen in *. rewrite app_length. cbn [length]. lia.
Qed.
Section Best.
  Context (E : env) (EV : list cedge) (st : state) (W : wf E EV st) (SZ : forall n, 0 <= e_size E n)
          (VO : forall n e, In n (all_nodes st) -> In e (e_outs E n) -> e_visit E e = true -> In (ce_sink e) (all_nodes st))
          (VI : forall n e, In n (all_nodes st) -> In e (e_ins E n) -> e_visit E e = true -> In (ce_src e) (all_nodes st))
          (cs cu : chain) (Hs : In cs (s_chains st)) (Hu : In cu (s_chains st)) (NE : c_id cs <> c_id cu)
          (srt : Prop) (SO : srt -> sorted_chain st cs).
  Definition opt_for (r : option assembly) : Prop := forall a, r = Some a -> asm_for E EV srt cs cu a.
  Lemma try_all_ok l : forall best, (forall o k, In (o, k) l -> valid_cut cs o (Some k)) -> opt_for best -> exists r, try_all E st cs cu l best = Ok r /\ opt_for r.
  Proof.
    clear VO VI. induction l as [|[o k] l IH]; intros best V B; cbn [try_all]; [eauto|].
    destruct (build_ok E EV st W SZ cs cu Hs Hu NE o (Some k) true srt) as [r [Q [R _]]]; [apply V; left; reflexivity|exact SO|auto|].
    rewrite Q. cbn [obind]. apply IH; [intros; apply V; right; assumption|]. unfold better. destruct r as [a|]; [|exact B]. destruct best as [b|]; [destruct (asm_ltb b a)|]; assumption.
  Qed.
  Lemma every_cut_ok o k : In (o, k) (every_cut cs) -> valid_cut cs o (Some k).
  Proof.
    clear. unfold every_cut. intros H. apply in_flat_map in H as [o' [HO H]]. apply in_map_iff in H as [i [Q H]]. injection Q as -> <-. apply in_seq in H.
    assert (0 < Z.of_nat i < zlen (c_bundles cs)) by (unfold zlen; lia). destruct HO as [<-|[<-|[<-|[<-|[]]]]]; assumption.
  Qed.
  Lemma cut_at_ok j os o k : 0 <= j <= zlen (c_bundles cs) -> (forall o, In o os -> o <> kSU) -> In (o, k) (cut_at cs j os) -> valid_cut cs o (Some k).
  Proof.
    clear. unfold cut_at. intros B N H. destruct (Z.eqb_spec j 0) as [|N0]; [destruct H|]. destruct (Z.eqb_spec j (zlen (c_bundles cs))) as [|N1]; [destruct H|]. cbn [orb] in H.
    apply in_map_iff in H as [o' [Q H]]. injection Q as -> <-. specialize (N o H). assert (0 < j < zlen (c_bundles cs)) by lia. destruct o; [congruence|assumption..].
  Qed.
  Lemma loc_index n b q : In n (all_nodes st) -> loc st n = Some (b, q) -> b_chain b = c_id cs -> 0 <= b_index b < zlen (c_bundles cs).
  Proof.
    clear VO VI. intros H L C. apply in_flat_map in H as [c [Hc Hn]]. destruct (node_offset_at E EV st c n W Hc Hn) as [b' [q' [B1 [_ [B3 _]]]]]. rewrite L in B3. injection B3 as <- <-.
    destruct (w_chain _ _ _ W c Hc) as [O _]. destruct (bundle_index E _ _ b _ _ O B1) as [X Y].
    assert (c = cs) as <- by (apply (NoDup_cons_In_neq c_id (s_chains st)); auto; [apply (w_ids _ _ _ W)|congruence]). lia.
  Qed.
  Lemma cuts_out_ok es : (forall e, In e es -> e_visit E e = true -> In (ce_sink e) (all_nodes st)) ->
    exists l, cuts_out E st cs es = Ok l /\ forall o k, In (o, k) l -> valid_cut cs o (Some k).
  Proof.
    clear VO VI. induction es as [|e es IH]; intros H; cbn [cuts_out]; [exists []; split; [reflexivity|intros ? ? []]|].
    destruct IH as [l [A B]]; [intros; apply H; [right|]; assumption|]. destruct (e_visit E e) eqn:VE; cbn [negb]; [|eauto].
    assert (HN := H e (or_introl eq_refl) VE). assert (HN' := HN). apply in_flat_map in HN' as [c [Hc Hn]]. destruct (node_offset_at E EV st c _ W Hc Hn) as [b [q [_ [_ [L _]]]]].
    rewrite L, A. cbn [obind]. eexists. split; [reflexivity|]. intros o k HI. apply in_app_iff in HI as [HI|HI]; [|auto].
    destruct (Z.eqb_spec (b_chain b) (c_id cs)) as [C|C]; cbn [andb] in HI; [|destruct HI]. destruct (hd 0 (b_nodes b) =? ce_sink e); [|destruct HI].
    eapply cut_at_ok; [| |exact HI]; [pose proof (loc_index _ _ _ HN L C); lia|]. intros o' [<-|[<-|[]]]; discriminate.
  Qed.
  Lemma cuts_in_ok es : (forall e, In e es -> e_visit E e = true -> In (ce_src e) (all_nodes st)) ->
    exists l, cuts_in E st cs es = Ok l /\ forall o k, In (o, k) l -> valid_cut cs o (Some k).
  Proof.
    clear VO VI. induction es as [|e es IH]; intros H; cbn [cuts_in]; [exists []; split; [reflexivity|intros ? ? []]|].
    destruct IH as [l [A B]]; [intros; apply H; [right|]; assumption|]. destruct (e_visit E e) eqn:VE; cbn [negb]; [|eauto].
    assert (HN := H e (or_introl eq_refl) VE). assert (HN' := HN). apply in_flat_map in HN' as [c [Hc Hn]]. destruct (node_offset_at E EV st c _ W Hc Hn) as [b [q [_ [_ [L _]]]]].
    rewrite L, A. cbn [obind]. eexists. split; [reflexivity|]. intros o k HI. apply in_app_iff in HI as [HI|HI]; [|auto].
    destruct (Z.eqb_spec (b_chain b) (c_id cs)) as [C|C]; cbn [andb] in HI; [|destruct HI]. destruct (last (b_nodes b) 0 =? ce_src e); [|destruct HI].
    eapply cut_at_ok; [| |exact HI]; [pose proof (loc_index _ _ _ HN L C); lia|]. intros o' [<-|[<-|[]]]; discriminate.
  Qed.
  Lemma best_assembly_ok : exists r, best_assembly E st cs cu = Ok r /\ opt_for r.
  Proof.
    unfold best_assembly. destruct (build_ok E EV st W SZ cs cu Hs Hu NE kSU None true srt I SO (or_introl eq_refl)) as [b0 [Q [B0 _]]]. rewrite Q. cbn [obind].
    destruct (e_split E); cbn [negb]; [|eauto]. destruct (zlen (c_bundles cs) <=? e_threshold E); [apply try_all_ok; [intros; apply every_cut_ok; assumption|exact B0]|].
    assert (LU : In (last_node cu) (all_nodes st)) by (apply in_flat_map; exists cu; split; [exact Hu|apply (last_node_In E), (w_chain _ _ _ W cu Hu)]).
    assert (FU : In (first_node cu) (all_nodes st)) by (apply in_flat_map; exists cu; split; [exact Hu|apply (first_node_In E), (w_chain _ _ _ W cu Hu)]).
    destruct (cuts_out_ok (e_outs E (last_node cu)) (fun e He => VO _ e LU He)) as [l1 [A1 B1]].
    destruct (cuts_in_ok (e_ins E (first_node cu)) (fun e He => VI _ e FU He)) as [l2 [A2 B2]]. rewrite A1, A2. cbn [obind].
    apply try_all_ok; [|exact B0]. intros o k H. apply in_app_iff in H as [H|H]; auto.
  Qed.
End Best.
