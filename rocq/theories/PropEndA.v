(** Proofs about the Propeller run: the edges as the layout sees them. *)
From Coq Require Import Sorted Permutation.
From Verif Require Import Base ISort StdSearch SymbolModel SymbolProofs MapperModel MapperSpec MapperProofs MapperProps
  CfgFreqModel CfgBuildModel CfgBuildSpec CfgBuildProofs CfgBuildTotal CfgBuildProps.
From Verif Require Import ForcedModel ChainModel ChainBuildModel ClusterModel LayoutModel WriterModel PropEndModel PropEndSpec PropEndProofs.

Lemma index_of_In h l : In h l -> (index_of h l < length l)%nat /\ nth (index_of h l) l no_handle = h.
Proof.
  induction l as [|x l IH]; [intros []|]. cbn [index_of length nth]. destruct (handle_eqb_spec x h) as [->|N]; [intros _; split; [lia|reflexivity]|].
  intros [H|H]; [contradiction|]. destruct (IH H). split; [lia|assumption].
Qed.

Lemma filter_none {A} (p : A -> bool) l : (forall x, p x = false) -> filter p l = [].
Proof. intros H. induction l as [|x l IH]; [reflexivity|]. cbn [filter]. rewrite H. exact IH. Qed.

Section Edges.
  Context (fs : list func_map) (im : info_map) (mp : mapper).
  Hypothesis SH : shape fs im mp.
  Hypothesis FIRST : forall f, (f < length fs)%nat -> be_offset (ent fs f 0) = 0.
  Lemma index_blk i : (i < blk_count mp)%nat -> index_of (blk_handle mp i) (mp_handles mp) = i.
  Proof.
    intros H. destruct (index_of_In _ _ (blk_In mp i H)) as [A1 A2]. apply (blk_inj fs im mp SH); [exact A1|exact H|exact A2].
  Qed.
  Context (dbg : bool) (has : bb_handle -> bool) (order : list ((nat * nat) * Z) -> list ((nat * nat) * Z)) (reject : Z -> Z -> Z -> Z -> bool)
    (branches falls : list counter) (st : CfgBuildModel.cstate).
  Hypothesis HAS : forall h, has h = true <-> In h (mp_handles mp).
  Hypothesis BO : builder_ok mp has.
  Hypothesis OR : any_order order.
  Hypothesis CO : counts_ok branches falls.
  Hypothesis CE : CreateEdges dbg [] has mp order reject branches falls = Ok (Some st).
  Notation EXP := (expected_weight mp branches falls).

  Lemma edges_nodup : NoDup (akeys (cs_edges st)).
  Proof. exact (proj1 (C36_one_edge_and_totals _ _ _ _ _ _ _ _ _ BO OR CO CE)). Qed.
  Lemma edges_In k w kd : In (k, (w, kd)) (cs_edges st) -> exists a b, (a < blk_count mp)%nat /\ (b < blk_count mp)%nat /\
    k = (blk_handle mp a, blk_handle mp b) /\ w = EXP a b /\
    (kd = KBranchOrFallthrough -> blk_func mp a = blk_func mp b /\ bh_bb (blk_handle mp b) <> 0%nat).
  Proof.
    intros H. destruct (create_keys dbg [] has mp (fun h Hh => proj1 (HAS h) Hh) _ _ _ _ _ CE k (in_map fst _ _ H)) as [K1 K2].
    apply In_blk in K1 as [a [Ha Ea]]. apply In_blk in K2 as [b [Hb Eb]]. exists a, b. split; [exact Ha|]. split; [exact Hb|].
    assert (Ek : k = (blk_handle mp a, blk_handle mp b)) by (destruct k; cbn [fst snd] in *; congruence). split; [exact Ek|]. subst k. split.
    - rewrite <- (C36_weights _ _ _ _ _ _ _ _ _ BO OR CO CE a b Ha Hb). unfold edge_weight. rewrite (aget_NoDup_In ekey_eqb ekey_eqb_spec _ _ _ edges_nodup H). reflexivity.
    - intros ->. destruct (C36_kind _ _ _ _ _ _ _ _ _ _ _ _ _ BO OR CO CE Ha Hb H) as [[c [_ [E1 E2]]]|[_ [-> [f [t [X1 [X2 X3]]]]]]].
      + exact (branch_local fs im mp SH FIRST c a b E1 E2).
      + apply (path_local fs im mp SH FIRST a f t X1 X2 X3).
  Qed.
  Lemma edges_exist a b : (a < blk_count mp)%nat -> (b < blk_count mp)%nat -> EXP a b <> 0 -> exists kd, In ((blk_handle mp a, blk_handle mp b), (EXP a b, kd)) (cs_edges st).
  Proof.
    intros Ha Hb N. rewrite <- (C36_weights _ _ _ _ _ _ _ _ _ BO OR CO CE a b Ha Hb) in *. unfold edge_weight in *.
    destruct (aget ekey_eqb _ (cs_edges st)) as [[w kd]|] eqn:E; [|congruence]. exists kd. apply (aget_In ekey_eqb ekey_eqb_spec) in E. exact E.
  Qed.
  Lemma sum_if_nonneg P cs : (forall c, In c cs -> 0 <= snd c) -> 0 <= sum_if P cs.
  Proof. induction cs as [|c cs IH]; intros H; cbn [sum_if]; [lia|]. pose proof (H c (or_introl eq_refl)). specialize (IH (fun x Hx => H x (or_intror Hx))). destruct (P c); lia. Qed.
  Lemma counts_b c : In c branches -> 0 <= snd c. Proof. intros H. apply (proj1 CO). apply in_or_app. auto. Qed.
  Lemma counts_f c : In c falls -> 0 <= snd c. Proof. intros H. apply (proj1 CO). apply in_or_app. auto. Qed.
  Lemma expected_nonneg a b : 0 <= EXP a b.
  Proof.
    unfold expected_weight. pose proof (sum_if_nonneg (fun c => is_pair a b (branch_ends mp c)) branches counts_b).
    pose proof (sum_if_nonneg (fun c => passes mp a (implied_path mp c)) branches counts_b). pose proof (sum_if_nonneg (fun c => passes mp a (sampled_path mp c)) falls counts_f).
    destruct (b =? S a)%nat; lia.
  Qed.

  (** The total weight. *)
  Definition pairs : list (nat * nat) := map (fun k => (index_of (fst k) (mp_handles mp), index_of (snd k) (mp_handles mp))) (akeys (cs_edges st)).
  Lemma pairs_nodup : NoDup pairs.
  Proof.
    unfold pairs. assert (G : forall k, In k (akeys (cs_edges st)) -> In (fst k) (mp_handles mp) /\ In (snd k) (mp_handles mp)) by exact (create_keys dbg [] has mp (fun h Hh => proj1 (HAS h) Hh) _ _ _ _ _ CE).
    pose proof edges_nodup as N. induction (akeys (cs_edges st)) as [|k ks IH]; cbn [map]; [constructor|]. inversion N as [|? ? N1 N2]; subst. constructor; [|apply IH; [intros; apply G; right; assumption|exact N2]].
    intros H. apply in_map_iff in H as [k' [E Hk']]. injection E as E1 E2. apply N1. destruct (G k (or_introl eq_refl)) as [A1 A2]. destruct (G k' (or_intror Hk')) as [B1 B2].
    apply index_of_In in A1, A2, B1, B2. assert (k' = k); [|congruence]. destruct k as [k1 k2], k' as [k1' k2']. cbn [fst snd] in *. f_equal; [rewrite <- (proj2 A1), <- (proj2 B1), E1|rewrite <- (proj2 A2), <- (proj2 B2), E2]; reflexivity.
  Qed.
  Lemma total_pairs : total_weight st = fold_right (fun k s => EXP (fst k) (snd k) + s) 0 pairs.
  Proof.
    unfold total_weight, pairs, akeys. assert (G : forall k w kd, In (k, (w, kd)) (cs_edges st) -> w = EXP (index_of (fst k) (mp_handles mp)) (index_of (snd k) (mp_handles mp))).
    { intros k w kd H. destruct (edges_In k w kd H) as [a [b [Ha [Hb [-> [E _]]]]]]. cbn [fst snd]. rewrite !index_blk by assumption. exact E. }
    induction (cs_edges st) as [|[k [w kd]] es IH]; cbn [map fold_right fst snd]; [reflexivity|]. rewrite IH by (intros; eapply G; right; eassumption). rewrite (G k w kd (or_introl eq_refl)). reflexivity.
  Qed.
  Lemma path_count (p : option (nat * nat)) :
    zlen (filter (fun k => (snd k =? S (fst k))%nat && passes mp (fst k) p) pairs) <= match p with Some (f, t) => Z.of_nat (t - f) | None => 0 end.
  Proof.
    destruct p as [[f t]|].
    - replace (Z.of_nat (t - f)) with (zlen (map (fun a => (a, S a)) (seq f (t - f)))) by (unfold zlen; rewrite map_length, seq_length; reflexivity).
      apply incl_zlen; [apply NoDup_filter, pairs_nodup|]. intros [a b] H. apply filter_In in H as [_ H]. cbn [fst snd passes] in H. apply andb_prop in H as [H1 H2]. apply andb_prop in H2 as [H2 _]. apply andb_prop in H2 as [H2 H3].
      apply in_map_iff. exists a. split; [f_equal; lia|]. apply in_seq. lia.
    - cbn [passes]. replace (filter _ pairs) with (@nil (nat * nat)); [unfold zlen; cbn; lia|]. symmetry. induction pairs as [|k ks IH]; [reflexivity|]. cbn [filter]. rewrite andb_false_r. exact IH.
  Qed.
  Lemma total_le : total_weight st <= transitions mp branches falls.
  Proof.
    rewrite total_pairs.
    assert (E : fold_right (fun k s => EXP (fst k) (snd k) + s) 0 pairs =
      fold_right (fun k s => sum_if (fun c => is_pair (fst k) (snd k) (branch_ends mp c)) branches + s) 0 pairs +
      (fold_right (fun k s => sum_if (fun c => (snd k =? S (fst k))%nat && passes mp (fst k) (implied_path mp c)) branches + s) 0 pairs +
       fold_right (fun k s => sum_if (fun c => (snd k =? S (fst k))%nat && passes mp (fst k) (sampled_path mp c)) falls + s) 0 pairs)).
    { assert (Z0 : forall cs, sum_if (fun _ => false) cs = 0) by (induction cs as [|c cs IH]; cbn [sum_if]; lia).
      induction pairs as [|[a b] ks IH]; cbn [fold_right fst snd]; [reflexivity|]. rewrite IH. unfold expected_weight. destruct (b =? S a)%nat; cbn [andb]; [lia|]. rewrite !Z0. lia. }
    rewrite E.
    pose proof (count_swap (fun k c => is_pair (fst k) (snd k) (branch_ends mp c)) (fun _ => 1) pairs branches counts_b) as C1.
    pose proof (count_swap (fun k c => (snd k =? S (fst k))%nat && passes mp (fst k) (implied_path mp c)) (fun _ => 1) pairs branches counts_b) as C2.
    pose proof (count_swap (fun k c => (snd k =? S (fst k))%nat && passes mp (fst k) (sampled_path mp c)) (passed mp) pairs falls counts_f) as C3.
    assert (D1 : forall c, In c branches -> zlen (filter (fun k => is_pair (fst k) (snd k) (branch_ends mp c)) pairs) <= 1).
    { intros c _. destruct (branch_ends mp c) as [[i j]|].
      - change 1 with (zlen [(i, j)]). apply incl_zlen; [apply NoDup_filter, pairs_nodup|]. intros [a b] H. apply filter_In in H as [_ H]. cbn [fst snd is_pair] in H. left. f_equal; lia.
      - rewrite filter_none by reflexivity. unfold zlen; cbn; lia. }
    specialize (C1 D1).
    assert (D2 : forall c, In c branches -> zlen (filter (fun k => (snd k =? S (fst k))%nat && passes mp (fst k) (implied_path mp c)) pairs) <= 1).
    { intros [[x y] w] _. etransitivity; [apply path_count|]. unfold implied_path. destruct (block_of mp y DTo) as [j|]; [|lia]. destruct (returns_behind_call mp x y j); lia. }
    specialize (C2 D2). specialize (C3 (fun c _ => path_count (sampled_path mp c))).
    unfold transitions.
    assert (F1 : fold_right (fun c s => snd c * 1 + s) 0 branches + fold_right (fun c s => snd c * 1 + s) 0 branches = fold_right (fun c s => 2 * snd c + s) 0 branches).
    { clear. induction branches as [|c cs IH]; cbn [fold_right]; lia. }
    assert (F2 : fold_right (fun c s => snd c * passed mp c + s) 0 falls <= fold_right (fun c s => snd c * (1 + passed mp c) + s) 0 falls).
    { pose proof counts_f as CF. clear - CF. induction falls as [|c cs IH]; cbn [fold_right]; [lia|]. specialize (IH (fun x Hx => CF x (or_intror Hx))). specialize (CF c (or_introl eq_refl)). lia. }
    cbv beta in C1, C2, C3. change (fun c => match sampled_path mp c with Some (i, j) => Z.of_nat (j - i) | None => 0 end) with (passed mp) in *. lia.
  Qed.
End Edges.
