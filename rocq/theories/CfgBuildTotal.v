(** The CFG builder does not fail on profiles whose counts fit an int. *)
From Verif Require Import Base StdSearch CfgFreqModel SymbolModel MapperModel MapperSpec MapperProofs MapperProps
  CfgBuildModel CfgBuildSpec CfgBuildProofs.
From Coq Require Import Permutation.

Definition bounded (B : Z) (st : cstate) : Prop := forall k, 0 <= edge_weight st k <= B.

Lemma FindBb_release mp a dir : exists r, FindBb false mp a dir = Ok r.
Proof.
  unfold FindBb. destruct (upper_bound _ _); [eauto|]. destruct (_ <? a); [destruct (_ <=? a); eauto|].
  destruct dir; cbn [andb]; eauto.
Qed.

Lemma existsb_app_nil (k : ekey) (m : list (ekey * (Z * edge_kind))) :
  aget ekey_eqb k m = None -> existsb (ekey_eqb k) ([] ++ akeys m) = false.
Proof.
  intros E. cbn [app]. destruct (existsb (ekey_eqb k) (akeys m)) eqn:X; [|reflexivity].
  apply (existsb_eqb_In ekey_eqb ekey_eqb_spec) in X. apply (aget_None_iff ekey_eqb ekey_eqb_spec) in E. contradiction.
Qed.

Lemma ICE_total dbg has mp from to w kd st B k0 :
  bounded B st -> 0 <= w ->
  k0 = (blk_handle mp from, blk_handle mp to) ->
  edge_weight st k0 + w < 2147483648 ->
  exists b st', InternalCreateEdge dbg [] has mp from to w kd st = Ok (b, st') /\
    forall k, edge_weight st' k = edge_weight st k \/ (k = k0 /\ edge_weight st' k = edge_weight st k + w).
Proof.
  intros Hb Hw Ek Hlt. unfold InternalCreateEdge. fold (blk_handle mp from) (blk_handle mp to). cbv zeta. rewrite <- Ek.
  pose proof (Hb k0) as Hk. unfold edge_weight in Hk, Hlt.
  destruct (aget ekey_eqb k0 (cs_edges st)) as [[w0 kd0]|] eqn:E.
  - unfold int_add. replace ((-2147483648 <=? w0 + w) && (w0 + w <=? 2147483647)) with true by lia. cbn [obind].
    eexists _, _. split; [reflexivity|]. intros k. unfold edge_weight. cbn [cs_edges].
    rewrite (aget_aset ekey_eqb ekey_eqb_spec). destruct (ekey_eqb_spec k k0) as [->|]; [|left; reflexivity].
    right. rewrite E. split; [reflexivity|lia].
  - destruct (has (blk_handle mp from) && has (blk_handle mp to)).
    + unfold create_check. rewrite (existsb_app_nil _ _ E). rewrite andb_false_r.
      destruct (bh_func (fst k0) =? bh_func (snd k0))%nat; cbn [negb];
        (eexists _, _; split; [reflexivity|]; intros k; unfold edge_weight; cbn [cs_edges];
         rewrite (aget_aset ekey_eqb ekey_eqb_spec); destruct (ekey_eqb_spec k k0) as [->|]; [|left; reflexivity];
         right; rewrite E; split; [reflexivity|lia]).
    + eexists _, _. split; [reflexivity|]. intros k. left. reflexivity.
Qed.

Lemma sum_if_true_nonneg cs : (forall c, In c cs -> 0 <= snd c) -> 0 <= sum_if (fun _ => true) cs.
Proof.
  induction cs as [|d cs IH]; intros H; cbn [sum_if]; [lia|].
  assert (0 <= snd d) by (apply H; left; reflexivity).
  assert (0 <= sum_if (fun _ => true) cs); [|lia]. apply IH. intros c Hc. apply H. right; exact Hc.
Qed.

Section Total.
  Context (has : bb_handle -> bool) (mp : mapper).
  Hypothesis L : layout_ok mp.
  Hypothesis ND : NoDup (mp_handles mp).

  Lemma branch_loop_total : forall cs st ft dub B,
    (forall c, In c cs -> 0 <= snd c) -> bounded B st ->
    B + sum_if (fun _ => true) cs < 2147483648 -> 0 <= B ->
    exists st' ft' dub', branch_loop false [] has mp cs (st, ft, dub) = Ok (st', ft', dub') /\
      bounded (B + sum_if (fun _ => true) cs) st'.
  Proof.
    induction cs as [|[[bf bt] w] cs IH]; intros st ft dub B Hc Hb HB HB0; cbn [branch_loop sum_if].
    - eexists _, _, _. split; [reflexivity|]. rewrite Z.add_0_r. exact Hb.
    - cbn [sum_if snd] in HB. assert (Hw : 0 <= w) by (apply (Hc (bf, bt, w)); left; reflexivity).
      assert (Hs : 0 <= sum_if (fun _ => true) cs) by (apply sum_if_true_nonneg; intros c Hi; apply Hc; right; exact Hi).
      assert (S1 : exists st1 ft1 dub1, branch_step false [] has mp (bf, bt, w) (st, ft, dub) = Ok (st1, ft1, dub1) /\
                   bounded (B + w) st1).
      { unfold branch_step. destruct (FindBb_release mp bf DFrom) as [from Ef]. destruct (FindBb_release mp bt DTo) as [to Et].
        rewrite Ef, Et. cbn [obind].
        assert (Hbw : bounded (B + w) st) by (intros k; specialize (Hb k); lia).
        destruct to as [j|]; [|eexists _, _, _; split; [reflexivity|exact Hbw]].
        destruct from as [i|]; [|eexists _, _, _; split; [reflexivity|exact Hbw]].
        cbv zeta. rewrite (to_int_id w) by lia.
        match goal with |- context [InternalCreateEdge false [] has mp i ?jj w ?kd st] =>
          destruct (ICE_total false has mp i jj w kd st B _ Hb Hw eq_refl) as [b [st1 [E1 E2]]] end.
        { match goal with |- edge_weight st ?k + w < _ => specialize (Hb k) end. lia. }
        rewrite E1. cbn [obind]. eexists _, _, _. split; [reflexivity|].
        intros k. pose proof (Hb k). destruct (E2 k) as [E|[_ E]]; rewrite E; lia. }
      destruct S1 as [st1 [ft1 [dub1 [E1 Hb1]]]]. rewrite E1. cbn [obind].
      destruct (IH st1 ft1 dub1 (B + w) ltac:(intros c Hi; apply Hc; right; exact Hi) Hb1 ltac:(lia) ltac:(lia)) as [st' [ft' [dub' [E2 Hb2]]]].
      exists st', ft', dub'. split; [exact E2|]. cbn [snd].
      replace (B + (w + sum_if (fun _ => true) cs)) with (B + w + sum_if (fun _ => true) cs) by lia. exact Hb2.
  Qed.

  Lemma ft_map_total cs : forall ft, exists ft', ft_map_loop false mp cs ft = Ok ft'.
  Proof.
    induction cs as [|[[a b] c] cs IH]; intros ft; cbn [ft_map_loop]; [eauto|].
    unfold ft_step. destruct (FindBb_release mp a DTo) as [i ->]. destruct (FindBb_release mp b DFrom) as [j ->].
    cbn [obind]. destruct i; [destruct j|]; cbn [obind]; apply IH.
  Qed.

  Lemma path_loop_total w B : 0 <= w -> 0 <= B -> B + w < 2147483648 ->
    forall n sym st, (sym + n < blk_count mp)%nat ->
    bounded (B + w) st ->
    (forall x, (sym <= x)%nat -> (S x < blk_count mp)%nat -> EW mp st x (S x) <= B) ->
    exists st', path_loop false [] has mp w sym n st = Ok st' /\ bounded (B + w) st'.
  Proof.
    intros Hw HB0 HB. induction n as [|n IH]; intros sym st Hr Hb Hx; cbn [path_loop]; [eauto|].
    destruct (ICE_total false has mp sym (S sym) w KBranchOrFallthrough st (B + w) _ Hb Hw eq_refl) as [b [st1 [E1 E2]]].
    { specialize (Hx sym ltac:(lia) ltac:(lia)). unfold EW in Hx. lia. }
    rewrite E1. cbn [obind].
    assert (Hb1 : bounded (B + w) st1).
    { intros k. pose proof (Hb k). destruct (E2 k) as [E|[-> E]]; rewrite E; [lia|].
      specialize (Hx sym ltac:(lia) ltac:(lia)). unfold EW in Hx. lia. }
    destruct b; [|eauto]. apply IH; [lia|exact Hb1|].
    intros x Hx1 Hx2. specialize (Hx x ltac:(lia) Hx2). unfold EW in *.
    destruct (E2 (blk_handle mp x, blk_handle mp (S x))) as [E|[Ek E]]; [lia|]. exfalso.
    assert (G : blk_handle mp x = blk_handle mp sym) by congruence.
    pose proof (proj1 (NoDup_nth (mp_handles mp) no_handle) ND x sym ltac:(unfold blk_count in *; lia) ltac:(unfold blk_count in *; lia) G). lia.
  Qed.

  Lemma paths_loop_total : forall l st B,
    (forall f t w, In ((f, t), w) l -> (f < blk_count mp)%nat /\ (t < blk_count mp)%nat) ->
    (forall p w, In (p, w) l -> 0 <= w) ->
    bounded B st -> 0 <= B -> B + fsum (fun _ => 1) l < 2147483648 ->
    exists st', paths_loop false [] has mp l st = Ok st'.
  Proof.
    induction l as [|[[f t] w] l IH]; intros st B Hr Hw Hb HB0 HB; cbn [paths_loop]; [eauto|].
    unfold fsum, asum in HB. cbn [fold_right fst snd] in HB. fold (asum (fun (_ : nat * nat) w => w * 1) l) in HB.
    fold (fsum (fun _ => 1) l) in HB.
    assert (W : 0 <= w) by (apply (Hw (f, t)); left; reflexivity).
    assert (W2 : 0 <= fsum (fun _ => 1) l).
    { assert (Hp' : forall p v, In (p, v) l -> 0 <= v) by (intros; eapply Hw; right; eauto). clear - Hp'. unfold fsum, asum.
      induction l as [|[q v] l IH]; cbn [fold_right fst snd]; [lia|].
      pose proof (Hp' q v (or_introl eq_refl)).
      assert (H0 : forall q v, In (q, v) l -> 0 <= v) by (intros; eapply Hp'; right; eauto). specialize (IH H0). lia. }
    destruct (Hr f t w (or_introl eq_refl)) as [Hf Ht].
    assert (S1 : exists st1, path_step false [] has mp (f, t, w) st = Ok st1 /\ bounded (B + w) st1).
    { cbn [path_step]. assert (bounded (B + w) st) by (intros k; specialize (Hb k); lia).
      destruct ((f =? t)%nat || negb (CanFallThrough mp f t)); [eauto|].
      destruct (le_lt_dec t f) as [Hle|Hlt].
      - replace (t - f)%nat with O by lia. cbn [path_loop]. eauto.
      - apply path_loop_total; auto; try lia. intros x Hx1 Hx2. unfold EW. apply Hb. }
    destruct S1 as [st1 [E1 Hb1]]. rewrite E1. cbn [obind]. apply (IH st1 (B + w)); auto; try lia.
    - intros; eapply Hr; right; eauto.
    - intros; eapply Hw; right; eauto.
  Qed.
End Total.
