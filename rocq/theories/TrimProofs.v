(** Proofs about TrimCallTargets. *)
From Verif Require Import Base AssocFold ISort SymbolModel SymbolSpec SymbolProofs TrimModel.
Ltac Zify.zify_post_hook ::= Z.div_mod_to_equations.

Lemma name_ltb_irrefl a : name_ltb a a = false.
Proof. induction a as [|x a IH]; cbn [name_ltb]; [reflexivity|]. rewrite IH. lia. Qed.
Lemma name_ltb_trans a b c : name_ltb a b = true -> name_ltb b c = true -> name_ltb a c = true.
Proof.
  revert b c; induction a as [|x a IH]; intros [|y b] [|z c]; cbn [name_ltb]; try congruence.
  intros H G. rewrite orb_true_iff, andb_true_iff in *.
  destruct H as [H|[H1 H2]]; destruct G as [G|[G1 G2]]; try (left; lia).
  right. split; [lia|eauto].
Qed.
Lemma name_ltb_asym a b : name_ltb a b = true -> name_ltb b a = false.
Proof.
  intros H. destruct (name_ltb b a) eqn:E; [|reflexivity].
  rewrite <- (name_ltb_irrefl a). symmetry. eapply name_ltb_trans; eauto.
Qed.
Lemma name_ltb_total a b : name_ltb a b = false -> name_ltb b a = false -> a = b.
Proof.
  revert b; induction a as [|x a IH]; intros [|y b]; cbn [name_ltb]; try congruence.
  intros H G. rewrite orb_false_iff, andb_false_iff in *.
  destruct H as [H1 H2], G as [G1 G2].
  assert (x = y) by lia. subst y. rewrite Z.eqb_refl in *.
  f_equal. apply IH; [destruct H2|destruct G2]; congruence.
Qed.

Lemma before_irrefl a : target_before a a = false.
Proof. unfold target_before. rewrite Z.eqb_refl. apply name_ltb_irrefl. Qed.
Lemma before_asym a b : target_before a b = true -> target_before b a = false.
Proof.
  unfold target_before. rewrite (Z.eqb_sym (snd b)).
  destruct (Z.eqb_spec (snd a) (snd b)); [apply name_ltb_asym|lia].
Qed.
Lemma before_total a b : target_before a b = false -> target_before b a = false -> a = b.
Proof.
  unfold target_before. rewrite (Z.eqb_sym (snd b)).
  destruct (Z.eqb_spec (snd a) (snd b)) as [E|E]; [|lia].
  intros H G. destruct a, b; cbn in *. f_equal; [apply name_ltb_total; assumption|exact E].
Qed.
Lemma before_trans a b c : target_before a b = true -> target_before b c = true -> target_before a c = true.
Proof.
  unfold target_before.
  destruct (Z.eqb_spec (snd a) (snd b)), (Z.eqb_spec (snd b) (snd c)), (Z.eqb_spec (snd a) (snd c)); try lia.
  apply name_ltb_trans.
Qed.
Definition before_leb (a b : name * Z) := negb (target_before b a).
Lemma before_leb_total a b : before_leb a b = true \/ before_leb b a = true.
Proof.
  unfold before_leb. destruct (target_before b a) eqn:E; [|auto].
  rewrite (before_asym _ _ E). auto.
Qed.
Lemma before_leb_trans a b c : before_leb a b = true -> before_leb b c = true -> before_leb a c = true.
Proof.
  unfold before_leb. rewrite !negb_true_iff. intros H G.
  destruct (target_before c a) eqn:E; [|reflexivity].
  destruct (target_before a b) eqn:E2.
  - rewrite <- G. symmetry. eapply before_trans; eauto.
  - assert (a = b) by (apply before_total; assumption). subst. congruence.
Qed.

Definition rank (x : name * Z) (m : list (name * Z)) : nat :=
  length (filter (fun y => target_before y x) m).

Lemma rank_lt x m : In x m -> (rank x m < length m)%nat.
Proof.
  intros Hi. unfold rank. induction m as [|y m IH]; [destruct Hi|]. cbn [filter length].
  assert (length (filter (fun z => target_before z x) m) <= length m)%nat.
  { clear. induction m as [|z m IH]; cbn [filter length]; [lia|].
    destruct (target_before z x); cbn [length]; lia. }
  destruct Hi as [->|Hi].
  - rewrite before_irrefl. lia.
  - specialize (IH Hi). destruct (target_before y x); cbn [length]; lia.
Qed.

Lemma NoDup_akeys_NoDup {K V} (m : list (K * V)) : NoDup (akeys m) -> NoDup m.
Proof. apply NoDup_map_inv. Qed.

Lemma trim_In k m x : 0 <= k < 2 ^ 63 -> NoDup (akeys m) ->
  (In x (trim_targets k m) <-> In x m /\ Z.of_nat (rank x m) < k).
Proof.
  intros Hk Hn. unfold trim_targets, zlen. assert (Hu : u64 k = k) by (unfold u64, w64; lia).
  rewrite Hu. destruct (Z.leb_spec (Z.of_nat (length m)) k) as [Hle|Hgt].
  - split; [|tauto]. intros Hi. split; [exact Hi|]. pose proof (rank_lt x m Hi). lia.
  - fold before_leb. set (sm := isort before_leb m).
    assert (Hperm : Permutation m sm) by apply isort_perm.
    assert (Hs : StronglySorted (fun a b => target_before a b = true) sm).
    { eapply StronglySorted_NoDup_strict.
      - apply (isort_sorted before_leb before_leb_total before_leb_trans).
      - eapply Permutation_NoDup; [exact Hperm|]. apply NoDup_akeys_NoDup; exact Hn.
      - intros a b _ _ Hne Hle. unfold le_prop, before_leb in Hle.
        destruct (target_before a b) eqn:E; [reflexivity|].
        exfalso. apply Hne. apply before_total; [exact E|]. destruct (target_before b a); [discriminate|reflexivity]. }
    rewrite (sorted_firstn_rank target_before sm Hs before_asym before_irrefl).
    assert (Hr : length (filter (fun y => target_before y x) sm) = rank x m).
    { unfold rank. symmetry. apply Permutation_filter_length; exact Hperm. }
    rewrite Hr. unfold sm. rewrite isort_In. split; intros [H1 H2]; split; auto; lia.
Qed.

Lemma NoDup_firstn {A} n (l : list A) : NoDup l -> NoDup (firstn n l).
Proof.
  revert n; induction l as [|x l IH]; intros n H; [rewrite firstn_nil; constructor|].
  destruct n; cbn [firstn]; [constructor|]. inversion H; subst. constructor; auto.
  intros Hi. apply H2. rewrite <- (firstn_skipn n l). apply in_or_app; auto.
Qed.
Lemma trim_NoDup k m : NoDup (akeys m) -> NoDup (akeys (trim_targets k m)).
Proof.
  intros H. unfold trim_targets. destruct (zlen m <=? u64 k); [exact H|].
  unfold akeys. rewrite <- firstn_map. apply NoDup_firstn.
  eapply Permutation_NoDup; [|exact H]. apply Permutation_map, isort_perm.
Qed.
Lemma trim_length k m : 0 <= k < 2 ^ 63 -> zlen (trim_targets k m) = Z.min k (zlen m).
Proof.
  intros Hk. unfold trim_targets. assert (Hu : u64 k = k) by (unfold u64, w64; lia). rewrite Hu.
  destruct (Z.leb_spec (zlen m) k); [lia|]. unfold zlen in *. rewrite firstn_length, isort_length. lia.
Qed.

Lemma aget_map_val {K V W} (eqb : K -> K -> bool) (f : V -> W) k m :
  aget eqb k (map (fun '(a, b) => (a, f b)) m) = option_map f (aget eqb k m).
Proof.
  induction m as [|[k' v] m IH]; [reflexivity|]. cbn [map aget].
  destruct (eqb k k'); [reflexivity|exact IH].
Qed.

Lemma node_at_trim k p : forall s,
  node_at (TrimCallTargets k s) p = option_map (TrimCallTargets k) (node_at s p).
Proof.
  induction p as [|c p IH]; intros s; [reflexivity|]. destruct s as [h t ts pos calls].
  cbn [node_at TrimCallTargets s_calls]. rewrite aget_map_val.
  destruct (aget callsite_eqb c calls); cbn [option_map]; [apply IH|reflexivity].
Qed.
Lemma pos_at_trim k s p l :
  pos_at (TrimCallTargets k s) p l =
  option_map (fun i => PInfo (p_count i) (p_ninst i) (trim_targets k (p_targets i))) (pos_at s p l).
Proof.
  unfold pos_at. rewrite node_at_trim. destruct (node_at s p) as [[h t ts pos calls]|]; [|reflexivity].
  cbn [option_map TrimCallTargets s_pos]. apply aget_map_val.
Qed.

Lemma aget_trim k m t : 0 <= k < 2 ^ 63 -> NoDup (akeys m) ->
  aget name_eqb t (trim_targets k m) =
  match aget name_eqb t m with
  | Some c => if Z.of_nat (rank (t, c) m) <? k then Some c else None
  | None => None
  end.
Proof.
  intros Hk Hn. pose proof (trim_NoDup k m Hn) as Hn'.
  destruct (aget name_eqb t (trim_targets k m)) as [c|] eqn:E.
  - apply aget_In in E; auto. apply trim_In in E; auto. destruct E as [Hi Hr].
    rewrite (aget_NoDup_In name_eqb name_eqb_spec t c m Hn Hi).
    destruct (Z.ltb_spec (Z.of_nat (rank (t, c) m)) k); [reflexivity|lia].
  - destruct (aget name_eqb t m) as [c|] eqn:E2; [|reflexivity].
    destruct (Z.ltb_spec (Z.of_nat (rank (t, c) m)) k); [|reflexivity].
    assert (Hi : In (t, c) (trim_targets k m)).
    { apply trim_In; auto. split; [|assumption]. apply aget_In in E2; auto. }
    apply (aget_NoDup_In name_eqb name_eqb_spec) in Hi; auto. congruence.
Qed.
