(** C18: text sample files; C19: merging samples. *)
From Verif Require Import Base SampleModel SampleSpec SampleProofs.
From Coq Require Import Permutation.

Definition fits_file (s : samples) : Prop :=
  zlen (sa_range s) < 2 ^ 31 /\ zlen (sa_addr s) < 2 ^ 31 /\ zlen (sa_branch s) < 2 ^ 31.

Lemma akeys_map {K V} (m : list (K * V)) : akeys m = map fst m. Proof. reflexivity. Qed.

(** Writing samples and reading the file into an empty reader gives the samples
    back, whatever text is appended to the file. *)
Theorem C18_round_trip m aux : samples_ok m -> fits_file m ->
  Append (Write m aux) samples0 = Ok (m, true).
Proof.
  intros (N1 & N2 & N3 & F1 & F2 & F3) (B1 & B2 & B3).
  rewrite Append_Write; auto. f_equal. f_equal. unfold Merge.
  cbn [samples0 sa_range sa_addr sa_branch].
  rewrite (madd_all_fresh pair_eqb pair_eqb_spec (sa_range m) []); auto;
    [|eapply Forall_impl; [|exact F1]; intros e H; cbv beta in *; unfold u64_range in *; tauto].
  rewrite (madd_all_fresh Z.eqb Z_eqb_reflect (sa_addr m) []); auto;
    [|eapply Forall_impl; [|exact F2]; intros e H; cbv beta in *; unfold u64_range in *; tauto].
  rewrite (madd_all_fresh pair_eqb pair_eqb_spec (sa_branch m) []); auto;
    [|eapply Forall_impl; [|exact F3]; intros e H; cbv beta in *; unfold u64_range in *; tauto].
  destruct m; reflexivity.
Qed.
Print Assumptions C18_round_trip.

Lemma aget_madd_all {K} (eqb : K -> K -> bool) (sp : forall a b, reflect (a = b) (eqb a b)) l m k :
  NoDup (akeys l) -> (forall e, In e m -> u64_range (snd e)) -> (forall e, In e l -> u64_range (snd e)) ->
  aget eqb k (madd_all eqb l m) = add_counts (aget eqb k m) (aget eqb k l).
Proof.
  intros N Bm Bl.
  assert (BM : forall k, 0 <= cnt eqb m k < 2 ^ 64).
  { intros k'. unfold cnt. destruct (aget eqb k' m) eqn:E; [|lia].
    apply (aget_In eqb sp) in E. exact (Bm _ E). }
  assert (BL : forall k, 0 <= cnt eqb l k < 2 ^ 64).
  { intros k'. unfold cnt. destruct (aget eqb k' l) eqn:E; [|lia].
    apply (aget_In eqb sp) in E. exact (Bl _ E). }
  pose proof (cnt_madd_all_small eqb sp l m k BM) as C. rewrite (sum_at_NoDup eqb sp) in C by auto.
  pose proof (keys_madd_all eqb sp l m k) as KS.
  pose proof (aget_None_iff eqb sp k m) as Km. pose proof (aget_None_iff eqb sp k l) as Kl.
  pose proof (aget_None_iff eqb sp k (madd_all eqb l m)) as Kr.
  specialize (BM k). specialize (BL k).
  assert (SM : forall x, 0 <= x < 2 ^ 64 -> u64 x = x) by (intros; apply Z.mod_small; exact H).
  unfold cnt in *. destruct (aget eqb k m) as [x|], (aget eqb k l) as [y|]; cbn [add_counts].
  - destruct (aget eqb k (madd_all eqb l m)) as [z|].
    + f_equal. exact C.
    + exfalso. destruct Kr as [Kr _]. apply (Kr eq_refl). apply KS. left.
      destruct (in_dec (fun a b => reflect_dec _ _ (sp a b)) k (akeys m)); auto.
      destruct Km as [_ Km]. specialize (Km n). discriminate.
  - rewrite Z.add_0_r, SM in C by auto. destruct (aget eqb k (madd_all eqb l m)) as [z|].
    + f_equal. exact C.
    + exfalso. destruct Kr as [Kr _]. apply (Kr eq_refl). apply KS. left.
      destruct (in_dec (fun a b => reflect_dec _ _ (sp a b)) k (akeys m)); auto.
      destruct Km as [_ Km]. specialize (Km n). discriminate.
  - rewrite Z.add_0_l, SM in C by auto. destruct (aget eqb k (madd_all eqb l m)) as [z|].
    + f_equal. exact C.
    + exfalso. destruct Kr as [Kr _]. apply (Kr eq_refl). apply KS. right.
      destruct (in_dec (fun a b => reflect_dec _ _ (sp a b)) k (akeys l)); auto.
      destruct Kl as [_ Kl]. specialize (Kl n). discriminate.
  - apply Kr. intros I. apply KS in I. tauto.
Qed.

Theorem C19_merge_pointwise s t : samples_ok s -> samples_ok t -> pointwise_sum s t (Merge s t).
Proof.
  intros (N1 & N2 & N3 & F1 & F2 & F3) (M1 & M2 & M3 & G1 & G2 & G3).
  rewrite Forall_forall in F1, F2, F3, G1, G2, G3.
  unfold pointwise_sum, range_at, addr_at, branch_at, Merge; cbn [sa_range sa_addr sa_branch].
  split; [|split]; intros k.
  - apply (aget_madd_all pair_eqb pair_eqb_spec); auto; intros e I; [apply (F1 e I)|apply (G1 e I)].
  - apply (aget_madd_all Z.eqb Z_eqb_reflect); auto; intros e I; [apply (F2 e I)|apply (G2 e I)].
  - apply (aget_madd_all pair_eqb pair_eqb_spec); auto; intros e I; [apply (F3 e I)|apply (G3 e I)].
Qed.
Print Assumptions C19_merge_pointwise.

(** Reading a file into a reader that already holds samples adds the counts. *)
Theorem C18_append_adds m aux s : samples_ok m -> fits_file m -> samples_ok s ->
  exists s', Append (Write m aux) s = Ok (s', true) /\ pointwise_sum s m s'.
Proof.
  intros Om Fm Os. exists (Merge s m). split; [|apply C19_merge_pointwise; auto].
  destruct Om as (N1 & N2 & N3 & F1 & F2 & F3), Fm as (B1 & B2 & B3). apply Append_Write; auto.
Qed.
Print Assumptions C18_append_adds.

Lemma madd_all_ok {K} (eqb : K -> K -> bool) (sp : forall a b, reflect (a = b) (eqb a b))
  (P : K -> Prop) l : forall m,
  NoDup (akeys m) -> Forall (fun e => P (fst e) /\ u64_range (snd e)) m ->
  Forall (fun e => P (fst e) /\ u64_range (snd e)) l ->
  NoDup (akeys (madd_all eqb l m)) /\ Forall (fun e => P (fst e) /\ u64_range (snd e)) (madd_all eqb l m).
Proof.
  induction l as [|e l IH]; intros m N F G; cbn [madd_all fold_left]; auto.
  inversion G; subst. apply IH; auto.
  - unfold madd. apply (NoDup_akeys_aset eqb sp); auto.
  - apply Forall_forall. intros [k c] I. unfold madd in I.
    assert (U : u64_range (u64 (match aget eqb (fst e) m with Some o => o | None => 0 end + snd e))).
    { unfold u64_range, u64. change (2 ^ 64) with w64. apply Z.mod_pos_bound. unfold w64; lia. }
    revert I U. generalize (u64 (match aget eqb (fst e) m with Some o => o | None => 0 end + snd e)) as v.
    intros v I U. cbn [fst snd]. clear IH N G. revert I.
    induction m as [|[k' c'] m IHm]; cbn [aset].
    + intros [E|[]]. inversion E; subst. tauto.
    + inversion F; subst. destruct (eqb (fst e) k').
      * intros [E|I]; [inversion E; subst; cbn in *; tauto|].
        rewrite Forall_forall in H4. exact (H4 _ I).
      * intros [E|I]; [inversion E; subst; auto|auto].
Qed.

Lemma Merge_ok s t : samples_ok s -> samples_ok t -> samples_ok (Merge s t).
Proof.
  intros (N1 & N2 & N3 & F1 & F2 & F3) (M1 & M2 & M3 & G1 & G2 & G3).
  assert (A : forall l : list ((Z * Z) * Z),
    Forall (fun e => u64_range (fst (fst e)) /\ u64_range (snd (fst e)) /\ u64_range (snd e)) l <->
    Forall (fun e => (u64_range (fst (fst e)) /\ u64_range (snd (fst e))) /\ u64_range (snd e)) l).
  { intros l. rewrite !Forall_forall. split; intros H x I; specialize (H x I); tauto. }
  rewrite A in F1, F3, G1, G3.
  destruct (madd_all_ok pair_eqb pair_eqb_spec (fun k => u64_range (fst k) /\ u64_range (snd k))
    (sa_range t) (sa_range s) N1 F1 G1).
  destruct (madd_all_ok Z.eqb Z_eqb_reflect u64_range (sa_addr t) (sa_addr s) N2 F2 G2).
  destruct (madd_all_ok pair_eqb pair_eqb_spec (fun k => u64_range (fst k) /\ u64_range (snd k))
    (sa_branch t) (sa_branch s) N3 F3 G3).
  unfold samples_ok, Merge; cbn [sa_range sa_addr sa_branch]. rewrite !A. auto 10.
Qed.

Lemma add_counts_comm3 a b c : (forall x, a = Some x -> u64_range x) ->
  add_counts (add_counts a b) c = add_counts (add_counts a c) b.
Proof.
  intros H. destruct a as [a|], b as [b|], c as [c|]; cbn; try reflexivity.
  - f_equal. rewrite !Zplus_mod_idemp_l. f_equal. lia.
  - rewrite Z.add_comm. reflexivity.
Qed.

(** Merging any number of readers in any order gives the same samples. *)
Theorem C19_order_independent s rs rs' : samples_ok s -> Forall samples_ok rs ->
  Permutation rs rs' -> same_samples (fold_left Merge rs s) (fold_left Merge rs' s).
Proof.
  intros Os F P.
  assert (CONG : forall rs s t, samples_ok s -> samples_ok t -> Forall samples_ok rs ->
            same_samples s t -> same_samples (fold_left Merge rs s) (fold_left Merge rs t)).
  { clear. induction rs as [|r rs IH]; intros s t Os Ot F E; cbn [fold_left]; auto.
    inversion F; subst. apply IH; auto using Merge_ok.
    destruct (C19_merge_pointwise s r Os H1) as (A1 & A2 & A3).
    destruct (C19_merge_pointwise t r Ot H1) as (B1 & B2 & B3).
    destruct E as (E1 & E2 & E3).
    split; [|split]; intros k; [rewrite A1, B1, E1|rewrite A2, B2, E2|rewrite A3, B3, E3]; auto. }
  revert s Os. induction P; intros s Os; cbn [fold_left].
  - repeat split; auto.
  - inversion F; subst. apply IHP; auto using Merge_ok.
  - inversion F as [|? ? Oy F1]; subst. inversion F1 as [|? ? Ox F2]; subst.
    apply CONG; auto using Merge_ok.
    destruct (C19_merge_pointwise s y Os Oy) as (A1 & A2 & A3).
    destruct (C19_merge_pointwise s x Os Ox) as (B1 & B2 & B3).
    destruct (C19_merge_pointwise (Merge s y) x) as (C1 & C2 & C3); auto using Merge_ok.
    destruct (C19_merge_pointwise (Merge s x) y) as (D1 & D2 & D3); auto using Merge_ok.
    destruct Os as (_ & _ & _ & F3 & F4 & F5). rewrite Forall_forall in F3, F4, F5.
    split; [|split]; intros k;
      [rewrite C1, D1, A1, B1|rewrite C2, D2, A2, B2|rewrite C3, D3, A3, B3];
      apply add_counts_comm3; intros v E.
    + apply (aget_In pair_eqb pair_eqb_spec) in E. apply F3 in E. tauto.
    + apply (aget_In Z.eqb Z_eqb_reflect) in E. apply F4 in E. tauto.
    + apply (aget_In pair_eqb pair_eqb_spec) in E. apply F5 in E. tauto.
  - assert (F' : Forall samples_ok l').
    { apply Forall_forall. intros r I. rewrite Forall_forall in F. apply F.
      apply (Permutation_in (l := l')); [symmetry; auto|auto]. }
    destruct (IHP1 F s Os) as (A1 & A2 & A3). destruct (IHP2 F' s Os) as (B1 & B2 & B3).
    split; [|split]; intros k; [rewrite A1|rewrite A2|rewrite A3]; auto.
Qed.
Print Assumptions C19_order_independent.

(** The number of samples of a merge is the sum, provided both inputs were
    recorded with, or both without, branch stacks. *)
Theorem C19_total s t :
  (sa_range s = [] <-> sa_range t = []) ->
  GetTotalSampleCount (Merge s t) = (GetTotalSampleCount s + GetTotalSampleCount t) mod 2 ^ 64.
Proof.
  intros H. unfold GetTotalSampleCount, Merge. cbn [sa_range sa_addr].
  assert (S : forall a b : Z, (u64 a + u64 b) mod 2 ^ 64 = u64 (a + b)).
  { intros a b. unfold u64. change w64 with (2 ^ 64). rewrite <- Z.add_mod by lia. reflexivity. }
  destruct (sa_range s) as [|e r] eqn:E.
  - rewrite (proj1 H eq_refl). cbn [madd_all fold_left].
    rewrite !sum_u64_spec, S. exact (vsum_madd_all Z.eqb Z_eqb_reflect (sa_addr t) (sa_addr s)).
  - destruct (sa_range t) as [|e' r'] eqn:E'; [destruct H as [_ H]; discriminate (H eq_refl)|].
    destruct (madd_all pair_eqb (e' :: r') (e :: r)) as [|x l] eqn:M.
    + apply (madd_all_nil_iff pair_eqb pair_eqb_spec) in M. destruct M; discriminate.
    + rewrite <- M. rewrite !sum_u64_spec, S. exact (vsum_madd_all pair_eqb pair_eqb_spec (e' :: r') (e :: r)).
Qed.
Print Assumptions C19_total.

(** Otherwise it is not: merging 5 address samples with 3 range samples counts 3. *)
Theorem C19_total_mixed_refuted :
  exists s t, samples_ok s /\ samples_ok t /\
    GetTotalSampleCount s = 5 /\ GetTotalSampleCount t = 3 /\ GetTotalSampleCount (Merge s t) = 3.
Proof.
  exists {| sa_range := []; sa_addr := [(100, 5)]; sa_branch := [] |},
         {| sa_range := [((16, 32), 3)]; sa_addr := []; sa_branch := [] |}.
  split; [|split]; [| |split; [|split]; reflexivity];
    repeat (split; [repeat constructor; cbn; intuition; unfold u64_range; lia|]);
    repeat constructor; cbn; unfold u64_range; lia.
Qed.
Print Assumptions C19_total_mixed_refuted.

(** The total count set after reading: every range counts once per byte it
    covers (both ends included); without ranges, the address samples. *)
Lemma sum_u64_map {A} (f : A -> Z) l :
  sum_u64 (map (fun e => u64 (f e)) l) = u64 (fold_right (fun e a => f e + a) 0 l).
Proof.
  rewrite sum_u64_spec. induction l as [|e l IH]; cbn [map fold_right]; auto.
  unfold u64 at 1. rewrite <- Zplus_mod_idemp_r.
  fold (u64 (fold_right Z.add 0 (map (fun e => u64 (f e)) l))). rewrite IH.
  unfold u64. rewrite Zplus_mod_idemp_r, Zplus_mod_idemp_l. reflexivity.
Qed.

Theorem C19_total_count s : TotalCount s = weighted_total s mod 2 ^ 64.
Proof.
  unfold TotalCount, weighted_total. destruct (sa_range s) as [|r rs].
  - rewrite sum_u64_spec. unfold u64. change w64 with (2 ^ 64). f_equal.
    induction (sa_addr s) as [|e l IH]; cbn [map fold_right]; auto. rewrite IH. reflexivity.
  - rewrite sum_u64_map. unfold u64. change w64 with (2 ^ 64). f_equal.
    generalize (r :: rs). induction l as [|e l IH]; cbn [fold_right]; auto. rewrite IH. f_equal. f_equal. lia.
Qed.
Print Assumptions C19_total_count.

Section WTotals.
  Context {K : Type} (eqb : K -> K -> bool) (w : K -> Z).
  Hypothesis sp : forall a b, reflect (a = b) (eqb a b).
  Definition wtot (m : list (K * Z)) : Z := fold_right (fun e a => snd e * w (fst e) + a) 0 m.
  Lemma wtot_aset m k v : wtot (aset eqb k v m) = wtot m - cnt eqb m k * w k + v * w k.
  Proof.
    unfold wtot, cnt. induction m as [|[k' c] m IH]; cbn [aset aget fold_right fst snd]; [lia|].
    destruct (sp k k'); cbn [fold_right fst snd]; [subst; lia|]. rewrite IH. lia.
  Qed.
  Lemma wtot_madd m e : u64 (wtot (madd eqb m e)) = u64 (wtot m + snd e * w (fst e)).
  Proof.
    unfold madd. rewrite wtot_aset. fold (cnt eqb m (fst e)).
    set (c := cnt eqb m (fst e)). set (d := snd e). set (x := w (fst e)).
    unfold u64. rewrite <- (Zplus_mod_idemp_r ((c + d) mod w64 * x)), Zmult_mod_idemp_l, Zplus_mod_idemp_r.
    f_equal. lia.
  Qed.
  Lemma wtot_madd_all l : forall m, u64 (wtot (madd_all eqb l m)) = u64 (wtot m + wtot l).
  Proof.
    induction l as [|e l IH]; intros m; cbn [madd_all fold_left].
    - unfold wtot at 3; cbn. rewrite Z.add_0_r. reflexivity.
    - change (fold_left (madd eqb) l (madd eqb m e)) with (madd_all eqb l (madd eqb m e)).
      rewrite IH.
      unfold u64 at 1. rewrite <- Zplus_mod_idemp_l. fold (u64 (wtot (madd eqb m e))).
      rewrite wtot_madd. unfold u64. rewrite Zplus_mod_idemp_l. f_equal.
      unfold wtot; cbn. lia.
  Qed.
End WTotals.

(** … and merging adds these totals, under the same proviso. *)
Theorem C19_total_count_merge s t : (sa_range s = [] <-> sa_range t = []) ->
  TotalCount (Merge s t) = (TotalCount s + TotalCount t) mod 2 ^ 64.
Proof.
  intros H. rewrite !C19_total_count, <- Z.add_mod by lia.
  unfold weighted_total, Merge. cbn [sa_range sa_addr].
  destruct (sa_range s) as [|e r] eqn:E.
  - rewrite (proj1 H eq_refl). cbn [madd_all fold_left].
    pose proof (wtot_madd_all Z.eqb (fun _ => 1) Z_eqb_reflect (sa_addr t) (sa_addr s)) as X.
    assert (Q : forall m : list (Z * Z), wtot (fun _ => 1) m = fold_right (fun e a => snd e + a) 0 m).
    { intros m. unfold wtot. induction m; cbn [fold_right]; auto. rewrite IHm. lia. }
    rewrite !Q in X. exact X.
  - destruct (sa_range t) as [|e' r'] eqn:E'; [destruct H as [_ H]; discriminate (H eq_refl)|].
    destruct (madd_all pair_eqb (e' :: r') (e :: r)) as [|x l] eqn:M.
    + apply (madd_all_nil_iff pair_eqb pair_eqb_spec) in M. destruct M; discriminate.
    + rewrite <- M.
      exact (wtot_madd_all pair_eqb (fun k => snd k - fst k + 1) pair_eqb_spec (e' :: r') (e :: r)).
Qed.
Print Assumptions C19_total_count_merge.

Definition ex_samples : samples :=
  {| sa_range := [((4096, 4103), 7); ((0, 2 ^ 64 - 1), 2 ^ 64 - 1)];
     sa_addr := [(10, 1); (0, 0)]; sa_branch := [((171, 205), 12)] |}.
Example C18_nonvacuous : samples_ok ex_samples /\ fits_file ex_samples /\
  Append (Write ex_samples [97; 98]) samples0 = Ok (ex_samples, true).
Proof.
  split; [|split]; [| |vm_compute; reflexivity].
  - repeat (split; [repeat constructor; cbn; intuition; try (unfold u64_range; lia); congruence|]).
    repeat constructor; cbn; unfold u64_range; lia.
  - split; [|split]; reflexivity.
Qed.
Example C19_nonvacuous :
  range_at (Merge ex_samples ex_samples) (4096, 4103) = Some 14 /\
  range_at (Merge ex_samples ex_samples) (0, 2 ^ 64 - 1) = Some (2 ^ 64 - 2).
Proof. split; vm_compute; reflexivity. Qed.
