(** C77: profile_diff. *)
From Coq Require Import Reals Lra Sorted Permutation.
From Flocq Require Import Core Relative.
From Verif Require Import Base SymbolModel SymbolProofs AfdoModel AfdoProofs StatusModel StatusProps OverlapModel OverlapSpec OverlapProofs.
Open Scope Z_scope.

(** * The overlap itself *)
Lemma total_nonneg l : (forall e, In e l -> 0 <= snd e) -> 0 <= total l.
Proof. induction l as [|[n c] l IH]; intros H; cbn [total]; [lia|]. pose proof (H _ (or_introl eq_refl)) as Hc. cbn [snd] in Hc. assert (0 <= total l) by (apply IH; intros e He; apply H; right; exact He). lia. Qed.
Lemma count_nonneg n l : (forall e, In e l -> 0 <= snd e) -> 0 <= count_of n l.
Proof. induction l as [|[k c] l IH]; intros H; cbn [count_of]; [lia|]. destruct (name_eqb k n); [exact (H _ (or_introl eq_refl))|]. apply IH. intros e He. apply H. right. exact He. Qed.
Lemma ok_nonneg l : profile_ok l -> forall e, In e l -> 0 <= snd e.
Proof. intros [_ H] e He. apply H, He. Qed.

Lemma NoDup_app2 {A} (l k : list A) : NoDup l -> NoDup k -> (forall x, In x l -> ~ In x k) -> NoDup (l ++ k).
Proof.
  intros H K D. induction H as [|x l NI H IH]; cbn [app]; [exact K|]. constructor.
  - intros X. apply in_app_iff in X as [X|X]; [exact (NI X)|]. exact (D x (or_introl eq_refl) X).
  - apply IH. intros y Hy. apply D. right. exact Hy.
Qed.
Open Scope R_scope.
Lemma part_nonneg n l : profile_ok l -> 0 <= part n l.
Proof.
  intros O. unfold part. destruct (Z.eq_dec (total l) 0) as [E|N].
  - rewrite E. unfold Rdiv. rewrite Rinv_0. lra.
  - pose proof (total_nonneg l (ok_nonneg l O)). apply Rmult_le_pos; [apply (IZR_le 0), count_nonneg, ok_nonneg, O|]. left. apply Rinv_0_lt_compat, (IZR_lt 0). lia.
Qed.
Lemma part_out n l : ~ In n (map fst l) -> part n l = 0.
Proof. intros H. unfold part. rewrite count_of_out; [unfold Rdiv; ring|]. destruct (mem n l) eqn:M; [apply mem_In in M; contradiction|reflexivity]. Qed.
Lemma common_perm ns ns' l1 l2 : Permutation ns ns' -> common ns l1 l2 = common ns' l1 l2.
Proof. induction 1; cbn [common]; lra. Qed.
Lemma common_app a b l1 l2 : common (a ++ b) l1 l2 = common a l1 l2 + common b l1 l2.
Proof. induction a as [|x a IH]; cbn [app common]; lra. Qed.
Lemma common_out ns l1 l2 : profile_ok l2 -> (forall n, In n ns -> ~ In n (map fst l1)) -> common ns l1 l2 = 0.
Proof.
  intros O H. induction ns as [|n ns IH]; cbn [common]; [reflexivity|]. rewrite IH by (intros k Hk; apply H; right; exact Hk). rewrite (part_out n l1) by (apply H; left; reflexivity).
  rewrite Rmin_left by apply part_nonneg, O. lra.
Qed.
Lemma common_overlap ns l1 l2 : profile_ok l1 -> profile_ok l2 -> functions_in l1 l2 ns -> common ns l1 l2 = overlap l1 l2.
Proof.
  intros O1 O2 [ND H]. set (out := filter (fun n => negb (mem n l1)) ns).
  assert (P : Permutation ns (map fst l1 ++ out)).
  { apply NoDup_Permutation; [exact ND| |].
    - apply NoDup_app2; [apply ok_NoDup, O1|apply NoDup_filter, ND|]. intros n H1 H2. apply filter_In in H2 as [_ H2]. apply mem_In in H1. rewrite H1 in H2. discriminate.
    - intros n. rewrite in_app_iff. unfold out. rewrite filter_In, H. destruct (mem n l1) eqn:M.
      + apply mem_In in M. tauto.
      + assert (~ In n (map fst l1)) by (intros X; apply mem_In in X; congruence). cbn. tauto. }
  rewrite (common_perm _ _ _ _ P), common_app, (common_out out) ; [unfold overlap; lra|exact O2|]. intros n Hn. apply filter_In in Hn as [_ Hn]. intros X. apply mem_In in X. rewrite X in Hn. discriminate.
Qed.
Lemma functions_exist l1 l2 : profile_ok l1 -> profile_ok l2 -> exists ns, functions_in l1 l2 ns.
Proof.
  intros O1 O2. exists (map fst l1 ++ filter (fun n => negb (mem n l1)) (map fst l2)). split.
  - apply NoDup_app2; [apply ok_NoDup, O1|apply NoDup_filter, ok_NoDup, O2|]. intros n H1 H2. apply filter_In in H2 as [_ H2]. apply mem_In in H1. rewrite H1 in H2. discriminate.
  - intros n. rewrite in_app_iff, filter_In. destruct (mem n l1) eqn:M.
    + apply mem_In in M. tauto.
    + assert (~ In n (map fst l1)) by (intros X; apply mem_In in X; congruence). cbn. tauto.
Qed.
Lemma common_sym ns l1 l2 : common ns l1 l2 = common ns l2 l1.
Proof. induction ns as [|n ns IH]; cbn [common]; [reflexivity|]. rewrite IH, Rmin_comm. reflexivity. Qed.
Fixpoint parts (ns : list name) (l : list (name * Z)) : R := match ns with [] => 0 | n :: ns' => part n l + parts ns' l end.
Lemma parts_total l : profile_ok l -> total l <> 0%Z -> parts (map fst l) l = 1.
Proof.
  intros O NZ. assert (NR : IZR (total l) <> 0) by (apply IZR_neq; exact NZ).
  assert (G : forall l', NoDup (map fst l') -> forall T,
    fold_right (fun n s => IZR (count_of n l') / T + s) 0 (map fst l') = IZR (total l') / T).
  { intros l' ND T. induction l' as [|[k c] l' IH]; cbn [map fold_right fst total]; [unfold Rdiv; ring|]. inversion ND as [|x y NI ND' E]; subst.
    cbn [count_of]. destruct (name_eqb_spec k k); [|congruence]. rewrite plus_IZR.
    replace (fold_right (fun n s => IZR (if name_eqb k n then c else count_of n l') / T + s) 0 (map fst l')) with (fold_right (fun n s => IZR (count_of n l') / T + s) 0 (map fst l')).
    - rewrite (IH ND'). unfold Rdiv. ring.
    - clear IH ND ND'. assert (Y : forall ns, ~ In k ns -> fold_right (fun n s => IZR (count_of n l') / T + s) 0 ns = fold_right (fun n s => IZR (if name_eqb k n then c else count_of n l') / T + s) 0 ns).
      { induction ns as [|n ns IH]; intros N; cbn [fold_right]; [reflexivity|]. rewrite IH by (intros H; apply N; right; exact H). destruct (name_eqb_spec k n) as [E|_]; [destruct N; left; auto|reflexivity]. }
      apply Y, NI. }
  specialize (G l (ok_NoDup _ O) (IZR (total l))). unfold Rdiv in G at 2. rewrite Rinv_r in G by exact NR. rewrite <- G. clear G.
  generalize (map fst l). induction l0 as [|n ns IH]; cbn [parts fold_right]; [reflexivity|]. rewrite IH. reflexivity.
Qed.
Lemma common_le ns l1 l2 : common ns l1 l2 <= parts ns l1.
Proof. induction ns as [|n ns IH]; cbn [common parts]; [lra|]. pose proof (Rmin_l (part n l1) (part n l2)). lra. Qed.
Lemma common_nonneg ns l1 l2 : profile_ok l1 -> profile_ok l2 -> 0 <= common ns l1 l2.
Proof. intros O1 O2. induction ns as [|n ns IH]; cbn [common]; [lra|]. pose proof (part_nonneg n l1 O1). pose proof (part_nonneg n l2 O2). pose proof (Rmin_glb _ _ _ H H0). lra. Qed.
Lemma common_full ns l1 l2 : common ns l1 l2 = parts ns l1 -> forall n, In n ns -> part n l1 <= part n l2.
Proof.
  induction ns as [|k ns IH]; cbn [common parts In]; intros E n H; [contradiction|]. pose proof (common_le ns l1 l2) as L. pose proof (Rmin_l (part k l1) (part k l2)) as L'.
  assert (E1 : Rmin (part k l1) (part k l2) = part k l1) by lra. destruct H as [<-|H]; [pose proof (Rmin_r (part k l1) (part k l2)); lra|]. apply IH; [lra|exact H].
Qed.
Lemma overlap_sym l1 l2 : profile_ok l1 -> profile_ok l2 -> overlap l1 l2 = overlap l2 l1.
Proof.
  intros O1 O2. destruct (functions_exist l1 l2 O1 O2) as [ns F]. rewrite <- (common_overlap ns l1 l2 O1 O2 F), common_sym.
  apply common_overlap; [exact O2|exact O1|]. destruct F as [F1 F2]. split; [exact F1|]. intros n. rewrite F2. tauto.
Qed.

(** The quantity that is approximated: between 0 and 1; 1 for profiles with the
    same distribution only, 0 for profiles without a common function only. *)
Theorem C77_overlap l1 l2 : profile_ok l1 -> profile_ok l2 -> total l1 <> 0%Z -> total l2 <> 0%Z ->
  0 <= overlap l1 l2 <= 1 /\ overlap l1 l2 = overlap l2 l1 /\
  (overlap l1 l2 = 1 <-> forall n, part n l1 = part n l2) /\
  (overlap l1 l2 = 0 <-> forall n, count_of n l1 = 0%Z \/ count_of n l2 = 0%Z).
Proof.
  intros O1 O2 N1 N2. pose proof (overlap_sym l1 l2 O1 O2) as SYM. split; [|split; [exact SYM|split]].
  - split; [apply common_nonneg; assumption|]. rewrite <- (parts_total l1 O1 N1). apply common_le.
  - assert (G : forall a b, profile_ok a -> profile_ok b -> total a <> 0%Z -> overlap a b = 1 -> forall n, part n a <= part n b).
    { intros a b Oa Ob Na E n. destruct (mem n a) eqn:M.
      - apply (common_full (map fst a)); [rewrite (parts_total a Oa Na); exact E|apply mem_In, M].
      - rewrite part_out; [apply part_nonneg, Ob|]. intros X. apply mem_In in X. congruence. }
    split.
    + intros E n. apply Rle_antisym; [exact (G l1 l2 O1 O2 N1 E n)|]. rewrite SYM in E. exact (G l2 l1 O2 O1 N2 E n).
    + intros H. rewrite <- (parts_total l1 O1 N1). unfold overlap. generalize (map fst l1). induction l as [|n ns IH]; cbn [common parts]; [reflexivity|]. rewrite IH, H, Rmin_left by lra. reflexivity.
  - assert (Z1 : forall n l, profile_ok l -> total l <> 0%Z -> part n l = 0 <-> count_of n l = 0%Z).
    { intros n l O N. unfold part. split; [|intros ->; unfold Rdiv; ring]. intros E. apply eq_IZR. apply Rmult_integral in E as [E|E]; [exact E|]. exfalso. apply (Rinv_neq_0_compat (IZR (total l))); [apply IZR_neq; exact N|exact E]. }
    assert (MIN : forall n, Rmin (part n l1) (part n l2) = 0 <-> count_of n l1 = 0%Z \/ count_of n l2 = 0%Z).
    { intros n. rewrite <- (Z1 n l1 O1 N1), <- (Z1 n l2 O2 N2). pose proof (part_nonneg n l1 O1). pose proof (part_nonneg n l2 O2). split.
      - destruct (Rle_dec (part n l1) (part n l2)); [rewrite Rmin_left by lra; auto|rewrite Rmin_right by lra; auto].
      - intros [E|E]; rewrite E; [apply Rmin_left; lra|apply Rmin_right; lra]. }
    unfold overlap. split.
    + intros E n. destruct (mem n l1) eqn:M; [|left; apply count_of_out, M]. apply MIN. apply mem_In in M. revert E M. generalize (map fst l1). induction l as [|k ns IH]; cbn [common In]; [contradiction|].
      pose proof (common_nonneg ns l1 l2 O1 O2). pose proof (Rmin_glb _ _ _ (part_nonneg k l1 O1) (part_nonneg k l2 O2)). intros E [->|H']; [lra|]. apply IH; [lra|exact H'].
    + intros H. generalize (map fst l1). induction l as [|k ns IH]; cbn [common]; [reflexivity|]. rewrite IH, (proj2 (MIN k) (H k)). lra.
Qed.
Print Assumptions C77_overlap.

(** * What is computed *)
Lemma exact_common t1 t2 l1 l2 m : t1 = total l1 -> t2 = total l2 -> NoDup (map fst m) ->
  (forall n v, In (n, v) m -> v = (count_of n l1, count_of n l2)) -> exact_loop t1 t2 m = common (map fst m) l1 l2.
Proof.
  intros -> -> ND H. induction m as [|[n v] m IH]; cbn [exact_loop map fst common]; [reflexivity|]. rewrite (H n v (or_introl eq_refl)). inversion ND; subst.
  rewrite IH; [reflexivity|assumption|]. intros k w Hk. apply H. right. exact Hk.
Qed.
Lemma klt_NoDup (m : list (name * (Z * Z))) : StronglySorted klt m -> NoDup (map fst m).
Proof.
  intros S. induction S as [|e l S IH F]; cbn [map]; constructor; [|exact IH]. intros H. apply in_map_iff in H as [e' [E H]]. rewrite Forall_forall in F. specialize (F e' H). red in F. rewrite E, name_ltb_irrefl in F. discriminate.
Qed.
Lemma merged_spec l1 l2 m : StronglySorted klt m ->
  (forall n, aget name_eqb n m = if mem n l1 || mem n l2 then Some (count_of n l1, count_of n l2) else None) ->
  functions_in l1 l2 (map fst m) /\ forall n v, In (n, v) m -> v = (count_of n l1, count_of n l2).
Proof.
  intros S A. pose proof (klt_NoDup m S) as ND.
  assert (AG : forall n v, In (n, v) m -> aget name_eqb n m = Some v) by (intros n v H; apply (aget_NoDup_In name_eqb name_eqb_spec); assumption).
  split; [split; [exact ND|]|].
  - intros n. rewrite <- !mem_In. split.
    + intros H. apply in_map_iff in H as [[k v] [<- H]]. specialize (AG k v H). rewrite A in AG. cbn [fst]. destruct (mem k l1); [auto|]. destruct (mem k l2); [auto|discriminate].
    + intros H. assert (E : aget name_eqb n m = Some (count_of n l1, count_of n l2)) by (rewrite A; destruct H as [-> | ->]; [reflexivity|rewrite orb_true_r; reflexivity]).
      apply (aget_In name_eqb name_eqb_spec) in E. apply in_map_iff. eexists. split; [|exact E]. reflexivity.
  - intros n v H. specialize (AG n v H). rewrite A in AG. destruct (mem n l1 || mem n l2); congruence.
Qed.

(** The order of the two files does not matter, to the last bit. *)
Theorem C77_symmetric l1 l2 : profile_ok l1 -> profile_ok l2 -> Overlap l1 l2 = Overlap l2 l1.
Proof.
  intros O1 O2. destruct (merged l1 l2 O1 O2) as [a [m [E1 [E2 [S A]]]]]. destruct (merged l2 l1 O2 O1) as [a' [m' [E1' [E2' [S' A']]]]].
  unfold Overlap. rewrite E1, E1', E2, E2', orb_comm. destruct ((u64 (total l2) =? 0)%Z || (u64 (total l1) =? 0)%Z); [reflexivity|].
  set (sw := fun e : name * (Z * Z) => (fst e, (snd (snd e), fst (snd e)))).
  assert (M : m' = map sw m).
  { apply omap_ext; [exact S'| |].
    - clear -S. induction S as [|e l S IH F]; cbn [map]; constructor; [exact IH|]. rewrite Forall_forall in *. intros e' He'. apply in_map_iff in He' as [x [<- Hx]]. exact (F x Hx).
    - intros k. rewrite A'. assert (G : aget name_eqb k (map sw m) = match aget name_eqb k m with Some v => Some (snd v, fst v) | None => None end).
      { clear. induction m as [|[n v] m IH]; cbn [map sw aget fst snd]; [reflexivity|]. destruct (name_eqb k n); [reflexivity|exact IH]. }
      rewrite G, A, orb_comm. destruct (mem k l1 || mem k l2); reflexivity. }
  rewrite M. clear. generalize 0. induction m as [|[n [c1 c2]] m IH]; intros acc; cbn [map sw overlap_loop fst snd]; [reflexivity|]. rewrite Rmin_comm. apply IH.
Qed.
Print Assumptions C77_symmetric.

(** The result is the overlap up to the rounding errors of one operation more
    per function: for 10000 functions, three digits behind the point. *)
Theorem C77_accurate l1 l2 ns : profile_ok l1 -> profile_ok l2 -> fits l1 -> fits l2 -> total l1 <> 0%Z -> total l2 <> 0%Z -> functions_in l1 l2 ns ->
  let d := 1 - INR (length ns + 3) / 16777216 in
  0 <= Overlap l1 l2 /\ overlap l1 l2 * d <= Overlap l1 l2 /\ Overlap l1 l2 * d <= overlap l1 l2.
Proof.
  intros O1 O2 F1 F2 N1 N2 FI d. destruct (merged l1 l2 O1 O2) as [a [m [E1 [E2 [S A]]]]].
  pose proof (total_nonneg l1 (ok_nonneg l1 O1)) as P1. pose proof (total_nonneg l2 (ok_nonneg l2 O2)) as P2. unfold fits in *.
  assert (U1 : u64 (total l1) = total l1) by (unfold u64, w64; apply Z.mod_small; lia). assert (U2 : u64 (total l2) = total l2) by (unfold u64, w64; apply Z.mod_small; lia).
  destruct (merged_spec l1 l2 m S A) as [FM VM].
  assert (E : Overlap l1 l2 = overlap_loop (total l1) (total l2) m 0).
  { unfold Overlap. rewrite E1, E2, U1, U2. destruct (Z.eqb_spec (total l1) 0); [contradiction|]. destruct (Z.eqb_spec (total l2) 0); [contradiction|]. reflexivity. }
  assert (LN : length m = length ns).
  { rewrite <- (map_length fst m). apply Permutation_length, NoDup_Permutation; [apply FM|apply FI|]. intros n. rewrite (proj2 FM n), (proj2 FI n). reflexivity. }
  pose proof (loop_near (total l1) (total l2) m ltac:(lia) ltac:(lia)) as LP.
  assert (PM : forall e, In e m -> (0 <= fst (snd e) /\ 0 <= snd (snd e))%Z).
  { intros [n v] He. cbn [snd]. rewrite (VM n v He). cbn [fst snd]. split; apply count_nonneg, ok_nonneg; assumption. }
  specialize (LP PM 3%nat 0 0 (Nat.le_refl 3) (or_introl eq_refl) (near_0 3)). rewrite Rplus_0_l, (exact_common _ _ l1 l2 m eq_refl eq_refl (proj1 FM) VM), (common_overlap _ l1 l2 O1 O2 FM), <- E in LP.
  destruct LP as [L1 [L2 [L3 L4]]]. pose proof (bernoulli (3 + length m)) as B. rewrite LN in *. rewrite (Nat.add_comm 3) in *.
  assert (DE : d = 1 - INR (length ns + 3) * u24) by (unfold d, u24; lra). rewrite <- DE in B. split; [exact L2|]. split; nra.
Qed.
Print Assumptions C77_accurate.
(** Hence 0 is printed for profiles that have no function in common, and, up to
    the rounding, 1 for a profile and itself. *)
Theorem C77_zero l1 l2 ns : profile_ok l1 -> profile_ok l2 -> fits l1 -> fits l2 -> functions_in l1 l2 ns -> (zlen ns + 3 < 2 ^ 24)%Z ->
  (Overlap l1 l2 = 0 <-> forall n, count_of n l1 = 0%Z \/ count_of n l2 = 0%Z).
Proof.
  intros O1 O2 F1 F2 FI LN.
  assert (TZ : forall l, profile_ok l -> total l = 0%Z -> forall n, count_of n l = 0%Z).
  { intros l [_ P] E n. assert (G : forall l', (forall e, In e l' -> (0 <= snd e)%Z) -> total l' = 0%Z -> count_of n l' = 0%Z).
    { induction l' as [|[k c] l' IH]; cbn [total count_of]; intros P' E'; [reflexivity|]. pose proof (P' _ (or_introl eq_refl)) as Pc. cbn [snd] in Pc. assert (X : forall e, In e l' -> (0 <= snd e)%Z) by (intros e He; apply P'; right; exact He).
      pose proof (total_nonneg l' X). destruct (name_eqb k n); [lia|]. apply IH; [exact X|lia]. }
    apply G; [intros e He; apply P, He|exact E]. }
  assert (OZ : total l1 = 0%Z \/ total l2 = 0%Z -> Overlap l1 l2 = 0).
  { destruct (merged l1 l2 O1 O2) as [a [m [E1 [E2 [S A]]]]]. unfold Overlap. rewrite E1, E2. intros [E|E]; rewrite E; change (u64 0) with 0%Z; cbn [Z.eqb orb]; [reflexivity|]. rewrite orb_true_r. reflexivity. }
  destruct (Z.eq_dec (total l1) 0) as [Z1|N1]; [rewrite OZ by auto; split; [intros _ n; left; apply TZ; assumption|reflexivity]|].
  destruct (Z.eq_dec (total l2) 0) as [Z2|N2]; [rewrite OZ by auto; split; [intros _ n; right; apply TZ; assumption|reflexivity]|].
  pose proof (C77_accurate l1 l2 ns O1 O2 F1 F2 N1 N2 FI) as [A1 [A2 A3]]. destruct (C77_overlap l1 l2 O1 O2 N1 N2) as [[B1 B2] [_ [_ B3]]].
  assert (D : 0 < 1 - INR (length ns + 3) / 16777216).
  { assert (INR (length ns + 3) < 16777216). { rewrite INR_IZR_INZ. apply IZR_lt. unfold zlen in LN. lia. } lra. }
  rewrite <- B3. split; intros E; rewrite E in *; nra.
Qed.
Print Assumptions C77_zero.

(** * "In the range of [0,1]" *)
Lemma rnd_val x mm ee : (-149 <= ee)%Z -> bpow radix2 (ee + 23) <= x < bpow radix2 (ee + 24) -> Rabs (x - IZR mm * bpow radix2 ee) < bpow radix2 ee / 2 ->
  rnd32 x = IZR mm * bpow radix2 ee.
Proof.
  intros HE [L U] D. assert (P : 0 < x) by (pose proof (bpow_gt_0 radix2 (ee + 23)); lra).
  assert (C : cexp radix2 (FLT_exp (-149) 24) x = ee).
  { unfold cexp. rewrite (mag_unique_pos radix2 x (ee + 24)); [unfold FLT_exp; lia|]. replace (ee + 24 - 1)%Z with (ee + 23)%Z by lia. auto. }
  unfold rnd32, round, scaled_mantissa. rewrite C. unfold F2R. cbn [Fnum Fexp]. f_equal. f_equal. apply Znearest_imp.
  pose proof (bpow_gt_0 radix2 ee) as B. pose proof (bpow_gt_0 radix2 (- ee)) as B'. assert (M : bpow radix2 ee * bpow radix2 (- ee) = 1) by (rewrite <- bpow_plus; replace (ee + - ee)%Z with 0%Z by lia; reflexivity).
  replace (x * bpow radix2 (- ee) - IZR mm) with ((x - IZR mm * bpow radix2 ee) * bpow radix2 (- ee)) by (rewrite Rmult_minus_distr_r, Rmult_assoc, M; ring).
  rewrite Rabs_mult, (Rabs_pos_eq (bpow radix2 (- ee))) by lra. replace (/ 2) with (bpow radix2 ee / 2 * bpow radix2 (- ee)) by (unfold Rdiv; rewrite Rmult_assoc, (Rmult_comm (/ 2)), <- Rmult_assoc, M; ring).
  apply Rmult_lt_compat_r; assumption.
Qed.
Definition x_name (c : Z) : name := [c].
Definition x_prof : list (name * Z) := [(x_name 97, 1%Z); (x_name 98, 6%Z); (x_name 99, 1%Z); (x_name 100, 2%Z)].
Ltac rv := first [split; cbn; lra | cbn; apply Rabs_def1; lra].
Lemma x_share1 : share32 1 10 = 13421773 * bpow radix2 (-27).
Proof. unfold share32. rewrite !rnd_int by reflexivity. apply (rnd_val _ 13421773 (-27)); [lia|rv|rv]. Qed.
Lemma x_share2 : share32 2 10 = 13421773 * bpow radix2 (-26).
Proof. unfold share32. rewrite !rnd_int by reflexivity. apply (rnd_val _ 13421773 (-26)); [lia|rv|rv]. Qed.
Lemma x_share6 : share32 6 10 = 10066330 * bpow radix2 (-24).
Proof. unfold share32. rewrite !rnd_int by reflexivity. apply (rnd_val _ 10066330 (-24)); [lia|rv|rv]. Qed.
Lemma x_ok : profile_ok x_prof.
Proof. split; [repeat (constructor; [|repeat constructor]); constructor|]. intros e [<-|[<-|[<-|[<-|[]]]]]; cbn; lia. Qed.
(** The overlap of a profile with itself can be printed... as 1.0000, but is more
    than 1: here 8388609 / 8388608. *)
Theorem C77_range_refuted : exists l, profile_ok l /\ total l = 10%Z /\ Overlap l l = 8388609 / 8388608.
Proof.
  exists x_prof. split; [exact x_ok|]. split; [reflexivity|].
  assert (E : Overlap x_prof x_prof = overlap_loop 10 10 [(x_name 97, (1, 1)); (x_name 98, (6, 6)); (x_name 99, (1, 1)); (x_name 100, (2, 2))]%Z 0).
  { unfold Overlap. replace (prepare1 x_prof 0 []) with (10%Z, [(x_name 97, (1, 0)); (x_name 98, (6, 0)); (x_name 99, (1, 0)); (x_name 100, (2, 0))]%Z) by (vm_compute; reflexivity).
    replace (prepare2 x_prof 0 _) with (10%Z, [(x_name 97, (1, 1)); (x_name 98, (6, 6)); (x_name 99, (1, 1)); (x_name 100, (2, 2))]%Z) by (vm_compute; reflexivity). reflexivity. }
  rewrite E. clear E. cbn [overlap_loop]. rewrite x_share1, x_share2, x_share6. rewrite !Rmin_left by lra. rewrite Rplus_0_l.
  rewrite (rnd_val (13421773 * bpow radix2 (-27)) 13421773 (-27)); [|lia|rv|rv].
  rewrite (rnd_val (13421773 * bpow radix2 (-27) + 10066330 * bpow radix2 (-24)) 11744052 (-24)); [|lia|rv|rv].
  rewrite (rnd_val (11744052 * bpow radix2 (-24) + 13421773 * bpow radix2 (-27)) 13421774 (-24)); [|lia|rv|rv].
  rewrite (rnd_val _ 8388609 (-23)); [cbn; lra|lia|rv|rv].
Qed.
Print Assumptions C77_range_refuted.

(** Counts that add up to 2^64: nothing in common, not even with itself. *)
Theorem C77_total_wraps_refuted : exists l, profile_ok l /\ total l = (2 ^ 64)%Z /\ overlap l l = 1 /\ Overlap l l = 0.
Proof.
  exists [(x_name 97, 2 ^ 63); (x_name 98, 2 ^ 63)]%Z.
  assert (O : profile_ok [(x_name 97, 2 ^ 63); (x_name 98, 2 ^ 63)]%Z). { split; [repeat (constructor; [|repeat constructor]); constructor|]. intros e [<-|[<-|[]]]; cbn; lia. }
  split; [exact O|]. split; [reflexivity|]. split.
  - apply (C77_overlap _ _ O O); [discriminate|discriminate|]. reflexivity.
  - unfold Overlap. set (p := prepare1 _ _ _). vm_compute in p. subst p. cbv iota beta. destruct (prepare2 _ _ _) as [t m]. reflexivity.
Qed.
Print Assumptions C77_total_wraps_refuted.

(** * The listing *)
Open Scope Z_scope.
Notation groups := (list (Z * list name)) (only parsing).
Definition grouped (done : list (name * Z)) (m : groups) : Prop :=
  StronglySorted (fun a b => fst a < fst b) m /\
  (forall k ns, In (k, ns) m -> StronglySorted nlt ns /\ forall n, In n ns -> In (n, k) done /\ 0 < k) /\
  (forall n k, In (n, k) done -> 0 < k -> exists ns, In (k, ns) m /\ In n ns).
Lemma push_ok done c n m : grouped done m -> 0 < c -> (forall e, In e done -> name_ltb (fst e) n = true) -> grouped (done ++ [(n, c)]) (push_name c n m).
Proof.
  intros [S [G1 G2]] Pc LT.
  assert (K : StronglySorted (fun a b => fst a < fst b) (push_name c n m) /\ (forall k, In k (map fst (push_name c n m)) -> k = c \/ In k (map fst m)) /\ (forall k ns, In (k, ns) (push_name c n m) <-> (k <> c /\ In (k, ns) m) \/ (k = c /\ ((exists ns0, In (c, ns0) m /\ ns = ns0 ++ [n]) \/ (~ In c (map fst m) /\ ns = [n]))))).
  { clear G1 G2 LT. induction S as [|[k0 ns0] m S [I1 [I2 I3]] F]; cbn [push_name].
    - split; [repeat constructor|]. split; [intros k [<-|[]]; left; reflexivity|]. intros k ns. cbn [In map]. split.
      + intros [E|[]]. injection E as <- <-. right. auto.
      + intros [[_ []]|[-> [[ns0 [[] _]]|[_ ->]]]]. left. reflexivity.
    - rewrite Forall_forall in F. cbn [fst] in F.
      destruct (Z.ltb_spec c k0) as [L|L]; [|destruct (Z.ltb_spec k0 c) as [L'|L']].
      + assert (NC : ~ In c (map fst ((k0, ns0) :: m))).
        { cbn [map fst]. intros [E|H]; [lia|]. apply in_map_iff in H as [e [E He]]. specialize (F e He). lia. }
        split; [|split].
        * constructor; [constructor; [exact S|rewrite Forall_forall; exact F]|]. constructor; [cbn; lia|]. rewrite Forall_forall. intros e He. specialize (F e He). cbn [fst]. lia.
        * intros k. cbn [map fst In]. intuition.
        * intros k ns. split.
          -- intros [E|H]; [injection E as <- <-; right; auto|]. left. split; [|exact H]. intros ->. apply NC. apply in_map_iff. exists (c, ns). auto.
          -- intros [[N H]|[-> [[ns1 [H _]]|[_ ->]]]]; [right; exact H| |left; reflexivity]. destruct NC. apply in_map_iff. exists (c, ns1). auto.
      + split; [|split].
        * constructor; [exact I1|]. rewrite Forall_forall. intros [k ns] He. assert (X : In k (map fst (push_name c n m))) by (apply in_map_iff; exists (k, ns); auto). cbn [fst]. destruct (I2 k X) as [->|H]; [exact L'|].
          apply in_map_iff in H as [e [E He']]. specialize (F e He'). lia.
        * intros k. cbn [map fst In]. intros [<-|H]; [auto|]. destruct (I2 k H); auto.
        * intros k ns. cbn [In map fst]. rewrite I3. split.
          -- intros [E|[[N H]|[-> [[ns1 [H E]]|[N E]]]]]; [injection E as <- <-; left; split; [lia|auto]|left; auto|right; split; [reflexivity|]; left; eauto|right; split; [reflexivity|]; right; split; [|exact E]; intros [X|X]; [lia|contradiction]].
          -- intros [[N [H|H]]|[-> [[ns1 [[H|H] E]]|[N E]]]]; [left; exact H|right; left; auto|injection H as H1 H2; lia|right; right; split; [reflexivity|]; left; eauto|right; right; split; [reflexivity|]; right; split; [tauto|exact E]].
      + assert (k0 = c) by lia. subst k0. assert (NC : forall ns, ~ In (c, ns) m) by (intros ns H; specialize (F _ H); cbn [fst] in F; lia). split; [|split].
        * constructor; [exact S|rewrite Forall_forall; exact F].
        * intros k. cbn [map fst In]. tauto.
        * intros k ns. cbn [In map fst]. split.
          -- intros [E|H]; [injection E as <- <-; right; split; [reflexivity|]; left; eauto|]. left. split; [|auto]. intros ->. exact (NC _ H).
          -- intros [[N [H|H]]|[-> [[ns1 [[H|H] E]]|[N E]]]]; [injection H as H1 H2; congruence|auto|injection H as <-; subst; auto|destruct (NC _ H)|destruct N; auto]. }
  destruct K as [K1 [_ K3]]. split; [exact K1|]. split.
  - intros k ns H. apply K3 in H as [[N H]|[-> [[ns0 [H ->]]|[_ ->]]]].
    + destruct (G1 k ns H) as [A B]. split; [exact A|]. intros q Hq. destruct (B q Hq). split; [apply in_app_iff; left; assumption|assumption].
    + destruct (G1 c ns0 H) as [A B]. split.
      * assert (X : Forall (fun q => name_ltb q n = true) ns0) by (apply Forall_forall; intros q Hq; exact (LT (q, c) (proj1 (B q Hq)))).
        clear -A X. induction A as [|q l A IH F]; cbn [app]; [repeat constructor|]. inversion X; subst. constructor; [apply IH; assumption|]. rewrite Forall_forall in *. intros y Hy. apply in_app_iff in Hy as [Hy|[<-|[]]]; [exact (F y Hy)|assumption].
      * intros q Hq. apply in_app_iff in Hq as [Hq|[<-|[]]]; [destruct (B q Hq); split; [apply in_app_iff; left; assumption|assumption]|]. split; [apply in_app_iff; right; left; reflexivity|exact Pc].
    + split; [repeat constructor|]. intros q [<-|[]]. split; [apply in_app_iff; right; left; reflexivity|exact Pc].
  - intros q k H Pk. apply in_app_iff in H as [H|[E|[]]].
    + destruct (G2 q k H Pk) as [ns [H1 H2]]. destruct (Z.eq_dec k c) as [-> | N].
      * exists (ns ++ [n]). split; [apply K3; right; split; [reflexivity|]; left; eauto|]. apply in_app_iff. auto.
      * exists ns. split; [apply K3; left; auto|exact H2].
    + injection E as <- <-. destruct (in_dec Z.eq_dec c (map fst m)) as [I|I].
      * apply in_map_iff in I as [[c' ns0] [E I]]. cbn [fst] in E. subst c'. exists (ns0 ++ [n]). split; [apply K3; right; split; [reflexivity|]; left; eauto|]. apply in_app_iff. right. left. reflexivity.
      * exists [n]. split; [apply K3; right; split; [reflexivity|]; right; auto|left; reflexivity].
Qed.
Lemma count_names_ok l : profile_ok l -> grouped l (count_names l).
Proof.
  intros [S _]. unfold count_names.
  assert (G : forall l done m, StronglySorted (fun a b : name * Z => name_ltb (fst a) (fst b) = true) l -> (forall e d, In d done -> In e l -> name_ltb (fst d) (fst e) = true) -> grouped done m ->
    grouped (done ++ l) (fold_left (fun m e => if 0 <? snd e then push_name (snd e) (fst e) m else m) l m)).
  { clear. induction l as [|[n c] l IH]; intros done m S LT G; cbn [fold_left fst snd]; [rewrite app_nil_r; exact G|]. inversion S as [|x y S' F E]; subst. rewrite Forall_forall in F.
    replace (done ++ (n, c) :: l) with ((done ++ [(n, c)]) ++ l) by (rewrite <- app_assoc; reflexivity). apply IH; [exact S'| |].
    - intros e d Hd He. apply in_app_iff in Hd as [Hd|[<-|[]]]; [apply LT; [exact Hd|right; exact He]|exact (F e He)].
    - destruct (Z.ltb_spec 0 c) as [P|P].
      + apply push_ok; [exact G|exact P|]. intros e He. exact (LT (n, c) e He (or_introl eq_refl)).
      + destruct G as [G0 [G1 G2]]. split; [exact G0|]. split.
        * intros k ns H. destruct (G1 k ns H) as [A B]. split; [exact A|]. intros q Hq. destruct (B q Hq). split; [apply in_app_iff; left; assumption|assumption].
        * intros q k H Pk. apply in_app_iff in H as [H|[E|[]]]; [exact (G2 q k H Pk)|injection E as <- <-; lia]. }
  apply (G l [] []); [exact S|intros e d []|]. split; [constructor|]. split; [intros k ns []|intros n k []].
Qed.
Lemma count_of_In n c l : NoDup (map fst l) -> In (n, c) l -> count_of n l = c.
Proof.
  induction l as [|[k v] l IH]; cbn [map fst count_of In]; [contradiction|]. intros ND [E|H].
  - injection E as -> ->. destruct (name_eqb_spec n n); [reflexivity|congruence].
  - inversion ND as [|x y NI ND' E]; subst. destruct (name_eqb_spec k n) as [Q|N]; [|exact (IH ND' H)]. destruct NI. rewrite Q. apply in_map_iff. exists (n, c). auto.
Qed.
Lemma count_of_find n l : count_or_0 n l = count_of n l /\ (find_count n l = if mem n l then Some (count_of n l) else None).
Proof.
  unfold count_or_0, find_count. induction l as [|[k c] l [I1 I2]]; cbn [aget count_of mem existsb fst]; [auto|]. fold (mem n l).
  destruct (name_eqb_spec k n) as [QQ|N]; [rewrite QQ; destruct (name_eqb_spec n n); [auto|congruence]|]. destruct (name_eqb_spec n k); [congruence|]. cbn [orb]. auto.
Qed.
Lemma In_count_of n c l : NoDup (map fst l) -> 0 < c -> (In (n, c) l <-> count_of n l = c).
Proof.
  intros ND P. split; [apply count_of_In, ND|]. intros E. destruct (mem n l) eqn:M; [|rewrite (count_of_out n l M) in E; lia].
  apply mem_In, in_map_iff in M as [[k v] [Ek H]]. cbn [fst] in Ek. subst k. rewrite (count_of_In n v l ND H) in E. subst. exact H.
Qed.
Lemma max_largest l : profile_ok l -> largest l (max_count l) /\ forall m, largest l m -> m = max_count l.
Proof.
  intros O. pose proof (ok_nonneg l O) as P. clear O.
  assert (G : forall (l : list (name * Z)) m0, 0 <= m0 -> (forall e, In e l -> 0 <= snd e) -> let m := fold_left (fun m e => Z.max (snd e) m) l m0 in
    m0 <= m /\ (forall e, In e l -> snd e <= m) /\ (m = m0 \/ exists n, In (n, m) l)).
  { clear. induction l as [|[n c] l IH]; intros m0 H0 P; cbn [fold_left snd]; [split; [lia|]; split; [intros e []|auto]|].
    pose proof (P _ (or_introl eq_refl)) as Pc. cbn [snd] in Pc. destruct (IH (Z.max c m0) ltac:(lia) (fun e He => P e (or_intror He))) as [A [B C]]. cbv zeta. split; [lia|]. split.
    - intros e [<-|He]; [cbn [snd]; lia|exact (B e He)].
    - destruct C as [C|[k C]]; [|right; exists k; right; exact C]. destruct (Z.max_spec c m0) as [[L E]|[L E]]; rewrite E in C at 2; [left; exact C|right; exists n; left; rewrite C at 1; reflexivity]. }
  destruct (G l 0 ltac:(lia) P) as [A [B C]]. fold (max_count l) in *. 
  assert (L : largest l (max_count l)).
  { split; [exact B|]. destruct C as [C|C]; [|right; exact C]. destruct l as [|[n c] l]; [left; auto|]. right. exists n. left. pose proof (B _ (or_introl eq_refl)) as X. pose proof (P _ (or_introl eq_refl)) as Y. cbn [snd] in X, Y. rewrite C in X at 1. f_equal. lia. }
  split; [exact L|]. intros m [M1 M2]. destruct L as [L1 L2]. destruct M2 as [[-> ->]|[n M2]]; [destruct L2 as [[_ E]|[k []]]; exact (eq_sym E)|]. destruct L2 as [[-> _]|[k L2]]; [destruct M2|].
  pose proof (L1 _ M2) as X. pose proof (M1 _ L2) as Y. cbn [snd] in X, Y. lia.
Qed.
(** No product is more than 64 bits. *)
Definition counts_fit (cutoff : Z) (l : list (name * Z)) : Prop := forall e, In e l -> snd e * 100 < 2 ^ 64 /\ snd e * cutoff < 2 ^ 64.
Lemma below_hot cutoff l n : profile_ok l -> 0 <= cutoff < 2 ^ 64 -> counts_fit cutoff l -> (below (count_of n l) (max_count l) cutoff = false <-> hot cutoff l n).
Proof.
  intros O HC F. destruct (max_largest l O) as [L U]. pose proof (count_nonneg n l (ok_nonneg l O)) as P.
  assert (F0 : forall c, c = 0 \/ (exists k, In (k, c) l) -> 0 <= c /\ c * 100 < 2 ^ 64 /\ c * cutoff < 2 ^ 64) by (intros c [->|[k H]]; [lia|]; split; [exact (ok_nonneg l O _ H)|exact (F _ H)]).
  assert (F1 : count_of n l = 0 \/ exists k, In (k, count_of n l) l).
  { destruct (Z.eq_dec (count_of n l) 0) as [E|N]; [auto|right; exists n; apply In_count_of; [apply ok_NoDup, O|lia|reflexivity]]. }
  assert (F2 : max_count l = 0 \/ exists k, In (k, max_count l) l) by (destruct L as [_ [[_ E]|E]]; auto).
  destruct (F0 _ F1) as [_ [A _]]. destruct (F0 _ F2) as [B [_ C]]. unfold below, u64, w64. rewrite (Z.mod_small cutoff), !Z.mod_small by nia. rewrite Z.ltb_ge. unfold hot. split.
  - intros H m Hm. rewrite (U m Hm). exact H.
  - intros H. exact (H _ L).
Qed.
Lemma flat_sorted {A B} (R : B -> B -> Prop) (f : A -> list B) (gs : list A) (Q : A -> A -> Prop) :
  StronglySorted Q gs -> (forall g, In g gs -> StronglySorted R (f g)) -> (forall g g' x y, In g gs -> In g' gs -> Q g g' -> In x (f g) -> In y (f g') -> R x y) ->
  StronglySorted R (flat_map f gs).
Proof.
  induction 1 as [|g gs S IH F]; intros H1 H2; cbn [flat_map]; [constructor|].
  assert (I : StronglySorted R (flat_map f gs)) by (apply IH; [intros g' Hg; apply H1; right; exact Hg|intros g' g'' x y Ha Hb; apply H2; right; assumption]).
  pose proof (H1 g (or_introl eq_refl)) as S1. rewrite Forall_forall in F.
  assert (X : forall x y, In x (f g) -> In y (flat_map f gs) -> R x y).
  { intros x y Hx Hy. apply in_flat_map in Hy as [g' [Hg Hy]]. apply (H2 g g'); auto; [left; reflexivity|right; exact Hg]. }
  clear -S1 I X. induction S1 as [|x l S1 IH F]; cbn [app]; [exact I|]. constructor; [apply IH; intros a b Ha; apply X; right; exact Ha|].
  rewrite Forall_forall in *. intros y Hy. apply in_app_iff in Hy as [Hy|Hy]; [exact (F y Hy)|apply X; [left; reflexivity|exact Hy]].
Qed.
Lemma rev_sorted {A} (R : A -> A -> Prop) l : StronglySorted R l -> StronglySorted (fun a b => R b a) (rev l).
Proof.
  induction 1 as [|x l S IH F]; cbn [rev]; [constructor|]. rewrite Forall_forall in F.
  assert (G : forall k, StronglySorted (fun a b => R b a) k -> (forall y, In y k -> R x y) -> StronglySorted (fun a b => R b a) (k ++ [x])).
  { induction 1 as [|y k S' IH' F']; intros H; cbn [app]; [repeat constructor|]. constructor; [apply IH'; intros z Hz; apply H; right; exact Hz|]. rewrite Forall_forall in *. intros z Hz. apply in_app_iff in Hz as [Hz|[<-|[]]]; [exact (F' z Hz)|apply H; left; reflexivity]. }
  apply G; [exact IH|]. intros y Hy. apply F. apply in_rev, Hy.
Qed.

(** Greater counts first, equal counts by name. *)
Definition listed_before (which : Z * Z -> Z) (x y : name * (Z * Z)) : Prop :=
  which (snd y) < which (snd x) \/ (which (snd x) = which (snd y) /\ name_ltb (fst x) (fst y) = true).
Theorem C77_listed cutoff l1 l2 : profile_ok l1 -> profile_ok l2 -> 0 <= cutoff < 2 ^ 64 -> counts_fit cutoff l1 -> counts_fit cutoff l2 ->
  exists a b, DumpFuncLevelProfileCompare cutoff l1 l2 = a ++ b /\
    (forall n v, In (n, v) a <-> 0 < count_of n l1 /\ hot cutoff l1 n /\ v = (count_of n l1, count_of n l2)) /\
    (forall n v, In (n, v) b <-> 0 < count_of n l2 /\ hot cutoff l2 n /\ ~ (In n (map fst l1) /\ hot cutoff l1 n) /\ v = (count_of n l1, count_of n l2)) /\
    StronglySorted (listed_before fst) a /\ StronglySorted (listed_before snd) b.
Proof.
  intros O1 O2 HC F1 F2. pose proof (ok_NoDup _ O1) as ND1. pose proof (ok_NoDup _ O2) as ND2.
  unfold DumpFuncLevelProfileCompare. cbv zeta. eexists _, _. split; [reflexivity|].
  pose proof (fun n => below_hot cutoff l1 n O1 HC F1) as H1. pose proof (fun n => below_hot cutoff l2 n O2 HC F2) as H2.
  assert (D1 : forall c ns, (forall n, In n ns -> count_of n l1 = c) -> dump1 l1 l2 (max_count l1) cutoff ns = if below c (max_count l1) cutoff then [] else map (fun n => (n, (c, count_of n l2))) ns).
  { intros c ns. induction ns as [|n ns IH]; intros H; cbn [dump1 map]; [destruct (below _ _ _); reflexivity|]. rewrite (proj1 (count_of_find n l1)), (proj1 (count_of_find n l2)), (H n (or_introl eq_refl)).
    rewrite IH by (intros k Hk; apply H; right; exact Hk). destruct (below c (max_count l1) cutoff); reflexivity. }
  set (keep := fun n => match find_count n l1 with Some c1 => below c1 (max_count l1) cutoff | None => true end).
  assert (KP : forall n, keep n = true <-> ~ (In n (map fst l1) /\ hot cutoff l1 n)).
  { intros n. unfold keep. rewrite (proj2 (count_of_find n l1)). destruct (mem n l1) eqn:M.
    - apply mem_In in M. rewrite <- H1. destruct (below (count_of n l1) (max_count l1) cutoff); split; [intros _ [_ X]; discriminate|reflexivity|discriminate|intros X; destruct X; auto].
    - split; [|reflexivity]. intros _ [X _]. apply mem_In in X. congruence. }
  assert (D2 : forall c ns, (forall n, In n ns -> count_of n l2 = c) -> dump2 l1 l2 (max_count l1) (max_count l2) cutoff ns = if below c (max_count l2) cutoff then [] else map (fun n => (n, (count_of n l1, c))) (filter keep ns)).
  { intros c ns. induction ns as [|n ns IH]; intros H; cbn [dump2 map filter]; [destruct (below _ _ _); reflexivity|]. rewrite (proj1 (count_of_find n l2)), (H n (or_introl eq_refl)).
    rewrite IH by (intros k Hk; apply H; right; exact Hk). destruct (below c (max_count l2) cutoff); [reflexivity|]. unfold keep. rewrite (proj2 (count_of_find n l1)). destruct (mem n l1) eqn:M.
    - destruct (below (count_of n l1) (max_count l1) cutoff); reflexivity.
    - cbn [map]. rewrite (count_of_out n l1 M). reflexivity. }
  destruct (count_names_ok l1 O1) as [S1 [A1 B1]]. destruct (count_names_ok l2 O2) as [S2 [A2 B2]].
  assert (C1 : forall k ns, In (k, ns) (count_names l1) -> forall n, In n ns -> count_of n l1 = k) by (intros k ns H n Hn; apply count_of_In; [exact ND1|apply (A1 k ns H), Hn]).
  assert (C2 : forall k ns, In (k, ns) (count_names l2) -> forall n, In n ns -> count_of n l2 = k) by (intros k ns H n Hn; apply count_of_In; [exact ND2|apply (A2 k ns H), Hn]).
  assert (M1 : forall n v, In (n, v) (flat_map (fun g => dump1 l1 l2 (max_count l1) cutoff (snd g)) (rev (count_names l1))) <-> 0 < count_of n l1 /\ hot cutoff l1 n /\ v = (count_of n l1, count_of n l2)).
  { intros n v. rewrite in_flat_map. split.
    - intros [[k ns] [Hg H]]. apply in_rev in Hg. cbn [snd] in H. rewrite (D1 k ns (C1 k ns Hg)) in H. destruct (below k (max_count l1) cutoff) eqn:E; [destruct H|]. apply in_map_iff in H as [q [Eq Hq]]. injection Eq as -> <-.
      rewrite (C1 k ns Hg n Hq). split; [exact (proj2 (proj2 (A1 k ns Hg) n Hq))|]. split; [apply H1; rewrite (C1 k ns Hg n Hq); exact E|]. reflexivity.
    - intros [P [HT ->]]. destruct (B1 n (count_of n l1)) as [ns [Hg Hn]]; [apply In_count_of; auto|exact P|]. exists (count_of n l1, ns). split; [apply in_rev in Hg; exact Hg|]. cbn [snd].
      rewrite (D1 _ ns (C1 _ ns Hg)), (proj2 (H1 n) HT). apply in_map_iff. eauto. }
  assert (M2 : forall n v, In (n, v) (flat_map (fun g => dump2 l1 l2 (max_count l1) (max_count l2) cutoff (snd g)) (rev (count_names l2))) <-> 0 < count_of n l2 /\ hot cutoff l2 n /\ ~ (In n (map fst l1) /\ hot cutoff l1 n) /\ v = (count_of n l1, count_of n l2)).
  { intros n v. rewrite in_flat_map. split.
    - intros [[k ns] [Hg H]]. apply in_rev in Hg. cbn [snd] in H. rewrite (D2 k ns (C2 k ns Hg)) in H. destruct (below k (max_count l2) cutoff) eqn:E; [destruct H|]. apply in_map_iff in H as [q [Eq Hq]]. injection Eq as -> <-.
      apply filter_In in Hq as [Hq KQ]. rewrite (C2 k ns Hg n Hq). split; [exact (proj2 (proj2 (A2 k ns Hg) n Hq))|]. split; [apply H2; rewrite (C2 k ns Hg n Hq); exact E|]. split; [apply KP, KQ|reflexivity].
    - intros [P [HT [NK ->]]]. destruct (B2 n (count_of n l2)) as [ns [Hg Hn]]; [apply In_count_of; auto|exact P|]. exists (count_of n l2, ns). split; [apply in_rev in Hg; exact Hg|]. cbn [snd].
      rewrite (D2 _ ns (C2 _ ns Hg)), (proj2 (H2 n) HT). apply in_map_iff. exists n. split; [reflexivity|]. apply filter_In. split; [exact Hn|apply KP, NK]. }
  assert (MS : forall (f : name -> Z * Z) (w : Z * Z -> Z) k ns, StronglySorted nlt ns -> (forall n, In n ns -> w (f n) = k) -> StronglySorted (listed_before w) (map (fun n => (n, f n)) ns)).
  { intros f w k ns S. induction S as [|n ns S IH F]; intros H; cbn [map]; constructor; [apply IH; intros q Hq; apply H; right; exact Hq|]. rewrite Forall_forall in *. intros y Hy. apply in_map_iff in Hy as [q [<- Hq]].
    right. cbn [fst snd]. split; [rewrite (H n (or_introl eq_refl)), (H q (or_intror Hq)); reflexivity|exact (F q Hq)]. }
  split; [exact M1|]. split; [exact M2|]. split.
  - apply (flat_sorted _ _ _ (fun a b => fst b < fst a) (rev_sorted _ _ S1)).
    + intros [k ns] Hg. apply in_rev in Hg. cbn [snd]. rewrite (D1 k ns (C1 k ns Hg)). destruct (below k (max_count l1) cutoff); [constructor|]. apply (MS (fun n => (k, count_of n l2)) fst k); [exact (proj1 (A1 k ns Hg))|reflexivity].
    + intros [k ns] [k' ns'] x y Hg Hg' Q Hx Hy. apply in_rev in Hg, Hg'. cbn [snd fst] in *. rewrite (D1 k ns (C1 k ns Hg)) in Hx. rewrite (D1 k' ns' (C1 k' ns' Hg')) in Hy. destruct (below k _ _); [destruct Hx|]. destruct (below k' _ _); [destruct Hy|].
      apply in_map_iff in Hx as [n [<- _]]. apply in_map_iff in Hy as [n' [<- _]]. left. exact Q.
  - apply (flat_sorted _ _ _ (fun a b => fst b < fst a) (rev_sorted _ _ S2)).
    + intros [k ns] Hg. apply in_rev in Hg. cbn [snd]. rewrite (D2 k ns (C2 k ns Hg)). destruct (below k (max_count l2) cutoff); [constructor|]. apply (MS (fun n => (count_of n l1, k)) snd k); [|reflexivity].
      pose proof (proj1 (A2 k ns Hg)) as S. clear -S. induction S as [|n ns S IH F]; cbn [filter]; [constructor|]. destruct (keep n); [|exact IH]. constructor; [exact IH|]. rewrite Forall_forall in *. intros y Hy. apply filter_In in Hy. apply F, Hy.
    + intros [k ns] [k' ns'] x y Hg Hg' Q Hx Hy. apply in_rev in Hg, Hg'. cbn [snd fst] in *. rewrite (D2 k ns (C2 k ns Hg)) in Hx. rewrite (D2 k' ns' (C2 k' ns' Hg')) in Hy. destruct (below k _ _); [destruct Hx|]. destruct (below k' _ _); [destruct Hy|].
      apply in_map_iff in Hx as [n [<- _]]. apply in_map_iff in Hy as [n' [<- _]]. left. exact Q.
Qed.
Print Assumptions C77_listed.

(** With a cutoff of at least one percent and a first profile that has a count,
    the functions listed are exactly those with a count that are hot in one of the
    profiles, each in one line. *)
Theorem C77_each_once cutoff l1 l2 : profile_ok l1 -> profile_ok l2 -> 1 <= cutoff < 2 ^ 64 -> counts_fit cutoff l1 -> counts_fit cutoff l2 ->
  (exists e, In e l1 /\ 0 < snd e) ->
  let names := map fst (DumpFuncLevelProfileCompare cutoff l1 l2) in
  NoDup names /\
  (forall n, In n names <-> (0 < count_of n l1 /\ hot cutoff l1 n) \/ (0 < count_of n l2 /\ hot cutoff l2 n)) /\
  (forall n v, In (n, v) (DumpFuncLevelProfileCompare cutoff l1 l2) -> v = (count_of n l1, count_of n l2)).
Proof.
  intros O1 O2 HC F1 F2 [e [He Pe]]. destruct (C77_listed cutoff l1 l2 O1 O2 ltac:(lia) F1 F2) as [a [b [E [A [B [SA SB]]]]]]. rewrite E. cbv zeta.
  pose proof (ok_NoDup _ O1) as ND1.
  assert (IH : forall n, hot cutoff l1 n -> 0 < count_of n l1 /\ In n (map fst l1)).
  { intros n H. destruct (max_largest l1 O1) as [L _]. pose proof (H _ L) as X. pose proof (proj1 L e He) as Y.
    assert (P : 0 < count_of n l1) by nia. split; [exact P|]. apply mem_In. destruct (mem n l1) eqn:M; [reflexivity|]. rewrite (count_of_out n l1 M) in P. lia. }
  assert (NS : forall (w : Z * Z -> Z) l, (forall n v v', In (n, v) l -> In (n, v') l -> v = v') -> StronglySorted (listed_before w) l -> NoDup (map fst l)).
  { intros w l U S. induction S as [|[n v] l S IHS F]; cbn [map fst]; constructor.
    - intros X. apply in_map_iff in X as [[n' v'] [Q X]]. cbn [fst] in Q. subst n'. rewrite Forall_forall in F. specialize (F _ X).
      rewrite (U n v v' (or_introl eq_refl) (or_intror X)) in F. destruct F as [F|[_ F]]; cbn [fst snd] in F; [lia|]. rewrite name_ltb_irrefl in F. discriminate.
    - apply IHS. intros n' v1 v2 H1 H2. exact (U n' v1 v2 (or_intror H1) (or_intror H2)). }
  split; [|split].
  - rewrite map_app. apply NoDup_app2.
    + apply (NS fst); [|exact SA]. intros n v v' H H'. apply A in H, H'. destruct H as [_ [_ ->]]. destruct H' as [_ [_ ->]]. reflexivity.
    + apply (NS snd); [|exact SB]. intros n v v' H H'. apply B in H, H'. destruct H as [_ [_ [_ ->]]]. destruct H' as [_ [_ [_ ->]]]. reflexivity.
    + intros n H H'. apply in_map_iff in H as [[n1 v] [Q H]], H' as [[n2 v'] [Q' H']]. cbn [fst] in Q, Q'. subst n1 n2. apply A in H. apply B in H'. destruct H as [P [HT _]]. destruct H' as [_ [_ [N _]]]. apply N. split; [exact (proj2 (IH n HT))|exact HT].
  - intros n. rewrite map_app, in_app_iff. split.
    + intros [H|H]; apply in_map_iff in H as [[n1 v] [Q H]]; cbn [fst] in Q; subst n1; [apply A in H|apply B in H]; tauto.
    + intros [[P HT]|[P HT]].
      * left. apply in_map_iff. exists (n, (count_of n l1, count_of n l2)). split; [reflexivity|]. apply A. auto.
      * destruct (below (count_of n l1) (max_count l1) cutoff) eqn:BL.
        -- right. apply in_map_iff. exists (n, (count_of n l1, count_of n l2)). split; [reflexivity|]. apply B. split; [exact P|]. split; [exact HT|]. split; [|reflexivity]. intros [_ X]. apply (below_hot cutoff l1 n O1 ltac:(lia) F1) in X. congruence.
        -- left. apply (below_hot cutoff l1 n O1 ltac:(lia) F1) in BL. apply in_map_iff. exists (n, (count_of n l1, count_of n l2)). split; [reflexivity|]. apply A. split; [exact (proj1 (IH n BL))|auto].
  - intros n v H. apply in_app_iff in H as [H|H]; [apply A in H|apply B in H]; tauto.
Qed.
Print Assumptions C77_each_once.

Definition x_prof2 : list (name * Z) := [(x_name 98, 3%Z); (x_name 101, 9%Z)].
Lemma x_ok2 : profile_ok x_prof2.
Proof. split; [repeat (constructor; [|repeat constructor]); constructor|]. intros e [<-|[<-|[]]]; cbn; lia. Qed.
Example C77_nonvacuous :
  profile_ok x_prof /\ profile_ok x_prof2 /\ fits x_prof /\ fits x_prof2 /\ total x_prof <> 0 /\ total x_prof2 <> 0 /\
  functions_in x_prof x_prof2 (map x_name [97; 98; 99; 100; 101]) /\ counts_fit 20 x_prof /\ counts_fit 20 x_prof2 /\
  DumpFuncLevelProfileCompare 20 x_prof x_prof2 = [(x_name 98, (6, 3)); (x_name 100, (2, 0)); (x_name 101, (0, 9))].
Proof.
  split; [exact x_ok|]. split; [exact x_ok2|]. split; [reflexivity|]. split; [reflexivity|]. split; [discriminate|]. split; [discriminate|]. split.
  - split; [apply (NoDup_map_inv (fun n => nth 0 n 0)); cbn; repeat constructor; cbn; intros X; repeat (destruct X as [X|X]; [discriminate|]); destruct X|]. intros n. cbn. tauto.
  - split; [intros e He; cbn in He; repeat (destruct He as [<-|He]; [cbn; lia|]); destruct He|]. split; [intros e He; cbn in He; repeat (destruct He as [<-|He]; [cbn; lia|]); destruct He|]. vm_compute; reflexivity.
Qed.
(** But with a cutoff of 0, "list everything", a function that has the count
    0 in the first profile and is in the second one is in no part of the
    listing, however hot it is there. *)
Theorem C77_cutoff_zero_refuted : exists l1 l2 n, profile_ok l1 /\ profile_ok l2 /\ counts_fit 0 l1 /\ counts_fit 0 l2 /\
  0 < count_of n l2 /\ hot 100 l2 n /\ ~ In n (map fst (DumpFuncLevelProfileCompare 0 l1 l2)).
Proof.
  exists [(x_name 97, 5); (x_name 101, 0)], x_prof2, (x_name 101).
  split; [split; [repeat (constructor; [|repeat constructor]); constructor|intros e [<-|[<-|[]]]; cbn; lia]|]. split; [exact x_ok2|].
  split; [intros e [<-|[<-|[]]]; cbn; lia|]. split; [intros e [<-|[<-|[]]]; cbn; lia|]. split; [reflexivity|]. split.
  - intros m [B [[X _]|[n H]]]; [discriminate|]. cbn in H. destruct H as [H|[H|[]]]; injection H as _ <-; cbn; lia.
  - vm_compute. intros [H|[H|[]]]; discriminate.
Qed.
Print Assumptions C77_cutoff_zero_refuted.

(** * The tool *)
(** profile_diff with two file names compares the two profiles; ... *)
Theorem C77_tool parse read cutoff prog f1 f2 l1 l2 : parse [prog; f1; f2] = (false, [prog; f1; f2]) -> read f1 = Ok l1 -> read f2 = Ok l2 ->
  profile_diff_main parse read cutoff [prog; f1; f2] = Ok (None, Overlap l1 l2).
Proof. intros P R1 R2. unfold profile_diff_main. rewrite P, R1. cbn [obind]. rewrite R2. reflexivity. Qed.
Print Assumptions C77_tool.
(** ... but with a flag on the command line beside them it always aborts, so that
    --compare_function cannot be used: the words are counted with the flags. *)
Theorem C77_compare_function_refuted parse read cutoff argv flag files : parse argv = (flag, files) -> List.length files = 3%nat -> (List.length files < List.length argv)%nat ->
  profile_diff_main parse read cutoff argv = Abort.
Proof.
  intros P L G. unfold profile_diff_main. rewrite P, L in *. destruct argv as [|a [|b [|c [|d argv]]]]; cbn [List.length] in G; try lia; reflexivity.
Qed.
Print Assumptions C77_compare_function_refuted.
