(** C46: progress reporting. *)
From Verif Require Import Base StatusModel.
From Coq Require Import Reals Lra.
From Flocq Require Import Core Relative.
Open Scope Z_scope.

(** The walk of GetProgress, as a separate function. *)
Fixpoint walk (total finished : Z) (l : list (Z * provider)) : Z :=
  match l with
  | [] => 100
  | (w, q) :: l' => if IsDone q then walk total (finished + w) l'
                    else scaled_progress finished w (GetProgress q) total
  end.
Lemma GetProgress_Multi j subs :
  GetProgress (Multi j subs) =
  if total_weight subs =? 0 then 100 else walk (total_weight subs) 0 subs.
Proof.
  cbn [GetProgress]. destruct (total_weight subs =? 0); [reflexivity|].
  enough (G : forall T l f,
    (fix walk (finished : Z) (l : list (Z * provider)) : Z :=
           match l with
           | [] => 100
           | (w, q) :: l' =>
               if IsDone q then walk (finished + w) l'
               else scaled_progress finished w (GetProgress q) T
           end) f l = walk T f l) by apply G.
  intros T l. induction l as [|[w q] l IH]; intros f; [reflexivity|]. cbn [walk]. rewrite IH. reflexivity.
Qed.

Section Ind.
  Variable P : provider -> Prop.
  Hypothesis HD : forall j x, P (Default j x).
  Hypothesis HM : forall j subs, Forall (fun e => P (snd e)) subs -> P (Multi j subs).
  Fixpoint provider_ind2 (p : provider) : P p :=
    match p with
    | Default j x => HD j x
    | Multi j subs =>
        HM j subs
          ((fix go (l : list (Z * provider)) : Forall (fun e => P (snd e)) l :=
              match l with
              | [] => Forall_nil _
              | e :: l' => Forall_cons e (provider_ind2 (snd e)) (go l')
              end) subs)
    end.
End Ind.

(** Specification: sum of weights. *)
Definition wsum (l : list (Z * provider)) : Z := fold_right (fun e a => fst e + a) 0 l.
Lemma total_weight_sum l : total_weight l = wsum l.
Proof.
  unfold total_weight. assert (G : forall a, fold_left (fun a '(w, _) => a + w) l a = a + wsum l).
  { induction l as [|[w q] l IH]; intros a; cbn; [lia|]. rewrite IH. unfold wsum; cbn. lia. }
  apply (G 0).
Qed.

(** A tree whose leaf progress values are percentages and whose weights are
    non-negative, the weights of each node summing to at most [W]. *)
Inductive well_formed (W : Z) : provider -> Prop :=
| wf_default j x : 0 <= x <= 100 -> well_formed W (Default j x)
| wf_multi j subs : Forall (fun e => 0 <= fst e /\ well_formed W (snd e)) subs ->
    wsum subs <= W -> well_formed W (Multi j subs).

(* ---- float lemmas ---- *)
Open Scope R_scope.
Lemma rnd_le x y : x <= y -> rnd32 x <= rnd32 y.
Proof. intros H. apply round_le; [apply FLT_exp_valid; reflexivity|apply valid_rnd_N|exact H]. Qed.
Lemma rnd_id x : generic_format radix2 (FLT_exp (-149) 24) x -> rnd32 x = x.
Proof. intros H. apply round_generic; [apply valid_rnd_N|exact H]. Qed.
Lemma rnd_int n : (Z.abs n < 2 ^ 24)%Z -> rnd32 (IZR n) = IZR n.
Proof.
  intros H. apply rnd_id. apply generic_format_FLT. exists (Float radix2 n 0).
  - unfold F2R. cbn. lra.
  - exact H.
  - cbn. lia.
Qed.
Lemma rnd_0 : rnd32 0 = 0.
Proof. apply (rnd_int 0). reflexivity. Qed.
Lemma rnd_nonneg x : 0 <= x -> 0 <= rnd32 x.
Proof. intros H. rewrite <- rnd_0. apply rnd_le. exact H. Qed.

(** Relative error, for values that are 0 or at least 1/100. *)
Definition e24 : R := / 8388608.
Lemma rnd_rel x : x = 0 \/ / 100 <= x -> x * (1 - e24) <= rnd32 x <= x * (1 + e24).
Proof.
  intros [->|H]; [rewrite rnd_0; lra|].
  pose proof (relative_error_N_FLT radix2 (-149) 24 ltac:(reflexivity) (fun x => negb (Z.even x)) x) as Hr.
  cbn [Z.add Z.sub Z.opp] in Hr.
  assert (Hb : bpow radix2 (-126) <= Rabs x).
  { rewrite Rabs_pos_eq by lra. apply Rle_trans with (/ 100); [|exact H].
    apply Rle_trans with (bpow radix2 (-7)); [apply bpow_le; lia|]. cbn. lra. }
  specialize (Hr Hb). fold (rnd32 x) in Hr.
  assert (Hbp : / 2 * bpow radix2 (- (24) + 1) <= e24).
  { cbn. unfold e24. lra. }
  rewrite (Rabs_pos_eq x) in Hr by lra.
  assert (Hd : Rabs (rnd32 x - x) <= e24 * x).
  { eapply Rle_trans; [exact Hr|]. apply Rmult_le_compat_r; [lra|exact Hbp]. }
  apply Rabs_le_inv in Hd. lra.
Qed.

Lemma trunc_le x n : 0 <= x -> x < IZR (n + 1) -> (Ztrunc x <= n)%Z.
Proof.
  intros H0 H. rewrite Ztrunc_floor by exact H0.
  apply Zfloor_lub in H || idtac. pose proof (Zfloor_lb x) as Hl.
  assert (IZR (Zfloor x) < IZR (n + 1)) by lra. apply lt_IZR in H1. lia.
Qed.
Lemma trunc_ge0 x : 0 <= x -> (0 <= Ztrunc x)%Z.
Proof. intros H. rewrite Ztrunc_floor by exact H. apply Zfloor_lub. exact H. Qed.

Lemma IZR_0_or_1 n : (0 <= n)%Z -> IZR n = 0 \/ 1 <= IZR n.
Proof. intros H. destruct (Z.eq_dec n 0) as [->|]; [left; reflexivity|right]. apply (IZR_le 1). lia. Qed.

(** Range of one scaled value, for all int weights. *)
Lemma scaled_range f w p T :
  (0 <= f -> 0 <= w -> 0 <= p <= 100 -> f + w <= T -> 0 < T -> 0 <= scaled_progress f w p T <= 100)%Z.
Proof.
  intros Hf Hw Hp HfT HT. unfold scaled_progress.
  set (W := rnd32 (IZR w)). set (P := rnd32 (IZR p)).
  assert (EP : P = IZR p) by (apply rnd_int; lia).
  set (A := rnd32 (W * P)). set (B := rnd32 (A / IZR 100)).
  set (F := rnd32 (IZR f)). set (Sm := rnd32 (F + B)). set (C := rnd32 (Sm * IZR 100)).
  set (D := rnd32 (IZR T)).
  assert (IW : 0 <= IZR w) by (apply (IZR_le 0); lia).
  assert (IF' : 0 <= IZR f) by (apply (IZR_le 0); lia).
  assert (IP : 0 <= IZR p <= 100) by (split; [apply (IZR_le 0)|apply (IZR_le _ 100)]; lia).
  assert (IT : 1 <= IZR T) by (apply (IZR_le 1); lia).
  assert (IfT : IZR f + IZR w <= IZR T) by (rewrite <- plus_IZR; apply IZR_le; lia).
  assert (HW : W = 0 \/ 1 <= W).
  { destruct (IZR_0_or_1 w Hw) as [E|E]; [left|right].
    - unfold W. rewrite E. apply rnd_0.
    - unfold W. rewrite <- (rnd_int 1) by reflexivity. apply rnd_le. exact E. }
  assert (HF : F = 0 \/ 1 <= F).
  { destruct (IZR_0_or_1 f Hf) as [E|E]; [left|right].
    - unfold F. rewrite E. apply rnd_0.
    - unfold F. rewrite <- (rnd_int 1) by reflexivity. apply rnd_le. exact E. }
  assert (HA : A = 0 \/ 1 <= A).
  { destruct HW as [E|E]; [left; unfold A; rewrite E, Rmult_0_l; apply rnd_0|].
    destruct (IZR_0_or_1 p ltac:(lia)) as [E'|E'].
    - left. unfold A. rewrite EP, E', Rmult_0_r. apply rnd_0.
    - right. unfold A. rewrite <- (rnd_int 1) by reflexivity. apply rnd_le. rewrite EP. nra. }
  assert (HD : 1 <= D).
  { unfold D. rewrite <- (rnd_int 1) by reflexivity. apply rnd_le. exact IT. }
  assert (BW : W <= IZR w * (1 + e24)).
  { apply rnd_rel. destruct (IZR_0_or_1 w Hw); [left|right]; lra. }
  assert (BF : F <= IZR f * (1 + e24)).
  { apply rnd_rel. destruct (IZR_0_or_1 f Hf); [left|right]; lra. }
  assert (W0 : 0 <= W) by (destruct HW; lra).
  assert (BA : A <= W * P * (1 + e24)).
  { apply rnd_rel. destruct HW as [->|HW]; [left; ring|]. rewrite EP.
    destruct (IZR_0_or_1 p ltac:(lia)) as [->|]; [left; ring|right; nra]. }
  assert (A0 : 0 <= A) by (destruct HA; lra).
  assert (BB : B <= A / 100 * (1 + e24)).
  { apply rnd_rel. destruct HA as [->|HA]; [left; unfold Rdiv; ring|right]. lra. }
  assert (HB : B = 0 \/ / 200 <= B).
  { destruct HA as [E|E].
    - left. unfold B. rewrite E. unfold Rdiv. rewrite Rmult_0_l. apply rnd_0.
    - right. assert (A / 100 * (1 - e24) <= B) by (apply rnd_rel; right; lra). unfold e24 in *. lra. }
  assert (B0 : 0 <= B) by (destruct HB; lra).
  assert (F0 : 0 <= F) by (destruct HF; lra).
  assert (U : 1 < 1 + e24 < 1 + / 8000000) by (unfold e24; lra).
  (* a coarse uniform bound is enough *)
  assert (Bw : B <= IZR w * (1 + / 2000000)).
  { assert (A <= IZR w * 100 * ((1 + e24) * (1 + e24))).
    { apply Rle_trans with (1 := BA). rewrite EP.
      apply Rle_trans with (IZR w * (1 + e24) * 100 * (1 + e24)); [|lra].
      apply Rmult_le_compat_r; [lra|]. apply Rmult_le_compat; lra. }
    assert (B <= IZR w * ((1 + e24) * (1 + e24) * (1 + e24))).
    { apply Rle_trans with (1 := BB).
      apply Rle_trans with (IZR w * 100 * ((1 + e24) * (1 + e24)) / 100 * (1 + e24)); [|lra].
      apply Rmult_le_compat_r; [lra|]. unfold Rdiv. apply Rmult_le_compat_r; lra. }
    apply Rle_trans with (1 := H0). apply Rmult_le_compat_l; [lra|]. unfold e24. lra. }
  assert (BS : Sm <= IZR T * (1 + / 1000000)).
  { assert (Sm <= rnd32 (IZR T * (1 + / 2000000))).
    { apply rnd_le. apply Rle_trans with (IZR f * (1 + / 2000000) + IZR w * (1 + / 2000000)).
      - assert (IZR f * (1 + e24) <= IZR f * (1 + / 2000000)) by (apply Rmult_le_compat_l; lra). lra.
      - rewrite <- Rmult_plus_distr_r. apply Rmult_le_compat_r; lra. }
    apply Rle_trans with (1 := H).
    assert (rnd32 (IZR T * (1 + / 2000000)) <= IZR T * (1 + / 2000000) * (1 + e24)).
    { apply rnd_rel. right. lra. }
    apply Rle_trans with (1 := H0). rewrite Rmult_assoc. apply Rmult_le_compat_l; [lra|]. unfold e24. lra. }
  assert (S0 : 0 <= Sm) by (apply rnd_nonneg; lra).
  assert (BC : C <= IZR T * 100 * (1 + / 500000)).
  { assert (C <= rnd32 (IZR T * (1 + / 1000000) * 100)) by (apply rnd_le; lra).
    apply Rle_trans with (1 := H).
    assert (rnd32 (IZR T * (1 + / 1000000) * 100) <= IZR T * (1 + / 1000000) * 100 * (1 + e24)).
    { apply rnd_rel. right. lra. }
    apply Rle_trans with (1 := H0).
    replace (IZR T * (1 + / 1000000) * 100 * (1 + e24)) with (IZR T * 100 * ((1 + / 1000000) * (1 + e24))) by ring.
    apply Rmult_le_compat_l; [lra|]. unfold e24. lra. }
  assert (C0 : 0 <= C) by (apply rnd_nonneg; lra).
  assert (BD : IZR T * (1 - e24) <= D) by (apply rnd_rel; right; lra).
  assert (Q0 : 0 <= C / D) by (apply Rmult_le_pos; [exact C0|]; apply Rlt_le, Rinv_0_lt_compat; lra).
  assert (BQ : C / D <= 100 + / 1000).
  { apply Rmult_le_reg_r with D; [lra|]. unfold Rdiv. rewrite Rmult_assoc, Rinv_l, Rmult_1_r by lra.
    apply Rle_trans with (1 := BC).
    apply Rle_trans with ((100 + / 1000) * (IZR T * (1 - e24))); [|apply Rmult_le_compat_l; lra].
    replace ((100 + / 1000) * (IZR T * (1 - e24))) with (IZR T * ((100 + / 1000) * (1 - e24))) by ring.
    rewrite Rmult_assoc. apply Rmult_le_compat_l; [lra|]. unfold e24. lra. }
  split.
  - apply trunc_ge0. apply rnd_nonneg. exact Q0.
  - apply trunc_le; [apply rnd_nonneg; exact Q0|].
    assert (rnd32 (C / D) <= rnd32 (100 + / 1000)) by (apply rnd_le; exact BQ).
    assert (rnd32 (100 + / 1000) <= (100 + / 1000) * (1 + e24)) by (apply rnd_rel; right; lra).
    unfold e24 in *. cbn. lra.
Qed.

(** Monotonicity for total weights whose hundredfold fits in 24 bits. *)
Lemma scaled_mono_p f w p p' T :
  (0 <= w -> 0 <= p -> p <= p' <= 100 -> 0 < T -> scaled_progress f w p T <= scaled_progress f w p' T)%Z.
Proof.
  intros Hw Hp Hpp HT. unfold scaled_progress. apply Ztrunc_le. apply rnd_le.
  assert (0 < rnd32 (IZR T)).
  { apply Rlt_le_trans with 1; [lra|]. rewrite <- (rnd_int 1) at 1 by reflexivity. apply rnd_le. apply (IZR_le 1). lia. }
  unfold Rdiv. apply Rmult_le_compat_r; [apply Rlt_le, Rinv_0_lt_compat; assumption|]. apply rnd_le.
  apply Rmult_le_compat_r; [lra|]. apply rnd_le. apply Rplus_le_compat_l. apply rnd_le.
  apply Rmult_le_compat_r; [lra|]. apply rnd_le. apply Rmult_le_compat_l; [apply rnd_nonneg, (IZR_le 0); lia|].
  apply rnd_le. apply IZR_le. lia.
Qed.
Lemma scaled_mono_f f w p f' w' p' T :
  (0 <= f -> 0 <= w -> 0 <= p <= 100 -> f + w <= f' -> 0 <= w' -> 0 <= p' <= 100 -> f' + w' <= T ->
   0 < T -> T * 100 < 2 ^ 24 -> scaled_progress f w p T <= scaled_progress f' w' p' T)%Z.
Proof.
  intros Hf Hw Hp Hff Hw' Hp' HfT HT Hb. unfold scaled_progress. apply Ztrunc_le. apply rnd_le.
  assert (0 < rnd32 (IZR T)).
  { apply Rlt_le_trans with 1; [lra|]. rewrite <- (rnd_int 1) at 1 by reflexivity. apply rnd_le. apply (IZR_le 1). lia. }
  unfold Rdiv at 1 3. apply Rmult_le_compat_r; [apply Rlt_le, Rinv_0_lt_compat; assumption|]. apply rnd_le.
  apply Rmult_le_compat_r; [lra|].
  apply Rle_trans with (rnd32 (IZR f')).
  - apply rnd_le. rewrite (rnd_int f) by lia.
    apply Rle_trans with (IZR f + IZR w); [|rewrite <- plus_IZR; apply IZR_le; lia].
    apply Rplus_le_compat_l. rewrite <- (rnd_int w) at 2 by lia. apply rnd_le.
    rewrite (rnd_int w), (rnd_int p) by lia. rewrite <- mult_IZR.
    rewrite (rnd_int (w * p)) by nia.
    apply Rmult_le_reg_r with 100; [lra|]. unfold Rdiv. rewrite Rmult_assoc, Rinv_l, Rmult_1_r by lra.
    rewrite <- (mult_IZR w 100). apply IZR_le. nia.
  - apply rnd_le. rewrite (rnd_int f') by lia.
    assert (0 <= rnd32 (rnd32 (rnd32 (IZR w') * rnd32 (IZR p')) / 100)).
    { apply rnd_nonneg. unfold Rdiv. apply Rmult_le_pos; [|lra]. apply rnd_nonneg.
      apply Rmult_le_pos; apply rnd_nonneg; apply (IZR_le 0); lia. }
    lra.
Qed.
Close Scope R_scope.

(* ---- the theorems ---- *)
Lemma wsum_nonneg W l : Forall (fun e => 0 <= fst e /\ well_formed W (snd e)) l -> 0 <= wsum l.
Proof. induction 1 as [|[w q] l [H _] _ IH]; cbn in *; unfold wsum in *; lia. Qed.

Lemma walk_range W l : forall f T,
  Forall (fun e => 0 <= fst e /\ well_formed W (snd e)) l ->
  Forall (fun e => well_formed W (snd e) -> 0 <= GetProgress (snd e) <= 100) l ->
  0 <= f -> f + wsum l <= T -> 0 < T -> 0 <= walk T f l <= 100.
Proof.
  induction l as [|[w q] l IH]; intros f T Hw Hq Hf HT H0; cbn [walk]; [lia|].
  inversion Hw as [|? ? [Hw1 Hw2] Hw3]; inversion Hq as [|? ? Hq1 Hq2]; subst. cbn [fst snd] in *.
  pose proof (wsum_nonneg W l Hw3). unfold wsum in HT; cbn in HT; fold (wsum l) in HT.
  destruct (IsDone q).
  - apply IH; try assumption; lia.
  - apply scaled_range; try lia; apply Hq1; exact Hw2.
Qed.

(** C46.  For every tree of status providers with percentages at the leaves and
    non-negative weights (in int range), the reported progress is a
    percentage. *)
Theorem C46_progress_range : forall W p, W <= 2147483647 -> well_formed W p -> 0 <= GetProgress p <= 100.
Proof.
  intros W p HW. induction p as [j x|j subs IH] using provider_ind2; intros H.
  - inversion H; subst. assumption.
  - inversion H as [|? ? Hf Hs]; subst. rewrite GetProgress_Multi, total_weight_sum.
    pose proof (wsum_nonneg W subs Hf). destruct (Z.eqb_spec (wsum subs) 0); [lia|].
    eapply walk_range; try eassumption; lia.
Qed.

(** When every job is done the progress is 100. *)
Theorem C46_done_is_100 : forall W p, well_formed W p -> IsDone p = true -> GetProgress p = 100.
Proof.
  intros W [j x|j subs] H D; cbn [IsDone] in D.
  - inversion H; subst. cbn. lia.
  - rewrite GetProgress_Multi. destruct (total_weight subs =? 0); [reflexivity|].
    generalize (total_weight subs) 0. clear H. induction subs as [|[w q] l IH]; intros T f; [reflexivity|].
    cbn [forallb] in D. apply andb_true_iff in D. destruct D as [D1 D2]. cbn [walk]. rewrite D1. apply IH. exact D2.
Qed.

(** SetDone makes every job done, hence the progress 100. *)
Theorem C46_set_done : forall W p, well_formed W p ->
  IsDone (SetDone p) = true /\ GetProgress (SetDone p) = 100.
Proof.
  intros W p H.
  assert (D : IsDone (SetDone p) = true).
  { clear H. induction p as [j x|j subs IH] using provider_ind2; [reflexivity|]. cbn [SetDone IsDone].
    rewrite forallb_forall. intros e He. apply in_map_iff in He. destruct He as ([w q] & <- & Hi).
    rewrite Forall_forall in IH. exact (IH _ Hi). }
  split; [exact D|]. apply (C46_done_is_100 W); [|exact D].
  clear D. induction p as [j x|j subs IH] using provider_ind2; cbn [SetDone].
  - constructor. lia.
  - inversion H as [|? ? Hf Hs]; subst. constructor.
    + apply Forall_forall. intros e He. apply in_map_iff in He. destruct He as ([w q] & <- & Hi).
      rewrite Forall_forall in Hf, IH. destruct (Hf _ Hi) as [A B]. split; [exact A|]. exact (IH _ Hi B).
    + replace (wsum _) with (wsum subs); [exact Hs|]. clear. induction subs as [|[w q] l IH]; [reflexivity|].
      cbn. unfold wsum in *. lia.
Qed.

(** Progress of the work: same tree, no leaf goes back. *)
Inductive advances : provider -> provider -> Prop :=
| adv_default j x x' : x <= x' -> advances (Default j x) (Default j x')
| adv_multi j subs subs' :
    Forall2 (fun e e' => fst e = fst e' /\ advances (snd e) (snd e')) subs subs' ->
    advances (Multi j subs) (Multi j subs').

Section AdvInd.
  Variable P : provider -> provider -> Prop.
  Hypothesis HD : forall j x x', x <= x' -> P (Default j x) (Default j x').
  Hypothesis HM : forall j subs subs',
    Forall2 (fun e e' => fst e = fst e' /\ advances (snd e) (snd e') /\ P (snd e) (snd e')) subs subs' ->
    P (Multi j subs) (Multi j subs').
  Lemma advances_ind2 : forall p p', advances p p' -> P p p'.
  Proof.
    induction p as [j x|j subs IH] using provider_ind2; intros p' H.
    - inversion H; subst. apply HD. assumption.
    - inversion H as [|? ? subs' HF]; subst. apply HM. clear H. revert subs' HF.
      induction IH as [|[w q] l Hq Hl IH2]; intros subs' HF; inversion HF as [|? [w' q'] ? l' [E1 E2] E3]; subst; constructor.
      + cbn in *. split; [exact E1|]. split; [exact E2|]. apply Hq. exact E2.
      + apply IH2. exact E3.
  Qed.
End AdvInd.

Lemma advances_done p p' : advances p p' -> IsDone p = true -> IsDone p' = true.
Proof.
  intros H; revert p p' H. apply (advances_ind2 (fun p p' => IsDone p = true -> IsDone p' = true)).
  - cbn. intros. lia.
  - intros j subs subs' H. cbn [IsDone]. clear j.
    induction H as [|[w q] [w' q'] l l' (E1 & _ & E2) _ IH]; cbn [forallb snd] in *; [auto|].
    rewrite !andb_true_iff. intros [A B]. split; [apply E2; exact A|apply IH; exact B].
Qed.

Lemma advances_wsum subs subs' :
  Forall2 (fun e e' : Z * provider => fst e = fst e' /\ advances (snd e) (snd e') /\
     (forall W, W * 100 < 2 ^ 24 -> well_formed W (snd e) -> well_formed W (snd e') -> GetProgress (snd e) <= GetProgress (snd e')))
    subs subs' -> wsum subs = wsum subs'.
Proof. induction 1 as [|[w q] [w' q'] l l' (E & _) _ IH]; cbn in *; [reflexivity|]. unfold wsum in *. lia. Qed.

Lemma walk_lower W l : forall f T f0 w0 p0,
  W * 100 < 2 ^ 24 -> T <= W ->
  Forall (fun e => 0 <= fst e /\ well_formed W (snd e)) l ->
  0 <= f0 -> 0 <= w0 -> 0 <= p0 <= 100 -> f0 + w0 <= f -> f + wsum l <= T -> 0 < T ->
  scaled_progress f0 w0 p0 T <= walk T f l.
Proof.
  induction l as [|[w q] l IH]; intros f T f0 w0 p0 HW HTW Hw Hf0 Hw0 Hp0 Hf HT H0; cbn [walk].
  - unfold wsum in HT; cbn in HT. apply scaled_range; lia.
  - inversion Hw as [|? ? [Hw1 Hw2] Hw3]; subst. cbn [fst snd] in *.
    pose proof (wsum_nonneg W l Hw3). unfold wsum in HT; cbn in HT; fold (wsum l) in HT.
    destruct (IsDone q).
    + apply IH; try assumption; lia.
    + apply scaled_mono_f; try assumption; try lia. apply (C46_progress_range W); [lia|exact Hw2].
Qed.

(** As jobs advance, in any order, the reported progress never decreases,
    provided the weights of every node sum to at most 167772 (so that all
    weighted sums are exactly representable in a float). *)
Theorem C46_progress_monotone : forall W p p',
  W * 100 < 2 ^ 24 -> well_formed W p -> well_formed W p' -> advances p p' ->
  GetProgress p <= GetProgress p'.
Proof.
  intros W p p' HW Hp Hp' H. revert p p' H W HW Hp Hp'.
  apply (advances_ind2 (fun p p' => forall W, W * 100 < 2 ^ 24 -> well_formed W p -> well_formed W p' -> GetProgress p <= GetProgress p')).
  - cbn. intros. lia.
  - intros j subs subs' H W HW Hp Hp'. rewrite !GetProgress_Multi, !total_weight_sum.
    rewrite <- (advances_wsum subs subs' H).
    inversion Hp as [|? ? Hf Hs]; inversion Hp' as [|? ? Hf' Hs']; subst.
    pose proof (wsum_nonneg W subs Hf) as H0. destruct (Z.eqb_spec (wsum subs) 0) as [|Hne]; [lia|].
    assert (HT : 0 < wsum subs) by lia. assert (Hle : 0 + wsum subs <= wsum subs) by lia.
    assert (Hle0 : 0 <= 0) by lia. clear Hp Hp' Hne H0.
    revert Hle Hle0. generalize 0 at 1 3 4 5 as f. revert HT Hs. generalize (wsum subs) at 1 2 4 5 6 as T.
    intros T HT HTW. clear Hs'.
    induction H as [|[w q] [w' q'] l l' (E1 & A & E2) Hrest IH]; intros f Hle Hf0; [cbn; lia|].
    inversion Hf as [|? ? [Hw1 Hw2] Hw3]; inversion Hf' as [|? ? [Hw1' Hw2'] Hw3']; subst. cbn [fst snd] in *. subst w'.
    pose proof (wsum_nonneg W l Hw3). unfold wsum in Hle; cbn in Hle; fold (wsum l) in Hle.
    cbn [walk]. destruct (IsDone q) eqn:D.
    + rewrite (advances_done _ _ A D). apply IH; try assumption; lia.
    + pose proof (C46_progress_range W q ltac:(lia) Hw2). pose proof (C46_progress_range W q' ltac:(lia) Hw2').
      destruct (IsDone q') eqn:D'.
      * apply (walk_lower W); try assumption; try lia.
        rewrite <- (advances_wsum l l' Hrest). lia.
      * apply scaled_mono_p; try lia. split; [apply (E2 W); assumption|lia].
Qed.

(** What the doc comment of the class promises in its example: weights 10, 20,
    30, first job done, second at 10 percent: 20 percent. *)
Example C46_nonvacuous :
  let t p := Multi [] [(10, Default [] 100); (20, Default [] p); (30, Multi [] [(1, Default [] 5)])] in
  well_formed 60 (t 10) /\ well_formed 60 (t 50) /\ advances (t 10) (t 50) /\ IsDone (t 10) = false
  /\ GetProgress (Multi [] [(10, Default [] 100); (20, Default [] 0)]) = 33.
Proof.
  cbn zeta. split; [|split; [|split; [|split]]].
  - constructor; [|cbn; lia]. repeat constructor; cbn; lia.
  - constructor; [|cbn; lia]. repeat constructor; cbn; lia.
  - constructor. repeat (constructor; [split; [reflexivity|]|]); repeat constructor; cbn; lia.
  - reflexivity.
  - rewrite GetProgress_Multi. cbn. unfold scaled_progress.
    rewrite (rnd_int 0), (rnd_int 20), (rnd_int 10), (rnd_int 30) by reflexivity.
    rewrite Rmult_0_r, rnd_0. unfold Rdiv at 2. rewrite Rmult_0_l, rnd_0, Rplus_0_r, (rnd_int 10) by reflexivity.
    rewrite <- mult_IZR. change (10 * 100)%Z with 1000%Z. rewrite (rnd_int 1000) by reflexivity.
    assert (H : (33 <= rnd32 (IZR 1000 / IZR 30) < IZR 34)%R).
    { split.
      - rewrite <- (rnd_int 33) by reflexivity. apply rnd_le. lra.
      - assert (rnd32 (IZR 1000 / IZR 30) <= IZR 1000 / IZR 30 * (1 + e24))%R by (apply rnd_rel; right; lra).
        unfold e24 in *. lra. }
    rewrite Ztrunc_floor by lra. apply Zfloor_imp. cbn. lra.
Qed.

(** A tree whose weights are all 0 reports 100 although nothing is done. *)
Theorem C46_zero_weight_refuted :
  exists p, well_formed 0 p /\ IsDone p = false /\ GetProgress p = 100.
Proof.
  exists (Multi [] [(0, Default [] 0)]). split; [|split; reflexivity].
  constructor; [|cbn; lia]. repeat constructor; cbn; lia.
Qed.

Print Assumptions C46_progress_range.
Print Assumptions C46_done_is_100.
Print Assumptions C46_set_done.
Print Assumptions C46_progress_monotone.
Print Assumptions C46_zero_weight_refuted.
