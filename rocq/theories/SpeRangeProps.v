(** C59: ranges and branches from branch frequencies. *)
From Coq Require Import Sorted.
From Verif Require Import Base ByteModel SpeRangeModel SpeRangeSpec SpeRangeProofs.

Definition last_key (ws : list (Z * Z)) (d : Z) : Z := fold_left (fun _ e => fst e) ws d.
Lemma last_key_ge ws : bsorted ws -> forall d, below d ws -> d <= last_key ws d /\ Forall (fun e => fst e <= last_key ws d) ws.
Proof.
  induction ws as [|[t v] rest IH]; intros S0 d B; cbn [last_key fold_left fst]; [split; [lia|constructor]|]. cbn [bsorted] in S0. destruct S0 as (S1 & S2). inversion B as [|? ? B1 B2]; subst. cbn [fst] in B1. destruct (IH S2 t S1) as (I1 & I2). split; [unfold last_key in *; lia|]. constructor; [exact I1|exact I2].
Qed.
Lemma cover_app R1 R2 a : cover (R1 ++ R2) a = cover R1 a + cover R2 a.
Proof. apply sum_if_app. Qed.
Lemma cover_above R hi a : Forall (fun r => r_last r < hi) R -> hi <= a -> cover R a = 0.
Proof. intros F L. apply sum_if_none. intros r Hr. rewrite Forall_forall in F. specialize (F r Hr). unfold covers. destruct (Z.leb_spec a (r_last r)); [lia|apply andb_false_r]. Qed.
Lemma ascending_app R1 R2 hi : ascending R1 -> ascending R2 -> Forall (fun r => r_last r < hi) R1 -> Forall (fun r => hi <= r_first r) R2 -> ascending (R1 ++ R2).
Proof.
  induction R1 as [|r R1 IH]; intros A1 A2 F1 F2; cbn [app ascending]; [exact A2|]. cbn [ascending] in A1. destruct A1 as (A1 & A3). inversion F1 as [|? ? F3 F4]; subst. split; [|apply IH; assumption]. apply Forall_app. split; [exact A1|]. eapply Forall_impl; [|exact F2]. intros r' Hr'. cbn beta in Hr'. lia.
Qed.

Section Loop.
Context (cf : Z -> bool) (off : Z -> Z) (size : Z) (SZ : 0 < size) (taken : list ((Z * Z) * Z)) (nt : list (Z * Z)) (a0 : Z).
Context (NN : forall a, 0 <= nt_at nt a) (FT : forall a, 0 <= a < 2 ^ 63 -> nt_at nt a = fell_through nt a) (A0 : 0 <= a0).
Context (BT : forall a, 0 <= branched_to taken a).
Notation exec := (executions taken nt cf size a0).
Notation addr i := (a0 + Z.of_nat i * size).
Fixpoint loop_list (ws : list (Z * Z)) (w : Z) : list (Z * Z * Z) :=
  match ws with
  | [] => []
  | (t, v) :: rest =>
      let e := match rest with [] => t + 4096 | (next, _) :: _ => next end in
      let '(w', R) := scan_list cf size nt (Z.to_nat (e - t)) t e (w + v) in R ++ loop_list rest w'
  end.
Lemma pm_adds_app a b m : pm_adds (a ++ b) m = pm_adds b (pm_adds a m).
Proof. unfold pm_adds. apply fold_left_app. Qed.
Lemma range_loop_list ws : forall w rc, range_loop cf off size nt ws w rc = pm_adds (map (image off) (loop_list ws w)) rc.
Proof.
  induction ws as [|[t v] rest IH]; intros w rc; cbn [range_loop loop_list]; [reflexivity|]. rewrite scan_ranges_list. destruct (scan_list _ _ _ _ t _ (w + v)) as [w' R]. cbn [fst snd]. rewrite IH, map_app, pm_adds_app. reflexivity.
Qed.
Definition carry (m : nat) : Z := match m with O => 0 | S j => pass cf nt (exec j) (addr j) end.
Lemma exec_step m : addr m < 2 ^ 63 -> exec m = branched_to taken (addr m) + carry m.
Proof.
  destruct m as [|j]; intros H; cbn [executions carry]; [reflexivity|]. f_equal. unfold pass. destruct (exec j =? 0); [reflexivity|]. destruct (cf (addr j)); [|reflexivity]. symmetry. apply FT. nia.
Qed.
Lemma exec_nonneg m : addr m < 2 ^ 63 -> 0 <= exec m.
Proof.
  induction m as [|j IH]; intros H; rewrite exec_step by exact H.
  - pose proof (BT (addr 0)). cbn [carry]. lia.
  - pose proof (BT (addr (S j))). specialize (IH ltac:(nia)). cbn [carry]. unfold pass. pose proof (NN (addr j)). destruct (exec j =? 0); [lia|]. destruct (cf (addr j)); lia.
Qed.
Lemma exec_run m n : addr (m + n) <= 2 ^ 63 -> (forall i, (0 < i < n)%nat -> branched_to taken (addr (m + i)) = 0) ->
  (forall i, (i < n)%nat -> exec (m + i) = run cf size nt (exec m) (addr m) i) /\ (n <> 0%nat -> carry (m + n) = run cf size nt (exec m) (addr m) n).
Proof.
  intros H Z0. assert (A : forall i, (i < n)%nat -> exec (m + i) = run cf size nt (exec m) (addr m) i).
  { induction i as [|i IH]; intros Hi; [rewrite Nat.add_0_r; reflexivity|]. rewrite exec_step by nia. rewrite (Z0 (S i)) by lia. rewrite Nat.add_succ_r. cbn [carry run]. rewrite IH by lia. rewrite Z.add_0_l. f_equal. lia. }
  split; [exact A|]. intros NZ. destruct n as [|n]; [congruence|]. rewrite Nat.add_succ_r. cbn [carry run]. rewrite A by lia. f_equal. lia.
Qed.

Lemma loop_spec (D4 : (size | 4096)) ws : forall t v rest m w,
  ws = (t, v) :: rest -> bsorted ws -> t = addr m -> w = carry m ->
  Forall (fun e => (size | fst e - a0)) ws -> last_key rest t + 4096 <= 2 ^ 63 ->
  (forall a, t <= a < 2 ^ 63 -> branched_to taken a = sum_if (fun e => fst e =? a) snd ws) ->
  (forall i, (m <= i)%nat -> addr i < last_key rest t + 4096 -> cover (loop_list ws w) (addr i) = exec i) /\
  Forall (range_ok cf size a0 t (last_key rest t + 4096)) (loop_list ws w) /\ ascending (loop_list ws w) /\
  (forall r k, In r (loop_list ws w) -> In k (map fst ws) -> r_first r < k <= r_last r -> False).
Proof.
  induction ws as [|e0 ws IH]; intros t v rest m w E SO TM WM GR LK BK; [discriminate|]. injection E as -> ->. cbn [loop_list]. cbn [bsorted] in SO. destruct SO as (BL & SO).
  assert (TN : exists n, (n <> 0)%nat /\ match rest with [] => t + 4096 | (next, _) :: _ => next end = t + Z.of_nat n * size).
  { destruct rest as [|[t1 v1] rest].
    - destruct D4 as (z & Ez). exists (Z.to_nat z). split; nia.
    - inversion GR as [|? ? G1 G2]; subst. inversion G2 as [|? ? G3 G4]; subst. cbn [fst] in *. inversion BL as [|? ? B1 B2]; subst. cbn [fst] in B1. destruct G1 as (z1 & E1), G3 as (z2 & E2). exists (Z.to_nat (z2 - z1)). split; nia. }
  destruct TN as (n & NZ & EN). set (e := match rest with [] => t + 4096 | (next, _) :: _ => next end) in *.
  pose proof (last_key_ge rest SO t BL) as (LG & LF).
  assert (ELK : e <= last_key rest t + 4096).
  { unfold e. destruct rest as [|[t1 v1] rest]; [cbn; lia|]. inversion LF; subst. cbn [fst] in *. lia. }
  assert (BI : forall i, (0 < i < n)%nat -> branched_to taken (addr (m + i)) = 0).
  { intros i Hi. assert (AE : addr (m + i) = t + Z.of_nat i * size) by (rewrite TM; lia). rewrite AE. rewrite BK by nia. apply sum_if_none. intros [k x] Hk. cbn [fst]. apply Z.eqb_neq. intros ->. destruct Hk as [Hk|Hk].
    - assert (t = t + Z.of_nat i * size) by congruence. nia.
    - destruct rest as [|[t1 v1] rest]; [destruct Hk|]. unfold e in EN. destruct Hk as [Hk|Hk]; [assert (t1 = t + Z.of_nat i * size) by congruence; nia|]. cbn [bsorted] in SO. destruct SO as (SO & _). unfold below in SO. rewrite Forall_forall in SO. specialize (SO _ Hk). cbn [fst] in SO. nia. }
  assert (VB : branched_to taken t = v).
  { rewrite BK by lia. cbn [sum_if fst snd]. rewrite Z.eqb_refl, sum_if_none; [lia|]. intros [k x] Hk. cbn [fst]. apply Z.eqb_neq. intros ->. unfold below in BL. rewrite Forall_forall in BL. specialize (BL _ Hk). cbn [fst] in BL. lia. }
  assert (WE : w + v = exec m) by (rewrite exec_step by lia; rewrite <- TM, VB, WM; lia). rewrite WE.
  pose proof (exec_nonneg m ltac:(lia)) as EP.
  destruct (exec_run m n ltac:(rewrite Nat2Z.inj_add; nia) BI) as (ER & EC). specialize (EC NZ).
  pose proof (scan_list_spec cf off size SZ nt NN n (Z.to_nat (e - t)) t (exec m) ltac:(nia) EP) as SC. rewrite <- EN in SC. destruct (scan_list cf size nt (Z.to_nat (e - t)) t e (exec m)) as [w' R]. destruct SC as (S1 & S2 & S3 & S4).
  assert (GT : (size | t - a0)) by (exists (Z.of_nat m); lia).
  assert (GS : forall x, (size | x - t) <-> (size | x - a0)).
  { intros x. split; intros H; [replace (x - a0) with ((x - t) + (t - a0)) by lia; apply Z.divide_add_r; assumption|replace (x - t) with ((x - a0) - (t - a0)) by lia; apply Z.divide_sub_r; assumption]. }
  assert (OKR : forall hi, e <= hi -> Forall (range_ok cf size a0 t hi) R).
  { intros hi Hh. eapply Forall_impl; [|exact S3]. intros r (R1 & R2 & R3 & R4 & R5 & R6 & R7). split; [exact R1|]. split; [exact R2|]. split; [exact R3|]. split; [lia|]. split; [apply GS; exact R5|]. split; [apply GS; exact R6|]. intros a GA HA. apply R7; [apply GS; exact GA|exact HA]. }
  assert (TOP : Forall (fun r => r_last r < e) R) by (eapply Forall_impl; [|exact S3]; intros r Hr; apply Hr).
  assert (BOT : Forall (fun r => t <= r_first r) R) by (eapply Forall_impl; [|exact S3]; intros r Hr; apply Hr).
  assert (C1 : forall i, (m <= i)%nat -> addr i < e -> cover R (addr i) = exec i).
  { intros i Hi HA. replace i with (m + (i - m))%nat by lia. rewrite ER by nia. replace (a0 + Z.of_nat (m + (i - m)) * size) with (t + Z.of_nat (i - m) * size) by (rewrite TM; lia). rewrite (S2 (i - m)%nat) by nia. f_equal. exact TM. }
  destruct rest as [|[t1 v1] rest].
  - cbn [loop_list]. rewrite app_nil_r. cbn [last_key fold_left] in *. unfold e in *. split; [intros i Hi HA; apply C1; [exact Hi|exact HA]|]. split; [apply OKR; lia|]. split; [exact S4|]. intros r k Hr [<-|[]] HK. cbn [fst] in HK. rewrite Forall_forall in BOT. specialize (BOT _ Hr). lia.
  - assert (CA : w' = carry (m + n)) by (rewrite EC, S1, <- TM; reflexivity).
    assert (TA : t1 = addr (m + n)) by (unfold e in EN; rewrite EN, TM; lia).
    change (last_key ((t1, v1) :: rest) t) with (last_key rest t1) in *. assert (T1 : t < t1) by (inversion BL; subst; assumption).
    destruct (IH t1 v1 rest (m + n)%nat w' eq_refl SO TA CA ltac:(inversion GR; assumption) LK) as (I1 & I2 & I3 & I4).
    { intros a Ha. rewrite BK by lia. cbn [sum_if fst]. destruct (Z.eqb_spec t a); [lia|reflexivity]. }
    assert (LO2 : Forall (fun r => t1 <= r_first r) (loop_list ((t1, v1) :: rest) w')) by (eapply Forall_impl; [|exact I2]; intros r Hr; apply Hr).
    change e with t1 in *. split; [|split; [|split]].
    + intros i Hi HA. rewrite cover_app. destruct (Z_lt_le_dec (addr i) t1) as [LT|GE].
      * rewrite (C1 i Hi LT), (cover_none cf off _ t1) by assumption. lia.
      * rewrite (cover_above R t1) by assumption. rewrite Z.add_0_l. apply I1; [nia|exact HA].
    + apply Forall_app. split; [apply OKR; lia|]. eapply Forall_impl; [|exact I2]. intros r (R1 & R2 & R3). split; [exact R1|]. split; [lia|exact R3].
    + apply (ascending_app _ _ t1); assumption.
    + intros r k Hr Hk HK. apply in_app_or in Hr. destruct Hr as [Hr|Hr].
      * rewrite Forall_forall in TOP, BOT. specialize (TOP _ Hr). specialize (BOT _ Hr). destruct Hk as [<-|Hk]; [cbn [fst] in HK; lia|]. assert (t1 <= k).
        { destruct Hk as [<-|Hk]; [cbn [fst]; lia|]. cbn [bsorted] in SO. destruct SO as (SO & _). apply in_map_iff in Hk. destruct Hk as ([k' x] & <- & Hk). unfold below in SO. rewrite Forall_forall in SO. specialize (SO _ Hk). cbn [fst] in *. lia. }
        lia.
      * destruct Hk as [<-|Hk]; [|exact (I4 r k Hr Hk HK)]. rewrite Forall_forall in LO2. specialize (LO2 _ Hr). cbn [fst] in HK. lia.
Qed.
End Loop.

Lemma ascending_sorted R : ascending R -> StronglySorted (fun r r' => r_last r < r_first r') R.
Proof. induction R as [|r R IH]; cbn [ascending]; [constructor|]. intros (A & B). constructor; [exact (IH B)|exact A]. Qed.
Lemma sums_hold off m R : sums_of (map (image off) R) m -> holds_sums off m R.
Proof.
  intros (ND & S0). split; [exact ND|]. intros x y.
  assert (KS : key_sum (x, y) (map (image off) R) = sum_if (fun r => (off (r_first r) =? x) && (off (r_last r) =? y)) r_weight R).
  { clear. unfold key_sum. induction R as [|r R IH]; [reflexivity|]. cbn [map sum_if]. rewrite IH. unfold image, pair_eqb at 1. cbn [fst snd]. reflexivity. }
  specialize (S0 (x, y)). split.
  - intros v Hv. pose proof (aget_NoDup_In pair_eqb pair_eqb_spec _ _ _ ND Hv) as G. rewrite G in S0. destruct S0 as (-> & _). exact KS.
  - split.
    + intros Hk. destruct (aget pair_eqb (x, y) m) as [v|] eqn:G.
      * destruct S0 as (_ & (w & Hw)). apply in_map_iff in Hw. destruct Hw as (r & E & Hr). exists r. unfold image in E. split; [exact Hr|]. split; congruence.
      * apply (aget_None_iff pair_eqb pair_eqb_spec) in G. contradiction.
    + intros (r & Hr & <- & <-). destruct (aget pair_eqb (off (r_first r), off (r_last r)) m) as [v|] eqn:G.
      * apply (aget_In pair_eqb pair_eqb_spec) in G. apply in_map_iff. exists ((off (r_first r), off (r_last r)), v). split; [reflexivity|exact G].
      * exfalso. apply (S0 (r_weight r)). apply in_map_iff. exists r. split; [reflexivity|exact Hr].
Qed.
Lemma nt_at_ft nt a : NoDup (map fst nt) -> 0 <= a < 2 ^ 63 -> nt_at nt a = fell_through nt a.
Proof.
  intros ND Ha. unfold nt_at, fell_through. assert (E : u64 a = a) by (unfold u64, w64; apply Z.mod_small; lia). rewrite E. clear E Ha. induction nt as [|[k v] nt IH]; [reflexivity|]. cbn [map fst] in ND. apply NoDup_cons_iff in ND. destruct ND as (N & ND). cbn [aget sum_if fst snd]. rewrite (Z.eqb_sym a k). destruct (Z.eqb_spec k a) as [->|NE]; [|rewrite (IH ND); lia]. rewrite sum_if_none; [lia|]. intros [k' v'] H. cbn [fst]. apply Z.eqb_neq. intros ->. apply N. apply in_map_iff. exists (a, v'). split; [reflexivity|exact H].
Qed.

Theorem C59_ranges : forall cf off size taken nt a0 last,
  good_counts taken nt size -> lowest_target taken a0 -> highest_target taken last ->
  exists R,
    holds_sums off (snd (ConvertBranchFrequencies cf off size taken nt)) R /\
    program_ranges taken cf size a0 last R /\
    (forall i, a0 + Z.of_nat i * size < last + 4096 ->
       sum_if (fun r => covers r (a0 + Z.of_nat i * size)) r_weight R = executions taken nt cf size a0 i).
Proof.
  intros cf off size taken nt a0 last (GT & GN & ND & SZ & D4 & GR) (LT & LI & LM) (HT & HI & HM).
  assert (PL : plain taken) by (intros f t c H HIn; destruct (GT f t c H) as (_ & _ & R); specialize (R HIn); lia).
  destruct (incoming_spec taken PL [] Logic.I) as (SO & SM & KE). fold (GetIncomingBranchWeights taken) in SO, SM, KE. set (ws := GetIncomingBranchWeights taken) in *.
  assert (KE' : forall x, In x (map fst ws) <-> inside x /\ is_target taken x) by (intros x; rewrite (KE x); split; [intros [[]|H]; exact H|intros H; right; exact H]).
  assert (KA : In a0 (map fst ws)) by (apply KE'; split; assumption).
  assert (KL : In last (map fst ws)) by (apply KE'; split; assumption).
  destruct ws as [|[t v] rest] eqn:EW; [destruct KA|]. fold ws in EW.
  assert (TA : t = a0).
  { assert (T1 : a0 <= t) by (destruct (proj1 (KE' t) (or_introl eq_refl)); apply LM; assumption). destruct KA as [E|KA]; [exact E|]. cbn [bsorted] in SO. destruct SO as (B & _). apply in_map_iff in KA. destruct KA as ([k x] & <- & Hk). unfold below in B. rewrite Forall_forall in B. specialize (B _ Hk). cbn [fst] in *. lia. }
  subst t. pose proof SO as SO1. cbn [bsorted] in SO1. destruct SO1 as (BL & SR). destruct (last_key_ge rest SR a0 BL) as (LG & LF).
  assert (LKI : forall l d, In (last_key l d) (d :: map fst l)).
  { clear. induction l as [|[k x] l IH]; intros d; [left; reflexivity|]. right. cbn [last_key fold_left fst map]. exact (IH k). }
  assert (LL : last_key rest a0 = last).
  { assert (L1 : last <= last_key rest a0) by (destruct KL as [E|KL]; [cbn [fst] in E; lia|]; apply in_map_iff in KL; destruct KL as (e & <- & He); rewrite Forall_forall in LF; apply LF; exact He).
    assert (L2 : last_key rest a0 <= last) by (destruct (proj1 (KE' _) (LKI rest a0)); apply HM; assumption). lia. }
  assert (AR : 0 <= a0 < 2 ^ 63 - 4096) by (destruct LT as (f & c & H); apply (GT f a0 c H); exact LI).
  assert (LR : 0 <= last < 2 ^ 63 - 4096) by (destruct HT as (f & c & H); apply (GT f last c H); exact HI).
  assert (NN : forall a, 0 <= nt_at nt a).
  { intros a. unfold nt_at. destruct (aget Z.eqb (u64 a) nt) as [c|] eqn:G; [|lia]. apply (aget_In Z.eqb Z.eqb_spec) in G. exact (GN _ _ G). }
  assert (FT : forall a, 0 <= a < 2 ^ 63 -> nt_at nt a = fell_through nt a) by (intros a Ha; apply nt_at_ft; assumption).
  assert (BT : forall a, 0 <= branched_to taken a).
  { intros a. unfold branched_to. assert (P : forall e, In e taken -> 0 <= snd e) by (intros [[f t] c] H; apply (GT f t c H)). clear - P. induction taken as [|e l IH]; cbn [sum_if]; [lia|]. pose proof (P e (or_introl eq_refl)). specialize (IH ltac:(intros x Hx; apply P; right; exact Hx)). destruct (_ =? _); lia. }
  destruct (loop_spec cf off size SZ taken nt a0 NN FT ltac:(lia) BT D4 ((a0, v) :: rest) a0 v rest 0%nat 0 eq_refl SO ltac:(lia) eq_refl) as (A & B & C & D).
  - apply Forall_forall. intros [k x] Hk. cbn [fst]. assert (Hk' : In k (map fst ((a0, v) :: rest))) by (apply in_map_iff; exists (k, x); split; [reflexivity|exact Hk]). apply KE' in Hk'. destruct Hk'. apply GR; assumption.
  - rewrite LL. lia.
  - intros a Ha. pose proof (SM a ltac:(lia)) as SMa. rewrite SMa. reflexivity.
  - exists (loop_list cf size nt ((a0, v) :: rest) 0). rewrite LL in *. split; [|split; [split|]].
    + cbn [ConvertBranchFrequencies snd]. fold ws. rewrite EW. unfold ToRangeCountMap. rewrite range_loop_list. apply sums_hold. apply (pm_adds_sums _ [] []). exact sums_nil.
    + apply ascending_sorted. exact C.
    + rewrite Forall_forall in B |- *. intros r Hr. destruct (B r Hr) as (R1 & R2 & R3 & R4 & R5 & R6 & R7). repeat (split; [assumption|]). intros t' T1 T2 T3. apply (D r t' Hr); [apply KE'; split; assumption|exact T3].
    + intros i Hi. apply A; [lia|exact Hi].
Qed.

(** Without a target there is nothing to start a range with. *)
Theorem C59_no_target : forall cf off size taken nt, (forall a, is_target taken a -> ~ inside a) ->
  snd (ConvertBranchFrequencies cf off size taken nt) = [].
Proof.
  intros cf off size taken nt H. cbn [ConvertBranchFrequencies snd]. assert (E : GetIncomingBranchWeights taken = []); [|rewrite E; reflexivity].
  unfold GetIncomingBranchWeights. induction taken as [|[[f t] c] taken IH]; [reflexivity|]. cbn [fold_left].
  destruct (Z.eqb_spec t kInvalidBinaryAddress) as [_|N]; [|exfalso; apply (H t); [exists f, c; left; reflexivity|exact N]]. apply IH. intros a (f' & c' & Ha). apply H. exists f', c'. right. exact Ha.
Qed.

(** The branches keep their counts. *)
Theorem C59_branches : forall cf off size taken nt, good_counts taken nt size ->
  holds_sums off (fst (ConvertBranchFrequencies cf off size taken nt)) (filter inside_branch taken).
Proof.
  intros cf off size taken nt (GT & _). cbn [ConvertBranchFrequencies fst]. apply sums_hold. unfold ToBranchCountMap.
  assert (G : forall l0 m, sums_of (map (image off) l0) m -> sums_of (map (image off) (l0 ++ filter inside_branch taken)) (fold_left (fun m e => let '((from, to), count) := e in if (from =? kInvalidBinaryAddress) || (to =? kInvalidBinaryAddress) then m else pm_add (off (s64 from), off (s64 to)) count m) taken m)).
  { induction taken as [|[[f t] c] taken IH]; intros l0 m H; cbn [filter fold_left]; [rewrite app_nil_r; exact H|]. assert (GT' : forall from to c, In ((from, to), c) taken -> 0 <= c /\ (inside from -> 0 <= from < 2 ^ 63) /\ (inside to -> 0 <= to < 2 ^ 63 - 4096)) by (intros f' t' c' H'; apply (GT f' t' c'); right; exact H').
    specialize (IH GT'). destruct (GT f t c (or_introl eq_refl)) as (_ & G1 & G2). unfold inside_branch at 1. cbn [fst snd]. unfold kInvalidBinaryAddress, inside in *. rewrite <- negb_orb.
    destruct (Z.eqb_spec f (2 ^ 64 - 1)) as [E1|N1]; cbn [orb negb]; [apply IH; exact H|]. destruct (Z.eqb_spec t (2 ^ 64 - 1)) as [E2|N2]; cbn [orb negb]; [apply IH; exact H|]. specialize (G1 N1). specialize (G2 N2).
    assert (E1 : s64 f = f) by (unfold s64; destruct (Z.ltb_spec f (2 ^ 63)); lia). assert (E2 : s64 t = t) by (unfold s64; destruct (Z.ltb_spec t (2 ^ 63)); lia). rewrite E1, E2.
    change (l0 ++ (f, t, c) :: filter inside_branch taken) with (l0 ++ [(f, t, c)] ++ filter inside_branch taken). rewrite app_assoc. apply IH. rewrite map_app. cbn [map]. apply pm_add_sums. exact H. }
  exact (G [] [] sums_nil).
Qed.
Print Assumptions C59_ranges.
Print Assumptions C59_no_target.
Print Assumptions C59_branches.

(** 4-byte instructions; a loop at 16..24 with a conditional branch at 24 and an
    indirect jump at 32, entered from outside. *)
Example C59_nonvacuous :
  let taken := [((24, 16), 9); ((2 ^ 64 - 1, 8), 2); ((32, 2 ^ 64 - 1), 2); ((2 ^ 64 - 1, 16), 1)] in
  let nt := [(24, 3)] in
  let cf a := (a =? 24) || (a =? 32) in
  good_counts taken nt 4 /\ lowest_target taken 8 /\ highest_target taken 16 /\
  ConvertBranchFrequencies cf (fun a => a - 8) 4 taken nt = ([((16, 8), 9)], [((0, 4), 2); ((8, 16), 12); ((20, 24), 3)]) /\
  map (executions taken nt cf 4 8) [0; 1; 2; 3; 4; 5; 6; 7]%nat = [2; 2; 12; 12; 12; 3; 3; 0].
Proof.
  cbv zeta. split; [|split; [|split; [|split; vm_compute; reflexivity]]].
  - split; [|split; [|split; [|split; [|split]]]].
    + intros f t c H. unfold inside. cbn [In] in H. destruct H as [H|[H|[H|[H|[]]]]]; injection H as <- <- <-; lia.
    + intros a c [H|[]]. injection H as <- <-. lia.
    + repeat constructor. intros [].
    + lia.
    + exists 1024. reflexivity.
    + intros a b (f & c & Ha) (f' & c' & Hb) IA IB. unfold inside in *. cbn [In] in Ha, Hb.
      assert (Ea : a = 16 \/ a = 8) by (destruct Ha as [H|[H|[H|[H|[]]]]]; injection H as <- <- <-; lia).
      assert (Eb : b = 16 \/ b = 8) by (destruct Hb as [H|[H|[H|[H|[]]]]]; injection H as <- <- <-; lia).
      exists ((a - b) / 4). destruct Ea as [-> | ->], Eb as [-> | ->]; reflexivity.
  - split; [exists (2 ^ 64 - 1), 2; right; left; reflexivity|]. split; [unfold inside; lia|]. intros b (f & c & H) IB. unfold inside in *. cbn [In] in H. destruct H as [H|[H|[H|[H|[]]]]]; injection H as <- <- <-; lia.
  - split; [exists 24, 9; left; reflexivity|]. split; [unfold inside; lia|]. intros b (f & c & H) IB. unfold inside in *. cbn [In] in H. destruct H as [H|[H|[H|[H|[]]]]]; injection H as <- <- <-; lia.
Qed.

(** The alignment in [good_counts] is needed: with targets that are less than an
    instruction apart a range ends before it starts. *)
Theorem C59_misaligned_refuted : exists cf taken,
  snd (ConvertBranchFrequencies cf (fun a => a) 4 taken []) = [((8, 6), 1); ((10, 4102), 2)].
Proof. exists (fun _ => false), [((100, 8), 1); ((100, 10), 1)]. vm_compute. reflexivity. Qed.
Print Assumptions C59_misaligned_refuted.
