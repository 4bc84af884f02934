(** The ranges that are found, as a list. *)
From Verif Require Import Base ByteModel SpeRangeModel SpeRangeSpec.

Lemma pair_eqb_spec a b : reflect (a = b) (pair_eqb a b).
Proof. unfold pair_eqb. destruct a as [a1 a2], b as [b1 b2]. cbn [fst snd]. destruct (Z.eqb_spec a1 b1), (Z.eqb_spec a2 b2); cbn [andb]; constructor; congruence. Qed.
Lemma sum_if_app {A} p w (a b : list A) : sum_if p w (a ++ b) = sum_if p w a + sum_if p w b.
Proof. induction a as [|x a IH]; cbn [app sum_if]; [lia|]. rewrite IH. lia. Qed.
Lemma sum_if_none {A} p w (l : list A) : (forall x, In x l -> p x = false) -> sum_if p w l = 0.
Proof. induction l as [|x l IH]; intros H; cbn [sum_if]; [reflexivity|]. rewrite (H x (or_introl eq_refl)), IH; [reflexivity|]. intros y Hy. apply H. right. exact Hy. Qed.

(** *** Maps of sums *)
Definition key_sum (k : Z * Z) (l : list ((Z * Z) * Z)) : Z := sum_if (fun e => pair_eqb (fst e) k) snd l.
Definition pm_adds (l m : list ((Z * Z) * Z)) : list ((Z * Z) * Z) := fold_left (fun m e => pm_add (fst e) (snd e) m) l m.
Definition sums_of (l m : list ((Z * Z) * Z)) : Prop :=
  NoDup (map fst m) /\ forall k, match aget pair_eqb k m with None => (forall v, ~ In (k, v) l) | Some v => v = key_sum k l /\ exists v, In (k, v) l end.
Lemma pm_add_sums l m k v : sums_of l m -> sums_of (l ++ [(k, v)]) (pm_add k v m).
Proof.
  intros (ND & S0). split; [apply (NoDup_akeys_aset pair_eqb pair_eqb_spec); exact ND|]. intros k'. unfold pm_add. rewrite (aget_aset pair_eqb pair_eqb_spec). unfold key_sum. rewrite sum_if_app. cbn [sum_if fst snd]. destruct (pair_eqb_spec k' k) as [->|N].
  - destruct (pair_eqb_spec k k) as [_|Q]; [|congruence]. split; [|exists v; apply in_or_app; right; left; reflexivity]. specialize (S0 k). destruct (aget pair_eqb k m) as [x|]; [destruct S0 as (-> & _); unfold key_sum; lia|]. rewrite (sum_if_none _ _ l); [lia|]. intros [k1 v1] H. cbn [fst]. destruct (pair_eqb_spec k1 k) as [->|]; [exfalso; exact (S0 _ H)|reflexivity].
  - destruct (pair_eqb_spec k k') as [Q|_]; [congruence|]. specialize (S0 k'). destruct (aget pair_eqb k' m) as [x|].
    + destruct S0 as (E & (v1 & H)). split; [unfold key_sum in E; lia|]. exists v1. apply in_or_app. left. exact H.
    + intros v1 H. apply in_app_or in H. destruct H as [H|[H|[]]]; [exact (S0 _ H)|congruence].
Qed.
Lemma pm_adds_sums l : forall l0 m, sums_of l0 m -> sums_of (l0 ++ l) (pm_adds l m).
Proof.
  induction l as [|[k v] l IH]; intros l0 m H; cbn [pm_adds fold_left fst snd]; [rewrite app_nil_r; exact H|]. change (l0 ++ (k, v) :: l) with (l0 ++ [(k, v)] ++ l). rewrite app_assoc. apply IH. apply pm_add_sums. exact H.
Qed.
Lemma sums_nil : sums_of [] [].
Proof. split; [constructor|]. intros k. cbn. intros v []. Qed.

(** *** The incoming weights *)
Section Sorted.
Definition below (x : Z) (m : list (Z * Z)) : Prop := Forall (fun e => x < fst e) m.
Fixpoint bsorted (m : list (Z * Z)) : Prop := match m with [] => True | (k, _) :: m' => below k m' /\ bsorted m' end.
Lemma bt_add_below x k v m : x < k -> below x m -> below x (bt_add k v m).
Proof.
  unfold below. intros H F. induction F as [|[k' v'] m H' F IH]; cbn [bt_add]; [repeat constructor; exact H|]. cbn [fst] in H'. destruct (k <? k'); [constructor; [exact H|constructor; [exact H'|exact F]]|]. destruct (k =? k'); constructor; try assumption.
Qed.
Lemma bt_add_sorted k v m : bsorted m -> bsorted (bt_add k v m).
Proof.
  induction m as [|[k' v'] m IH]; cbn [bt_add bsorted]; [intros _; split; [constructor|exact Logic.I]|]. intros (B & S0). destruct (Z.ltb_spec k k') as [L|G].
  - cbn [bsorted]. split; [constructor; [exact L|]|split; assumption]. unfold below in *. eapply Forall_impl; [|exact B]. intros e He. cbn beta in He. lia.
  - destruct (Z.eqb_spec k k') as [->|N]; cbn [bsorted]; [split; assumption|]. split; [apply bt_add_below; [lia|exact B]|exact (IH S0)].
Qed.
Lemma sum_bt_add x k v m : sum_if (fun e => fst e =? x) snd (bt_add k v m) = sum_if (fun e => fst e =? x) snd m + (if k =? x then v else 0).
Proof.
  induction m as [|[k' v'] m IH]; cbn [bt_add sum_if fst snd]; [lia|]. destruct (k <? k'); [cbn [sum_if fst snd]; lia|]. destruct (Z.eqb_spec k k') as [->|N]; cbn [sum_if fst snd]; [destruct (k' =? x); lia|]. rewrite IH. lia.
Qed.
Lemma keys_bt_add x k v m : In x (map fst (bt_add k v m)) <-> x = k \/ In x (map fst m).
Proof.
  induction m as [|[k' v'] m IH]; cbn [bt_add map In fst]; [intuition|]. destruct (k <? k'); [cbn [map In fst]; intuition|]. destruct (Z.eqb_spec k k') as [->|N]; cbn [map In fst]; [intuition|]. rewrite IH. intuition.
Qed.
End Sorted.
Definition plain (taken : list ((Z * Z) * Z)) : Prop := forall from to c, In ((from, to), c) taken -> inside to -> 0 <= to < 2 ^ 63.
Lemma incoming_spec taken : plain taken -> forall m0, bsorted m0 ->
  let m := fold_left (fun m e => let '((_, to), count) := e in if to =? kInvalidBinaryAddress then m else bt_add (s64 to) count m) taken m0 in
  bsorted m /\
  (forall x, 0 <= x < 2 ^ 63 -> sum_if (fun e => fst e =? x) snd m = sum_if (fun e => fst e =? x) snd m0 + branched_to taken x) /\
  (forall x, In x (map fst m) <-> In x (map fst m0) \/ (inside x /\ is_target taken x)).
Proof.
  induction taken as [|[[from to] c] taken IH]; intros PL m0 S0; cbn [fold_left]; cbv zeta.
  - split; [exact S0|]. split; [intros x Hx; cbn; lia|]. intros x. split; [left; assumption|]. intros [H|(_ & f & c0 & [])]. exact H.
  - assert (PL' : plain taken) by (intros f t c0 H; apply (PL f t c0); right; exact H). destruct (Z.eqb_spec to kInvalidBinaryAddress) as [E|N].
    + destruct (IH PL' m0 S0) as (A & B & C). split; [exact A|]. split.
      * intros x Hx. rewrite (B x Hx). unfold branched_to. cbn [sum_if fst snd]. destruct (Z.eqb_spec to x); [unfold kInvalidBinaryAddress in E; lia|lia].
      * intros x. rewrite (C x). split; (intros [H|(I1 & f & c0 & H)]; [left; exact H|right; split; [exact I1|]]).
        -- exists f, c0. right. exact H.
        -- destruct H as [H|H]; [|exists f, c0; exact H]. exfalso. apply I1. assert (EX : to = x) by congruence. rewrite <- EX. exact E.
    + assert (IT : inside to) by exact N. pose proof (PL from to c (or_introl eq_refl) IT) as R. assert (ES : s64 to = to) by (unfold s64; destruct (Z.ltb_spec to (2 ^ 63)); lia). rewrite ES.
      destruct (IH PL' (bt_add to c m0) (bt_add_sorted _ _ _ S0)) as (A & B & C). split; [exact A|]. split.
      * intros x Hx. rewrite (B x Hx), sum_bt_add. unfold branched_to. cbn [sum_if fst snd]. lia.
      * intros x. rewrite (C x), keys_bt_add. split.
        -- intros [[-> |H]|(I1 & f & c0 & H)]; [right; split; [exact IT|exists from, c; left; reflexivity]|left; exact H|right; split; [exact I1|exists f, c0; right; exact H]].
        -- intros [H|(I1 & f & c0 & [H|H])]; [left; right; exact H|left; left; congruence|right; split; [exact I1|exists f, c0; exact H]].
Qed.

(** *** The scan *)
Section Scan.
Context (cf : Z -> bool) (off : Z -> Z) (size : Z) (SZ : 0 < size) (nt : list (Z * Z)).
Definition nt_at (a : Z) : Z := match aget Z.eqb (u64 a) nt with Some c => c | None => 0 end.
Fixpoint scan_list (fuel : nat) (s e w : Z) : Z * list (Z * Z * Z) :=
  match fuel with
  | O => (w, [])
  | S k =>
      if (0 <? w) && (s <? e)
      then match FirstControlFlowInstruction cf size s e with
           | Some b => let '(w', R) := scan_list k (b + size) e (nt_at b) in (w', (s, b, w) :: R)
           | None => let '(w', R) := scan_list k (e - size + size) e w in (w', (s, e - size, w) :: R)
           end
      else (w, [])
  end.
Definition image (r : Z * Z * Z) : (Z * Z) * Z := ((off (r_first r), off (r_last r)), r_weight r).
Lemma scan_ranges_list fuel : forall s e w rc,
  scan_ranges cf off size nt fuel s e w rc = (fst (scan_list fuel s e w), pm_adds (map image (snd (scan_list fuel s e w))) rc).
Proof.
  induction fuel as [|k IH]; intros s e w rc; cbn [scan_ranges scan_list]; [reflexivity|]. destruct ((0 <? w) && (s <? e)); [|reflexivity]. destruct (FirstControlFlowInstruction cf size s e) as [b|].
  - rewrite IH. fold (nt_at b). destruct (scan_list k (b + size) e (nt_at b)) as [w' R]. reflexivity.
  - rewrite IH. destruct (scan_list k (e - size + size) e w) as [w' R]. reflexivity.
Qed.

(** the weight after i instructions from [t] on, starting with [w], without
    further targets *)
Definition pass (w a : Z) : Z := if w =? 0 then 0 else if cf a then nt_at a else w.
Fixpoint run (w t : Z) (i : nat) : Z := match i with O => w | S j => pass (run w t j) (t + Z.of_nat j * size) end.
Lemma run_zero t i : run 0 t i = 0.
Proof. induction i as [|i IH]; cbn [run]; [reflexivity|]. rewrite IH. reflexivity. Qed.
Lemma run_shift w t i j : run w t (i + j) = run (run w t i) (t + Z.of_nat i * size) j.
Proof.
  induction j as [|j IH]; [rewrite Nat.add_0_r; reflexivity|]. rewrite Nat.add_succ_r. cbn [run]. rewrite IH. f_equal. lia.
Qed.
Lemma run_plain w t j : (forall i, (i < j)%nat -> cf (t + Z.of_nat i * size) = false) -> run w t j = w.
Proof.
  induction j as [|j IH]; intros H; cbn [run]; [reflexivity|]. rewrite IH by (intros i Hi; apply H; lia). unfold pass. rewrite (H j) by lia. destruct (Z.eqb_spec w 0); congruence.
Qed.
Lemma first_cf_spec n : forall fuel t, (n <= fuel)%nat ->
  match first_cf cf size fuel t (t + Z.of_nat n * size) with
  | Some b => exists j, (j < n)%nat /\ b = t + Z.of_nat j * size /\ cf b = true /\ forall i, (i < j)%nat -> cf (t + Z.of_nat i * size) = false
  | None => forall i, (i < n)%nat -> cf (t + Z.of_nat i * size) = false
  end.
Proof.
  induction n as [|n IH]; intros fuel t L.
  - destruct fuel as [|k]; cbn [first_cf]; [intros i Hi; lia|]. destruct (Z.ltb_spec t (t + Z.of_nat 0 * size)); [lia|]. intros i Hi. lia.
  - destruct fuel as [|k]; [lia|]. cbn [first_cf]. destruct (Z.ltb_spec t (t + Z.of_nat (S n) * size)) as [_|Q]; [|lia]. destruct (cf t) eqn:C.
    + exists 0%nat. split; [lia|]. split; [lia|]. split; [exact C|]. intros i Hi. lia.
    + specialize (IH k (t + size) ltac:(lia)). replace (t + size + Z.of_nat n * size) with (t + Z.of_nat (S n) * size) in IH by lia. destruct (first_cf cf size k (t + size) _) as [b|].
      * destruct IH as (j & J1 & J2 & J3 & J4). exists (S j). split; [lia|]. split; [lia|]. split; [exact J3|]. intros [|i] Hi; [rewrite Z.mul_0_l, Z.add_0_r; exact C|]. replace (t + Z.of_nat (S i) * size) with (t + size + Z.of_nat i * size) by lia. apply J4. lia.
      * intros [|i] Hi; [rewrite Z.mul_0_l, Z.add_0_r; exact C|]. replace (t + Z.of_nat (S i) * size) with (t + size + Z.of_nat i * size) by lia. apply IH. lia.
Qed.
Lemma FCI_spec n t : 
  match FirstControlFlowInstruction cf size t (t + Z.of_nat n * size) with
  | Some b => exists j, (j < n)%nat /\ b = t + Z.of_nat j * size /\ cf b = true /\ forall i, (i < j)%nat -> cf (t + Z.of_nat i * size) = false
  | None => forall i, (i < n)%nat -> cf (t + Z.of_nat i * size) = false
  end.
Proof. unfold FirstControlFlowInstruction. apply first_cf_spec. nia. Qed.

Definition cover (R : list (Z * Z * Z)) (a : Z) : Z := sum_if (fun r => covers r a) r_weight R.
(** the ranges lie in [lo, hi), on the grid of [t], without an inner branch *)
Definition range_ok (t lo hi : Z) (r : Z * Z * Z) : Prop :=
  0 < r_weight r /\ lo <= r_first r /\ r_first r <= r_last r /\ r_last r < hi /\ (size | r_first r - t) /\ (size | r_last r - t) /\
  forall a, (size | a - t) -> r_first r <= a < r_last r -> cf a = false.
Fixpoint ascending (R : list (Z * Z * Z)) : Prop :=
  match R with [] => True | r :: R' => Forall (fun r' => r_last r < r_first r') R' /\ ascending R' end.
Lemma grid_index t a n : (size | a - t) -> t <= a < t + Z.of_nat n * size -> exists i, (i < n)%nat /\ a = t + Z.of_nat i * size.
Proof. intros (z & E) H. exists (Z.to_nat z). split; nia. Qed.
Lemma cover_none R lo a : Forall (fun r => lo <= r_first r) R -> a < lo -> cover R a = 0.
Proof. intros F L. apply sum_if_none. intros r Hr. rewrite Forall_forall in F. specialize (F r Hr). unfold covers. destruct (Z.leb_spec (r_first r) a); [lia|reflexivity]. Qed.
Lemma scan_list_spec : (forall a, 0 <= nt_at a) -> forall n fuel t w, (n <= fuel)%nat -> 0 <= w ->
  let '(w', R) := scan_list fuel t (t + Z.of_nat n * size) w in
  w' = run w t n /\ (forall i, (i < n)%nat -> cover R (t + Z.of_nat i * size) = run w t i) /\
  Forall (range_ok t t (t + Z.of_nat n * size)) R /\ ascending R.
Proof.
  intros NN n. induction n as [n IH] using (well_founded_induction lt_wf). intros fuel t w L W. set (e := t + Z.of_nat n * size). destruct (Nat.eq_dec n 0) as [->|NZ].
  - assert (X : scan_list fuel t e w = (w, [])) by (destruct fuel as [|k]; cbn [scan_list]; [reflexivity|]; destruct (Z.ltb_spec t e); [unfold e in *; lia|]; rewrite andb_false_r; reflexivity).
    rewrite X. split; [reflexivity|]. split; [intros i Hi; lia|]. split; [constructor|exact Logic.I].
  - destruct fuel as [|k]; [lia|]. cbn [scan_list]. destruct (Z.ltb_spec 0 w) as [P|NP]; cbn [andb].
    2: { assert (w = 0) as -> by lia. split; [symmetry; apply run_zero|]. split; [intros i Hi; rewrite run_zero; reflexivity|]. split; [constructor|exact Logic.I]. }
    destruct (Z.ltb_spec t e) as [_|Q]; [|unfold e in *; nia]. pose proof (FCI_spec n t) as FC. fold e in FC. destruct (FirstControlFlowInstruction cf size t e) as [b|].
    + destruct FC as (j & J1 & J2 & J3 & J4). specialize (IH (n - S j)%nat ltac:(lia) k (b + size) (nt_at b) ltac:(lia) (NN b)).
      assert (EE : b + size + Z.of_nat (n - S j) * size = e) by (unfold e; nia). rewrite EE in IH. destruct (scan_list k (b + size) e (nt_at b)) as [w' R]. destruct IH as (I1 & I2 & I3 & I4).
      assert (RS : forall i, run w t (S j + i) = run (nt_at b) (b + size) i).
      { intros i. rewrite run_shift. f_equal; [|lia]. cbn [run]. rewrite (run_plain w t j J4). unfold pass. rewrite <- J2, J3. destruct (Z.eqb_spec w 0); [lia|reflexivity]. }
      assert (LO : Forall (fun r => b + size <= r_first r) R) by (eapply Forall_impl; [|exact I3]; intros r Hr; apply Hr).
      split; [rewrite I1; rewrite <- RS; f_equal; lia|]. split; [|split].
      * intros i Hi. unfold cover. cbn [sum_if]. fold (cover R (t + Z.of_nat i * size)). unfold covers at 1, r_first, r_last, r_weight. cbn [fst snd]. destruct (Z.leb_spec t (t + Z.of_nat i * size)) as [_|Q]; [|nia]. cbn [andb].
        destruct (le_lt_dec i j) as [LE|GT].
        -- destruct (Z.leb_spec (t + Z.of_nat i * size) b) as [_|Q]; [|nia]. rewrite (cover_none R (b + size)) by (try exact LO; nia). rewrite (run_plain w t i) by (intros i' Hi'; apply J4; lia). lia.
        -- destruct (Z.leb_spec (t + Z.of_nat i * size) b) as [Q|_]; [nia|]. rewrite Z.add_0_l. replace i with (S j + (i - S j))%nat at 2 by lia. rewrite RS. rewrite <- (I2 (i - S j)%nat ltac:(lia)). f_equal. nia.
      * constructor.
        -- unfold range_ok, r_weight, r_first, r_last. cbn [fst snd]. split; [exact P|]. split; [lia|]. split; [nia|]. split; [unfold e; nia|]. split; [exists 0; lia|]. split; [exists (Z.of_nat j); lia|]. intros a GA HA. destruct (grid_index t a j GA ltac:(lia)) as (i & Hi & ->). apply J4. exact Hi.
        -- eapply Forall_impl; [|exact I3]. intros r (R1 & R2 & R3 & R4 & R5 & R6 & R7). assert (DV : (size | (b + size) - t)) by (exists (Z.of_nat (S j)); nia).
           split; [exact R1|]. split; [nia|]. split; [exact R3|]. split; [exact R4|]. split; [replace (r_first r - t) with ((r_first r - (b + size)) + ((b + size) - t)) by lia; apply Z.divide_add_r; assumption|]. split; [replace (r_last r - t) with ((r_last r - (b + size)) + ((b + size) - t)) by lia; apply Z.divide_add_r; assumption|].
           intros a GA HA. apply R7; [|exact HA]. replace (a - (b + size)) with ((a - t) - ((b + size) - t)) by lia. apply Z.divide_sub_r; assumption.
      * cbn [ascending]. split; [|exact I4]. eapply Forall_impl; [|exact LO]. intros r Hr. unfold r_last at 1. cbn [fst snd]. cbn beta in Hr. lia.
    + assert (X : scan_list k (e - size + size) e w = (w, [])) by (destruct k as [|k']; cbn [scan_list]; [reflexivity|]; destruct (Z.ltb_spec (e - size + size) e); [lia|]; rewrite andb_false_r; reflexivity).
      rewrite X. assert (RP : forall i, (i <= n)%nat -> run w t i = w) by (intros i Hi; apply run_plain; intros i' Hi'; apply FC; lia).
      split; [symmetry; apply RP; lia|]. split; [|split].
      * intros i Hi. unfold cover. cbn [sum_if]. unfold covers, r_first, r_last, r_weight. cbn [fst snd]. destruct (Z.leb_spec t (t + Z.of_nat i * size)) as [_|Q]; [|nia]. destruct (Z.leb_spec (t + Z.of_nat i * size) (e - size)) as [_|Q]; [|unfold e in *; nia]. cbn [andb]. rewrite (RP i) by lia. lia.
      * constructor; [|constructor]. unfold range_ok, r_weight, r_first, r_last. cbn [fst snd]. split; [exact P|]. split; [lia|]. split; [unfold e; nia|]. split; [lia|]. split; [exists 0; lia|]. split; [exists (Z.of_nat n - 1); unfold e; nia|]. intros a GA HA. destruct (grid_index t a n GA ltac:(unfold e in *; lia)) as (i & Hi & ->). apply FC. exact Hi.
      * cbn [ascending]. split; [constructor|exact Logic.I].
Qed.
End Scan.
