(** Lemmas for C77: the merged map of counts, and rounding. *)
From Coq Require Import Reals Lra Sorted Permutation.
From Flocq Require Import Core Relative.
From Verif Require Import Base SymbolModel SymbolProofs AfdoModel AfdoProofs StatusModel StatusProps OverlapModel OverlapSpec.
Open Scope Z_scope.

Definition klt {A} (a b : name * A) : Prop := name_ltb (fst a) (fst b) = true.
Lemma nlt_ne a b : name_ltb a b = true -> a <> b.
Proof. intros H E. subst. rewrite name_ltb_irrefl in H. discriminate. Qed.
Lemma nlt_asym a b : name_ltb a b = true -> name_ltb b a = false.
Proof. intros H. destruct (name_ltb b a) eqn:E; [|reflexivity]. pose proof (name_ltb_trans _ _ _ H E) as X. rewrite name_ltb_irrefl in X. discriminate. Qed.
Lemma aget_below {A} n (m : list (name * A)) : Forall (fun e => name_ltb n (fst e) = true) m -> aget name_eqb n m = None.
Proof. induction 1 as [|[k v] m H F IH]; cbn [aget]; [reflexivity|]. cbn [fst] in H. destruct (name_eqb_spec n k) as [E|N]; [destruct (nlt_ne _ _ H E)|exact IH]. Qed.
Lemma sorted_below {A} n k (v : A) m : Forall (klt (k, v)) m -> name_ltb n k = true -> Forall (fun e => name_ltb n (fst e) = true) m.
Proof. intros F H. eapply Forall_impl; [|exact F]. intros e He. exact (name_ltb_trans _ _ _ H He). Qed.

Lemma oset_ok n f m : StronglySorted klt m ->
  StronglySorted klt (oset n f m) /\
  (forall k, aget name_eqb k (oset n f m) = if name_eqb k n then Some (f (match aget name_eqb n m with Some v => v | None => (0, 0) end)) else aget name_eqb k m) /\
  (forall e, In e (oset n f m) -> fst e = n \/ In e m).
Proof.
  induction 1 as [|[k v] m S IH F]; cbn [oset].
  - split; [repeat constructor|]. split; [|intros e [<-|[]]; left; reflexivity]. intros k. cbn [aget]. destruct (name_eqb_spec k n); reflexivity.
  - destruct (name_ltb n k) eqn:L1.
    + split; [constructor; [constructor; assumption|constructor; [exact L1|exact (sorted_below _ _ _ _ F L1)]]|]. split; [|intros e [<-|H]; [left; reflexivity|right; exact H]]. intros k'. cbn [aget].
      destruct (name_eqb_spec k' n) as [-> | N]; [|reflexivity]. destruct (name_eqb_spec n k) as [E|_]; [destruct (nlt_ne _ _ L1 E)|]. rewrite (aget_below n m) by exact (sorted_below _ _ _ _ F L1). reflexivity.
    + destruct (name_ltb k n) eqn:L2.
      * destruct IH as [I1 [I2 I3]]. split; [|split].
        -- constructor; [exact I1|]. rewrite Forall_forall. intros e He. destruct (I3 e He) as [E|H]; [red; cbn [fst]; rewrite E; exact L2|rewrite Forall_forall in F; exact (F e H)].
        -- intros k'. cbn [aget]. rewrite I2. destruct (name_eqb_spec k' k) as [-> | N].
           ++ destruct (name_eqb_spec k n) as [E|_]; [destruct (nlt_ne _ _ L2 E)|reflexivity].
           ++ destruct (name_eqb_spec k' n) as [-> | N']; [|reflexivity]. destruct (name_eqb_spec n k); [congruence|reflexivity].
        -- intros e [<-|H]; [right; left; reflexivity|]. destruct (I3 e H); [left; assumption|right; right; assumption].
      * assert (k = n) by (apply name_ltb_total; assumption). subst k. split; [constructor; [exact S|exact F]|]. split.
        -- intros k'. cbn [aget]. destruct (name_eqb_spec k' n) as [-> | N]; [|reflexivity]. destruct (name_eqb_spec n n); [reflexivity|congruence].
        -- intros e [<-|H]; [left; reflexivity|right; right; exact H].
Qed.
Lemma omap_ext (m : list (name * (Z * Z))) : StronglySorted klt m -> forall m', StronglySorted klt m' ->
  (forall k, aget name_eqb k m = aget name_eqb k m') -> m = m'.
Proof.
  induction 1 as [|[k v] m S IH F]; intros m' S' E.
  - destruct m' as [|[k' v'] m']; [reflexivity|]. specialize (E k'). cbn [aget] in E. destruct (name_eqb_spec k' k'); [discriminate|congruence].
  - destruct m' as [|[k' v'] m']; [specialize (E k); cbn [aget] in E; destruct (name_eqb_spec k k); [discriminate|congruence]|].
    inversion S' as [|e l S'' F' E1]; subst.
    assert (KK : k = k').
    { apply name_ltb_total; [destruct (name_ltb k k') eqn:L|destruct (name_ltb k' k) eqn:L]; try reflexivity; exfalso.
      - specialize (E k). cbn [aget] in E. destruct (name_eqb_spec k k); [|congruence]. destruct (name_eqb_spec k k') as [X|_]; [exact (nlt_ne _ _ L X)|].
        rewrite (aget_below k m') in E by exact (sorted_below _ _ _ _ F' L). discriminate.
      - specialize (E k'). cbn [aget] in E. destruct (name_eqb_spec k' k'); [|congruence]. destruct (name_eqb_spec k' k) as [X|_]; [exact (nlt_ne _ _ L X)|].
        rewrite (aget_below k' m) in E by exact (sorted_below _ _ _ _ F L). discriminate. }
    subst k'. f_equal.
    + specialize (E k). cbn [aget] in E. destruct (name_eqb_spec k k); [congruence|congruence].
    + apply IH; [exact S''|]. intros q. specialize (E q). cbn [aget] in E. destruct (name_eqb_spec q k) as [QQ|N]; [|exact E].
      rewrite QQ, (aget_below k m), (aget_below k m'); [reflexivity|exact F'|exact F].
Qed.

(** The merged map. *)
Definition mem (n : name) (l : list (name * Z)) : bool := existsb (fun e => name_eqb (fst e) n) l.
Lemma mem_In n l : mem n l = true <-> In n (map fst l).
Proof.
  unfold mem. rewrite existsb_exists, in_map_iff. split; intros [e [H1 H2]]; exists e.
  - destruct (name_eqb_spec (fst e) n); [auto|discriminate].
  - split; [exact H2|]. destruct (name_eqb_spec (fst e) n); [reflexivity|contradiction].
Qed.
Lemma count_of_out n l : mem n l = false -> count_of n l = 0.
Proof. induction l as [|[k c] l IH]; cbn [count_of mem existsb fst]; [reflexivity|]. destruct (name_eqb k n); [discriminate|exact IH]. Qed.
Lemma ofind_aget n m : ofind n m = match aget name_eqb n m with Some _ => true | None => false end.
Proof.
  unfold ofind. induction m as [|[k v] m IH]; cbn [existsb aget fst]; [reflexivity|]. destruct (name_eqb_spec k n) as [-> | N].
  - destruct (name_eqb_spec n n); [reflexivity|congruence].
  - destruct (name_eqb_spec n k); [congruence|exact IH].
Qed.
Lemma u64_add t c : u64 (u64 (t + c)) = u64 (t + c).
Proof. unfold u64. apply Z.mod_mod. unfold w64. lia. Qed.

Lemma prepare1_ok l : NoDup (map fst l) -> forall t m, StronglySorted klt m -> t = u64 t ->
  exists m', prepare1 l t m = (u64 (t + total l), m') /\ StronglySorted klt m' /\
    forall n, aget name_eqb n m' = if mem n l then Some (count_of n l, 0) else aget name_eqb n m.
Proof.
  induction l as [|[k c] l IH]; intros ND t m S T; cbn [prepare1 total map fst] in *.
  - exists m. rewrite Z.add_0_r, <- T. auto.
  - inversion ND as [|x y NI ND' E]; subst. destruct (oset_ok k (fun v => (c, snd v)) m S) as [A1 [A2 _]]. destruct (oset_ok k (fun v => (fst v, 0)) _ A1) as [B1 [B2 _]].
    destruct (IH ND' (u64 (t + c)) _ B1 (eq_sym (u64_add t c))) as [m' [E1 [E2 E3]]]. exists m'. split; [|split; [exact E2|]].
    + rewrite E1. f_equal. unfold u64. rewrite Zplus_mod_idemp_l. f_equal. lia.
    + intros n. rewrite E3, B2, !A2. cbn [mem existsb count_of fst]. fold (mem n l).
      destruct (mem n l) eqn:M.
      * destruct (name_eqb_spec k n) as [-> | N]; [|reflexivity]. destruct NI. apply mem_In, M.
      * destruct (name_eqb_spec n k) as [-> | N].
        -- destruct (name_eqb_spec k k); [|congruence]. reflexivity.
        -- destruct (name_eqb_spec k n); [congruence|]. cbn [orb]. reflexivity.
Qed.
Lemma prepare2_ok l : NoDup (map fst l) -> forall t m, StronglySorted klt m -> t = u64 t ->
  exists m', prepare2 l t m = (u64 (t + total l), m') /\ StronglySorted klt m' /\
    forall n, aget name_eqb n m' = if mem n l then Some (match aget name_eqb n m with Some v => fst v | None => 0 end, count_of n l) else aget name_eqb n m.
Proof.
  induction l as [|[k c] l IH]; intros ND t m S T; cbn [prepare2 total map fst] in *.
  - exists m. rewrite Z.add_0_r, <- T. auto.
  - inversion ND as [|x y NI ND' E]; subst.
    set (m1 := if ofind k m then m else oset k (fun v => (0, snd v)) m).
    assert (M1 : StronglySorted klt m1 /\ forall q, aget name_eqb q m1 = if name_eqb q k then Some (match aget name_eqb k m with Some v => v | None => (0, 0) end) else aget name_eqb q m).
    { unfold m1. rewrite ofind_aget. destruct (aget name_eqb k m) as [v|] eqn:EK.
      - split; [exact S|]. intros q. destruct (name_eqb_spec q k) as [-> | N]; [exact EK|reflexivity].
      - destruct (oset_ok k (fun v => (0, snd v)) m S) as [A1 [A2 _]]. split; [exact A1|]. intros q. rewrite A2, EK. reflexivity. }
    destruct M1 as [M1 M2]. destruct (oset_ok k (fun v => (fst v, c)) m1 M1) as [B1 [B2 _]].
    destruct (IH ND' (u64 (t + c)) _ B1 (eq_sym (u64_add t c))) as [m' [E1 [E2 E3]]]. exists m'. split; [|split; [exact E2|]].
    + rewrite E1. f_equal. unfold u64. rewrite Zplus_mod_idemp_l. f_equal. lia.
    + intros n. rewrite E3, B2, !M2. cbn [mem existsb count_of fst]. fold (mem n l).
      destruct (name_eqb_spec k k); [|congruence].
      destruct (mem n l) eqn:M.
      * destruct (name_eqb_spec n k) as [-> | N]; [destruct NI; apply mem_In, M|]. destruct (name_eqb_spec k n); [congruence|]. cbn [orb]. reflexivity.
      * destruct (name_eqb_spec n k) as [-> | N].
        -- destruct (name_eqb_spec k k); [|congruence]. cbn [orb fst]. destruct (aget name_eqb k m) as [[a b]|]; reflexivity.
        -- destruct (name_eqb_spec k n); [congruence|]. cbn [orb]. reflexivity.
Qed.
Lemma ok_NoDup l : profile_ok l -> NoDup (map fst l).
Proof.
  intros [S _]. induction S as [|e l S IH F]; cbn [map]; constructor; [|exact IH]. intros H. apply in_map_iff in H as [e' [E H]]. rewrite Forall_forall in F. specialize (F e' H). cbv beta in F. rewrite E, name_ltb_irrefl in F. discriminate.
Qed.
Lemma merged l1 l2 : profile_ok l1 -> profile_ok l2 ->
  exists m1 m, prepare1 l1 0 [] = (u64 (total l1), m1) /\ prepare2 l2 0 m1 = (u64 (total l2), m) /\ StronglySorted klt m /\
    forall n, aget name_eqb n m = if mem n l1 || mem n l2 then Some (count_of n l1, count_of n l2) else None.
Proof.
  intros O1 O2. destruct (prepare1_ok l1 (ok_NoDup _ O1) 0 [] (SSorted_nil _) eq_refl) as [m1 [E1 [S1 A1]]].
  destruct (prepare2_ok l2 (ok_NoDup _ O2) 0 m1 S1 eq_refl) as [m [E2 [S2 A2]]]. exists m1, m. split; [exact E1|]. split; [exact E2|]. split; [exact S2|].
  intros n. rewrite A2, A1. cbn [aget]. destruct (mem n l1) eqn:M1, (mem n l2) eqn:M2; cbn [orb fst]; try reflexivity.
  - rewrite (count_of_out n l2 M2). reflexivity.
  - rewrite (count_of_out n l1 M1). reflexivity.
Qed.

(** * Rounding *)
Open Scope R_scope.
Definition u24 : R := / 16777216.
(** y is x after at most k roundings *)
Definition near (k : nat) (x y : R) : Prop := 0 <= x /\ 0 <= y /\ x * (1 - u24) ^ k <= y /\ y * (1 - u24) ^ k <= x.
Lemma pw_pos k : 0 < (1 - u24) ^ k.
Proof. apply pow_lt. unfold u24. lra. Qed.
Lemma pw_le1 k : (1 - u24) ^ k <= 1.
Proof. induction k as [|k IH]; cbn [pow]; [lra|]. pose proof (pw_pos k). unfold u24 in *. nra. Qed.
Lemma near_0 k : near k 0 0.
Proof. unfold near. lra. Qed.
Lemma near_refl k x : 0 <= x -> near k x x.
Proof. intros H. pose proof (pw_le1 k). pose proof (pw_pos k). unfold near. nra. Qed.
Lemma near_trans j k x y z : near j x y -> near k y z -> near (j + k) x z.
Proof.
  intros [A [B [C D]]] [_ [E [F G]]]. pose proof (pw_pos j). pose proof (pw_pos k). unfold near. rewrite pow_add. repeat split; try assumption; nra.
Qed.
Lemma near_weaken j k x y : (j <= k)%nat -> near j x y -> near k x y.
Proof. intros L H. replace k with (j + (k - j))%nat by lia. eapply near_trans; [exact H|apply near_refl]. apply H. Qed.
Lemma near_plus k x y x' y' : near k x x' -> near k y y' -> near k (x + y) (x' + y').
Proof. unfold near. intros H G. lra. Qed.
Lemma near_min k x y x' y' : near k x x' -> near k y y' -> near k (Rmin x y) (Rmin x' y').
Proof.
  intros [A [B [C D]]] [A' [B' [C' D']]]. pose proof (pw_pos k) as P. unfold near.
  destruct (Rle_dec x y) as [L|L], (Rle_dec x' y') as [L'|L'];
    rewrite ?(Rmin_left x y), ?(Rmin_right x y), ?(Rmin_left x' y'), ?(Rmin_right x' y') by lra; repeat split; try assumption; nra.
Qed.
Lemma near_div j k a a' b b' : near j a a' -> near k b b' -> 0 < b -> 0 < b' -> near (j + k) (a / b) (a' / b').
Proof.
  intros [A [B [C D]]] [_ [_ [C' D']]] P P'. pose proof (pw_pos j) as Pj. pose proof (pw_pos k) as Pk. unfold near. rewrite pow_add.
  assert (I : 0 < / b) by (apply Rinv_0_lt_compat; exact P). assert (I' : 0 < / b') by (apply Rinv_0_lt_compat; exact P').
  assert (X : (1 - u24) ^ k / b <= / b'). { apply Rmult_le_reg_r with (b * b'); [nra|]. unfold Rdiv. replace ((1 - u24) ^ k * / b * (b * b')) with (b' * (1 - u24) ^ k) by (field; lra). replace (/ b' * (b * b')) with b by (field; lra). exact D'. }
  assert (Y : (1 - u24) ^ k / b' <= / b). { apply Rmult_le_reg_r with (b * b'); [nra|]. unfold Rdiv. replace ((1 - u24) ^ k * / b' * (b * b')) with (b * (1 - u24) ^ k) by (field; lra). replace (/ b * (b * b')) with b' by (field; lra). exact C'. }
  unfold Rdiv in *. repeat split; try nra.
  - replace (a * / b * ((1 - u24) ^ j * (1 - u24) ^ k)) with ((a * (1 - u24) ^ j) * ((1 - u24) ^ k * / b)) by ring. apply Rmult_le_compat; nra.
  - replace (a' * / b' * ((1 - u24) ^ j * (1 - u24) ^ k)) with ((a' * (1 - u24) ^ j) * ((1 - u24) ^ k * / b')) by ring. apply Rmult_le_compat; nra.
Qed.

Definition big (x : R) : Prop := x = 0 \/ bpow radix2 (-100) <= x.
Lemma big_nonneg x : big x -> 0 <= x.
Proof. intros [->|H]; [lra|]. pose proof (bpow_gt_0 radix2 (-100)). lra. Qed.
Lemma rnd_bpow e : (-149 <= e)%Z -> rnd32 (bpow radix2 e) = bpow radix2 e.
Proof. intros H. apply rnd_id. apply generic_format_bpow. unfold FLT_exp. lia. Qed.
Lemma rnd_big x : big x -> big (rnd32 x).
Proof. intros [->|H]; [left; apply rnd_0|right]. rewrite <- (rnd_bpow (-100)) by lia. apply rnd_le, H. Qed.
Lemma rnd_near x : big x -> near 1 x (rnd32 x).
Proof.
  intros H. pose proof (big_nonneg x H) as P. pose proof (big_nonneg _ (rnd_big x H)) as P'. destruct H as [->|H]; [rewrite rnd_0; apply near_0|].
  pose proof (relative_error_N_FLT radix2 (-149) 24 ltac:(reflexivity) (fun x => negb (Z.even x)) x) as Hr. cbn [Z.add Z.sub Z.opp] in Hr.
  assert (Hb : bpow radix2 (-126) <= Rabs x). { rewrite Rabs_pos_eq by lra. eapply Rle_trans; [|exact H]. apply bpow_le. lia. }
  specialize (Hr Hb). fold (rnd32 x) in Hr. rewrite (Rabs_pos_eq x P) in Hr.
  assert (Hbp : / 2 * bpow radix2 (- (24) + 1) <= u24) by (cbn; unfold u24; lra).
  assert (Hd : Rabs (rnd32 x - x) <= u24 * x) by (eapply Rle_trans; [exact Hr|]; apply Rmult_le_compat_r; [lra|exact Hbp]).
  clear Hr. rename Hd into Hr. apply Rabs_le_inv in Hr.
  unfold near. cbn [pow]. rewrite Rmult_1_r. unfold u24 in *. repeat split; try assumption; nra.
Qed.
Lemma big_plus x y : big x -> big y -> big (x + y).
Proof. intros [->|H] [->|G]; [left; lra|right; lra|right; lra|right]. pose proof (bpow_gt_0 radix2 (-100)). lra. Qed.
Lemma big_min x y : big x -> big y -> big (Rmin x y).
Proof. intros H G. apply Rmin_case; assumption. Qed.
Lemma big_int c : (0 <= c)%Z -> big (IZR c).
Proof. intros H. destruct (Z.eq_dec c 0) as [->|N]; [left; reflexivity|right]. apply Rle_trans with (bpow radix2 0); [apply bpow_le; lia|]. cbn. apply (IZR_le 1). lia. Qed.
Lemma share_near c t : (0 <= c)%Z -> (0 < t < 2 ^ 64)%Z -> near 3 (IZR c / IZR t) (share32 c t) /\ big (share32 c t).
Proof.
  intros Hc Ht. unfold share32.
  assert (T0 : 0 < IZR t) by (apply (IZR_lt 0); lia).
  assert (T1 : 1 <= rnd32 (IZR t)). { rewrite <- (rnd_int 1) by reflexivity. apply rnd_le. apply IZR_le. lia. }
  assert (T2 : rnd32 (IZR t) <= bpow radix2 64). { rewrite <- (rnd_bpow 64) by lia. apply rnd_le. change (bpow radix2 64) with (IZR (2 ^ 64)). apply IZR_le. lia. }
  pose proof (rnd_near _ (big_int c Hc)) as N1. pose proof (rnd_near _ (big_int t ltac:(lia))) as N2.
  pose proof (near_div _ _ _ _ _ _ N1 N2 T0 ltac:(lra)) as N3.
  assert (B : big (rnd32 (IZR c) / rnd32 (IZR t))).
  { destruct (Z.eq_dec c 0) as [->|NC]; [left; rewrite rnd_0; unfold Rdiv; ring|right]. assert (C1 : 1 <= rnd32 (IZR c)) by (rewrite <- (rnd_int 1) by reflexivity; apply rnd_le, IZR_le; lia).
    apply Rle_trans with (bpow radix2 (-64)); [apply bpow_le; lia|]. change (bpow radix2 (-64)) with (/ bpow radix2 64). apply Rmult_le_reg_r with (rnd32 (IZR t)); [lra|]. unfold Rdiv. rewrite Rmult_assoc, Rinv_l, Rmult_1_r by lra.
    apply Rle_trans with 1; [|exact C1]. apply Rmult_le_reg_l with (bpow radix2 64); [apply bpow_gt_0|]. rewrite <- Rmult_assoc, Rinv_r, Rmult_1_l, Rmult_1_r; [exact T2|]. apply Rgt_not_eq, bpow_gt_0. }
  split; [exact (near_trans 2 1 _ _ _ N3 (rnd_near _ B))|exact (rnd_big _ B)].
Qed.
Fixpoint exact_loop (t1 t2 : Z) (m : list (name * (Z * Z))) : R :=
  match m with [] => 0 | (_, (c1, c2)) :: m' => Rmin (IZR c1 / IZR t1) (IZR c2 / IZR t2) + exact_loop t1 t2 m' end.
Lemma loop_near t1 t2 m : (0 < t1 < 2 ^ 64)%Z -> (0 < t2 < 2 ^ 64)%Z -> (forall e, In e m -> (0 <= fst (snd e) /\ 0 <= snd (snd e))%Z) ->
  forall k x acc, (3 <= k)%nat -> big acc -> near k x acc -> near (k + length m) (x + exact_loop t1 t2 m) (overlap_loop t1 t2 m acc).
Proof.
  intros T1 T2. induction m as [|[n [c1 c2]] m IH]; intros P k x acc K B N; cbn [overlap_loop exact_loop length].
  - rewrite Nat.add_0_r, Rplus_0_r. exact N.
  - destruct (P _ (or_introl eq_refl)) as [P1 P2]. cbn [fst snd] in P1, P2. destruct (share_near c1 t1 P1 T1) as [A1 A2]. destruct (share_near c2 t2 P2 T2) as [A3 A4].
    pose proof (near_weaken _ _ _ _ K (near_min _ _ _ _ _ A1 A3)) as A5. pose proof (near_plus _ _ _ _ _ N A5) as A6.
    pose proof (big_plus _ _ B (big_min _ _ A2 A4)) as A7. pose proof (near_trans k 1 _ _ _ A6 (rnd_near _ A7)) as A8.
    replace (k + S (length m))%nat with (k + 1 + length m)%nat by lia. rewrite <- Rplus_assoc. apply IH; [intros e He; apply P; right; exact He|lia|exact (rnd_big _ A7)|exact A8].
Qed.
Lemma bernoulli k : 1 - INR k * u24 <= (1 - u24) ^ k.
Proof. induction k as [|k IH]; [cbn; lra|]. rewrite S_INR. cbn [pow]. pose proof (pos_INR k). unfold u24 in *. nra. Qed.
