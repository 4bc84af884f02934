From Verif Require Import Base SymbolModel SymbolSpec SymbolProofs AttribProofs ElideProofs ZMap ISort HistModel HistSpec.
From Coq Require Import Sorted.

Lemma u64_idem a : u64 (u64 a) = u64 a.
Proof. unfold u64. apply Z.mod_mod. unfold w64; lia. Qed.
Lemma uadd_l a b : uadd (u64 a) b = u64 (a + b).
Proof. unfold uadd, u64. apply Zplus_mod_idemp_l. Qed.
Lemma uadd_r a b : uadd a (u64 b) = u64 (a + b).
Proof. unfold uadd, u64. apply Zplus_mod_idemp_r. Qed.
Lemma u64_small a : 0 <= a < 2 ^ 64 -> u64 a = a.
Proof. intros. apply Z.mod_small. exact H. Qed.
Lemma u32_small a : 0 <= a < 2 ^ 32 -> u32 a = a.
Proof. intros. apply Z.mod_small. exact H. Qed.

Lemma zsum_app a b : zsum (a ++ b) = zsum a + zsum b.
Proof. unfold zsum. induction a; cbn; lia. Qed.
Lemma zsum_repeat c n : zsum (repeat c n) = c * Z.of_nat n.
Proof. unfold zsum. induction n; cbn [repeat fold_right]; lia. Qed.
Lemma zsum_nonneg l : Forall (fun x => 0 <= x) l -> 0 <= zsum l.
Proof. induction 1; cbn; [lia|]. unfold zsum in *. lia. Qed.
Lemma zsum_perm a b : Permutation a b -> zsum a = zsum b.
Proof. apply Permutation_sum. Qed.

(** * The histogram *)
Definition hadd (h : list (Z * Z)) (p : pinfo) : list (Z * Z) :=
  let h1 := zinsert (p_count p) 0 h in
  zset (p_count p) (uadd (match zfind (p_count p) h1 with Some o => o | None => 0 end) (p_ninst p)) h1.
Definition weight (ps : list pinfo) : Z := zsum (map (fun p => p_count p * p_ninst p) ps).

Lemma weight_app a b : weight (a ++ b) = weight a + weight b.
Proof. unfold weight. rewrite map_app. apply zsum_app. Qed.

Lemma fold_hist_pos pos : forall h t,
  fold_left hist_pos pos (h, u64 t)
  = (fold_left hadd (map snd pos) h, u64 (t + weight (map snd pos))).
Proof.
  induction pos as [|p pos IH]; intros h t; cbn [fold_left map].
  - unfold weight; cbn. rewrite Z.add_0_r. reflexivity.
  - unfold hist_pos at 2. rewrite uadd_l. unfold umul.
    assert (E : u64 (t + u64 (p_count (snd p) * p_ninst (snd p)))
              = u64 (t + p_count (snd p) * p_ninst (snd p))) by apply uadd_r.
    rewrite E, IH. f_equal. f_equal. unfold weight, zsum; cbn [map fold_right]. lia.
Qed.

Lemma add_hist_eq s : forall h,
  AddSymbolProfileToHistogram s h
  = (fold_left hadd (positions s) h, u64 (weight (positions s))).
Proof.
  induction s as [hd t ts pos calls IH] using symbol_ind'. intros h.
  cbn [AddSymbolProfileToHistogram positions].
  change 0 with (u64 0). rewrite fold_hist_pos. rewrite Z.add_0_l.
  rewrite fold_left_app, weight_app. generalize (fold_left hadd (map snd pos) h) as h1.
  generalize (weight (map snd pos)) as w0. clear h.
  induction calls as [|[k c] calls IHc]; intros w0 h1; cbn [fold_left flat_map].
  - unfold weight; cbn. rewrite Z.add_0_r. reflexivity.
  - cbn [snd fst]. rewrite (IH k c) by (left; auto).
    assert (E : uadd (u64 w0) (u64 (weight (positions c))) = u64 (w0 + weight (positions c))).
    { rewrite uadd_l. apply uadd_r. }
    rewrite E. rewrite fold_left_app, weight_app.
    rewrite (IHc ltac:(intros; eapply IH; right; eauto)).
    f_equal. f_equal. lia.
Qed.

Definition counted (syms : list symbol) : list pinfo :=
  flat_map positions (filter (fun s => negb (s_total s =? 0)) syms).

Lemma ws_histogram_eq syms :
  ws_histogram syms = (fold_left hadd (counted syms) [], u64 (weight (counted syms))).
Proof.
  unfold ws_histogram, counted.
  assert (G : forall h w, fold_left (fun ht s => if s_total s =? 0 then ht
               else let (h', t') := AddSymbolProfileToHistogram s (fst ht) in
                    (h', uadd (snd ht) t')) syms (h, u64 w)
    = (fold_left hadd (flat_map positions (filter (fun s => negb (s_total s =? 0)) syms)) h,
       u64 (w + weight (flat_map positions (filter (fun s => negb (s_total s =? 0)) syms))))).
  { induction syms as [|s syms IH]; intros h w; cbn [fold_left filter flat_map].
    - unfold weight; cbn. rewrite Z.add_0_r. reflexivity.
    - destruct (s_total s =? 0); cbn [negb flat_map]; [apply IH|].
      rewrite add_hist_eq. cbn [fst snd].
      assert (E : uadd (u64 w) (u64 (weight (positions s))) = u64 (w + weight (positions s))).
      { rewrite uadd_l. apply uadd_r. }
      rewrite E, IH, fold_left_app, weight_app. f_equal. f_equal. lia. }
  apply (G [] 0).
Qed.

(** * Flattening *)
Definition flat (h : list (Z * Z)) : list Z := flat_map (fun e => repeat (fst e) (Z.to_nat (snd e))) h.

Lemma flat_app a b : flat (a ++ b) = flat a ++ flat b.
Proof. unfold flat. apply flat_map_app. Qed.

Lemma flat_zinsert0 c h : flat (zinsert c 0 h) = flat h.
Proof.
  induction h as [|[k v] h IH]; cbn; auto.
  destruct (c <? k); [reflexivity|]. destruct (c =? k); [reflexivity|].
  cbn. unfold flat in IH. rewrite IH. reflexivity.
Qed.

Lemma flat_zset c o n h : zsorted h -> zfind c h = Some o -> 0 <= o -> 0 <= n ->
  Permutation (flat (zset c (o + n) h)) (repeat c (Z.to_nat n) ++ flat h).
Proof.
  induction 1 as [|k v h L S IH]; cbn; [discriminate|]. intros F O N.
  destruct (c =? k) eqn:E.
  - assert (c = k) by lia; subst. inversion F; subst.
    rewrite Z.ltb_irrefl. cbn. rewrite Z2Nat.inj_add, repeat_app by lia.
    rewrite <- app_assoc. rewrite !app_assoc. apply Permutation_app_tail, Permutation_app_comm.
  - destruct (c <? k) eqn:E2.
    { exfalso. apply zfind_In in F; auto. apply L in F. lia. }
    cbn. rewrite IH by auto. rewrite !app_assoc.
    apply Permutation_app_tail, Permutation_app_comm.
Qed.

Definition vals_ok (h : list (Z * Z)) : Prop := Forall (fun e => 0 <= snd e) h.

Lemma vals_ok_zfind h c o : vals_ok h -> zsorted h -> zfind c h = Some o -> 0 <= o.
Proof.
  intros V S F. apply zfind_In in F; auto. unfold vals_ok in V. rewrite Forall_forall in V.
  apply V in F. exact F.
Qed.

Lemma vals_ok_zset h c v : vals_ok h -> 0 <= v -> vals_ok (zset c v h).
Proof.
  intros V N. apply Forall_forall. intros [k x] I. apply zset_keys in I.
  destruct I as [[_ ->]|I]; auto. unfold vals_ok in V; rewrite Forall_forall in V. exact (V _ I).
Qed.
Lemma vals_ok_zinsert h c v : vals_ok h -> 0 <= v -> vals_ok (zinsert c v h).
Proof.
  intros V N. apply Forall_forall. intros [k x] I. apply zinsert_keys in I.
  destruct I as [[_ ->]|I]; auto. unfold vals_ok in V; rewrite Forall_forall in V. exact (V _ I).
Qed.

Lemma zfind_le_flat h c o : zsorted h -> vals_ok h -> zfind c h = Some o ->
  o <= zlen (flat h).
Proof.
  intros S V F. apply zfind_In in F; auto.
  unfold zlen, flat. induction h as [|[k v] h IH]; [contradiction|].
  inversion S; subst. inversion V; subst. cbn [flat_map]. rewrite app_length, repeat_length.
  destruct F as [F|F].
  - inversion F; subst. cbn [fst snd] in *. lia.
  - specialize (IH ltac:(auto) ltac:(auto) F). lia.
Qed.

Lemma hadd_ok h p : zsorted h -> vals_ok h -> 0 <= p_ninst p ->
  zlen (flat h) + p_ninst p < 2 ^ 64 ->
  zsorted (hadd h p) /\ vals_ok (hadd h p) /\
  Permutation (flat (hadd h p)) (repeat (p_count p) (Z.to_nat (p_ninst p)) ++ flat h).
Proof.
  intros S V N B. unfold hadd.
  assert (S1 : zsorted (zinsert (p_count p) 0 h)) by (apply zinsert_sorted; auto).
  assert (V1 : vals_ok (zinsert (p_count p) 0 h)) by (apply vals_ok_zinsert; auto; lia).
  assert (F : exists o, zfind (p_count p) (zinsert (p_count p) 0 h) = Some o).
  { rewrite zfind_zinsert by auto. rewrite Z.eqb_refl. destruct (zfind (p_count p) h); eauto. }
  destruct F as [o F]. rewrite F.
  pose proof (vals_ok_zfind _ _ _ V1 S1 F) as O.
  pose proof (zfind_le_flat _ _ _ S1 V1 F) as OB. rewrite flat_zinsert0 in OB.
  unfold uadd. rewrite u64_small by lia.
  split; [apply zset_sorted; auto|]. split; [apply vals_ok_zset; auto; lia|].
  rewrite flat_zset by auto. rewrite flat_zinsert0. reflexivity.
Qed.

Lemma zlen_counters ps : Forall (fun p => 0 <= p_ninst p) ps ->
  zlen (counters ps) = zsum (map p_ninst ps).
Proof.
  induction 1 as [|p ps N F IH]; [reflexivity|].
  unfold counters in *. cbn [flat_map map]. unfold zlen in *.
  rewrite app_length, repeat_length. unfold zsum in *; cbn. lia.
Qed.

Lemma fold_hadd_ok ps : forall h, Forall (fun p => 0 <= p_ninst p) ps ->
  zsorted h -> vals_ok h -> zlen (flat h) + zsum (map p_ninst ps) < 2 ^ 64 ->
  zsorted (fold_left hadd ps h) /\ vals_ok (fold_left hadd ps h) /\
  Permutation (flat (fold_left hadd ps h)) (counters ps ++ flat h).
Proof.
  induction ps as [|p ps IH]; intros h F S V B; cbn [fold_left].
  - cbn. auto.
  - inversion F; subst. cbn [map] in B. unfold zsum in B. cbn in B. fold (zsum (map p_ninst ps)) in B.
    assert (0 <= zsum (map p_ninst ps)).
    { apply zsum_nonneg. apply Forall_map. auto. }
    destruct (hadd_ok h p) as (S1 & V1 & P1); auto; [lia|].
    destruct (IH (hadd h p)) as (S2 & V2 & P2); auto.
    + unfold zlen. rewrite (Permutation_length P1), app_length, repeat_length. unfold zlen in B. rewrite Nat2Z.inj_add, Z2Nat.id by auto. lia.
    + split; auto. split; auto. rewrite P2, P1. cbn [counters flat_map].
      rewrite <- app_assoc. rewrite !app_assoc. apply Permutation_app_tail, Permutation_app_comm.
Qed.

Lemma weight_counters ps : Forall (fun p => 0 <= p_ninst p) ps ->
  weight ps = zsum (counters ps).
Proof.
  induction 1 as [|p ps N F IH]; [reflexivity|].
  unfold weight, counters in *. cbn [map flat_map]. rewrite zsum_app, zsum_repeat.
  rewrite <- IH, Z2Nat.id by auto. unfold zsum. cbn [fold_right]. lia.
Qed.

(** descending list of the histogram *)
Lemma descending_app a b : descending a -> descending b ->
  (forall x y, In x a -> In y b -> y <= x) -> descending (a ++ b).
Proof.
  unfold descending. induction 1 as [|x a S IH F]; intros B C; cbn; auto.
  constructor.
  - apply IH; auto. intros; apply C; cbn; auto.
  - rewrite Forall_app; split; auto. apply Forall_forall. intros y Hy. apply C; cbn; auto.
Qed.

Lemma descending_repeat c n : descending (repeat c n).
Proof.
  induction n; cbn; constructor; auto. apply Forall_forall. intros x Hx.
  apply repeat_spec in Hx. lia.
Qed.

Lemma flat_In h x : In x (flat h) -> exists v, In (x, v) h.
Proof.
  unfold flat. rewrite in_flat_map. intros ([k v] & I & R). apply repeat_spec in R.
  cbn in R. subst. eauto.
Qed.

Lemma flat_rev_descending h : zsorted h -> descending (flat (rev h)).
Proof.
  induction 1 as [|k v h L S IH]; cbn; [constructor|].
  rewrite flat_app. apply descending_app; auto.
  - unfold flat; cbn. rewrite app_nil_r. apply descending_repeat.
  - intros x y Hx Hy. apply flat_In in Hx. destruct Hx as [vx Hx].
    apply in_rev in Hx. apply L in Hx.
    unfold flat in Hy; cbn in Hy. rewrite app_nil_r in Hy. apply repeat_spec in Hy. lia.
Qed.

Lemma flat_rev_perm h : Permutation (flat (rev h)) (flat h).
Proof. unfold flat. apply Permutation_flat_map. symmetry. apply Permutation_rev. Qed.

Lemma descending_unique a : forall b, Permutation a b -> descending a -> descending b -> a = b.
Proof.
  unfold descending. induction a as [|x a IH]; intros b P A B.
  - apply Permutation_nil in P. auto.
  - destruct b as [|y b]; [symmetry in P; apply Permutation_nil in P; discriminate|].
    inversion A as [|? ? A1 A2]; inversion B as [|? ? B1 B2]; subst.
    assert (x = y).
    { rewrite Forall_forall in A2, B2.
      assert (In y (x :: a)) as [->|Iy] by (apply (Permutation_in (l := y :: b)); [symmetry; auto|left; auto]); auto.
      assert (In x (y :: b)) as [->|Ix] by (apply (Permutation_in (l := x :: a)); [auto|left; auto]); auto.
      pose proof (A2 _ Iy). pose proof (B2 _ Ix). lia. }
    subst. f_equal. apply IH; auto. eapply Permutation_cons_inv; eauto.
Qed.

(** * The bucket loop *)
Definition good (L : list Z) (T : Z) (e : Z * Z) : Prop :=
  exists n, fst e = Z.of_nat n /\ nth_error L n = Some (snd e) /\
    zsum (firstn n L) <= T < zsum (firstn (S n) L).

Lemma set_nth_len {A} i (x : A) l : length (set_nth i x l) = length l.
Proof. revert i; induction l; intros [|i]; cbn; auto. Qed.

Lemma nth_error_set_nth {A} i j (x : A) l :
  nth_error (set_nth i x l) j = if Nat.eqb i j then (if Nat.ltb j (length l) then Some x else None) else nth_error l j.
Proof.
  revert i j. induction l as [|y l IH]; intros i j.
  - cbn. destruct i, j; cbn; auto. destruct (Nat.eqb i j); auto.
  - destruct i, j; cbn [set_nth nth_error Nat.eqb]; auto.
    rewrite IH. cbn [length]. destruct (Nat.eqb i j); auto.
Qed.

(** the array after the first [b] buckets have been computed *)
Definition filled (L : list Z) (obc : Z) (b : nat) (ws0 ws : list (Z * Z)) : Prop :=
  length ws = NUM_WS /\
  (forall i, (i < b)%nat -> exists e, nth_error ws i = Some e /\ good L (obc * (Z.of_nat i + 1)) e) /\
  (forall i, (b <= i)%nat -> nth_error ws i = nth_error ws0 i).

Lemma ws_inner_ok ws0 obc total L : 0 <= obc -> obc * 129 <= total -> total < 2 ^ 64 ->
  zlen L < 2 ^ 32 ->
  zsum L = total ->
  forall left count num P R ws,
  (left <= NUM_WS)%nat -> 0 <= count -> (0 <= num) ->
  L = P ++ repeat count (Z.to_nat num) ++ R ->
  Forall (fun x => 0 <= x) L ->
  ((0 < left)%nat -> zsum P <= obc * (Z.of_nat (NUM_WS - left) + 1)) ->
  filled L obc (NUM_WS - left) ws0 ws ->
  exists left' num' P' ws',
    ws_inner left obc count num (zlen P) (zsum P) ws
      = Ok (left', num', zlen P', zsum P', ws') /\
    (left' <= NUM_WS)%nat /\ 0 <= num' /\
    L = P' ++ repeat count (Z.to_nat num') ++ R /\
    ((0 < left')%nat -> zsum P' + count * num' <= obc * (Z.of_nat (NUM_WS - left') + 1)) /\
    filled L obc (NUM_WS - left') ws0 ws'.
Proof.
  intros OB OT TT LB LS. induction left as [|left IH];
    intros count num P R ws LE C N E NN PB F.
  - exists 0%nat, num, P, ws. cbn [ws_inner]. split; auto. split; auto. split; auto.
    split; auto. split; auto. lia.
  - cbn [ws_inner].
    set (b := (NUM_WS - S left)%nat) in *.
    assert (Bb : (b < 128)%nat) by (unfold b, NUM_WS in *; lia).
    specialize (PB ltac:(lia)).
    assert (NNP : 0 <= zsum P /\ 0 <= zsum R).
    { rewrite E in NN. rewrite !Forall_app in NN. destruct NN as (A1 & A2 & A3).
      split; apply zsum_nonneg; auto. }
    assert (SUM : zsum P + count * num + zsum R = total).
    { rewrite <- LS, E. rewrite !zsum_app, zsum_repeat. rewrite Z2Nat.id by lia. lia. }
    assert (LEN : zlen P + num <= zlen L).
    { rewrite E. unfold zlen. rewrite !app_length, repeat_length. lia. }
    assert (T1 : 0 <= obc * (Z.of_nat b + 1) <= total) by nia.
    assert (U1 : umul obc (Z.of_nat b + 1) = obc * (Z.of_nat b + 1)) by (apply u64_small; lia).
    assert (CN : 0 <= count * num) by nia.
    assert (U2 : uadd (umul count num) (zsum P) = zsum P + count * num).
    { unfold umul. rewrite u64_small by lia. unfold uadd. rewrite u64_small by lia. lia. }
    rewrite U1, U2.
    destruct (obc * (Z.of_nat b + 1) <? zsum P + count * num) eqn:Q.
    + assert (CP : 0 < count) by nia.
      assert (count =? 0 = false) as -> by lia.
      assert (U3 : usub (obc * (Z.of_nat b + 1)) (zsum P) = obc * (Z.of_nat b + 1) - zsum P)
        by (apply u64_small; lia).
      rewrite U3. set (off := (obc * (Z.of_nat b + 1) - zsum P) / count).
      assert (OFF : 0 <= off /\ off * count <= obc * (Z.of_nat b + 1) - zsum P < (off + 1) * count).
      { unfold off. split; [apply Z.div_pos; lia|].
        pose proof (Z.mul_div_le (obc * (Z.of_nat b + 1) - zsum P) count CP).
        pose proof (Z.mul_succ_div_gt (obc * (Z.of_nat b + 1) - zsum P) count CP). nia. }
      assert (ON : off < num) by nia.
      set (P' := P ++ repeat count (Z.to_nat off)).
      assert (ZP : zlen P' = zlen P + off).
      { unfold P', zlen. rewrite app_length, repeat_length. lia. }
      assert (SP : zsum P' = zsum P + off * count).
      { unfold P'. rewrite zsum_app, zsum_repeat, Z2Nat.id by lia. lia. }
      assert (LP : 0 <= zlen P) by apply zlen_nonneg.
      assert (U4 : uadd (zlen P) off = zlen P') by (unfold uadd; rewrite u64_small; lia).
      assert (U5 : uadd (zsum P) (umul off count) = zsum P').
      { unfold umul. rewrite (u64_small (off * count)) by nia. unfold uadd. rewrite u64_small; nia. }
      assert (U6 : usub num off = num - off) by (apply u64_small; lia).
      rewrite U4, U5, U6.
      assert (E' : L = P' ++ repeat count (Z.to_nat (num - off)) ++ R).
      { unfold P'. rewrite E, <- app_assoc. f_equal. rewrite app_assoc, <- repeat_app.
        rewrite <- Z2Nat.inj_add by lia. replace (off + (num - off)) with num by lia. reflexivity. }
      assert (SUCC : (NUM_WS - left = S b)%nat) by (unfold b, NUM_WS in *; lia).
      apply (IH count (num - off) P' R (set_nth b (u32 (zlen P'), count) ws)); auto; try lia.
      * rewrite SUCC. destruct F as (F1 & F2 & F3). split; [rewrite set_nth_len; auto|]. split.
        -- intros i Hi. rewrite nth_error_set_nth.
           destruct (Nat.eqb b i) eqn:Eb.
           ++ apply Nat.eqb_eq in Eb. subst i.
              assert ((b <? length ws)%nat = true) as -> by (apply Nat.ltb_lt; rewrite F1; exact Bb).
              eexists; split; [reflexivity|]. exists (length P'). cbn [fst snd].
              split; [rewrite u32_small; [reflexivity|lia]|].
              assert (NT : (Z.to_nat (num - off) = S (Z.to_nat (num - off - 1)))%nat) by lia.
              split.
              ** rewrite E'. rewrite nth_error_app2 by lia. rewrite Nat.sub_diag, NT. reflexivity.
              ** rewrite E'. rewrite firstn_app, Nat.sub_diag, firstn_O, app_nil_r, firstn_all.
                 rewrite firstn_app. replace (S (length P') - length P')%nat with 1%nat by lia.
                 rewrite firstn_all2 by lia. rewrite NT. cbn [repeat app firstn].
                 rewrite zsum_app, SP. change (zsum [count]) with (count + 0). lia.
           ++ apply F2. apply Nat.eqb_neq in Eb. lia.
        -- intros i Hi. rewrite nth_error_set_nth.
           destruct (Nat.eqb b i) eqn:Eb; [apply Nat.eqb_eq in Eb; lia|]. apply F3. lia.
    + exists (S left), num, P, ws. split; auto. split; auto. split; auto. split; auto.
      split; auto. intros _. fold b. lia.
Qed.

Lemma ws_outer_ok ws0 obc total L : 0 <= obc -> obc * 129 <= total -> total < 2 ^ 64 ->
  zlen L < 2 ^ 32 -> zsum L = total -> Forall (fun x => 0 <= x) L ->
  forall hist left P ws,
  (left <= NUM_WS)%nat -> Forall (fun e => 0 <= fst e /\ 0 <= snd e) hist ->
  L = P ++ flat hist ->
  ((0 < left)%nat -> zsum P <= obc * (Z.of_nat (NUM_WS - left) + 1)) ->
  filled L obc (NUM_WS - left) ws0 ws ->
  exists b ws', ws_outer hist left obc (zlen P) (zsum P) ws = Ok ws' /\
    (b <= NUM_WS)%nat /\ filled L obc b ws0 ws' /\
    ((b < NUM_WS)%nat -> total <= obc * (Z.of_nat b + 1)).
Proof.
  intros OB OT TT LB LS NN. induction hist as [|[count num] hist IH];
    intros left P ws LE HV E PB F.
  - exists (NUM_WS - left)%nat, ws. split; auto. split; [lia|]. split; auto.
    intros Hb. rewrite <- LS, E. cbn. rewrite app_nil_r. apply PB. lia.
  - cbn [ws_outer]. destruct left as [|left].
    + exists NUM_WS, ws. split; auto. split; auto. rewrite Nat.sub_0_r in F.
      split; [exact F|]. lia.
    + pose proof (Forall_inv HV) as [C N]. pose proof (Forall_inv_tail HV) as HV'. cbn [fst snd] in *. subst total.
      destruct (ws_inner_ok ws0 obc (zsum L) L OB OT TT LB eq_refl (S left) count num P (flat hist) ws)
        as (left' & num' & P' & ws' & I & LE' & N' & E' & B' & F'); auto.
      rewrite I. cbn [obind].
      assert (ZZ : zlen P' + num' <= zlen L /\ zsum P' + num' * count <= zsum L /\ 0 <= zsum P').
      { assert (NN2 : Forall (fun x => 0 <= x) P' /\ Forall (fun x => 0 <= x) (flat hist)).
        { rewrite E' in NN. rewrite !Forall_app in NN. tauto. }
        pose proof (zsum_nonneg _ (proj1 NN2)). pose proof (zsum_nonneg _ (proj2 NN2)).
        split; [rewrite E'; unfold zlen; rewrite !app_length, repeat_length; lia|].
        split; auto. rewrite E', !zsum_app, zsum_repeat, Z2Nat.id by lia. lia. }
      assert (0 <= num' * count) by nia.
      assert (U1 : uadd (zlen P') num' = zlen (P' ++ repeat count (Z.to_nat num'))).
      { unfold uadd. pose proof (zlen_nonneg P'). rewrite u64_small by lia. unfold zlen.
        rewrite app_length, repeat_length. lia. }
      assert (U2 : uadd (zsum P') (umul num' count) = zsum (P' ++ repeat count (Z.to_nat num'))).
      { unfold umul. rewrite (u64_small (num' * count)) by lia. unfold uadd.
        rewrite u64_small by lia. rewrite zsum_app, zsum_repeat, Z2Nat.id by lia. lia. }
      rewrite U1, U2. apply IH; auto.
      * rewrite <- app_assoc. exact E'.
      * intros Hl. rewrite zsum_app, zsum_repeat, Z2Nat.id by lia. auto.
Qed.

(** * Detailed summary *)
Definition sadd (i : summary) (p : pinfo) : summary := sm_pos i (0, p).

Lemma sm_traverse_eq s : forall i, sm_traverse s i = fold_left sadd (positions s) i.
Proof.
  induction s as [hd t ts pos calls IH] using symbol_ind'. intros i.
  cbn [sm_traverse positions]. rewrite fold_left_app.
  assert (E : fold_left sm_pos pos i = fold_left sadd (map snd pos) i).
  { clear IH. revert i. induction pos as [|[k p] pos IHp]; intros i; cbn; auto. }
  rewrite E. generalize (fold_left sadd (map snd pos) i) as j. clear E i.
  induction calls as [|[k c] calls IHc]; intros j; cbn [fold_left flat_map]; auto.
  rewrite fold_left_app. cbn [snd]. rewrite (IH k c) by (left; auto).
  apply IHc. intros; eapply IH; right; eauto.
Qed.

(** the histogram of counts: every count once *)
Definition fadd (h : list (Z * Z)) (c : Z) : list (Z * Z) :=
  zset c (u32 (match zfind c h with Some o => o | None => 0 end + 1)) h.

Definition counts (ps : list pinfo) : list Z := map p_count ps.

Lemma fold_sadd ps : forall i,
  let j := fold_left sadd ps i in
  sm_freq j = fold_left fadd (counts ps) (sm_freq i) /\
  u64 (sm_total j) = u64 (sm_total i + zsum (counts ps)) /\
  sm_max j = fold_left Z.max (counts ps) (sm_max i) /\
  sm_max_function j = sm_max_function i /\
  u64 (sm_num_counts j) = u64 (sm_num_counts i + zlen ps) /\
  sm_num_functions j = sm_num_functions i /\
  (u64 (sm_total i) = sm_total i -> u64 (sm_total j) = sm_total j) /\
  (u64 (sm_num_counts i) = sm_num_counts i -> u64 (sm_num_counts j) = sm_num_counts j).
Proof.
  induction ps as [|p ps IH]; intros i; cbn [fold_left].
  - cbn. rewrite !Z.add_0_r. repeat split; auto.
  - destruct (IH (sadd i p)) as (A & B & C & D & E & F & G & H). cbn zeta in *.
    cbn [counts map]. rewrite A, B, C, D, E, F. cbn [sadd sm_pos snd sm_freq sm_total sm_max
      sm_max_function sm_num_counts sm_num_functions fold_left] in *.
    split; [reflexivity|]. split.
    { unfold uadd. unfold u64. rewrite Zplus_mod_idemp_l. f_equal. unfold zsum, counts; cbn [fold_right]. lia. }
    split; [reflexivity|]. split; [reflexivity|]. split.
    { unfold uadd. unfold u64. rewrite Zplus_mod_idemp_l. f_equal. unfold zlen; cbn [length]. lia. }
    split; [reflexivity|]. split.
    + intros _. rewrite <- B. apply G. apply u64_idem.
    + intros _. rewrite <- E. apply H. apply u64_idem.
Qed.

Lemma fadd_ok h c : zsorted h -> vals_ok h -> zlen (flat h) + 1 < 2 ^ 32 ->
  zsorted (fadd h c) /\ vals_ok (fadd h c) /\
  Permutation (flat (fadd h c)) (c :: flat h).
Proof.
  intros S V B. unfold fadd. pose proof (zlen_nonneg (flat h)) as ZN.
  destruct (zfind c h) as [o|] eqn:F.
  - pose proof (vals_ok_zfind _ _ _ V S F). pose proof (zfind_le_flat _ _ _ S V F).
    rewrite u32_small by lia. split; [apply zset_sorted; auto|].
    split; [apply vals_ok_zset; auto; lia|].
    rewrite flat_zset by (auto; lia). reflexivity.
  - rewrite u32_small by lia. split; [apply zset_sorted; auto|].
    split; [apply vals_ok_zset; auto; lia|].
    clear - S F. induction S as [|k v h L S IH]; cbn; [reflexivity|].
    cbn in F. destruct (c =? k) eqn:E; [discriminate|].
    destruct (c <? k); [reflexivity|]. unfold flat in *. cbn [flat_map].
    rewrite (IH F). symmetry. apply Permutation_middle.
Qed.

Lemma fold_fadd_ok C : forall h, zsorted h -> vals_ok h ->
  zlen (flat h) + zlen C < 2 ^ 32 ->
  zsorted (fold_left fadd C h) /\ vals_ok (fold_left fadd C h) /\
  Permutation (flat (fold_left fadd C h)) (C ++ flat h).
Proof.
  induction C as [|c C IH]; intros h S V B; cbn [fold_left]; [cbn; auto|].
  assert (zlen (c :: C) = zlen C + 1) by (unfold zlen; cbn [length]; lia).
  pose proof (zlen_nonneg C).
  destruct (fadd_ok h c) as (S1 & V1 & P1); auto; [lia|].
  destruct (IH (fadd h c)) as (S2 & V2 & P2); auto.
  - unfold zlen in *. rewrite (Permutation_length P1). cbn [length] in *. lia.
  - split; auto. split; auto. rewrite P2, P1. cbn. symmetry. apply Permutation_middle.
Qed.

(** groups in strictly descending order of their key *)
Definition gdesc (g : list (Z * Z)) : Prop := StronglySorted (fun a b => fst b < fst a) g.

Lemma SSapp {A} (R : A -> A -> Prop) a b :
  StronglySorted R (a ++ b) <->
  StronglySorted R a /\ StronglySorted R b /\ forall x y, In x a -> In y b -> R x y.
Proof.
  induction a as [|x a IH]; cbn.
  - split; [intros H; split; [constructor|]; split; [exact H|intros ? ? []]|tauto].
  - split.
    + intros H. inversion H as [|? ? H1 H2]; subst. rewrite Forall_app in H2. destruct H2.
      apply IH in H1. destruct H1 as (A1 & A2 & A3). split; [constructor; auto|].
      split; auto. intros x0 y [->|I] J; auto. rewrite Forall_forall in *; auto.
    + intros (A1 & A2 & A3). inversion A1; subst. constructor.
      * apply IH. split; auto.
      * rewrite Forall_app; split; auto. rewrite Forall_forall; auto.
Qed.

Lemma gdesc_rev h : zsorted h -> gdesc (rev h).
Proof.
  unfold gdesc. induction 1 as [|k v h L S IH]; cbn; [constructor|].
  rewrite SSapp. split; auto. split; [constructor; constructor|].
  intros [x v'] y I [<-|[]]. apply in_rev in I. apply L in I. cbn. lia.
Qed.

Definition ds_inv (G0 : list (Z * Z)) (count D : Z) : Prop :=
  (G0 = [] /\ count = 0) \/
  (exists G1 f, G0 = G1 ++ [(count, f)] /\ zsum (flat G1) < D).

Lemma ds_advance_ok d : forall G G0 count D,
  let L := flat (G0 ++ G) in
  zlen L < 2 ^ 32 -> zsum L < 2 ^ 64 -> Forall (fun e => 0 <= fst e /\ 0 <= snd e) (G0 ++ G) ->
  d <= zsum L -> ds_inv G0 count (Z.max D d) -> D <= zsum (flat G0) ->
  exists G0' G' count',
    ds_advance G d (zlen (flat G0)) (zsum (flat G0)) count
      = (G', zlen (flat G0'), zsum (flat G0'), count') /\
    G0' ++ G' = G0 ++ G /\ ds_inv G0' count' (Z.max D d) /\ Z.max D d <= zsum (flat G0').
Proof.
  cbn zeta. induction G as [|[c f] G IH]; intros G0 count D LB SB V DB I DS.
  - cbn [ds_advance]. exists G0, [], count. split; auto. split; auto. split; auto.
    rewrite app_nil_r in DB. lia.
  - cbn [ds_advance]. destruct (zsum (flat G0) <? d) eqn:E.
    + assert (AE : G0 ++ (c, f) :: G = (G0 ++ [(c, f)]) ++ G) by (rewrite <- app_assoc; reflexivity).
      assert (FE : flat (G0 ++ [(c, f)]) = flat G0 ++ repeat c (Z.to_nat f)).
      { rewrite flat_app. unfold flat at 2; cbn. rewrite app_nil_r. reflexivity. }
      assert (VV : 0 <= c /\ 0 <= f).
      { rewrite Forall_forall in V. apply (V (c, f)). apply in_or_app. cbn; auto. }
      assert (NN : Forall (fun x => 0 <= x) (flat G) /\ Forall (fun x => 0 <= x) (flat G0)).
      { rewrite Forall_forall in V. split; apply Forall_forall; intros x Hx; apply flat_In in Hx;
          destruct Hx as [v Hx]; apply (V (x, v)); apply in_or_app; cbn; auto. }
      pose proof (zsum_nonneg _ (proj1 NN)). pose proof (zsum_nonneg _ (proj2 NN)).
      rewrite AE in *. rewrite flat_app, FE, !zsum_app, zsum_repeat, Z2Nat.id in SB by lia.
      assert (LB' : zlen (flat G0) + f < 2 ^ 32).
      { rewrite flat_app, FE in LB. unfold zlen in *. rewrite !app_length, repeat_length in LB. lia. }
      pose proof (zlen_nonneg (flat G0)).
      assert (U1 : u32 (zlen (flat G0) + f) = zlen (flat (G0 ++ [(c, f)]))).
      { rewrite u32_small by lia. rewrite FE. unfold zlen. rewrite app_length, repeat_length. lia. }
      assert (CF : 0 <= c * f) by nia.
      assert (U2 : uadd (zsum (flat G0)) (umul c f) = zsum (flat (G0 ++ [(c, f)]))).
      { unfold umul. rewrite (u64_small (c * f)) by lia. unfold uadd. rewrite u64_small by lia.
        rewrite FE, zsum_app, zsum_repeat, Z2Nat.id by lia. lia. }
      rewrite U1, U2. apply IH; auto.
      * rewrite flat_app, FE, !zsum_app, zsum_repeat, Z2Nat.id by lia. lia.
      * right. exists G0, f. split; auto. lia.
      * rewrite FE, zsum_app, zsum_repeat, Z2Nat.id by lia. lia.
    + exists G0, ((c, f) :: G), count. split; auto. split; auto. split; auto. lia.
Qed.

Lemma filter_all {A} (p : A -> bool) l : (forall x, In x l -> p x = true) -> filter p l = l.
Proof. induction l; cbn; intros H; auto. rewrite H by auto. f_equal; auto. Qed.
Lemma filter_none {A} (p : A -> bool) l : (forall x, In x l -> p x = false) -> filter p l = [].
Proof. induction l; cbn; intros H; auto. rewrite H by auto. auto. Qed.
Lemma Permutation_filter' {A} (p : A -> bool) l l' :
  Permutation l l' -> Permutation (filter p l) (filter p l').
Proof.
  induction 1; cbn; auto.
  - destruct (p x); auto.
  - destruct (p x), (p y); auto. apply perm_swap.
  - etransitivity; eauto.
Qed.

Lemma ds_entry C G0 G count D : 0 <= D -> gdesc (G0 ++ G) -> Permutation (flat (G0 ++ G)) C ->
  Forall (fun e => 0 <= fst e /\ 0 <= snd e) (G0 ++ G) ->
  ds_inv G0 count D -> D <= zsum (flat G0) ->
  summary_entry_ok C D count (zlen (flat G0)).
Proof.
  intros D0 S P V [[-> ->]|(G1 & f & -> & LT)] DS; unfold summary_entry_ok.
  - cbn in DS. assert (D = 0) as -> by lia. cbn. auto.
  - assert (NN1 : 0 <= zsum (flat G1)).
    { apply zsum_nonneg. rewrite Forall_forall in V. apply Forall_forall; intros x Hx; apply flat_In in Hx.
      destruct Hx as [v Hx]; apply (V (x, v)). apply in_or_app; left; apply in_or_app; auto. }
    assert (D =? 0 = false) as -> by lia.
    assert (FE : flat (G1 ++ [(count, f)]) = flat G1 ++ repeat count (Z.to_nat f)).
    { rewrite flat_app. unfold flat at 2; cbn. rewrite app_nil_r. reflexivity. }
    assert (F0 : 0 < f).
    { assert (~ f <= 0); [|lia]. intros Q. rewrite FE in DS.
      replace (Z.to_nat f) with 0%nat in DS by lia. cbn in DS. rewrite app_nil_r in DS. lia. }
    unfold gdesc in S. rewrite !SSapp in S. destruct S as ((S1 & _ & S2) & S3 & S4).
    assert (HI : forall x, In x (flat G1) -> count < x).
    { intros x Hx. apply flat_In in Hx. destruct Hx as [v Hx].
      apply (S2 (x, v) (count, f)); cbn; auto. }
    assert (LO : forall x, In x (flat G) -> x < count).
    { intros x Hx. apply flat_In in Hx. destruct Hx as [v Hx].
      apply (S4 (count, f) (x, v)); auto. apply in_or_app; cbn; auto. }
    assert (RE : forall x n, In x (repeat count n) -> x = count) by (intros x n; apply repeat_spec).
    assert (A1 : at_least count (flat ((G1 ++ [(count, f)]) ++ G)) = flat (G1 ++ [(count, f)])).
    { unfold at_least. rewrite flat_app, FE, !filter_app.
      rewrite (filter_all _ (flat G1)), (filter_all _ (repeat _ _)), (filter_none _ (flat G)).
      - apply app_nil_r.
      - intros x Hx. apply LO in Hx. lia.
      - intros x Hx. apply RE in Hx. lia.
      - intros x Hx. apply HI in Hx. lia. }
    assert (A2 : above count (flat ((G1 ++ [(count, f)]) ++ G)) = flat G1).
    { unfold above. rewrite flat_app, FE, !filter_app.
      rewrite (filter_all _ (flat G1)), (filter_none _ (repeat _ _)), (filter_none _ (flat G)).
      - rewrite !app_nil_r. reflexivity.
      - intros x Hx. apply LO in Hx. lia.
      - intros x Hx. apply RE in Hx. lia.
      - intros x Hx. apply HI in Hx. lia. }
    pose proof (Permutation_filter' (fun x => count <=? x) _ _ P) as P1. fold (at_least count C) in P1.
    fold (at_least count (flat ((G1 ++ [(count, f)]) ++ G))) in P1. rewrite A1 in P1.
    pose proof (Permutation_filter' (fun x => count <? x) _ _ P) as P2. fold (above count C) in P2.
    fold (above count (flat ((G1 ++ [(count, f)]) ++ G))) in P2. rewrite A2 in P2.
    split.
    { apply (Permutation_in _ P). rewrite flat_app. apply in_or_app. left. rewrite FE.
      apply in_or_app. right. replace (Z.to_nat f) with (S (Z.to_nat (f - 1))) by lia. left; auto. }
    rewrite <- (zsum_perm _ _ P1), <- (zsum_perm _ _ P2). split; auto. split; auto.
    unfold zlen. rewrite (Permutation_length P1). reflexivity.
Qed.

Lemma ds_loop_ok C total : forall cutoffs G0 G count D,
  gdesc (G0 ++ G) -> Permutation (flat (G0 ++ G)) C ->
  Forall (fun e => 0 <= fst e /\ 0 <= snd e) (G0 ++ G) ->
  zlen C < 2 ^ 32 -> zsum C = total -> total < 2 ^ 64 -> 0 <= D ->
  ds_inv G0 count D -> D <= zsum (flat G0) ->
  Forall (fun c => 0 <= c <= 999999) cutoffs ->
  exists es, ds_loop cutoffs total G (zlen (flat G0)) (zsum (flat G0)) count = Ok es /\
    length es = length cutoffs /\
    forall j c, nth_error cutoffs j = Some c -> exists m n, nth_error es j = Some (c, m, n) /\
      summary_entry_ok C (fold_right Z.max D (map (cutoff_target total) (firstn (S j) cutoffs))) m n.
Proof.
  induction cutoffs as [|c cutoffs IH]; intros G0 G count D GS P V LC SC SB D0 I DS FC.
  - exists []. cbn. split; auto. split; auto. intros [|j] c; discriminate.
  - inversion FC as [|? ? CB FC']; subst x l. cbn [ds_loop].
    assert (PS : zsum (flat (G0 ++ G)) = total) by (rewrite (zsum_perm _ _ P); auto).
    assert (PL : zlen (flat (G0 ++ G)) = zlen C) by (unfold zlen; rewrite (Permutation_length P); auto).
    assert (T0 : 0 <= total).
    { rewrite <- PS. apply zsum_nonneg, Forall_forall. intros x Hx. apply flat_In in Hx.
      destruct Hx as [v Hx]. rewrite Forall_forall in V. apply V in Hx. cbn in Hx. lia. }
    assert (c <=? 999999 = true) as -> by lia.
    assert (TB : 0 <= total * c / 1000000 <= total).
    { split; [apply Z.div_pos; nia|]. apply Z.div_le_upper_bound; nia. }
    assert (total * c / 1000000 <=? total = true) as -> by lia.
    set (d := total * c / 1000000) in *.
    assert (I' : ds_inv G0 count (Z.max D d)).
    { destruct I as [I|(G1 & f & E & L)]; [left; auto|right]. exists G1, f. split; auto. lia. }
    destruct (ds_advance_ok d G G0 count D) as (G0' & G' & count' & A & E & I2 & D2); auto; try lia.
    rewrite A. assert (d <=? zsum (flat G0') = true) as -> by lia.
    rewrite <- E in *.
    destruct (IH G0' G' count' (Z.max D d)) as (es & R & LEN & SPEC); auto; try lia.
    rewrite R. cbn [obind]. exists ((c, count', zlen (flat G0')) :: es). split; auto.
    split; [cbn; lia|]. intros [|j] c' Hj.
    + cbn in Hj. inversion Hj; subst c'. exists count', (zlen (flat G0')). split; auto.
      cbn [firstn map fold_right]. unfold cutoff_target. fold d. rewrite Z.max_comm.
      apply (ds_entry C G0' G'); auto. lia.
    + cbn [nth_error] in Hj. destruct (SPEC j c' Hj) as (m & n & A1 & A2).
      exists m, n. split; auto. cbn [firstn map fold_right] in *.
      replace (Z.max (cutoff_target total c) (fold_right Z.max D _))
        with (fold_right Z.max (Z.max D d) (map (cutoff_target total) (firstn (S j) cutoffs))); auto.
      change (cutoff_target total c) with d.
      clear. cbn [firstn map fold_right].
      induction (match cutoffs with [] => [] | a :: l => a :: firstn j l end) as [|x l IHl]; cbn; lia.
Qed.

(** * The whole traversal *)
Definition emitted (emit : Z -> bool) (syms : list symbol) : list symbol :=
  filter (fun s => emit (s_total s)) syms.

Lemma fold_max_app a b m : fold_left Z.max (a ++ b) m = fold_left Z.max b (fold_left Z.max a m).
Proof. apply fold_left_app. Qed.

Lemma counts_app a b : counts (a ++ b) = counts a ++ counts b.
Proof. apply map_app. Qed.

Lemma fold_sm_top emit syms : forall i,
  u64 (sm_total i) = sm_total i -> u64 (sm_num_counts i) = sm_num_counts i ->
  u64 (sm_num_functions i) = sm_num_functions i ->
  let j := fold_left (sm_top emit) syms i in
  let E := emitted emit syms in
  let ps := flat_map positions E in
  sm_freq j = fold_left fadd (counts ps) (sm_freq i) /\
  sm_total j = u64 (sm_total i + zsum (counts ps)) /\
  sm_max j = fold_left Z.max (counts ps) (sm_max i) /\
  sm_max_function j = fold_left Z.max (map s_head E) (sm_max_function i) /\
  sm_num_counts j = u64 (sm_num_counts i + zlen ps) /\
  sm_num_functions j = u64 (sm_num_functions i + zlen E).
Proof.
  cbn zeta. induction syms as [|s syms IH]; intros i H1 H2 H3; cbn [fold_left emitted filter].
  - unfold zlen; cbn. rewrite !Z.add_0_r, H1, H2, H3. auto 10.
  - unfold sm_top at 2 4 6 8 10 12. destruct (emit (s_total s)).
    + rewrite sm_traverse_eq.
      set (i1 := {| sm_total := sm_total i; sm_max := sm_max i;
                    sm_max_function := Z.max (sm_max_function i) (s_head s);
                    sm_num_counts := sm_num_counts i;
                    sm_num_functions := uadd (sm_num_functions i) 1; sm_freq := sm_freq i |}).
      destruct (fold_sadd (positions s) i1) as (A & B & C & D & E & F & G & H).
      cbn zeta in *. set (i2 := fold_left sadd (positions s) i1) in *.
      cbn [i1 sm_total sm_max sm_max_function sm_num_counts sm_num_functions sm_freq] in *.
      specialize (G H1). specialize (H H2).
      destruct (IH i2) as (A' & B' & C' & D' & E' & F'); auto.
      { rewrite F. apply u64_idem. }
      rewrite A', B', C', D', E', F', A, C, D, F. cbn [flat_map map].
      rewrite counts_app, !fold_left_app, zsum_app. cbn [fold_left].
      split; auto. split; [rewrite <- G, B; unfold u64; rewrite Zplus_mod_idemp_l, Z.add_assoc; reflexivity|].
      split; auto. split; auto. unfold zlen in *.
      split; [rewrite <- H, E; unfold u64; rewrite Zplus_mod_idemp_l, app_length, Nat2Z.inj_add, Z.add_assoc; reflexivity|].
      unfold uadd, u64. rewrite Zplus_mod_idemp_l. cbn [length]. f_equal. unfold emitted. lia.
    + apply IH; auto.
Qed.

Lemma fold_max_spec l m : (forall x, In x l -> x <= fold_left Z.max l m) /\ m <= fold_left Z.max l m /\
  (fold_left Z.max l m = m \/ In (fold_left Z.max l m) l).
Proof.
  revert m. induction l as [|x l IH]; intros m; cbn [fold_left].
  - split; [intros ? []|]. split; [lia|auto].
  - destruct (IH (Z.max m x)) as (A & B & C). split; [|split].
    + intros y [->|I]; [lia|auto].
    + lia.
    + destruct C as [C|C]; [|right; right; auto].
      rewrite C. destruct (Z.max_spec m x) as [[_ ->]|[_ ->]]; cbn; auto.
Qed.
