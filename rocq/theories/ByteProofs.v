From Verif Require Import Base ByteModel ByteSpec.
Ltac Zify.zify_post_hook ::= Z.div_mod_to_equations.

Lemma mask_byte w b : is_byte b -> w = 65536 \/ w = w32 \/ w = w64 -> mask w b = b.
Proof.
  intros B H. unfold mask, schar.
  change 255 with (Z.ones 8). rewrite Z.land_ones by lia. change (2 ^ 8) with 256.
  unfold is_byte, w32, w64 in *.
  destruct (b <? 128) eqn:E; destruct H as [->|[->| ->]]; lia.
Qed.

Lemma schar_mod b : is_byte b -> schar b mod 256 = b.
Proof. unfold schar, is_byte. intros. destruct (b <? 128) eqn:E; lia. Qed.

Lemma shl k b : 0 <= k -> Z.shiftl b k = b * 2 ^ k.
Proof. intros. apply Z.shiftl_mul_pow2; auto. Qed.

Ltac bytes :=
  repeat match goal with H : is_byte _ |- _ => unfold is_byte in H end.

Lemma sh32_eq b n : 0 <= b < 256 -> n = 8 \/ n = 16 \/ n = 24 -> sh32 b n = Z.shiftl b n.
Proof.
  intros B H. unfold sh32, u32, w32. rewrite shl by lia. apply Z.mod_small.
  destruct H as [->|[->| ->]]; change (2 ^ 8) with 256; change (2 ^ 16) with 65536;
   change (2 ^ 24) with 16777216; lia.
Qed.

Lemma sh64_eq b n : 0 <= b < 256 ->
  n = 8 \/ n = 16 \/ n = 24 \/ n = 32 \/ n = 40 \/ n = 48 \/ n = 56 -> sh64 b n = Z.shiftl b n.
Proof.
  intros B H. unfold sh64, u64, w64. rewrite shl by lia. apply Z.mod_small.
  repeat (destruct H as [->|H]); try subst;
  change (2 ^ 8) with 256; change (2 ^ 16) with 65536; change (2 ^ 24) with 16777216;
  change (2 ^ 32) with 4294967296; change (2 ^ 40) with 1099511627776;
  change (2 ^ 48) with 281474976710656; change (2 ^ 56) with 72057594037927936; lia.
Qed.

(** joining a byte at bit position n *)
Lemma join a b n p : 0 <= n -> 2 ^ n = p -> 0 <= a < p -> Z.lor a (Z.shiftl b n) = a + b * p.
Proof. intros. subst. apply lor_add_disjoint; lia. Qed.

Ltac joins :=
  rewrite (join _ _ 8 256) by (first [reflexivity | lia]);
  try rewrite (join _ _ 16 65536) by (first [reflexivity | lia]);
  try rewrite (join _ _ 24 16777216) by (first [reflexivity | lia]);
  try rewrite (join _ _ 32 4294967296) by (first [reflexivity | lia]);
  try rewrite (join _ _ 40 1099511627776) by (first [reflexivity | lia]);
  try rewrite (join _ _ 48 281474976710656) by (first [reflexivity | lia]);
  try rewrite (join _ _ 56 72057594037927936) by (first [reflexivity | lia]).

Ltac Zify.zify_post_hook ::= idtac.

Definition en_value (en : endian) (bs : list Z) : Z :=
  match en with LittleEndian => le_value bs | BigEndian => be_value bs end.

Lemma read2 en b0 b1 rest : Forall is_byte [b0; b1] ->
  ReadTwoBytes en (b0 :: b1 :: rest) = Ok (en_value en [b0; b1]).
Proof.
  intros F. inversion F as [|x l B0 F1]; subst. inversion F1 as [|x l B1 _]; subst.
  unfold ReadTwoBytes. cbn zeta. rewrite !mask_byte by auto. bytes.
  destruct en; cbn -[Z.add Z.mul Z.lor Z.shiftl]; joins; unfold u16; f_equal;
    rewrite Z.mod_small; lia.
Qed.

Lemma read3 en b0 b1 b2 rest : Forall is_byte [b0; b1; b2] ->
  ReadThreeBytes en (b0 :: b1 :: b2 :: rest) = Ok (en_value en [b0; b1; b2]).
Proof.
  intros F. rewrite !Forall_cons_iff in F. destruct F as (B0 & B1 & B2 & _).
  unfold ReadThreeBytes. cbn zeta. rewrite !mask_byte by auto. bytes.
  rewrite !sh32_eq by lia.
  destruct en; cbn -[Z.add Z.mul Z.lor Z.shiftl]; joins; f_equal; lia.
Qed.

Lemma read4 en b0 b1 b2 b3 rest : Forall is_byte [b0; b1; b2; b3] ->
  ReadFourBytes en (b0 :: b1 :: b2 :: b3 :: rest) = Ok (en_value en [b0; b1; b2; b3]).
Proof.
  intros F. rewrite !Forall_cons_iff in F. destruct F as (B0 & B1 & B2 & B3 & _).
  unfold ReadFourBytes. cbn zeta. rewrite !mask_byte by auto. bytes.
  rewrite !sh32_eq by lia.
  destruct en; cbn -[Z.add Z.mul Z.lor Z.shiftl]; joins; f_equal; lia.
Qed.

Lemma read8 en b0 b1 b2 b3 b4 b5 b6 b7 rest : Forall is_byte [b0; b1; b2; b3; b4; b5; b6; b7] ->
  ReadEightBytes en (b0 :: b1 :: b2 :: b3 :: b4 :: b5 :: b6 :: b7 :: rest)
  = Ok (en_value en [b0; b1; b2; b3; b4; b5; b6; b7]).
Proof.
  intros F. rewrite !Forall_cons_iff in F.
  destruct F as (B0 & B1 & B2 & B3 & B4 & B5 & B6 & B7 & _).
  unfold ReadEightBytes. cbn zeta. rewrite !mask_byte by auto. bytes.
  rewrite !sh64_eq by lia.
  destruct en; cbn -[Z.add Z.mul Z.lor Z.shiftl]; joins; f_equal; lia.
Qed.

Lemma le_value_bound bs : Forall is_byte bs -> 0 <= le_value bs < 256 ^ zlen bs.
Proof.
  induction 1 as [|b bs B F IH]; [cbn; lia|].
  unfold zlen in *. cbn [length le_value]. rewrite Nat2Z.inj_succ, Z.pow_succ_r by lia.
  unfold is_byte in B. nia.
Qed.

Lemma en_value_bound en bs : Forall is_byte bs -> 0 <= en_value en bs < 256 ^ zlen bs.
Proof.
  intros F. destruct en; cbn; [|apply le_value_bound; auto].
  unfold be_value. replace (zlen bs) with (zlen (rev bs)) by (unfold zlen; rewrite rev_length; auto).
  apply le_value_bound. apply Forall_rev; auto.
Qed.

(** * LEB128 *)

Lemma land127 b : Z.land b 127 = b mod 128.
Proof. change 127 with (Z.ones 7). rewrite Z.land_ones by lia. reflexivity. Qed.

Lemma land128 b : is_byte b -> (Z.land b 128 =? 0) = (b <? 128).
Proof.
  intros B. unfold is_byte in B.
  assert (T : Z.testbit b 7 = negb (b <? 128)).
  { rewrite Z.testbit_eqb by lia. change (2 ^ 7) with 128.
    destruct (b <? 128) eqn:E; cbn.
    - rewrite Z.div_small by lia. reflexivity.
    - replace (b / 128) with 1; [reflexivity|]. apply Z.div_unique with (b - 128); lia. }
  destruct (b <? 128) eqn:E.
  - apply Z.eqb_eq. apply Z.bits_inj'. intros n Hn. rewrite Z.land_spec, Z.bits_0.
    change 128 with (2 ^ 7). destruct (Z.eq_dec n 7) as [->|N].
    + rewrite T. auto.
    + rewrite Z.pow2_bits_false by lia. apply andb_false_r.
  - apply Z.eqb_neq. intros Z0. apply (f_equal (fun z => Z.testbit z 7)) in Z0.
    rewrite Z.land_spec, T, Z.bits_0 in Z0. change 128 with (2 ^ 7) in Z0.
    rewrite Z.pow2_bits_true in Z0 by lia. discriminate.
Qed.

Lemma land64 b : 0 <= b < 128 -> (Z.land b 64 =? 0) = (b <? 64).
Proof.
  intros B.
  assert (T : Z.testbit b 6 = negb (b <? 64)).
  { rewrite Z.testbit_eqb by lia. change (2 ^ 6) with 64.
    destruct (b <? 64) eqn:E; cbn.
    - rewrite Z.div_small by lia. reflexivity.
    - replace (b / 64) with 1; [reflexivity|]. apply Z.div_unique with (b - 64); lia. }
  destruct (b <? 64) eqn:E.
  - apply Z.eqb_eq. apply Z.bits_inj'. intros n Hn. rewrite Z.land_spec, Z.bits_0.
    change 64 with (2 ^ 6). destruct (Z.eq_dec n 6) as [->|N].
    + rewrite T. auto.
    + rewrite Z.pow2_bits_false by lia. apply andb_false_r.
  - apply Z.eqb_neq. intros Z0. apply (f_equal (fun z => Z.testbit z 6)) in Z0.
    rewrite Z.land_spec, T, Z.bits_0 in Z0. change 64 with (2 ^ 6) in Z0.
    rewrite Z.pow2_bits_true in Z0 by lia. discriminate.
Qed.

Lemma leb_bits_bound bs : leb_shape bs -> 0 <= leb_bits bs < 2 ^ (7 * zlen bs).
Proof.
  assert (G : forall bs, 0 <= leb_bits bs < 2 ^ (7 * zlen bs)).
  { clear. induction bs as [|b bs IH]; [cbn; lia|].
    unfold zlen in *. cbn [length leb_bits].
    replace (7 * Z.of_nat (S (length bs))) with (7 + 7 * Z.of_nat (length bs)) by lia.
    rewrite Z.pow_add_r by lia. change (2 ^ 7) with 128.
    pose proof (Z.mod_pos_bound b 128). nia. }
  intros _. apply G.
Qed.

(** the accumulated value after adding one group, modulo 2^64 *)
Lemma lor_step r g shift :
  0 <= shift < 64 -> 0 <= r < 2 ^ shift -> 0 <= g ->
  Z.lor r (u64 (Z.shiftl g shift)) = (r + g * 2 ^ shift) mod 2 ^ 64.
Proof.
  intros S R G. unfold u64, w64. change 18446744073709551616 with (2 ^ 64).
  rewrite <- lor_add_disjoint by lia.
  rewrite <- !Z.land_ones by lia. rewrite Z.land_lor_distr_l.
  f_equal. rewrite (Z.land_ones r) by lia. symmetry. apply Z.mod_small.
  assert (2 ^ shift <= 2 ^ 64) by (apply Z.pow_le_mono_r; lia). lia.
Qed.

Lemma uleb_loop_spec bs : forall rest r n shift,
  leb_shape bs -> 0 <= shift -> shift + 7 * (zlen bs - 1) < 64 ->
  0 <= r < 2 ^ shift ->
  uleb_loop (bs ++ rest) r n shift
  = Ok ((r + leb_bits bs * 2 ^ shift) mod 2 ^ 64, n + zlen bs).
Proof.
  induction bs as [|b bs IH]; intros rest r n shift L S0 S1 R; [contradiction|].
  cbn [app uleb_loop]. unfold zlen in *. cbn [length] in S1.
  assert (64 <=? shift = false) as -> by lia.
  rewrite land127. destruct bs as [|c bs].
  - cbn in L. rewrite land128 by (unfold is_byte; lia).
    assert (b <? 128 = true) as -> by lia. rewrite lor_step by (try apply Z.mod_pos_bound; lia).
    cbn [leb_bits length]. do 3 f_equal. lia.
  - destruct L as [L1 L2]. rewrite land128 by (unfold is_byte; lia).
    assert (b <? 128 = false) as -> by lia.
    cbn [length] in S1.
    assert (M : 0 <= b mod 128 < 128) by (apply Z.mod_pos_bound; lia).
    assert (P7 : 2 ^ (shift + 7) = 2 ^ shift * 128) by (rewrite Z.pow_add_r by lia; reflexivity).
    assert (Rb : 0 <= r + b mod 128 * 2 ^ shift < 2 ^ (shift + 7)) by nia.
    rewrite lor_step by lia. rewrite (Z.mod_small (r + _)).
    + rewrite IH; cbn [length] in *; try lia; auto.
      f_equal. f_equal; [|lia]. f_equal. cbn [leb_bits]. rewrite P7. lia.
    + split; [lia|]. eapply Z.lt_le_trans; [apply Rb|]. apply Z.pow_le_mono_r; lia.
Qed.

(** more than ten bytes: the shift count reaches 70 *)
Lemma uleb_loop_long bs : forall rest r n shift,
  Forall (fun b => 128 <= b < 256) bs -> 64 <= shift + 7 * zlen bs ->
  (bs <> [] \/ 64 <= shift) -> uleb_loop (bs ++ rest) r n shift = UB.
Proof.
  induction bs as [|b bs IH]; intros rest r n shift F S NE.
  - unfold zlen in S. cbn in S. destruct rest; cbn; auto.
    assert (64 <=? shift = true) as -> by lia. auto.
  - cbn [app uleb_loop]. destruct (64 <=? shift) eqn:E; auto.
    inversion F; subst. rewrite land128 by (unfold is_byte; lia).
    assert (b <? 128 = false) as -> by lia. unfold zlen in *. cbn [length] in S.
    apply IH; auto; try lia. destruct bs; [right|left; discriminate]. cbn in S. lia.
Qed.

(** in both loops the accumulator has the same shape; the signed finish: *)
Lemma sleb_loop_spec w bs : forall rest r n shift,
  leb_shape bs -> 0 <= shift -> shift + 7 * (zlen bs - 1) < 64 ->
  0 <= r < 2 ^ shift ->
  let v := r + leb_bits bs * 2 ^ shift in
  let k := shift + 7 * zlen bs in
  sleb_loop w (bs ++ rest) r n shift
  = if (k <? 64) && negb (v <? 2 ^ (k - 1))
    then if (k =? 63) && negb w then UB
         else Ok (v - 2 ^ k, n + zlen bs)
    else Ok (s64 (v mod 2 ^ 64), n + zlen bs).
Proof.
  induction bs as [|b bs IH]; intros rest r n shift L S0 S1 R v k; [contradiction|].
  cbn [app sleb_loop]. unfold zlen in *. cbn [length] in S1.
  assert (64 <=? shift = false) as -> by lia.
  rewrite land127. destruct bs as [|c bs].
  - cbn in L. rewrite land128 by (unfold is_byte; lia).
    assert (b <? 128 = true) as -> by lia. rewrite lor_step by (try apply Z.mod_pos_bound; lia).
    rewrite land64 by lia.
    subst v k. cbn [leb_bits length]. change (Z.of_nat 1) with 1.
    replace (7 * 1) with 7 by lia.
    rewrite (Z.mod_small b 128) by lia.
    replace (r + (b + 128 * 0) * 2 ^ shift) with (r + b * 2 ^ shift) by lia.
    assert (P7 : 2 ^ (shift + 7) = 2 ^ shift * 128) by (rewrite Z.pow_add_r by lia; reflexivity).
    assert (P6 : 2 ^ (shift + 7 - 1) = 2 ^ shift * 64).
    { replace (shift + 7 - 1) with (shift + 6) by lia. rewrite Z.pow_add_r by lia; reflexivity. }
    assert (E : (b <? 64) = (r + b * 2 ^ shift <? 2 ^ (shift + 7 - 1))).
    { rewrite P6. destruct (b <? 64) eqn:E1; symmetry.
      - apply Z.ltb_lt. nia.
      - apply Z.ltb_ge. nia. }
    rewrite <- E. destruct ((shift + 7 <? 64) && negb (b <? 64)) eqn:F; [|reflexivity].
    destruct ((shift + 7 =? 63) && negb w); [reflexivity|].
    f_equal. f_equal.
    set (v := r + b * 2 ^ shift) in *.
    assert (V : 2 ^ (shift + 7 - 1) <= v < 2 ^ (shift + 7)).
    { apply andb_true_iff in F. destruct F as [_ F]. subst v. rewrite P6, P7. nia. }
    assert (PP : 2 ^ (shift + 7) <= 2 ^ 63) by (apply Z.pow_le_mono_r; lia).
    assert (H63 : 2 ^ 64 = 2 * 2 ^ 63) by reflexivity.
    rewrite (Z.mod_small v) by lia.
    assert (U : u64 (- Z.shiftl 1 (shift + 7)) = Z.shiftl (2 ^ (64 - (shift + 7)) - 1) (shift + 7)).
    { rewrite !shl by lia. unfold u64, w64. change 18446744073709551616 with (2 ^ 64).
      rewrite Z.mul_sub_distr_r. rewrite <- Z.pow_add_r by lia.
      replace (64 - (shift + 7) + (shift + 7)) with 64 by lia.
      symmetry. apply Z.mod_unique with (-1); [left; lia|lia]. }
    rewrite U. rewrite lor_add_disjoint by (pose proof (Z.pow_nonneg 2 (shift+7-1)); lia).
    rewrite Z.mul_sub_distr_r. rewrite <- Z.pow_add_r by lia.
    replace (64 - (shift + 7) + (shift + 7)) with 64 by lia.
    unfold s64.
    assert (2 ^ (shift + 7) = 2 * 2 ^ (shift + 7 - 1)) by lia.
    destruct (v + (2 ^ 64 - 1 * 2 ^ (shift + 7)) <? 2 ^ 63) eqn:G; lia.
  - destruct L as [L1 L2]. rewrite land128 by (unfold is_byte; lia).
    assert (b <? 128 = false) as -> by lia.
    cbn [length] in S1.
    assert (M : 0 <= b mod 128 < 128) by (apply Z.mod_pos_bound; lia).
    assert (P7 : 2 ^ (shift + 7) = 2 ^ shift * 128) by (rewrite Z.pow_add_r by lia; reflexivity).
    assert (Rb : 0 <= r + b mod 128 * 2 ^ shift < 2 ^ (shift + 7)) by nia.
    rewrite lor_step by lia. rewrite (Z.mod_small (r + _)).
    + rewrite IH; cbn [length] in *; try lia; auto.
      subst v k. 
      replace (r + b mod 128 * 2 ^ shift + leb_bits (c :: bs) * 2 ^ (shift + 7))
        with (r + leb_bits (b :: c :: bs) * 2 ^ shift)
        by (rewrite P7; cbn [leb_bits]; lia).
      replace (shift + 7 + 7 * Z.of_nat (S (length bs)))
        with (shift + 7 * Z.of_nat (S (S (length bs)))) by lia.
      replace (n + 1 + Z.of_nat (S (length bs))) with (n + Z.of_nat (S (S (length bs)))) by lia.
      reflexivity.
    + split; [lia|]. eapply Z.lt_le_trans; [apply Rb|]. apply Z.pow_le_mono_r; lia.
Qed.

Lemma encode_uleb_ok k : forall v, 0 <= v < 128 * 128 ^ Z.of_nat k ->
  leb_shape (encode_uleb k v) /\ leb_bits (encode_uleb k v) = v /\
  zlen (encode_uleb k v) <= Z.of_nat k + 1.
Proof.
  induction k as [|k IH]; intros v V.
  - cbn in V. cbn. rewrite Z.mod_small by lia. rewrite Z.mod_small by lia. unfold zlen; cbn. lia.
  - cbn [encode_uleb]. destruct (v <? 128) eqn:E.
    + cbn. rewrite Z.mod_small by lia. unfold zlen; cbn. lia.
    + rewrite Nat2Z.inj_succ, Z.pow_succ_r in V by lia.
      assert (D : 0 <= v / 128 < 128 * 128 ^ Z.of_nat k).
      { split; [apply Z.div_pos; lia|]. apply Z.div_lt_upper_bound; lia. }
      destruct (IH _ D) as (A & B & C).
      assert (M : 0 <= v mod 128 < 128) by (apply Z.mod_pos_bound; lia).
      split; [|split].
      * cbn [leb_shape]. destruct (encode_uleb k (v / 128)) eqn:Q; [destruct A|]. split; [lia|exact A].
      * cbn [leb_bits]. rewrite B.
        replace (v mod 128 + 128) with (v mod 128 + 1 * 128) by lia.
        rewrite Z.mod_add by lia. rewrite Z.mod_mod by lia.
        pose proof (Z.div_mod v 128 ltac:(lia)). lia.
      * unfold zlen in *. cbn [length]. lia.
Qed.

Lemma encode_sleb_ok k : forall v, - 64 * 128 ^ Z.of_nat k <= v < 64 * 128 ^ Z.of_nat k ->
  leb_shape (encode_sleb k v) /\ leb_signed (encode_sleb k v) = v /\
  zlen (encode_sleb k v) <= Z.of_nat k + 1.
Proof.
  assert (B1 : forall v, -64 <= v < 64 -> leb_shape [v mod 128] /\ leb_signed [v mod 128] = v /\ zlen [v mod 128] = 1).
  { intros v V. assert (M : 0 <= v mod 128 < 128) by (apply Z.mod_pos_bound; lia).
    split; [cbn; lia|]. split; [|reflexivity]. unfold leb_signed. cbn [leb_bits].
    change (2 ^ (7 * zlen [v mod 128] - 1)) with 64.
    change (2 ^ (7 * zlen [v mod 128])) with 128.
    rewrite Z.mod_mod by lia.
    assert (v mod 128 = if v <? 0 then v + 128 else v).
    { destruct (v <? 0) eqn:E.
      - symmetry. apply Z.mod_unique with (-1); [left|]; lia.
      - apply Z.mod_small; lia. }
    destruct (v <? 0) eqn:E;
      destruct (v mod 128 + 128 * 0 <? 64) eqn:F; lia. }
  induction k as [|k IH]; intros v V.
  - cbn in V. cbn [encode_sleb]. destruct (B1 v ltac:(lia)) as (X & Y & Z0).
    split; auto. split; auto. lia.
  - cbn [encode_sleb]. destruct ((-64 <=? v) && (v <? 64)) eqn:E.
    + destruct (B1 v ltac:(lia)) as (X & Y & Z0). split; auto. split; auto. lia.
    + rewrite Nat2Z.inj_succ, Z.pow_succ_r in V by lia.
      assert (D : -64 * 128 ^ Z.of_nat k <= v / 128 < 64 * 128 ^ Z.of_nat k).
      { split; [apply Z.div_le_lower_bound; lia|apply Z.div_lt_upper_bound; lia]. }
      destruct (IH _ D) as (A & B & C).
      assert (M : 0 <= v mod 128 < 128) by (apply Z.mod_pos_bound; lia).
      set (bs := encode_sleb k (v / 128)) in *.
      assert (LP : 1 <= zlen bs).
      { destruct bs; [destruct A|]. unfold zlen; cbn [length]; lia. }
      split; [|split].
      * cbn [leb_shape]. destruct bs eqn:Q; [destruct A|]. split; [lia|exact A].
      * unfold leb_signed in *. cbn [leb_bits].
        replace (zlen ((v mod 128 + 128) :: bs)) with (zlen bs + 1) by (unfold zlen; cbn [length]; lia).
        replace (v mod 128 + 128) with (v mod 128 + 1 * 128) by lia.
        rewrite Z.mod_add by lia. rewrite Z.mod_mod by lia.
        replace (7 * (zlen bs + 1) - 1) with (7 + (7 * zlen bs - 1)) by lia.
        replace (7 * (zlen bs + 1)) with (7 + 7 * zlen bs) by lia.
        rewrite !(Z.pow_add_r 2 7) by lia. change (2 ^ 7) with 128.
        pose proof (Z.div_mod v 128 ltac:(lia)) as DM.
        destruct (leb_bits bs <? 2 ^ (7 * zlen bs - 1)) eqn:F;
          destruct (v mod 128 + 128 * leb_bits bs <? 128 * 2 ^ (7 * zlen bs - 1)) eqn:G; lia.
      * unfold zlen in *. cbn [length]. lia.
Qed.
