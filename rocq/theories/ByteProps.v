(** C23 (LEB128) and C24 (fixed-width integers). *)
From Verif Require Import Base ByteModel ByteSpec ByteProofs.

(** Any LEB128 byte sequence of at most ten bytes (canonical or padded) is
    decoded to its value modulo 2^64 and its exact length, whatever follows. *)
Theorem C23_unsigned_leb128 (bs rest : list Z) :
  leb_shape bs -> zlen bs <= 10 ->
  ReadUnsignedLEB128 (bs ++ rest) = Ok (leb_bits bs mod 2 ^ 64, zlen bs).
Proof.
  intros L N. unfold ReadUnsignedLEB128.
  rewrite uleb_loop_spec; auto; try lia.
  rewrite Z.pow_0_r, Z.mul_1_r, Z.add_0_l. reflexivity.
Qed.

(** Every 64-bit value is read back from its DWARF encoding. *)
Theorem C23_unsigned_leb128_roundtrip (v : Z) (rest : list Z) :
  0 <= v < 2 ^ 64 ->
  ReadUnsignedLEB128 (encode_uleb 9 v ++ rest) = Ok (v, zlen (encode_uleb 9 v)).
Proof.
  intros V. destruct (encode_uleb_ok 9 v) as (A & B & C); [cbn; lia|].
  rewrite C23_unsigned_leb128 by (auto; lia). rewrite B, Z.mod_small by lia. reflexivity.
Qed.

(** Signed values: every sequence of at most ten bytes that denotes an int64. *)
Theorem C23_signed_leb128 (bs rest : list Z) :
  leb_shape bs -> zlen bs <= 10 -> - 2 ^ 63 <= leb_signed bs < 2 ^ 63 ->
  ReadSignedLEB128 true (bs ++ rest) = Ok (leb_signed bs, zlen bs) /\
  (zlen bs <> 9 \/ 0 <= leb_signed bs ->
   ReadSignedLEB128 false (bs ++ rest) = Ok (leb_signed bs, zlen bs)).
Proof.
  intros L N R.
  pose proof (leb_bits_bound bs L) as B.
  assert (G : forall w, (w = true \/ zlen bs <> 9 \/ 0 <= leb_signed bs) ->
    ReadSignedLEB128 w (bs ++ rest) = Ok (leb_signed bs, zlen bs)).
  { intros w W. unfold ReadSignedLEB128.
    rewrite sleb_loop_spec; auto; try lia.
    rewrite Z.pow_0_r, Z.mul_1_r, !Z.add_0_l. unfold leb_signed in *.
    assert (P : 1 <= zlen bs) by (destruct bs; [destruct L|unfold zlen; cbn [length]; lia]).
    assert (P2 : 2 ^ (7 * zlen bs) = 2 * 2 ^ (7 * zlen bs - 1)).
    { replace (7 * zlen bs) with (1 + (7 * zlen bs - 1)) at 1 by lia.
      rewrite Z.pow_add_r by lia. reflexivity. }
    destruct (7 * zlen bs <? 64) eqn:K; cbn [andb].
    - destruct (leb_bits bs <? 2 ^ (7 * zlen bs - 1)) eqn:E; cbn [negb].
      + assert (2 ^ (7 * zlen bs - 1) <= 2 ^ 63) by (apply Z.pow_le_mono_r; lia).
        unfold s64. rewrite Z.mod_small by lia.
        assert (leb_bits bs <? 2 ^ 63 = true) as -> by lia. reflexivity.
      + destruct ((7 * zlen bs =? 63) && negb w) eqn:F; [|reflexivity].
        exfalso. destruct w; [cbn in F; lia|]. destruct W as [W|[W|W]]; [discriminate|lia|lia].
    - assert (Z10 : zlen bs = 10) by lia. rewrite Z10 in *.
      change (7 * 10) with 70 in *.
      assert (H70 : 2 ^ 70 = 64 * 2 ^ 64) by reflexivity.
      assert (H64 : 2 ^ 64 = 2 * 2 ^ 63) by reflexivity.
      f_equal. f_equal. unfold s64.
      destruct (leb_bits bs <? 2 ^ (70 - 1)) eqn:E.
      + rewrite Z.mod_small by lia.
        assert (leb_bits bs <? 2 ^ 63 = true) as -> by lia. reflexivity.
      + assert (M : leb_bits bs mod 2 ^ 64 = leb_bits bs - 63 * 2 ^ 64).
        { symmetry. apply Z.mod_unique with 63; [left; lia|lia]. }
        rewrite M. destruct (leb_bits bs - 63 * 2 ^ 64 <? 2 ^ 63) eqn:F; lia. }
  split; [apply G; auto|]. intros H. apply G. tauto.
Qed.

Theorem C23_signed_leb128_roundtrip (v : Z) (rest : list Z) :
  - 2 ^ 63 <= v < 2 ^ 63 ->
  ReadSignedLEB128 true (encode_sleb 9 v ++ rest) = Ok (v, zlen (encode_sleb 9 v)).
Proof.
  intros V. destruct (encode_sleb_ok 9 v) as (A & B & C); [cbn; lia|].
  destruct (C23_signed_leb128 (encode_sleb 9 v) rest) as [H _]; auto; try lia.
  rewrite H, B. reflexivity.
Qed.

(** Padding beyond ten bytes is undefined behaviour (shift by 70), even when
    the padded value is small. *)
Theorem C23_overlong_encoding_refuted (bs rest : list Z) :
  leb_shape bs -> 10 < zlen bs -> ReadUnsignedLEB128 (bs ++ rest) = UB.
Proof.
  intros L N.
  assert (F : Forall (fun b => 128 <= b < 256) (firstn 10 bs)).
  { assert (G : forall n bs, leb_shape bs -> (n < length bs)%nat ->
       Forall (fun b => 128 <= b < 256) (firstn n bs)).
    { clear. induction n as [|n IH]; intros bs L N; [constructor|].
      destruct bs as [|b [|c bs]]; [cbn in N; lia|cbn in N; lia|].
      destruct L as [L1 L2]. cbn [firstn]. constructor; [lia|]. apply IH; auto. cbn in *; lia. }
    apply G; auto. unfold zlen in N. lia. }
  unfold ReadUnsignedLEB128. rewrite <- (firstn_skipn 10 bs), <- app_assoc.
  assert (LL : length (firstn 10 bs) = 10%nat) by (rewrite firstn_length; unfold zlen in N; lia).
  apply uleb_loop_long; auto.
  - unfold zlen. rewrite LL. lia.
  - left. intros E. rewrite E in LL. discriminate.
Qed.

(** Strictly by the C++ standard a negative nine-byte value is undefined too
    (line 126 negates INT64_MIN): -2^62 is such a value. *)
Theorem C23_signed_nine_bytes_refuted :
  exists bs, leb_shape bs /\ zlen bs = 9 /\ leb_signed bs = - 2 ^ 62 /\
    forall rest, ReadSignedLEB128 false (bs ++ rest) = UB.
Proof.
  exists (encode_sleb 9 (- 2 ^ 62)). split; [|split; [|split]]; try reflexivity.
  - cbn. lia.
Qed.

Example C23_nonvacuous :
  leb_shape [229; 142; 38] /\ leb_bits [229; 142; 38] = 624485 /\
  leb_shape [155; 241; 89] /\ leb_signed [155; 241; 89] = -624485.
Proof. repeat split; cbn; lia. Qed.

(** C24: the fixed-width readers return the value of the bytes in the
    configured byte order, whatever bytes follow. *)
Theorem C24_fixed_width (bs rest : list Z) :
  Forall is_byte bs ->
  (length bs = 1%nat -> ReadOneByte (bs ++ rest) = Ok (le_value bs)) /\
  (length bs = 2%nat -> ReadTwoBytes LittleEndian (bs ++ rest) = Ok (le_value bs) /\
                        ReadTwoBytes BigEndian (bs ++ rest) = Ok (be_value bs)) /\
  (length bs = 3%nat -> ReadThreeBytes LittleEndian (bs ++ rest) = Ok (le_value bs) /\
                        ReadThreeBytes BigEndian (bs ++ rest) = Ok (be_value bs)) /\
  (length bs = 4%nat -> ReadFourBytes LittleEndian (bs ++ rest) = Ok (le_value bs) /\
                        ReadFourBytes BigEndian (bs ++ rest) = Ok (be_value bs)) /\
  (length bs = 8%nat -> ReadEightBytes LittleEndian (bs ++ rest) = Ok (le_value bs) /\
                        ReadEightBytes BigEndian (bs ++ rest) = Ok (be_value bs)).
Proof.
  intros F.
  repeat split; intros;
    do 9 (try (destruct bs as [|? bs]; [discriminate|])); try discriminate;
    destruct bs; try discriminate; cbn [app].
  - inversion F; subst. cbn. rewrite schar_mod by auto. f_equal; lia.
  - apply (read2 LittleEndian); auto.
  - apply (read2 BigEndian); auto.
  - apply (read3 LittleEndian); auto.
  - apply (read3 BigEndian); auto.
  - apply (read4 LittleEndian); auto.
  - apply (read4 BigEndian); auto.
  - apply (read8 LittleEndian); auto.
  - apply (read8 BigEndian); auto.
Qed.

(** Initial length: a 4-byte length other than 0xffffffff means 4-byte
    offsets; the escape 0xffffffff is followed by an 8-byte length and means
    8-byte offsets.  (The result is (length, bytes consumed, offset size).) *)
Theorem C24_initial_length (en : endian) (l4 l8 rest : list Z) :
  Forall is_byte l4 -> length l4 = 4%nat -> Forall is_byte l8 -> length l8 = 8%nat ->
  (en_value en l4 <> 2 ^ 32 - 1 ->
   ReadInitialLength en (l4 ++ rest) = Ok (en_value en l4, 4, 4)) /\
  (ReadInitialLength en ([255; 255; 255; 255] ++ l8 ++ rest) = Ok (en_value en l8, 12, 8)).
Proof.
  intros F4 L4 F8 L8.
  do 4 (destruct l4 as [|? l4]; [discriminate|]). destruct l4; [|discriminate].
  do 8 (destruct l8 as [|? l8]; [discriminate|]). destruct l8; [|discriminate].
  split.
  - intros N. unfold ReadInitialLength. cbn [app]. rewrite read4 by auto. cbn [obind].
    match goal with |- context [?a =? ?b] => assert (a =? b = false) as -> end.
    { apply Z.eqb_neq. exact N. }
    reflexivity.
  - unfold ReadInitialLength. cbn [app]. rewrite read4.
    + cbn [obind]. assert (E : en_value en [255; 255; 255; 255] = 4294967295) by (destruct en; reflexivity).
      rewrite E. cbn [Z.eqb Pos.eqb skipn]. unfold ReadSized. cbn [Z.eqb Pos.eqb].
      rewrite read8 by auto. reflexivity.
    + repeat constructor; unfold is_byte; lia.
Qed.

Example C24_nonvacuous :
  ReadFourBytes BigEndian [255; 0; 1; 2; 3] = Ok 4278190338 /\
  ReadEightBytes LittleEndian [0; 0; 0; 0; 0; 0; 0; 128] = Ok (2 ^ 63).
Proof. split; reflexivity. Qed.

Print Assumptions C23_unsigned_leb128.
Print Assumptions C23_unsigned_leb128_roundtrip.
Print Assumptions C23_signed_leb128.
Print Assumptions C23_signed_leb128_roundtrip.
Print Assumptions C23_overlong_encoding_refuted.
Print Assumptions C23_signed_nine_bytes_refuted.
Print Assumptions C24_fixed_width.
Print Assumptions C24_initial_length.
