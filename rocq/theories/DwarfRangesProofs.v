From Verif Require Import Base ByteModel ByteSpec ByteProofs DwarfRangesModel DwarfRangesSpec.

Lemma le_bytes_len n v : length (le_bytes n v) = n.
Proof. revert v; induction n; cbn; auto. Qed.

Lemma le_bytes_bytes n v : Forall is_byte (le_bytes n v).
Proof.
  revert v; induction n; cbn; constructor; auto. apply Z.mod_pos_bound; lia.
Qed.

Lemma le_bytes_value n v : 0 <= v < 256 ^ Z.of_nat n -> le_value (le_bytes n v) = v.
Proof.
  revert v; induction n as [|n IH]; intros v V; [cbn in *; lia|].
  cbn [le_bytes le_value]. rewrite Nat2Z.inj_succ, Z.pow_succ_r in V by lia.
  rewrite IH.
  - pose proof (Z.div_mod v 256 ltac:(lia)). lia.
  - split; [apply Z.div_pos; lia|apply Z.div_lt_upper_bound; lia].
Qed.

Lemma enc_addr_len en w v : 0 <= w -> zlen (enc_addr en w v) = w.
Proof.
  intros. unfold zlen, enc_addr. destruct en; rewrite ?rev_length, le_bytes_len; lia.
Qed.

Lemma ReadSized_bytes en w bs rest :
  w = 4 \/ w = 8 -> Forall is_byte bs -> zlen bs = w ->
  ReadSized en w (bs ++ rest) = Ok (en_value en bs).
Proof.
  intros W F L. unfold zlen in L. unfold ReadSized. destruct W as [->| ->].
  - assert (length bs = 4)%nat by lia.
    do 4 (destruct bs as [|? bs]; [discriminate|]). destruct bs; [|discriminate].
    cbn [Z.eqb Pos.eqb app]. apply read4; auto.
  - assert (length bs = 8)%nat by lia.
    do 8 (destruct bs as [|? bs]; [discriminate|]). destruct bs; [|discriminate].
    cbn [Z.eqb Pos.eqb app]. apply read8; auto.
Qed.

Lemma ReadSized_enc en w v rest :
  w = 4 \/ w = 8 -> addr_ok w v -> ReadSized en w (enc_addr en w v ++ rest) = Ok v.
Proof.
  intros W V.
  assert (P : 2 ^ (8 * w) = 256 ^ Z.of_nat (Z.to_nat w)) by (destruct W as [->| ->]; reflexivity).
  unfold addr_ok in V. rewrite P in V.
  rewrite ReadSized_bytes; auto.
  - f_equal. destruct en; cbn [en_value enc_addr].
    + unfold be_value. rewrite rev_involutive. apply le_bytes_value; auto.
    + apply le_bytes_value; auto.
  - unfold enc_addr. destruct en; [apply Forall_rev|]; apply le_bytes_bytes.
  - apply enc_addr_len. lia.
Qed.

Lemma ReadSized_total en w buf :
  w = 4 \/ w = 8 -> w <= zlen buf -> exists v, ReadSized en w buf = Ok v.
Proof.
  intros W L. unfold zlen in L. unfold ReadSized. destruct W as [->| ->].
  - do 4 (destruct buf as [|? buf]; [cbn in L; lia|]). cbn. eexists; reflexivity.
  - do 8 (destruct buf as [|? buf]; [cbn in L; lia|]).
    cbn [Z.eqb Pos.eqb ReadEightBytes]. eexists; reflexivity.
Qed.

Lemma at_pos_app p q pos : zlen p = pos -> at_pos (p ++ q) pos = q.
Proof.
  intros <-. unfold at_pos, zlen. rewrite Nat2Z.id.
  rewrite skipn_app, skipn_all, Nat.sub_diag. reflexivity.
Qed.

Lemma zlen_app {A} (p q : list A) : zlen (p ++ q) = zlen p + zlen q.
Proof. unfold zlen. rewrite app_length. lia. Qed.

Lemma at_pos_len buf pos : 0 <= pos <= zlen buf -> zlen (at_pos buf pos) = zlen buf - pos.
Proof. unfold zlen, at_pos. intros. rewrite skipn_length. lia. Qed.

Ltac wcase := match goal with H : ?w = 4 \/ ?w = 8 |- _ => destruct H as [->| ->] end.

Lemma range_loop_spec en w xs : (w = 4 \/ w = 8) -> forall fuel pre post base acc pos,
  Forall (rle4_ok w) xs -> zlen pre = pos -> (length xs < fuel)%nat ->
  range_loop fuel en w (pre ++ enc4_list en w xs ++ post) base pos acc
  = Ok (acc ++ denote4 base xs).
Proof.
  intros W. assert (W0 : 0 <= w) by lia.
  induction xs as [|x xs IH]; intros fuel pre post base acc pos F P L.
  - destruct fuel as [|fuel]; [lia|]. cbn [range_loop].
    unfold enc4_list. cbn [map concat app].
    rewrite !zlen_app, !enc_addr_len by lia.
    assert (pos + 2 * w <=? zlen pre + (w + w + zlen post) = true) as ->
      by (pose proof (zlen_nonneg post); lia).
    rewrite at_pos_app by auto. rewrite <- !app_assoc.
    rewrite ReadSized_enc; [|auto|unfold addr_ok; wcase; lia]. cbn [obind].
    rewrite (app_assoc pre). rewrite at_pos_app by (rewrite zlen_app, enc_addr_len; lia).
    rewrite ReadSized_enc; [|auto|unfold addr_ok; wcase; lia]. cbn [obind].
    assert ((0 =? (if w =? 4 then 4294967295 else 18446744073709551615)) = false) as ->
      by (wcase; reflexivity).
    cbn [Z.eqb andb denote4]. rewrite app_nil_r. reflexivity.
  - inversion F as [|? ? X F']; subst. destruct fuel as [|fuel]; [cbn in L; lia|].
    cbn [length] in L.
    cbn [range_loop].
    assert (LG : (if w =? 4 then 4294967295 else 18446744073709551615) = largest w)
      by (wcase; reflexivity).
    rewrite LG.
    assert (E : enc4_list en w (x :: xs) = enc4 en w x ++ enc4_list en w xs).
    { unfold enc4_list. cbn [map concat]. rewrite <- app_assoc. reflexivity. }
    rewrite E.
    assert (LL : zlen (enc4 en w x) = 2 * w).
    { destruct x; cbn [enc4]; rewrite zlen_app, !enc_addr_len; lia. }
    rewrite !zlen_app, LL.
    match goal with |- context [?a <=? ?b] => assert (a <=? b = true) as -> end.
    { pose proof (zlen_nonneg post). pose proof (zlen_nonneg (enc4_list en w xs)). lia. }
    rewrite at_pos_app by auto.
    assert (NEXT : forall base' acc', range_loop fuel en w
       (pre ++ (enc4 en w x ++ enc4_list en w xs) ++ post) base' (zlen pre + 2 * w) acc'
       = Ok (acc' ++ denote4 base' xs)).
    { intros. rewrite <- app_assoc. rewrite (app_assoc pre).
      apply IH; auto; try lia. rewrite zlen_app, LL. reflexivity. }
    destruct x as [b|s e]; cbn [enc4]; rewrite <- !app_assoc.
    + cbn in X. rewrite ReadSized_enc; [|auto|unfold addr_ok, largest; wcase; lia]. cbn [obind].
      rewrite (app_assoc pre). rewrite at_pos_app by (rewrite zlen_app, enc_addr_len; lia).
      rewrite ReadSized_enc by auto. cbn [obind]. rewrite Z.eqb_refl.
      rewrite <- app_assoc. specialize (NEXT b acc). cbn [enc4] in NEXT.
      rewrite <- !app_assoc in NEXT. rewrite NEXT. reflexivity.
    + cbn in X. destruct X as (X1 & X2 & X3 & X4).
      rewrite ReadSized_enc by auto. cbn [obind].
      rewrite (app_assoc pre). rewrite at_pos_app by (rewrite zlen_app, enc_addr_len; lia).
      rewrite ReadSized_enc by auto. cbn [obind].
      assert (s =? largest w = false) as -> by lia.
      assert ((s =? 0) && (e =? 0) = false) as -> by lia.
      rewrite <- app_assoc. specialize (NEXT base (acc ++ [(u64 (s + base), u64 (e + base))])).
      cbn [enc4] in NEXT. rewrite <- !app_assoc in NEXT. rewrite <- ?app_assoc. rewrite NEXT.
      cbn [denote4]. unfold u64, w64. change 18446744073709551616 with (2 ^ 64).
      rewrite (Z.add_comm s), (Z.add_comm e). reflexivity.
Qed.

Lemma range_loop_safe en w buf : (w = 4 \/ w = 8) -> forall fuel base pos acc,
  0 <= pos -> (Z.to_nat (zlen buf - pos) < fuel)%nat ->
  range_loop fuel en w buf base pos acc <> UB.
Proof.
  intros W. induction fuel as [|fuel IH]; intros base pos acc P L; [lia|].
  cbn [range_loop]. destruct (pos + 2 * w <=? zlen buf) eqn:E; [|discriminate].
  destruct (ReadSized_total en w (at_pos buf pos)) as [a Ha]; auto.
  { rewrite at_pos_len; lia. }
  destruct (ReadSized_total en w (at_pos buf (pos + w))) as [b Hb]; auto.
  { rewrite at_pos_len; lia. }
  rewrite Ha, Hb. cbn [obind].
  destruct (a =? _).
  - apply IH; lia.
  - destruct ((a =? 0) && (b =? 0)); [discriminate|]. apply IH; lia.
Qed.

(** * DWARF 5 *)
Lemma uleb_read b v rest : is_uleb b v -> ReadUnsignedLEB128 (b ++ rest) = Ok (v, zlen b).
Proof.
  intros (S & L & E & V). unfold ReadUnsignedLEB128.
  rewrite uleb_loop_spec; auto; try lia.
  rewrite Z.pow_0_r, Z.mul_1_r, !Z.add_0_l. rewrite Z.mod_small; [congruence|].
  pose proof (leb_bits_bound b S). lia.
Qed.

Lemma leb_at_app pre b v rest pos :
  is_uleb b v -> zlen pre = pos -> leb_at (pre ++ b ++ rest) pos = Ok (v, pos + zlen b).
Proof. intros U P. unfold leb_at. rewrite at_pos_app by auto. rewrite (uleb_read b v) by auto. reflexivity. Qed.

Lemma leb_checked_app pre b v rest pos :
  is_uleb b v -> zlen pre = pos -> leb_checked (pre ++ b ++ rest) pos = Ok (v, pos + zlen b).
Proof.
  intros U P. unfold leb_checked. rewrite (leb_at_app pre b v) by auto. cbn [obind].
  rewrite !zlen_app. pose proof (zlen_nonneg rest).
  assert (pos + zlen b <=? zlen pre + (zlen b + zlen rest) = true) as -> by lia. reflexivity.
Qed.

Lemma addr_checked_app en w pre v rest pos : (w = 4 \/ w = 8) ->
  addr_ok w v -> zlen pre = pos ->
  addr_checked en w w (pre ++ enc_addr en w v ++ rest) pos = Ok (v, pos + w).
Proof.
  intros W U P. unfold addr_checked. rewrite at_pos_app by auto.
  rewrite ReadSized_enc by auto. cbn [obind]. rewrite !zlen_app, enc_addr_len by lia.
  pose proof (zlen_nonneg rest).
  assert (pos + w <=? zlen pre + (w + zlen rest) = true) as -> by lia. reflexivity.
Qed.

Lemma addrx_ok en w addrs ab tab i a : (w = 4 \/ w = 8) -> zlen addrs < 2 ^ 64 -> 0 <= ab ->
  addr_table en w addrs ab tab -> tab i = Some a -> addrx en w addrs ab i = Ok a.
Proof.
  intros W SZ AB T H. destruct (T _ _ H) as (pre & post & -> & P & I & V).
  unfold addrx. rewrite !zlen_app, enc_addr_len in * by lia.
  pose proof (zlen_nonneg post). pose proof (zlen_nonneg pre).
  assert (IW : 0 <= i * w) by lia.
  assert (U : u64 (i * w) = i * w).
  { apply Z.mod_small. unfold w64. change 18446744073709551616 with (2 ^ 64). lia. }
  rewrite U. assert (ab + i * w <=? zlen pre + (w + zlen post) = true) as -> by lia.
  rewrite at_pos_app by lia. apply ReadSized_enc; auto.
Qed.

Lemma encodes5_pos en w x b : 0 < w -> encodes5 en w x b -> 1 <= zlen b.
Proof. intros W E. inversion E; subst; unfold zlen; cbn [length]; lia. Qed.

Lemma nonempty_eqb s e o :
  (if s =? e then [] else [(u64 (s + o), u64 (e + o))]) = nonempty (o + s) (o + e).
Proof.
  unfold nonempty, u64, w64. change 18446744073709551616 with (2 ^ 64).
  assert ((o + s =? o + e) = (s =? e)) as -> by lia.
  destruct (s =? e); auto. rewrite (Z.add_comm s), (Z.add_comm e). reflexivity.
Qed.

Lemma rnglist_step_ok en w addrs ab tab : (w = 4 \/ w = 8) ->
  zlen addrs < 2 ^ 64 -> 0 <= ab -> addr_table en w addrs ab tab ->
  forall x b pre post base acc pos xs r,
  encodes5 en w x b -> zlen pre = pos ->
  denote5 true tab base (x :: xs) = Some r ->
  exists base' rs r', denote5 true tab base' xs = Some r' /\ r = rs ++ r' /\
    rnglist_step en w w (pre ++ b ++ post) addrs ab base pos acc
    = Ok (Some (base', pos + zlen b, acc ++ rs)).
Proof.
  intros W SZ AB T x b pre post base acc pos xs r E P D.
  set (buf := pre ++ b ++ post).
  assert (KIND : forall k b', b = k :: b' -> 0 <= k < 8 ->
     (pos <? zlen buf) = true /\ ReadOneByte (at_pos buf pos) = Ok k /\
     buf = (pre ++ [k]) ++ b' ++ post /\ zlen (pre ++ [k]) = pos + 1).
  { intros k b' -> K. subst buf. rewrite at_pos_app by auto. rewrite !zlen_app.
    pose proof (zlen_nonneg post). pose proof (zlen_nonneg b').
    assert (ZC : zlen (k :: b') = 1 + zlen b') by (unfold zlen; cbn [length]; lia).
    split; [lia|]. split.
    - cbn. rewrite schar_mod by (unfold is_byte; lia). reflexivity.
    - split; [rewrite <- app_assoc; reflexivity|].
      unfold zlen; cbn [length]. unfold zlen in P. lia. }
  assert (ZC : forall k (b' : list Z), zlen (k :: b') = 1 + zlen b') by (intros; unfold zlen; cbn [length]; lia).
  assert (ACC : forall (c : bool) (p : Z * Z), (if c then acc else acc ++ [p]) = acc ++ (if c then [] else [p])).
  { intros [] p; rewrite ?app_nil_r; auto. }
  inversion E; subst x b; clear E;
    match goal with _ : ?bb = ?k :: ?b' |- _ => idtac | |- _ => idtac end.
  - (* base_addressx *)
    destruct (KIND _ _ eq_refl ltac:(lia)) as (K1 & K2 & K3 & K4).
    unfold rnglist_step. rewrite K1, K2. cbn [obind Z.eqb Pos.eqb]. cbn zeta.
    rewrite K3. rewrite (leb_at_app (pre ++ [1]) b0 i) by auto. cbn [obind].
    cbn [denote5] in D. destruct (tab i) as [a|] eqn:TI; [|discriminate].
    rewrite (addrx_ok en w addrs ab tab i a) by auto. cbn [obind].
    exists a, [], r. split; auto. split; auto. rewrite ZC, app_nil_r, Z.add_assoc. reflexivity.
  - (* startx_endx *)
    destruct (KIND _ _ eq_refl ltac:(lia)) as (K1 & K2 & K3 & K4).
    unfold rnglist_step. rewrite K1, K2. cbn [obind Z.eqb Pos.eqb]. cbn zeta.
    rewrite K3. rewrite <- (app_assoc b0).
    rewrite (leb_checked_app (pre ++ [2]) b0 i) by auto. cbn [obind].
    cbn [denote5] in D. destruct (tab i) as [s|] eqn:TI; [|discriminate].
    destruct (tab j) as [e|] eqn:TJ; [|discriminate].
    destruct (denote5 true tab base xs) as [r'|] eqn:D'; [|discriminate]. inversion D; subst r; clear D.
    rewrite (addrx_ok en w addrs ab tab i s) by auto. cbn [obind].
    rewrite (app_assoc (pre ++ [2])).
    rewrite (leb_checked_app ((pre ++ [2]) ++ b0) c j) by (auto; rewrite zlen_app; lia). cbn [obind].
    rewrite (addrx_ok en w addrs ab tab j e) by auto. cbn [obind].
    exists base, (nonempty (base + s) (base + e)), r'. split; auto. split; auto.
    rewrite ZC, zlen_app, ACC, nonempty_eqb. do 4 f_equal; lia.
  - (* startx_length *)
    destruct (KIND _ _ eq_refl ltac:(lia)) as (K1 & K2 & K3 & K4).
    unfold rnglist_step. rewrite K1, K2. cbn [obind Z.eqb Pos.eqb]. cbn zeta.
    rewrite K3. rewrite <- (app_assoc b0).
    rewrite (leb_checked_app (pre ++ [3]) b0 i) by auto. cbn [obind].
    cbn [denote5] in D. destruct (tab i) as [s|] eqn:TI; [|discriminate].
    destruct (denote5 true tab base xs) as [r'|] eqn:D'; [|discriminate]. inversion D; subst r; clear D.
    rewrite (addrx_ok en w addrs ab tab i s) by auto. cbn [obind].
    rewrite (app_assoc (pre ++ [3])).
    rewrite (leb_checked_app ((pre ++ [3]) ++ b0) c l) by (auto; rewrite zlen_app; lia). cbn [obind].
    exists base, (nonempty (base + s) (base + s + l)), r'. split; auto. split; auto.
    rewrite ZC, zlen_app, ACC. unfold nonempty, u64, w64. change 18446744073709551616 with (2 ^ 64).
    assert ((base + s =? base + s + l) = (l =? 0)) as -> by lia.
    rewrite (Z.add_comm s base). do 4 f_equal; lia.
  - (* offset_pair *)
    destruct (KIND _ _ eq_refl ltac:(lia)) as (K1 & K2 & K3 & K4).
    unfold rnglist_step. rewrite K1, K2. cbn [obind Z.eqb Pos.eqb]. cbn zeta.
    rewrite K3. rewrite <- (app_assoc b0).
    rewrite (leb_checked_app (pre ++ [4]) b0 s) by auto. cbn [obind].
    cbn [denote5] in D.
    destruct (denote5 true tab base xs) as [r'|] eqn:D'; [|discriminate]. inversion D; subst r; clear D.
    rewrite (app_assoc (pre ++ [4])).
    rewrite (leb_checked_app ((pre ++ [4]) ++ b0) c e) by (auto; rewrite zlen_app; lia). cbn [obind].
    exists base, (nonempty (base + s) (base + e)), r'. split; auto. split; auto.
    rewrite ZC, zlen_app, ACC, nonempty_eqb. do 4 f_equal; lia.
  - (* base_address *)
    destruct (KIND _ _ eq_refl ltac:(lia)) as (K1 & K2 & K3 & K4).
    unfold rnglist_step. rewrite K1, K2. cbn [obind Z.eqb Pos.eqb]. cbn zeta.
    rewrite K3. rewrite !zlen_app, enc_addr_len by lia. pose proof (zlen_nonneg post).
    change (zlen [5]) with 1.
    assert (pos + 1 + w <=? zlen pre + 1 + (w + zlen post) = true) as -> by lia.
    rewrite at_pos_app by auto. rewrite ReadSized_enc by auto. cbn [obind].
    cbn [denote5] in D.
    exists a, [], r. split; auto. split; auto. rewrite ZC, app_nil_r, enc_addr_len by lia.
    do 4 f_equal; lia.
  - (* start_end *)
    destruct (KIND _ _ eq_refl ltac:(lia)) as (K1 & K2 & K3 & K4).
    unfold rnglist_step. rewrite K1, K2. cbn [obind Z.eqb Pos.eqb]. cbn zeta.
    rewrite K3. rewrite <- (app_assoc (enc_addr en w s)).
    rewrite (addr_checked_app en w (pre ++ [6])) by auto. cbn [obind].
    cbn [denote5] in D.
    destruct (denote5 true tab base xs) as [r'|] eqn:D'; [|discriminate]. inversion D; subst r; clear D.
    rewrite (app_assoc (pre ++ [6])).
    rewrite (addr_checked_app en w ((pre ++ [6]) ++ enc_addr en w s))
      by (auto; rewrite zlen_app, enc_addr_len; lia). cbn [obind].
    exists base, (nonempty s e), r'. split; auto. split; auto.
    rewrite ZC, zlen_app, !enc_addr_len by lia. unfold nonempty.
    assert (M : forall v, addr_ok w v -> v mod 2 ^ 64 = v).
    { intros v V. apply Z.mod_small. unfold addr_ok in V. wcase; lia. }
    rewrite !M by auto. rewrite ACC. do 4 f_equal; lia.
  - (* start_length *)
    destruct (KIND _ _ eq_refl ltac:(lia)) as (K1 & K2 & K3 & K4).
    unfold rnglist_step. rewrite K1, K2. cbn [obind Z.eqb Pos.eqb]. cbn zeta.
    rewrite K3. rewrite <- (app_assoc (enc_addr en w s)).
    rewrite (addr_checked_app en w (pre ++ [7])) by auto. cbn [obind].
    cbn [denote5] in D.
    destruct (denote5 true tab base xs) as [r'|] eqn:D'; [|discriminate]. inversion D; subst r; clear D.
    rewrite (app_assoc (pre ++ [7])).
    rewrite (leb_checked_app ((pre ++ [7]) ++ enc_addr en w s) c l)
      by (auto; rewrite zlen_app, enc_addr_len; lia). cbn [obind].
    exists base, (nonempty (base + s) (base + s + l)), r'. split; auto. split; auto.
    rewrite ZC, zlen_app, !enc_addr_len, ACC by lia. unfold nonempty, u64, w64.
    change 18446744073709551616 with (2 ^ 64).
    assert ((base + s =? base + s + l) = (l =? 0)) as -> by lia. do 4 f_equal; lia.
Qed.

Lemma rnglist_loop_ok en w addrs ab tab : (w = 4 \/ w = 8) ->
  zlen addrs < 2 ^ 64 -> 0 <= ab -> addr_table en w addrs ab tab ->
  forall xs bs, encodes5_list en w xs bs -> forall fuel pre post base acc pos r,
  zlen pre = pos -> (length xs < fuel)%nat ->
  denote5 true tab base xs = Some r ->
  rnglist_loop en w w (pre ++ bs ++ post) addrs ab fuel base pos acc = Ok (acc ++ r).
Proof.
  intros W SZ AB T xs bs E. induction E as [|x xs b bs E1 E IH]; intros fuel pre post base acc pos r P L D.
  - destruct fuel as [|fuel]; [lia|]. cbn [rnglist_loop].
    unfold rnglist_step. rewrite at_pos_app by auto. rewrite !zlen_app. change (zlen [0]) with 1.
    pose proof (zlen_nonneg post).
    assert (pos <? zlen pre + (1 + zlen post) = true) as -> by lia. cbn.
    cbn in D. inversion D; subst. rewrite app_nil_r. reflexivity.
  - destruct fuel as [|fuel]; [cbn in L; lia|]. cbn [rnglist_loop].
    rewrite <- app_assoc.
    destruct (rnglist_step_ok en w addrs ab tab W SZ AB T x b pre (bs ++ post) base acc pos xs r E1 P D)
      as (base' & rs & r' & D' & -> & S). rewrite S. cbn [obind].
    rewrite app_assoc. rewrite (IH fuel (pre ++ b) post base' (acc ++ rs) (pos + zlen b) r');
      auto; try (cbn in L; lia).
    + rewrite <- app_assoc. reflexivity.
    + rewrite zlen_app. lia.
Qed.

Lemma enc5_list_len en w xs bs : 0 < w -> encodes5_list en w xs bs -> (length xs < length bs)%nat.
Proof.
  intros W. induction 1 as [|x xs b bs E1 E IH]; cbn; [lia|].
  apply encodes5_pos in E1; auto. rewrite app_length. unfold zlen in E1. lia.
Qed.

Lemma denote5_reloc tab xs : forall base, absolute_only_at_zero tab base xs ->
  denote5 true tab base xs = denote5 false tab base xs.
Proof.
  induction xs as [|x xs IH]; intros base A; auto.
  destruct x; cbn in A |- *; try (rewrite IH by tauto); try reflexivity.
  - destruct (tab i) eqn:E; auto.
  - destruct A as [-> A]. reflexivity.
  - destruct A as [-> A]. reflexivity.
  - destruct A as [-> A]. reflexivity.
Qed.
