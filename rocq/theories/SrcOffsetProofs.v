From Verif Require Import Base SrcOffsetModel.
Ltac Zify.zify_post_hook ::= Z.div_mod_to_equations.

Definition is_u32 (x : Z) := 0 <= x < 2 ^ 32.

Lemma land_ffff x : Z.land x 65535 = x mod 65536.
Proof. change 65535 with (Z.ones 16). rewrite Z.land_ones by lia. reflexivity. Qed.
Lemma land_ffffffff x : Z.land x 4294967295 = x mod 4294967296.
Proof. change 4294967295 with (Z.ones 32). rewrite Z.land_ones by lia. reflexivity. Qed.

Lemma GenerateOffset_eq l d : is_u32 l -> is_u32 d -> GenerateOffset l d = l * 4294967296 + d.
Proof.
  unfold is_u32; intros Hl Hd. unfold GenerateOffset.
  assert (E : u64 (Z.shiftl l 32) = Z.shiftl l 32).
  { rewrite Z.shiftl_mul_pow2 by lia. unfold u64, w64. apply Z.mod_small. lia. }
  rewrite E, Z.lor_comm, lor_add_disjoint by lia. lia.
Qed.

Lemma mod_lor a b k : 0 <= k -> Z.lor a b mod 2 ^ k = Z.lor (a mod 2 ^ k) (b mod 2 ^ k).
Proof.
  intros Hk. rewrite <- !Z.land_ones by lia. apply Z.land_lor_distr_l.
Qed.

Lemma lor_bound a b k : 0 <= k -> 0 <= a < 2 ^ k -> 0 <= b < 2 ^ k -> 0 <= Z.lor a b < 2 ^ k.
Proof.
  intros Hk Ha Hb. split; [apply Z.lor_nonneg; lia|].
  assert (E : Z.lor a b = Z.lor a b mod 2 ^ k).
  { rewrite mod_lor, !Z.mod_small by lia. reflexivity. }
  rewrite E. apply Z.mod_pos_bound. lia.
Qed.

(** The word that is written: line in the upper half, and in the lower half the
    OR of the two halves of the discriminator. *)
Lemma compressed_eq l d : is_u32 l -> is_u32 d ->
  GenerateCompressedOffset (GenerateOffset l d)
  = (l mod 65536) * 65536 + Z.lor (d / 65536) (d mod 65536).
Proof.
  intros Hl Hd. rewrite GenerateOffset_eq by assumption. unfold is_u32 in *.
  unfold GenerateCompressedOffset. rewrite land_ffff.
  rewrite Z.shiftr_div_pow2 by lia. change (2 ^ 16) with 65536.
  assert (E1 : (l * 4294967296 + d) / 65536 = l * 65536 + d / 65536) by lia.
  assert (E2 : (l * 4294967296 + d) mod 65536 = d mod 65536) by lia.
  rewrite E1, E2.
  assert (E3 : l * 65536 + d / 65536 = Z.lor (d / 65536) (Z.shiftl l 16)).
  { rewrite lor_add_disjoint by lia. lia. }
  rewrite E3. rewrite Z.lor_comm, Z.lor_assoc.
  rewrite (Z.lor_comm (d mod 65536)).
  pose proof (lor_bound (d / 65536) (d mod 65536) 16 ltac:(lia) ltac:(lia) ltac:(lia)) as Hb.
  rewrite lor_add_disjoint by lia.
  change (2 ^ 16) with 65536 in *. unfold u32, w32.
  set (x := Z.lor (d / 65536) (d mod 65536)) in *. lia.
Qed.

Lemma reader_eq l d : is_u32 l -> is_u32 d ->
  ReaderLine (GenerateCompressedOffset (GenerateOffset l d)) = l mod 65536 /\
  ReaderDisc (GenerateCompressedOffset (GenerateOffset l d)) = Z.lor (d / 65536) (d mod 65536).
Proof.
  intros Hl Hd. unfold ReaderLine, ReaderDisc. rewrite compressed_eq by assumption.
  unfold is_u32 in *.
  pose proof (lor_bound (d / 65536) (d mod 65536) 16 ltac:(lia) ltac:(lia) ltac:(lia)) as Hb.
  rewrite land_ffff, Z.shiftr_div_pow2 by lia. change (2 ^ 16) with 65536 in *.
  set (x := Z.lor (d / 65536) (d mod 65536)) in *. lia.
Qed.

Lemma round_trip_iff l d : is_u32 l -> is_u32 d ->
  (ReaderOffset (GenerateCompressedOffset (GenerateOffset l d)) = GenerateOffset l d
   <-> l < 65536 /\ d < 65536).
Proof.
  intros Hl Hd. destruct (reader_eq l d Hl Hd) as [E1 E2].
  unfold ReaderOffset. rewrite E1, E2. unfold is_u32 in *.
  pose proof (lor_bound (d / 65536) (d mod 65536) 16 ltac:(lia) ltac:(lia) ltac:(lia)) as Hb.
  change (2 ^ 16) with 65536 in *.
  rewrite !GenerateOffset_eq by (unfold is_u32; lia).
  split.
  - set (x := Z.lor (d / 65536) (d mod 65536)) in *. lia.
  - intros [H1 H2]. assert (E : d / 65536 = 0) by lia. rewrite E, Z.lor_0_l. lia.
Qed.
