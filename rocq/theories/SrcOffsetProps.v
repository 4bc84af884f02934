(** C03: the AutoFDO offset word. *)
From Verif Require Import Base SrcOffsetModel SrcOffsetProofs.
Ltac Zify.zify_post_hook ::= Z.div_mod_to_equations.

(** Exact domain on which a location survives writing and reading back. *)
Theorem C03_offset_round_trip_iff : forall line disc,
  0 <= line < 2 ^ 32 -> 0 <= disc < 2 ^ 32 ->
  (ReaderOffset (GenerateCompressedOffset (GenerateOffset line disc)) = GenerateOffset line disc
   <-> line < 65536 /\ disc < 65536).
Proof. exact round_trip_iff. Qed.
Print Assumptions C03_offset_round_trip_iff.

(** On that domain the reader recovers line and discriminator themselves. *)
Theorem C03_offset_fields_recovered : forall line disc,
  0 <= line < 65536 -> 0 <= disc < 65536 ->
  ReaderLine (GenerateCompressedOffset (GenerateOffset line disc)) = line /\
  ReaderDisc (GenerateCompressedOffset (GenerateOffset line disc)) = disc.
Proof.
  intros l d Hl Hd.
  destruct (reader_eq l d ltac:(unfold is_u32; lia) ltac:(unfold is_u32; lia)) as [E1 E2].
  rewrite E1, E2. assert (E : d / 65536 = 0) by lia. rewrite E, Z.lor_0_l. lia.
Qed.
Print Assumptions C03_offset_fields_recovered.

(** ... and therefore distinct locations get distinct words. *)
Theorem C03_offset_injective : forall l1 d1 l2 d2,
  0 <= l1 < 65536 -> 0 <= d1 < 65536 -> 0 <= l2 < 65536 -> 0 <= d2 < 65536 ->
  GenerateCompressedOffset (GenerateOffset l1 d1) = GenerateCompressedOffset (GenerateOffset l2 d2) ->
  l1 = l2 /\ d1 = d2.
Proof.
  intros l1 d1 l2 d2 H1 H2 H3 H4 E.
  destruct (C03_offset_fields_recovered l1 d1 H1 H2) as [A1 B1].
  destruct (C03_offset_fields_recovered l2 d2 H3 H4) as [A2 B2].
  rewrite E in A1, B1. split; congruence.
Qed.
Print Assumptions C03_offset_injective.

Example C03_nonvacuous :
  GenerateCompressedOffset (GenerateOffset 12 34567) = 12 * 65536 + 34567 /\ 12 < 65536.
Proof. vm_compute; auto. Qed.

(** Outside the domain two distinct locations of one function collide:
    discriminators 1 and 0x10000 at the same line. *)
Theorem C03_offset_injective_all_refuted :
  exists l1 d1 l2 d2, 0 <= d1 < 2 ^ 32 /\ 0 <= d2 < 2 ^ 32 /\ (l1, d1) <> (l2, d2) /\
    GenerateCompressedOffset (GenerateOffset l1 d1) = GenerateCompressedOffset (GenerateOffset l2 d2).
Proof.
  exists 7, 1, 7, 65536. repeat split; try lia; try (vm_compute; reflexivity). intros E; discriminate E.
Qed.
Print Assumptions C03_offset_injective_all_refuted.

(** The accessor the other writers use truncates the line to 16 bits as well,
    but keeps the full discriminator. *)
Theorem C03_offset_accessors : forall line disc,
  0 <= line < 2 ^ 32 -> 0 <= disc < 2 ^ 32 ->
  GetLineNumberFromOffset (GenerateOffset line disc) = line mod 65536 /\
  GetDiscriminatorFromOffset (GenerateOffset line disc) = disc.
Proof.
  intros l d Hl Hd. unfold GetLineNumberFromOffset, GetDiscriminatorFromOffset.
  rewrite land_ffff, land_ffffffff, GenerateOffset_eq by (unfold is_u32; lia).
  rewrite Z.shiftr_div_pow2 by lia. change (2 ^ 32) with 4294967296 in *. lia.
Qed.
Print Assumptions C03_offset_accessors.
