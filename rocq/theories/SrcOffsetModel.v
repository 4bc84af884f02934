(** Model of the packing of source locations: source_info.h:72-91 and its use by
    the AutoFDO reader, profile_reader.cc:72-75, 96-101. *)
From Verif Require Import Base.

(** source_info.h:72-76 GenerateOffset (Line, Discriminator are uint32). *)
Definition GenerateOffset (line disc : Z) : Z :=
  Z.lor (u64 (Z.shiftl line 32)) disc.

(** source_info.h:79-81 GenerateCompressedOffset. *)
Definition GenerateCompressedOffset (offset : Z) : Z :=
  u32 (Z.lor (Z.shiftr offset 16) (Z.land offset 65535)).

(** source_info.h:84-86 GetLineNumberFromOffset. *)
Definition GetLineNumberFromOffset (offset : Z) : Z :=
  Z.land (Z.shiftr offset 32) 65535.

(** source_info.h:89-91 GetDiscriminatorFromOffset. *)
Definition GetDiscriminatorFromOffset (offset : Z) : Z :=
  Z.land offset 4294967295.

(** profile_reader.cc:72-75: how the reader splits the offset word; the
    SourceInfo it builds has start_line 0, so its Offset (source_info.h:38-54,
    without the discriminator-encoding flag) is GenerateOffset of the two. *)
Definition ReaderLine (word : Z) : Z := Z.shiftr word 16.
Definition ReaderDisc (word : Z) : Z := Z.land word 65535.
Definition ReaderOffset (word : Z) : Z := GenerateOffset (ReaderLine word) (ReaderDisc word).
