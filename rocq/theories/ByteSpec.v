(** Specification vocabulary for C23 and C24: positional values of byte
    sequences and the DWARF LEB128 encodings, independent of the reader. *)
From Verif Require Import Base.

(** Value of bytes, least significant first. *)
Fixpoint le_value (bs : list Z) : Z :=
  match bs with
  | [] => 0
  | b :: bs' => b + 256 * le_value bs'
  end.
(** Value of bytes, most significant first. *)
Definition be_value (bs : list Z) : Z := le_value (rev bs).

(** A LEB128 byte sequence: every byte but the last has its top bit set. *)
Fixpoint leb_shape (bs : list Z) : Prop :=
  match bs with
  | [] => False
  | [b] => 0 <= b < 128
  | b :: bs' => 128 <= b < 256 /\ leb_shape bs'
  end.

(** Its 7-bit groups, least significant first. *)
Fixpoint leb_bits (bs : list Z) : Z :=
  match bs with
  | [] => 0
  | b :: bs' => b mod 128 + 128 * leb_bits bs'
  end.

(** The signed value: the groups as a two's complement number of
    7 * length bits. *)
Definition leb_signed (bs : list Z) : Z :=
  let n := 7 * zlen bs in
  if leb_bits bs <? 2 ^ (n - 1) then leb_bits bs else leb_bits bs - 2 ^ n.

(** The DWARF (appendix C) encoders, with k the number of groups left. *)
Fixpoint encode_uleb (k : nat) (v : Z) : list Z :=
  match k with
  | O => [v mod 128]
  | S k' => if v <? 128 then [v] else (v mod 128 + 128) :: encode_uleb k' (v / 128)
  end.
Fixpoint encode_sleb (k : nat) (v : Z) : list Z :=
  match k with
  | O => [v mod 128]
  | S k' => if (-64 <=? v) && (v <? 64) then [v mod 128]
            else (v mod 128 + 128) :: encode_sleb k' (v / 128)
  end.
