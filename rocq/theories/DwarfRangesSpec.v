(** What a DWARF range list denotes (DWARF 4 section 2.17.3, DWARF 5 sections
    2.17.3 and 7.25), independent of the reader. *)
From Verif Require Import Base ByteModel ByteSpec.

(** Target addresses: [n] bytes in the given byte order. *)
Fixpoint le_bytes (n : nat) (v : Z) : list Z :=
  match n with
  | O => []
  | S n' => v mod 256 :: le_bytes n' (v / 256)
  end.
Definition enc_addr (en : endian) (width : Z) (v : Z) : list Z :=
  match en with
  | LittleEndian => le_bytes (Z.to_nat width) v
  | BigEndian => rev (le_bytes (Z.to_nat width) v)
  end.
Definition addr_ok (width v : Z) : Prop := 0 <= v < 2 ^ (8 * width).

(** ** DWARF <= 4: .debug_ranges *)
Inductive rle4 := R4Base (b : Z) | R4Pair (s e : Z).
Definition largest (width : Z) : Z := 2 ^ (8 * width) - 1.
Definition rle4_ok (width : Z) (x : rle4) : Prop :=
  match x with
  | R4Base b => addr_ok width b
  | R4Pair s e => addr_ok width s /\ addr_ok width e /\ s <> largest width /\ ~ (s = 0 /\ e = 0)
  end.
Definition enc4 (en : endian) (width : Z) (x : rle4) : list Z :=
  match x with
  | R4Base b => enc_addr en width (largest width) ++ enc_addr en width b
  | R4Pair s e => enc_addr en width s ++ enc_addr en width e
  end.
Definition enc4_list (en : endian) (width : Z) (xs : list rle4) : list Z :=
  concat (map (enc4 en width) xs) ++ enc_addr en width 0 ++ enc_addr en width 0.

(** the ranges: pairs are relative to the base address selected last *)
Fixpoint denote4 (base : Z) (xs : list rle4) : list (Z * Z) :=
  match xs with
  | [] => []
  | R4Base b :: xs' => denote4 b xs'
  | R4Pair s e :: xs' => ((base + s) mod 2 ^ 64, (base + e) mod 2 ^ 64) :: denote4 base xs'
  end.

(** ** DWARF 5: .debug_rnglists *)
Inductive rle5 :=
| BaseAddressX (i : Z) | StartXEndX (i j : Z) | StartXLength (i len : Z)
| OffsetPair (s e : Z) | BaseAddress (a : Z) | StartEnd (s e : Z) | StartLength (s len : Z).

(** [bs] is a LEB128 encoding (possibly padded, at most ten bytes) of v *)
Definition is_uleb (bs : list Z) (v : Z) : Prop :=
  leb_shape bs /\ zlen bs <= 10 /\ leb_bits bs = v /\ v < 2 ^ 64.

(** The encoding of one entry: kind byte and operands. *)
Inductive encodes5 (en : endian) (width : Z) : rle5 -> list Z -> Prop :=
| E_bax i b : is_uleb b i -> encodes5 en width (BaseAddressX i) (1 :: b)
| E_sxex i j b c : is_uleb b i -> is_uleb c j -> encodes5 en width (StartXEndX i j) (2 :: b ++ c)
| E_sxl i l b c : is_uleb b i -> is_uleb c l -> encodes5 en width (StartXLength i l) (3 :: b ++ c)
| E_op s e b c : is_uleb b s -> is_uleb c e -> encodes5 en width (OffsetPair s e) (4 :: b ++ c)
| E_ba a : addr_ok width a -> encodes5 en width (BaseAddress a) (5 :: enc_addr en width a)
| E_se s e : addr_ok width s -> addr_ok width e ->
    encodes5 en width (StartEnd s e) (6 :: enc_addr en width s ++ enc_addr en width e)
| E_sl s l c : addr_ok width s -> is_uleb c l ->
    encodes5 en width (StartLength s l) (7 :: enc_addr en width s ++ c).

Inductive encodes5_list (en : endian) (width : Z) : list rle5 -> list Z -> Prop :=
| EL_end : encodes5_list en width [] [0]
| EL_cons x xs b bs : encodes5 en width x b -> encodes5_list en width xs bs ->
    encodes5_list en width (x :: xs) (b ++ bs).

(** [tab i]: the i-th address of the unit's contribution to .debug_addr, if
    there is one *)
Definition addr_table (en : endian) (width : Z) (addrs : list Z) (addr_base : Z)
  (tab : Z -> option Z) : Prop :=
  forall i a, tab i = Some a ->
    exists pre post, addrs = pre ++ enc_addr en width a ++ post /\
      zlen pre = addr_base + i * width /\ 0 <= i /\ addr_ok width a.

Definition nonempty (s e : Z) : list (Z * Z) :=
  if s =? e then [] else [(s mod 2 ^ 64, e mod 2 ^ 64)].

(** The DWARF 5 meaning.  Empty ranges denote no addresses and are left out.
    [None] if an address index is not in the table.  [reloc] is false for
    DWARF: the bounds of the start* entries are absolute addresses. *)
Fixpoint denote5 (reloc : bool) (tab : Z -> option Z) (base : Z) (xs : list rle5)
  : option (list (Z * Z)) :=
  let bind {A} (o : option A) (f : A -> option (list (Z * Z))) :=
    match o with Some a => f a | None => None end in
  let off := if reloc then base else 0 in
  match xs with
  | [] => Some []
  | BaseAddressX i :: xs' => bind (tab i) (fun a => denote5 reloc tab a xs')
  | BaseAddress a :: xs' => denote5 reloc tab a xs'
  | OffsetPair s e :: xs' =>
      bind (denote5 reloc tab base xs') (fun r => Some (nonempty (base + s) (base + e) ++ r))
  | StartXEndX i j :: xs' =>
      bind (tab i) (fun s => bind (tab j) (fun e =>
      bind (denote5 reloc tab base xs') (fun r => Some (nonempty (off + s) (off + e) ++ r))))
  | StartXLength i l :: xs' =>
      bind (tab i) (fun s =>
      bind (denote5 reloc tab base xs') (fun r => Some (nonempty (off + s) (off + s + l) ++ r)))
  | StartEnd s e :: xs' =>
      bind (denote5 reloc tab base xs') (fun r => Some (nonempty s e ++ r))
  | StartLength s l :: xs' =>
      bind (denote5 reloc tab base xs') (fun r => Some (nonempty (off + s) (off + s + l) ++ r))
  end.

(** No start-by-index / start-length entry occurs under a non-zero base. *)
Fixpoint absolute_only_at_zero (tab : Z -> option Z) (base : Z) (xs : list rle5) : Prop :=
  match xs with
  | [] => True
  | BaseAddressX i :: xs' => forall a, tab i = Some a -> absolute_only_at_zero tab a xs'
  | BaseAddress a :: xs' => absolute_only_at_zero tab a xs'
  | (StartXEndX _ _ | StartXLength _ _ | StartLength _ _) :: xs' =>
      base = 0 /\ absolute_only_at_zero tab base xs'
  | _ :: xs' => absolute_only_at_zero tab base xs'
  end.
