(** Model of util/symbolize/bytereader-inl.h and bytereader.cc (ByteReader).

    A [const char*] is modelled by the list of the bytes (0..255) from that
    address to the end of the readable memory; reading beyond it is [UB].
    [char] is taken as signed (x86-64), so a byte b >= 128 reads as b - 256. *)
From Verif Require Import Base.

Definition schar (b : Z) : Z := if b <? 128 then b else b - 256.

(** static_cast<uintN>(buffer[i]) & 0xff (bytereader-inl.h 31-76); the cast of
    a negative char wraps modulo 2^N. *)
Definition mask (w b : Z) : Z := Z.land (schar b mod w) 255.

Inductive endian := BigEndian | LittleEndian.

(** bytereader-inl.h 26-28 ReadOneByte (returns uint8) *)
Definition ReadOneByte (buf : list Z) : outcome Z :=
  match buf with
  | b :: _ => Ok (schar b mod 256)
  | _ => UB
  end.

(** bytereader-inl.h 30-38 *)
Definition ReadTwoBytes (en : endian) (buf : list Z) : outcome Z :=
  match buf with
  | b0 :: b1 :: _ =>
      let b0 := mask 65536 b0 in
      let b1 := mask 65536 b1 in
      Ok (u16 match en with
          | LittleEndian => Z.lor b0 (Z.shiftl b1 8)
          | BigEndian => Z.lor b1 (Z.shiftl b0 8)
          end)
  | _ => UB
  end.

(** bytereader-inl.h 40-49; shifts of uint32 wrap modulo 2^32 *)
Definition sh32 (b n : Z) : Z := u32 (Z.shiftl b n).
Definition ReadThreeBytes (en : endian) (buf : list Z) : outcome Z :=
  match buf with
  | b0 :: b1 :: b2 :: _ =>
      let b0 := mask w32 b0 in
      let b1 := mask w32 b1 in
      let b2 := mask w32 b2 in
      Ok match en with
         | LittleEndian => Z.lor (Z.lor b0 (sh32 b1 8)) (sh32 b2 16)
         | BigEndian => Z.lor (Z.lor b2 (sh32 b1 8)) (sh32 b0 16)
         end
  | _ => UB
  end.

(** bytereader-inl.h 51-61 *)
Definition ReadFourBytes (en : endian) (buf : list Z) : outcome Z :=
  match buf with
  | b0 :: b1 :: b2 :: b3 :: _ =>
      let b0 := mask w32 b0 in
      let b1 := mask w32 b1 in
      let b2 := mask w32 b2 in
      let b3 := mask w32 b3 in
      Ok match en with
         | LittleEndian => Z.lor (Z.lor (Z.lor b0 (sh32 b1 8)) (sh32 b2 16)) (sh32 b3 24)
         | BigEndian => Z.lor (Z.lor (Z.lor b3 (sh32 b2 8)) (sh32 b1 16)) (sh32 b0 24)
         end
  | _ => UB
  end.

(** bytereader-inl.h 63-79; shifts of uint64 wrap modulo 2^64 *)
Definition sh64 (b n : Z) : Z := u64 (Z.shiftl b n).
Definition ReadEightBytes (en : endian) (buf : list Z) : outcome Z :=
  match buf with
  | b0 :: b1 :: b2 :: b3 :: b4 :: b5 :: b6 :: b7 :: _ =>
      let b0 := mask w64 b0 in
      let b1 := mask w64 b1 in
      let b2 := mask w64 b2 in
      let b3 := mask w64 b3 in
      let b4 := mask w64 b4 in
      let b5 := mask w64 b5 in
      let b6 := mask w64 b6 in
      let b7 := mask w64 b7 in
      Ok match en with
         | LittleEndian =>
             Z.lor (Z.lor (Z.lor (Z.lor (Z.lor (Z.lor (Z.lor b0
               (sh64 b1 8)) (sh64 b2 16)) (sh64 b3 24)) (sh64 b4 32))
               (sh64 b5 40)) (sh64 b6 48)) (sh64 b7 56)
         | BigEndian =>
             Z.lor (Z.lor (Z.lor (Z.lor (Z.lor (Z.lor (Z.lor b7
               (sh64 b6 8)) (sh64 b5 16)) (sh64 b4 24)) (sh64 b3 32))
               (sh64 b2 40)) (sh64 b1 48)) (sh64 b0 56)
         end
  | _ => UB
  end.

(** bytereader-inl.h 85-105 ReadUnsignedLEB128; a shift of a uint64 by 64 or
    more is undefined.  Returns the value and the number of bytes read. *)
Fixpoint uleb_loop (buf : list Z) (result num_read shift : Z) : outcome (Z * Z) :=
  match buf with
  | [] => UB
  | b :: buf' =>
      if 64 <=? shift then UB
      else
        let result := Z.lor result (u64 (Z.shiftl (Z.land b 127) shift)) in
        if Z.land b 128 =? 0 then Ok (result, num_read + 1)
        else uleb_loop buf' result (num_read + 1) (shift + 7)
  end.
Definition ReadUnsignedLEB128 (buf : list Z) : outcome (Z * Z) := uleb_loop buf 0 0 0.

(** int64 value of a 64-bit pattern *)
Definition s64 (x : Z) : Z := if x <? 2 ^ 63 then x else x - 2 ^ 64.

(** bytereader-inl.h 110-129 ReadSignedLEB128.  The int64 [result] is held as
    its two's complement pattern.  Line 126 computes [-((int64)1 << shift)]:
    for shift = 63 this negates INT64_MIN, a signed overflow; [wraps] says
    whether the compiler makes that wrap (to INT64_MIN) or it is undefined. *)
Fixpoint sleb_loop (wraps : bool) (buf : list Z) (result num_read shift : Z)
  : outcome (Z * Z) :=
  match buf with
  | [] => UB
  | b :: buf' =>
      if 64 <=? shift then UB
      else
        let result := Z.lor result (u64 (Z.shiftl (Z.land b 127) shift)) in
        let num_read := num_read + 1 in
        let shift := shift + 7 in
        if Z.land b 128 =? 0 then
          if (shift <? 64) && negb (Z.land b 64 =? 0) then
            if (shift =? 63) && negb wraps then UB
            else Ok (s64 (Z.lor result (u64 (- Z.shiftl 1 shift))), num_read)
          else Ok (s64 result, num_read)
        else sleb_loop wraps buf' result num_read shift
  end.
Definition ReadSignedLEB128 (wraps : bool) (buf : list Z) : outcome (Z * Z) :=
  sleb_loop wraps buf 0 0 0.

(** bytereader.cc 31-49 SetOffsetSize / SetAddressSize and bytereader-inl.h
    131-139 ReadOffset / ReadAddress: a size other than 4 or 8 fails a CHECK,
    otherwise the 4- or 8-byte reader is used. *)
Definition ReadSized (en : endian) (size : Z) (buf : list Z) : outcome Z :=
  if size =? 4 then ReadFourBytes en buf
  else if size =? 8 then ReadEightBytes en buf
  else Abort.

(** bytereader.cc 51-66 ReadInitialLength: returns (length, bytes read, offset
    size set in the reader). *)
Definition ReadInitialLength (en : endian) (buf : list Z) : outcome (Z * Z * Z) :=
  let! initial_length := ReadFourBytes en buf in
  if initial_length =? 4294967295 then
    let! l := ReadSized en 8 (skipn 4 buf) in Ok (l, 12, 8)
  else Ok (initial_length, 4, 4).
