(** Model of the gcov file primitives: gcov.cc (whole file).
    Simplifications: the process-global [gcov_var] becomes a state value; the
    host is little-endian (the code reinterprets uint32 pointers, gcov.cc:130,
    201); the writer's buffer growth (gcov_allocate, gcov.cc:99-111) is not
    modelled, the written bytes are simply appended, so files of 4 GiB and more
    (byte_offset is a uint32) and allocation failure are outside the model. *)
From Verif Require Import Base.

Definition byte := Z.

(** gcov.cc:40 GCOV_BLOCK_BYTE_SIZE. *)
Definition block_size : Z := 16384.

(** *** Writer *)

(** Storing a uint32 through a uint32* (gcov.cc:136, little-endian host). *)
Definition le32 (v : Z) : list byte :=
  [v mod 256; v / 256 mod 256; v / 65536 mod 256; v / 16777216 mod 256].

(** gcov.cc:134-137 gcov_write_unsigned. *)
Definition gcov_write_unsigned (v : Z) (out : list byte) : list byte :=
  out ++ le32 (u32 v).

(** gcov.cc:139-144 gcov_write_counter: low word, then high word. *)
Definition gcov_write_counter (v : Z) (out : list byte) : list byte :=
  out ++ le32 (u32 v) ++ le32 (u32 (Z.shiftr v 32)).

(** gcov.cc:146-170 gcov_write_string, for a non-null string given by its
    bytes (strlen = their number).  Version >= 2: length including the
    terminating 0, in bytes; otherwise in 4-byte words, zero padded (the last
    word is cleared before the characters are copied over it). *)
Definition gcov_write_string (version : Z) (s : list byte) (out : list byte) : list byte :=
  if 2 <=? version then
    out ++ le32 (u32 (zlen s + 1)) ++ s ++ [0]
  else
    let alloc := Z.shiftr (zlen s + 4) 2 in
    out ++ le32 (u32 alloc) ++ s ++ repeat 0 (Z.to_nat (4 * alloc - zlen s)).

(** *** Reader *)

(** gcov.cc:42-50 gcov_var while reading: [buf] is buffer[0..byte_length),
    [off] is byte_offset, [alloc] is byte_alloc, [file] the bytes fread has not
    delivered yet. *)
Record rstate := { r_buf : list byte; r_off : Z; r_alloc : Z; r_file : list byte }.

(** gcov.cc:61-83 gcov_open for reading; [alloc] is whatever an earlier use of
    the global buffer left behind (0 in a fresh process). *)
Definition gcov_open_read (alloc : Z) (content : list byte) : rstate :=
  {| r_buf := []; r_off := 0; r_alloc := alloc; r_file := content |}.

(** gcov.cc:99-111 gcov_allocate. *)
Definition gcov_allocate (n alloc : Z) : Z :=
  ((if alloc =? 0 then block_size else alloc) + n) * 2.

(** gcov.cc:172-197 gcov_read_bytes; [None] is the null pointer.  fread
    delivers as many bytes as requested unless the file ends. *)
Definition gcov_read_bytes (n : Z) (st : rstate) : outcome (option (list byte) * rstate) :=
  let len := zlen (r_buf st) in
  let excess := len - r_off st in
  if n <? block_size then
    if excess <? n then
      let kept := skipn (Z.to_nat (r_off st)) (r_buf st) in     (* memmove *)
      let alloc := if r_alloc st <? zlen kept + n
                   then gcov_allocate (zlen kept + n) (r_alloc st) else r_alloc st in
      let want := Z.to_nat (alloc - zlen kept) in
      let buf := kept ++ firstn want (r_file st) in              (* fread *)
      let file := skipn want (r_file st) in
      if zlen buf <? n then
        Ok (None, {| r_buf := []; r_off := 0; r_alloc := alloc; r_file := file |})
      else
        Ok (Some (firstn (Z.to_nat n) buf),
            {| r_buf := buf; r_off := n; r_alloc := alloc; r_file := file |})
    else
      Ok (Some (firstn (Z.to_nat n) (skipn (Z.to_nat (r_off st)) (r_buf st))),
          {| r_buf := r_buf st; r_off := r_off st + n; r_alloc := r_alloc st; r_file := r_file st |})
  else Abort.

(** Loading a uint32 through a uint32*. *)
Definition get32 (l : list byte) : Z :=
  match l with
  | [a; b; c; d] => a + 256 * b + 65536 * c + 16777216 * d
  | _ => 0
  end.

(** gcov.cc:204-213 gcov_read_unsigned (gcov_read_words: gcov.cc:199-202). *)
Definition gcov_read_unsigned (st : rstate) : outcome (Z * rstate) :=
  obind (gcov_read_bytes 4 st) (fun '(r, st') =>
    match r with
    | None => Ok (0, st')
    | Some w => Ok (get32 w, st')
    end).

(** gcov.cc:215-224 gcov_read_counter. *)
Definition gcov_read_counter (st : rstate) : outcome (Z * rstate) :=
  obind (gcov_read_bytes 8 st) (fun '(r, st') =>
    match r with
    | None => Ok (0, st')
    | Some w => Ok (Z.lor (get32 (firstn 4 w)) (u64 (Z.shiftl (get32 (skipn 4 w)) 32)), st')
    end).

(** A C string: the bytes before the first NUL; no NUL in the delivered block
    means the caller runs off the block ([None]). *)
Fixpoint cstr (l : list byte) : option (list byte) :=
  match l with
  | [] => None
  | b :: l' => if b =? 0 then Some [] else option_map (cons b) (cstr l')
  end.

(** gcov.cc:226-239 gcov_read_string as its callers use it (profile_reader.cc:
    the result is converted to a std::string at once): [None] is a null
    pointer, an unterminated block is UB. *)
Definition gcov_read_string (version : Z) (st : rstate)
  : outcome (option (list byte) * rstate) :=
  obind (gcov_read_unsigned st) (fun '(length, st1) =>
    if length =? 0 then Ok (None, st1)
    else
      obind (gcov_read_bytes (if 2 <=? version then length else u32 (length * 4)) st1)
        (fun '(r, st2) =>
          match r with
          | None => Ok (None, st2)
          | Some w => match cstr w with
                      | Some s => Ok (Some s, st2)
                      | None => UB
                      end
          end)).
