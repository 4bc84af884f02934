(** Model of util/symbolize/dwarf3ranges.cc (AddressRangeList).

    A section is the list of its bytes; a pointer into it is its offset.
    Pointer comparisons are made on the mathematical offsets (no wrap-around
    of the address space); reading past the end of a section is [UB]. *)
From Verif Require Import Base ByteModel.

Definition at_pos (buf : list Z) (pos : Z) : list Z := skipn (Z.to_nat pos) buf.

(** dwarf3ranges.cc 36-61 ReadDwarfRangeList; the do-while loop at 49-60 runs
    on a fuel that the CHECK of line 50 always stops before it runs out (see
    DwarfRangesProofs); [acc] is *ranges. *)
Fixpoint range_loop (fuel : nat) (en : endian) (width : Z) (buf : list Z)
  (base pos : Z) (acc : list (Z * Z)) : outcome (list (Z * Z)) :=
  match fuel with
  | O => UB
  | S fuel' =>
      let largest_address := if width =? 4 then 4294967295 else 18446744073709551615 in
      if pos + 2 * width <=? zlen buf then
        let! start := ReadSized en width (at_pos buf pos) in
        let! stop := ReadSized en width (at_pos buf (pos + width)) in
        if start =? largest_address
        then range_loop fuel' en width buf stop (pos + 2 * width) acc
        else if (start =? 0) && (stop =? 0) then Ok acc
        else range_loop fuel' en width buf base (pos + 2 * width)
               (acc ++ [(u64 (start + base), u64 (stop + base))])
      else Abort
  end.

Definition ReadDwarfRangeList (en : endian) (width : Z) (buf : list Z)
  (offset base : Z) (ranges : list (Z * Z)) : outcome (list (Z * Z)) :=
  if (width =? 4) || (width =? 8)   (* 42-46: LOG(FATAL) otherwise *)
  then range_loop (S (length buf)) en width buf base offset ranges
  else Abort.

(** The .debug_addr lookup of lines 103-105, 112-114, 118-120, 130-132:
    [CHECK(ptr <= addr_buffer_ + addr_buffer_length_)] and ReadAddress(ptr);
    the index is scaled in uint64. *)
Definition addrx (en : endian) (width : Z) (addrs : list Z) (addr_base index : Z) : outcome Z :=
  let ptr := addr_base + u64 (index * width) in
  if ptr <=? zlen addrs then ReadSized en width (at_pos addrs ptr) else Abort.

Section RngLists.
  Context (en : endian) (width : Z) (address_size : Z) (buf addrs : list Z) (addr_base : Z).

  (** ReadUnsignedLEB128(pos, &len); pos += len *)
  Definition leb_at (pos : Z) : outcome (Z * Z) :=
    let! '(v, len) := ReadUnsignedLEB128 (at_pos buf pos) in Ok (v, pos + len).

  (** the same followed by CHECK(pos <= rnglist_buffer_ + rnglist_buffer_length_) *)
  Definition leb_checked (pos : Z) : outcome (Z * Z) :=
    let! '(v, pos) := leb_at pos in
    if pos <=? zlen buf then Ok (v, pos) else Abort.

  (** ReadAddress(pos); pos += address_size; CHECK(pos <= end) (158-163, 168-169) *)
  Definition addr_checked (pos : Z) : outcome (Z * Z) :=
    let! v := ReadSized en width (at_pos buf pos) in
    let pos := pos + address_size in
    if pos <=? zlen buf then Ok (v, pos) else Abort.

  (** One iteration of the loop of ReadDwarfRngLists (dwarf3ranges.cc 92-182):
      [None] at the end of the list, otherwise the new base, position and
      ranges. *)
  Definition rnglist_step (base pos : Z) (acc : list (Z * Z))
    : outcome (option (Z * Z * list (Z * Z))) :=
    if pos <? zlen buf then
      let! kind := ReadOneByte (at_pos buf pos) in
      let pos := pos + 1 in
      if kind =? 0 then Ok None                                   (* end_of_list *)
      else if kind =? 1 then                                      (* base_addressx *)
        let! '(i, pos) := leb_at pos in
        let! base := addrx en width addrs addr_base i in
        Ok (Some (base, pos, acc))
      else if kind =? 2 then                                      (* startx_endx *)
        let! '(i, pos) := leb_checked pos in
        let! start := addrx en width addrs addr_base i in
        let! '(j, pos) := leb_checked pos in
        let! stop := addrx en width addrs addr_base j in
        Ok (Some (base, pos,
                  if start =? stop then acc
                  else acc ++ [(u64 (start + base), u64 (stop + base))]))
      else if kind =? 3 then                                      (* startx_length *)
        let! '(i, pos) := leb_checked pos in
        let! start := addrx en width addrs addr_base i in
        let! '(len, pos) := leb_checked pos in
        Ok (Some (base, pos,
                  if len =? 0 then acc
                  else acc ++ [(u64 (start + base), u64 (start + base + len))]))
      else if kind =? 4 then                                      (* offset_pair *)
        let! '(start, pos) := leb_checked pos in
        let! '(stop, pos) := leb_checked pos in
        Ok (Some (base, pos,
                  if start =? stop then acc
                  else acc ++ [(u64 (start + base), u64 (stop + base))]))
      else if kind =? 5 then                                      (* base_address *)
        if pos + address_size <=? zlen buf then
          let! base := ReadSized en width (at_pos buf pos) in
          Ok (Some (base, pos + address_size, acc))
        else Abort
      else if kind =? 6 then                                      (* start_end *)
        let! '(start, pos) := addr_checked pos in
        let! '(stop, pos) := addr_checked pos in
        Ok (Some (base, pos, if start =? stop then acc else acc ++ [(start, stop)]))
      else if kind =? 7 then                                      (* start_length *)
        let! '(start, pos) := addr_checked pos in
        let! '(len, pos) := leb_checked pos in
        Ok (Some (base, pos,
                  if len =? 0 then acc
                  else acc ++ [(u64 (base + start), u64 (base + start + len))]))
      else Abort                                                  (* LOG(FATAL) *)
    else Abort.

  Fixpoint rnglist_loop (fuel : nat) (base pos : Z) (acc : list (Z * Z))
    : outcome (list (Z * Z)) :=
    match fuel with
    | O => UB
    | S fuel' =>
        let! r := rnglist_step base pos acc in
        match r with
        | None => Ok acc
        | Some (base, pos, acc) => rnglist_loop fuel' base pos acc
        end
    end.
End RngLists.

(** dwarf3ranges.cc 84-185 ReadDwarfRngLists; [pos] as offset in the section.
    Each iteration consumes at least one byte. *)
Definition ReadDwarfRngLists (en : endian) (width : Z) (buf addrs : list Z)
  (base : Z) (ranges : list (Z * Z)) (pos addr_base address_size : Z)
  : outcome (list (Z * Z)) :=
  rnglist_loop en width address_size buf addrs addr_base (S (length buf)) base pos ranges.
