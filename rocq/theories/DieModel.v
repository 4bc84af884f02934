(** Model of CompilationUnit (util/symbolize/dwarf2reader.cc 92-165 ReadAbbrevs,
    167-280 SkipDIE and SkipAttribute, 282-357 the headers of .debug_str_offsets
    and .debug_addr, 361-462 ReadHeader, 494-602 Start, 607-859
    ProcessAttribute, 870-953 ProcessDIE and ProcessDIEs), index_helper.cc, and of the
    loop of Google3Addr2line::PrepareSingleUnit (legacy_addr2line.cc 139-164) over the units.

    The handler (dwarf2reader.h 340-442 Dwarf2Handler) is arbitrary: functions on some
    state.  Pointers into .debug_info are the lists of the bytes from there on; an attribute
    that ends outside of the section is [UB].  Simplifications: the handler is
    given the names and forms of the attributes of an entry, not the constants of the
    abbreviation; it does not change the sizes in the ByteReader; a string that it is given is
    read up to its end ([UB] if there is none); comparisons of pointers are comparisons of
    unbounded offsets; the unused variable [len] of the DW_FORM_addrxN cases, added to while
    uninitialised, is ignored.  This is not a split unit (is_split_dwarf_ is false); reading the
    .dwo or .dwp file of a skeleton unit is the function [h_split] of the handler.
    ReadSignedLEB128 wraps (see ByteModel). *)
From Verif Require Import Base ByteModel.

(** What an attribute is given to the handler as; no string is the null pointer. *)
Inductive value := VUnsigned (n : Z) | VSigned (n : Z) | VString (s : option (list Z)) | VBuffer (bytes : list Z).
Record handler (S : Type) := {
  h_unit : Z -> Z -> Z -> Z -> Z -> S -> outcome (bool * S);   (* StartCompilationUnit: offset, address size, offset size, length, version *)
  h_start : Z -> Z -> list (Z * Z) -> S -> outcome (bool * S);   (* StartDIE: offset, tag, attributes *)
  h_attr : Z -> Z -> Z -> value -> S -> outcome S;   (* ProcessAttribute...: offset, attribute, form, value *)
  h_end : Z -> S -> outcome S;   (* EndDIE *)
  h_str_base : S -> Z; h_set_str_base : Z -> S -> S;   (* get_str_offset_base, set_str_offset_base *)
  h_addr_base : S -> Z; h_set_addr_base : Z -> S -> S;
  h_split : list Z -> S -> outcome S   (* NeedSplitDebugInfo, ProcessSplitDwarf, EndSplitCompilationUnit *)
}.
Arguments h_unit {S}. Arguments h_start {S}. Arguments h_attr {S}. Arguments h_end {S}. Arguments h_str_base {S}.
Arguments h_set_str_base {S}. Arguments h_addr_base {S}. Arguments h_set_addr_base {S}. Arguments h_split {S}.

Record sections := { s_info : list Z; s_abbrev : option (list Z); s_str : option (list Z); s_line_str : option (list Z); s_str_offsets : option (list Z); s_addr : option (list Z) }.
(** dwarf2reader.h 522-527; dwarf2reader.h 49-58 AttributeSpec *)
Record spec := { sp_name : Z; sp_form : Z; sp_value : Z }.
Record abbrev := { ab_number : Z; ab_tag : Z; ab_children : bool; ab_specs : list spec }.

Definition advance (n : Z) (p : list Z) : outcome (list Z) := if n <=? zlen p then Ok (skipn (Z.to_nat n) p) else UB.
Definition at_pos (n : Z) (buf : list Z) : list Z := if n <? zlen buf then skipn (Z.to_nat n) buf else [].
(** ReadUnsignedLEB128 and the pointer behind it *)
Definition next_uleb (p : list Z) : outcome (Z * list Z) :=
  let! '(v, len) := ReadUnsignedLEB128 p in let! p := advance len p in Ok (v, p).

(** 140-162; [fuel] is more than the number of bytes *)
Fixpoint read_specs (fuel : nat) (p : list Z) : outcome (list spec * list Z) :=
  match fuel with
  | O => UB
  | S fuel =>
      let! '(name, p) := next_uleb p in
      let! '(form, p) := next_uleb p in
      let name := u32 name in
      let form := u32 form in
      if (name =? 0) && (form =? 0) then Ok ([], p)
      else
        let! '(value, p) := (if form =? 33 then next_uleb p else Ok (0, p)) in
        let! '(l, p) := read_specs fuel p in
        Ok ({| sp_name := name; sp_form := form; sp_value := u32 value |} :: l, p)
  end.
(** 114-165; [abbrevs] has the entry 0 that resize(1) makes *)
Fixpoint read_abbrevs (fuel : nat) (p : list Z) (abbrevs : list abbrev) : outcome (list abbrev) :=
  match fuel with
  | O => UB
  | S fuel =>
      let! '(number, p) := next_uleb p in
      let number := u32 number in
      if number =? 0 then Ok abbrevs
      else
        let! '(tag, p) := next_uleb p in
        let! children := ReadOneByte p in
        let! p := advance 1 p in
        let! '(specs, p) := read_specs fuel p in
        if number =? zlen abbrevs
        then read_abbrevs fuel p (abbrevs ++ [{| ab_number := number; ab_tag := u32 tag; ab_children := negb (children =? 0); ab_specs := specs |}])
        else Abort
  end.
Definition ReadAbbrevs (s : sections) (abbrev_offset : Z) : outcome (list abbrev) :=
  match s_abbrev s with
  | None => Abort
  | Some b => read_abbrevs (S (length b)) (at_pos abbrev_offset b) [{| ab_number := 0; ab_tag := 0; ab_children := false; ab_specs := [] |}]
  end.

(** strlen *)
Fixpoint strlen (p : list Z) : outcome Z :=
  match p with [] => UB | b :: p' => if b =? 0 then Ok 0 else let! n := strlen p' in Ok (n + 1) end.
Definition c_string (p : list Z) : outcome (list Z) := let! n := strlen p in Ok (firstn (Z.to_nat n) p).
(** index_helper.cc 7-16 *)
Definition get_string_with_offsets (buf : list Z) (offset : Z) : outcome (option (list Z)) :=
  if zlen buf <=? offset then Ok None else let! s := c_string (skipn (Z.to_nat offset) buf) in Ok (Some s).

(** The header and the sizes in the ByteReader. *)
Record header := { hd_length : Z; hd_version : Z; hd_unit_type : Z; hd_address_size : Z; hd_offset_size : Z; hd_abbrev_offset : Z; hd_after : Z }.

Section Reader.
Context (en : endian) (version asz osz : Z).
(** 178-280 SkipAttribute *)
Fixpoint SkipAttribute (fuel : nat) (p : list Z) (form : Z) : outcome (list Z) :=
  match fuel with
  | O => UB
  | S fuel =>
      match form with
      | 22 => let! '(form, p) := next_uleb p in SkipAttribute fuel p (u32 form)
      | 33 | 25 => Ok p
      | 11 | 12 | 17 | 37 | 41 => advance 1 p
      | 18 | 5 | 38 | 42 => advance 2 p
      | 39 | 43 => advance 3 p
      | 19 | 6 | 40 | 44 | 28 => advance 4 p
      | 20 | 32 | 7 | 36 => advance 8 p
      | 30 => advance 16 p
      | 8 => let! n := strlen p in advance (n + 1) p
      | 15 | 21 | 7938 | 7937 | 26 | 27 | 34 | 35 => let! '(_, p) := next_uleb p in Ok p
      | 13 => let! '(_, len) := ReadSignedLEB128 true p in advance len p
      | 1 => advance asz p
      | 16 => if version =? 2 then advance asz p else advance osz p
      | 10 => let! n := ReadOneByte p in advance (1 + n) p
      | 3 => let! n := ReadTwoBytes en p in advance (2 + n) p
      | 4 => let! n := ReadFourBytes en p in advance (4 + n) p
      | 9 | 24 => let! '(n, len) := ReadUnsignedLEB128 p in advance (n + len) p
      | 14 | 29 | 23 => advance osz p
      | _ => Abort
      end
  end.
(** 167-176 SkipDIE *)
Fixpoint SkipDIE (p : list Z) (l : list spec) : outcome (list Z) :=
  match l with [] => Ok p | a :: l => let! p := SkipAttribute (S (length p)) p (sp_form a) in SkipDIE p l end.

Context {S : Type} (h : handler S) (s : sections).
(** the state of the handler and dwo_name_; 861-868, dwarf2reader.h 596-629 *)
Definition deliver (offset attr form : Z) (v : value) (st : S * option (list Z)) : outcome (S * option (list Z)) :=
  let! hs := h_attr h offset attr form v (fst st) in
  Ok (hs, match v with VString d => if (attr =? 8496) || (attr =? 118) then d else snd st | _ => snd st end).
(** the strx cases, 777-791 *)
Definition indexed_string (index : Z) (st : S * option (list Z)) : outcome (option (list Z)) :=
  match s_str s, s_str_offsets s with
  | Some str, Some table =>
      let pos := if version =? 5 then h_str_base h (fst st) + index * osz else index * osz in
      let! offset := ReadSized en osz (if pos <? 0 then [] else at_pos pos table) in
      get_string_with_offsets str offset
  | _, _ => Abort
  end.
(** the addrx cases, 799-843 *)
Definition indexed_address (index : Z) (st : S * option (list Z)) : outcome Z :=
  match s_addr s with
  | Some table => let pos := h_addr_base h (fst st) + index * asz in ReadSized en asz (if pos <? 0 then [] else at_pos pos table)
  | None => Abort
  end.
(** 607-859 ProcessAttribute; note the fixed step of 1 and the index 0 for
    DW_FORM_addrx2 (its index is stored in another variable) *)
Fixpoint ProcessAttribute (fuel : nat) (offset : Z) (p : list Z) (attr form value : Z) (st : S * option (list Z)) {struct fuel} : outcome ((S * option (list Z)) * list Z) :=
  match fuel with
  | O => UB
  | Datatypes.S fuel =>
      let give v p' := let! st := deliver offset attr form v st in let! p := p' in Ok (st, p) in
      match form with
      | 22 => let! '(form, p) := next_uleb p in ProcessAttribute fuel offset p attr (u32 form) 0 st
      | 25 => give (VUnsigned 1) (Ok p)
      | 11 | 12 | 17 => let! v := ReadOneByte p in give (VUnsigned v) (advance 1 p)
      | 18 | 5 => let! v := ReadTwoBytes en p in give (VUnsigned v) (advance 2 p)
      | 19 | 6 => let! v := ReadFourBytes en p in give (VUnsigned v) (advance 4 p)
      | 20 | 32 | 7 => let! v := ReadEightBytes en p in give (VUnsigned v) (advance 8 p)
      | 30 => let! p := advance 16 p in Ok (st, p)
      | 8 => let! str := c_string p in give (VString (Some str)) (advance (zlen str + 1) p)
      | 15 | 21 => let! '(v, len) := ReadUnsignedLEB128 p in give (VUnsigned v) (advance len p)
      | 13 => let! '(v, len) := ReadSignedLEB128 true p in give (VSigned v) (advance len p)
      | 1 => let! v := ReadSized en asz p in give (VUnsigned v) (advance asz p)
      | 16 => if version =? 2 then let! v := ReadSized en asz p in give (VUnsigned v) (advance asz p)
              else let! v := ReadSized en osz p in give (VUnsigned v) (advance osz p)
      | 23 => let! v := ReadSized en osz p in give (VUnsigned v) (advance osz p)
      | 10 => let! n := ReadOneByte p in give (VBuffer (firstn (Z.to_nat (Z.min n (zlen p))) (skipn 1 p))) (advance (1 + n) p)
      | 3 => let! n := ReadTwoBytes en p in give (VBuffer (firstn (Z.to_nat (Z.min n (zlen p))) (skipn 2 p))) (advance (2 + n) p)
      | 4 => let! n := ReadFourBytes en p in give (VBuffer (firstn (Z.to_nat (Z.min n (zlen p))) (skipn 4 p))) (advance (4 + n) p)
      | 9 | 24 => let! '(n, len) := ReadUnsignedLEB128 p in
                  give (VBuffer (firstn (Z.to_nat (Z.min n (zlen p))) (skipn (Z.to_nat len) p))) (advance (n + len) p)
      | 31 => match s_line_str s with
              | None => Abort
              | Some b => let! o := ReadSized en osz p in let! str := get_string_with_offsets b o in give (VString str) (advance osz p)
              end
      | 14 => match s_str s with
              | None => Abort
              | Some b => let! o := ReadSized en osz p in let! str := get_string_with_offsets b o in give (VString str) (advance osz p)
              end
      | 37 => let! i := ReadOneByte p in let! str := indexed_string i st in give (VString str) (advance 1 p)
      | 38 => let! i := ReadTwoBytes en p in let! str := indexed_string i st in give (VString str) (advance 2 p)
      | 39 => let! i := ReadThreeBytes en p in let! str := indexed_string i st in give (VString str) (advance 3 p)
      | 40 => let! i := ReadFourBytes en p in let! str := indexed_string i st in give (VString str) (advance 4 p)
      | 26 | 7938 => let! '(i, len) := ReadUnsignedLEB128 p in let! str := indexed_string i st in give (VString str) (advance len p)
      | 35 => let! '(v, len) := ReadUnsignedLEB128 p in give (VUnsigned v) (advance len p)
      | 41 => let! i := ReadOneByte p in let! v := indexed_address i st in give (VUnsigned v) (advance 1 p)
      | 42 => let! _ := ReadTwoBytes en p in let! v := indexed_address 0 st in give (VUnsigned v) (advance 1 p)
      | 43 => let! i := ReadThreeBytes en p in let! v := indexed_address i st in give (VUnsigned v) (advance 1 p)
      | 44 => let! i := ReadFourBytes en p in let! v := indexed_address i st in give (VUnsigned v) (advance 1 p)
      | 27 | 7937 => let! '(i, _) := ReadUnsignedLEB128 p in let! v := indexed_address i st in give (VUnsigned v) (advance 1 p)
      | 33 => if version =? 5 then give (VSigned value) (Ok p) else Abort
      | _ => Abort
      end
  end.
(** 870-896 ProcessDIE *)
Fixpoint ProcessDIE (offset : Z) (p : list Z) (l : list spec) (st : S * option (list Z)) : outcome ((S * option (list Z)) * list Z) :=
  match l with
  | [] => Ok (st, p)
  | a :: l =>
      let! '(st, p) := ProcessAttribute (Datatypes.S (length p)) offset p (sp_name a) (sp_form a) (if sp_form a =? 33 then sp_value a else 0) st in
      ProcessDIE offset p l st
  end.
(** 898-953 ProcessDIEs; [finish] is the offset of the end of the unit in .debug_info,
    [stack] is die_stack *)
Fixpoint ProcessDIEs (fuel : nat) (abbrevs : list abbrev) (finish : Z) (p : list Z) (stack : list Z) (st : S * option (list Z)) {struct fuel} : outcome (S * option (list Z)) :=
  let offset := zlen (s_info s) - zlen p in
  if finish <=? offset then Ok st
  else
    match fuel with
    | O => UB
    | Datatypes.S fuel =>
        let! '(num, p) := next_uleb p in
        if num =? 0 then
          match stack with
          | [] => ProcessDIEs fuel abbrevs finish p [] st
          | o :: stack => let! hs := h_end h o (fst st) in ProcessDIEs fuel abbrevs finish p stack (hs, snd st)
          end
        else if zlen abbrevs <=? num then UB
        else
          let a := nth (Z.to_nat num) abbrevs {| ab_number := 0; ab_tag := 0; ab_children := false; ab_specs := [] |} in
          let! '(wanted, hs) := h_start h offset (ab_tag a) (map (fun x => (sp_name x, sp_form x)) (ab_specs a)) (fst st) in
          let! '(st, p) := (if wanted then ProcessDIE offset p (ab_specs a) (hs, snd st)
                            else let! p := SkipDIE p (ab_specs a) in Ok ((hs, snd st), p)) in
          if ab_children a then ProcessDIEs fuel abbrevs finish p (offset :: stack) st
          else let! hs := h_end h offset (fst st) in ProcessDIEs fuel abbrevs finish p stack (hs, snd st)
    end.
End Reader.

Section Unit.
Context (en : endian) {S : Type} (h : handler S) (s : sections).
(** 361-462 ReadHeader; None: malformed.  [buf] is .debug_info from the unit on, positions are
    relative to it *)
Definition ReadHeader (buf : list Z) : outcome (option header) :=
  let blen := zlen buf in
  if blen <=? 4 then Ok None
  else
    let! '(len, pos, osz) := ReadInitialLength en buf in
    if (len =? 0) || (blen <=? pos + 2) then Ok None
    else
      let! version := ReadTwoBytes en (at_pos pos buf) in
      if (version <? 2) || (5 <? version) then Ok None
      else
        let pos := pos + 2 in
        let finish (unit_type asz abbrev_offset pos ils : Z) :=
          if blen <? ils + len then Ok None
          else Ok (Some {| hd_length := len; hd_version := version; hd_unit_type := unit_type; hd_address_size := asz; hd_offset_size := osz; hd_abbrev_offset := abbrev_offset; hd_after := pos |}) in
        let ils := if osz =? 8 then 12 else 4 in
        if version =? 5 then
          if blen <=? pos + 1 then Ok None
          else
            let! ut := ReadOneByte (at_pos pos buf) in
            if negb ((ut =? 1) || (ut =? 4) || (ut =? 5)) then Ok None
            else
              let pos := pos + 1 in
              if blen <=? pos + 1 then Ok None
              else
                let! asz := ReadOneByte (at_pos pos buf) in
                if negb ((asz =? 4) || (asz =? 8)) then Ok None
                else
                  let pos := pos + 1 in
                  if blen <=? pos + osz then Ok None
                  else
                    let! ao := ReadSized en osz (at_pos pos buf) in
                    let pos := pos + osz in
                    if (ut =? 4) || (ut =? 5) then let! _ := ReadEightBytes en (at_pos pos buf) in finish ut asz ao (pos + 8) ils
                    else finish ut asz ao pos ils
        else if blen <=? pos + osz then Ok None
        else
          let! ao := ReadSized en osz (at_pos pos buf) in
          let pos := pos + osz in
          if blen <=? pos + 1 then Ok None
          else
            let! asz := ReadOneByte (at_pos pos buf) in
            if negb ((asz =? 4) || (asz =? 8)) then Ok None else finish 0 asz ao (pos + 1) ils.
(** 282-310 ReadDebugOffsetTableHeader: the base and the offset size that the
    ByteReader has afterwards; None: malformed *)
Definition ReadDebugOffsetTableHeader (version : Z) (b : list Z) : outcome (option (Z * Z)) :=
  if zlen b <=? 4 then Ok None
  else
    let! '(_, pos, osz) := ReadInitialLength en b in
    let! v := ReadTwoBytes en (at_pos pos b) in
    if version =? v then Ok (Some (pos + 4, osz)) else Ok None.
(** 315-352 ReadDebugAddressTableHeader *)
Definition ReadDebugAddressTableHeader (version asz : Z) (b : list Z) : outcome (option (Z * Z)) :=
  if zlen b <=? 4 then Ok None
  else
    let! '(_, pos, osz) := ReadInitialLength en b in
    let! v := ReadTwoBytes en (at_pos pos b) in
    if version =? v then
      let! a := ReadOneByte (at_pos (pos + 2) b) in
      if asz =? a then let! _ := ReadOneByte (at_pos (pos + 3) b) in Ok (Some (pos + 4, osz)) else Ok None
    else Ok None.
(** 494-602 Start: the length of the unit (with its length field), malformed_, the state *)
Definition Start (offset : Z) (hs : S) : outcome (Z * bool * S) :=
  let buf := at_pos offset (s_info s) in
  let! hd := ReadHeader buf in
  match hd with
  | None => Ok (zlen (s_info s), true, hs)
  | Some hd =>
      let ourlength := u64 (hd_length hd + if hd_offset_size hd =? 8 then 12 else 4) in
      let! '(wanted, hs) := h_unit h offset (hd_address_size hd) (hd_offset_size hd) (hd_length hd) (hd_version hd) hs in
      if negb wanted then Ok (ourlength, false, hs)
      else
        let! abbrevs := ReadAbbrevs s (hd_abbrev_offset hd) in
        let! tables :=
          match s_str_offsets s with
          | Some b => if hd_version hd =? 5 then ReadDebugOffsetTableHeader (hd_version hd) b else Ok (Some (-1, hd_offset_size hd))
          | None => Ok (Some (-1, hd_offset_size hd))
          end in
        match tables with
        | None => Ok (match s_str_offsets s with Some b => zlen b | None => 0 end, true, hs)
        | Some (base, osz) =>
            let hs := if base <? 0 then hs else h_set_str_base h base hs in
            let! tables :=
              match s_addr s with
              | Some b => if hd_version hd =? 5 then ReadDebugAddressTableHeader (hd_version hd) (hd_address_size hd) b else Ok (Some (-1, osz))
              | None => Ok (Some (-1, osz))
              end in
            match tables with
            | None => Ok (match s_addr s with Some b => zlen b | None => 0 end, true, hs)
            | Some (base, osz) =>
                let hs := if base <? 0 then hs else h_set_addr_base h base hs in
                let lengthstart := offset + if osz =? 8 then 12 else 4 in
                let p := at_pos (hd_after hd) buf in
                let! '(hs, dwo) := ProcessDIEs en (hd_version hd) (hd_address_size hd) osz h s (Datatypes.S (length p)) abbrevs (lengthstart + hd_length hd) p [] (hs, None) in
                let! hs := match dwo with Some d => h_split h d hs | None => Ok hs end in
                Ok (ourlength, false, hs)
            end
        end
  end.
(** legacy_addr2line.cc 139-164: the units one after the other *)
Fixpoint read_units (fuel : nat) (pos : Z) (hs : S) : outcome S :=
  if zlen (s_info s) <=? pos then Ok hs
  else
    match fuel with
    | O => UB
    | Datatypes.S fuel =>
        let! '(len, malformed, hs) := Start pos hs in
        if malformed then Ok hs else read_units fuel (pos + len) hs
    end.
Definition ReadUnits (hs : S) : outcome S := read_units (length (s_info s)) 0 hs.
End Unit.
