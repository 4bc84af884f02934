(** Model of the .debug_line reader: LineInfo (util/symbolize/dwarf2reader.cc
    1288-1336, 1340-1355, 1435-1860 (versions 2-5), 1861-2079 and the ordinary
    table of 2079-2175), CULineInfoHandler and AddressToLineMap
    (functioninfo.cc 52-200, functioninfo.h 93-166) and the line part of
    Google3Addr2line::GetInlineStack (legacy_addr2line.cc).

    Simplifications.  The two-level (0xf006) tables are not modelled: such a unit
    is reported as malformed here.  Of the string forms of version 5 only
    DW_FORM_string, DW_FORM_line_strp and DW_FORM_strp are modelled, the DW_FORM_strx
    ones are reported as malformed.  A unit whose header is malformed defines
    nothing (the code has possibly defined some of its files).  The address map
    holds 32-bit indices into the list of lines, here unbounded ones.
    sampled_functions_ is NULL, as everywhere in the code base. *)
From Verif Require Import Base ByteModel.

Notation dname := (list Z) (only parsing).

(** line_state_machine.h 24-46; [context] and [subprog_num] belong to two-level
    tables *)
Record lsm := { address : Z; line_num : Z; file_num : Z; column_num : Z; discriminator : Z; is_stmt : bool; basic_block : bool; end_sequence : bool }.
Definition Reset (default_is_stmt : bool) : lsm :=
  {| address := 0; line_num := 1; file_num := 1; column_num := 0; discriminator := 0; is_stmt := default_is_stmt; basic_block := false; end_sequence := false |}.
Definition set_address a s := {| address := a; line_num := line_num s; file_num := file_num s; column_num := column_num s; discriminator := discriminator s; is_stmt := is_stmt s; basic_block := basic_block s; end_sequence := end_sequence s |}.
Definition set_line l s := {| address := address s; line_num := l; file_num := file_num s; column_num := column_num s; discriminator := discriminator s; is_stmt := is_stmt s; basic_block := basic_block s; end_sequence := end_sequence s |}.
Definition set_file f s := {| address := address s; line_num := line_num s; file_num := f; column_num := column_num s; discriminator := discriminator s; is_stmt := is_stmt s; basic_block := basic_block s; end_sequence := end_sequence s |}.
Definition set_column c s := {| address := address s; line_num := line_num s; file_num := file_num s; column_num := c; discriminator := discriminator s; is_stmt := is_stmt s; basic_block := basic_block s; end_sequence := end_sequence s |}.
Definition set_discriminator d s := {| address := address s; line_num := line_num s; file_num := file_num s; column_num := column_num s; discriminator := d; is_stmt := is_stmt s; basic_block := basic_block s; end_sequence := end_sequence s |}.
Definition set_stmt b s := {| address := address s; line_num := line_num s; file_num := file_num s; column_num := column_num s; discriminator := discriminator s; is_stmt := b; basic_block := basic_block s; end_sequence := end_sequence s |}.
Definition set_bb b s := {| address := address s; line_num := line_num s; file_num := file_num s; column_num := column_num s; discriminator := discriminator s; is_stmt := is_stmt s; basic_block := b; end_sequence := end_sequence s |}.
Definition set_end b s := {| address := address s; line_num := line_num s; file_num := file_num s; column_num := column_num s; discriminator := discriminator s; is_stmt := is_stmt s; basic_block := basic_block s; end_sequence := b |}.

(** dwarf2reader.h 69-88 (the fields that matter after reading the header) *)
Record header := { version : Z; min_insn_length : Z; default_is_stmt : bool; line_base : Z; line_range : Z; opcode_base : Z; std_opcode_lengths : list Z }.

(** the calls of the handler *)
Inductive event :=
| EvDir (name : dname) (num : Z)
| EvFile (name : dname) (num dir mod_time length : Z)
| EvLine (address file line column discriminator : Z) (end_sequence : bool).

(** a C string: the bytes before the first 0; running off the buffer is UB *)
Fixpoint cstr (buf : list Z) : outcome dname :=
  match buf with
  | [] => UB
  | b :: buf' => if b =? 0 then Ok [] else let! s := cstr buf' in Ok (b :: s)
  end.
Definition from (n : Z) (buf : list Z) : list Z := skipn (Z.to_nat n) buf.

Section Reader.
Context (en : endian) (address_size : Z) (wraps : bool).

(** n operands that are skipped (2060-2067) *)
Fixpoint skip_ulebs (n : nat) (start : list Z) (oplen : Z) : outcome Z :=
  match n with
  | O => Ok oplen
  | S k => let! '(_, l) := ReadUnsignedLEB128 start in skip_ulebs k (from l start) (u64 (oplen + l))
  end.
(** 1861-2077 ProcessOneOpcode with logicals == NULL: whether a row is to be
    added, the new state, the length, the calls of the handler *)
Definition ProcessOneOpcode (h : header) (start0 : list Z) (s : lsm) : outcome (bool * lsm * Z * list event) :=
  let! opcode := ReadOneByte start0 in
  let start := from 1 start0 in
  if opcode_base h <=? opcode then
    if line_range h =? 0 then UB
    else let opcode := opcode - opcode_base h in
         let advance_address := opcode / line_range h * min_insn_length h in
         let advance_line := opcode mod line_range h + line_base h in
         Ok (true, set_bb true (set_line (u64 (line_num s + advance_line)) (set_address (u64 (address s + advance_address)) s)), 1, [])
  else if opcode =? 1 then Ok (true, set_bb false s, 1, [])
  else if opcode =? 2 then
    let! '(v, l) := ReadUnsignedLEB128 start in
    Ok (false, set_address (u64 (address s + u64 (min_insn_length h * v))) s, 1 + l, [])
  else if opcode =? 3 then
    let! '(v, l) := ReadSignedLEB128 wraps start in Ok (false, set_line (u64 (line_num s + v)) s, 1 + l, [])
  else if opcode =? 4 then
    let! '(v, l) := ReadUnsignedLEB128 start in Ok (false, set_file (u32 v) s, 1 + l, [])
  else if opcode =? 5 then
    let! '(v, l) := ReadUnsignedLEB128 start in Ok (false, set_column (u32 v) s, 1 + l, [])
  else if opcode =? 6 then Ok (false, set_stmt (negb (is_stmt s)) s, 1, [])
  else if opcode =? 7 then Ok (false, set_bb true s, 1, [])
  else if opcode =? 9 then
    let! v := ReadTwoBytes en start in Ok (false, set_address (u64 (address s + v)) s, 1 + 2, [])
  else if opcode =? 8 then
    if line_range h =? 0 then UB
    else Ok (false, set_address (u64 (address s + min_insn_length h * ((255 - opcode_base h) / line_range h))) s, 1, [])
  else if opcode =? 13 then
    let! '(_, l) := ReadSignedLEB128 wraps start in Ok (false, s, 1 + l, [])
  else if opcode =? 14 then
    let! '(_, l) := ReadSignedLEB128 wraps start in
    let! '(_, l') := ReadUnsignedLEB128 (from l start) in Ok (false, s, 1 + l + l', [])
  else if opcode =? 15 then Ok (false, s, 1, [])
  else if opcode =? 0 then
    let! '(extended_op_len, l) := ReadUnsignedLEB128 start in
    let oplen := u64 (1 + (l + extended_op_len)) in
    let start := from l start in
    let! extended_op := ReadOneByte start in
    let start := from 1 start in
    if extended_op =? 1 then Ok (true, set_end true s, oplen, [])
    else if extended_op =? 2 then
      let! a := ReadSized en address_size start in Ok (false, set_address a s, oplen, [])
    else if extended_op =? 3 then
      let! filename := cstr start in
      let start := from (zlen filename + 1) start in
      let! '(dirindex, l) := ReadUnsignedLEB128 start in
      let start := from l start in
      let! '(mod_time, l) := ReadUnsignedLEB128 start in
      let start := from l start in
      let! '(filelength, _) := ReadUnsignedLEB128 start in
      Ok (false, s, oplen, [EvFile filename (-1) (u32 dirindex) mod_time filelength])
    else if extended_op =? 4 then
      let! '(d, _) := ReadUnsignedLEB128 start in Ok (false, set_discriminator (u32 d) s, oplen, [])
    else Ok (false, s, oplen, [])
  else let! oplen := skip_ulebs (Z.to_nat (nth (Z.to_nat opcode) (std_opcode_lengths h) 0)) start 1 in Ok (false, s, oplen, []).

(** 2144-2171 ReadLines, ordinary table: [pos] is lineptr, [stop] is lengthstart +
    unit_length, both counted from the start of the buffer.  None: not finished
    after [fuel] opcodes.  [s] is None where the outer loop is entered. *)
Fixpoint read_lines (h : header) (fuel : nat) (buf : list Z) (pos stop : Z) (s : option lsm) (evs : list event) : option (outcome (list event)) :=
  match fuel with
  | O => None
  | S k =>
      match s with
      | None => if pos <? stop then read_lines h k buf pos stop (Some (Reset (default_is_stmt h))) evs else Some (Ok evs)
      | Some s =>
          if end_sequence s then read_lines h k buf pos stop None evs
          else match ProcessOneOpcode h (from pos buf) s with
               | Ok (add_line, s, oplength, calls) =>
                   let evs := evs ++ calls in
                   if add_line
                   then read_lines h k buf (pos + oplength) stop (Some (set_discriminator 0 (set_bb false s)))
                          (evs ++ [EvLine (address s) (file_num s) (u32 (line_num s)) (column_num s) (discriminator s) (end_sequence s)])
                   else read_lines h k buf (pos + oplength) stop (Some s) evs
               | Abort => Some Abort
               | UB => Some UB
               end
      end
  end.

(** *** The header: a computation that can find the unit malformed (None); the
    pointer is the list of the bytes up to the end of the buffer *)
Definition hbind {A B} (x : outcome (option A)) (f : A -> outcome (option B)) : outcome (option B) :=
  match x with Ok (Some a) => f a | Ok None => Ok None | Abort => Abort | UB => UB end.
(** 1300-1312 AdvanceLinePtr *)
Definition AdvanceLinePtr (incr : Z) (lineptr : list Z) : outcome (option (list Z)) :=
  if zlen lineptr <=? incr then Ok None else Ok (Some (from incr lineptr)).
Notation "'let?' x ':=' a 'in' b" := (hbind a (fun x => b)) (at level 200, x name, a at level 100, b at level 200).
Notation "'let?' ' p ':=' a 'in' b" := (hbind a (fun p => b)) (at level 200, p strict pattern, a at level 100, b at level 200).
Definition hlift {A} (x : outcome A) : outcome (option A) := let! a := x in Ok (Some a).
(** read with a reader that tells the length, then advance *)
Definition uleb (p : list Z) : outcome (option (Z * list Z)) :=
  let? '(v, l) := hlift (ReadUnsignedLEB128 p) in let? p := AdvanceLinePtr l p in Ok (Some (v, p)).
Definition byte (p : list Z) : outcome (option (Z * list Z)) :=
  let? v := hlift (ReadOneByte p) in let? p := AdvanceLinePtr 1 p in Ok (Some (v, p)).

(** 1533-1539 *)
Fixpoint read_lengths (n : nat) (p : list Z) : outcome (option (list Z * list Z)) :=
  match n with
  | O => Ok (Some ([], p))
  | S k => let? '(v, p) := byte p in let? '(vs, p) := read_lengths k p in Ok (Some (v :: vs, p))
  end.
(** 1544-1553: the directories of versions 2 to 4; [fuel] is the length of the
    buffer *)
Fixpoint read_dirs (fuel : nat) (dirindex : Z) (p : list Z) : outcome (option (list event * list Z)) :=
  match fuel with
  | O => UB
  | S k =>
      let? c := hlift (ReadOneByte p) in
      if c =? 0 then Ok (Some ([], p))
      else let? dirname := hlift (cstr p) in
           let? p := AdvanceLinePtr (zlen dirname + 1) p in
           let? '(evs, p) := read_dirs k (u32 (dirindex + 1)) p in
           Ok (Some (EvDir dirname dirindex :: evs, p))
  end.
(** 1560-1588 the files *)
Fixpoint read_files (fuel : nat) (fileindex : Z) (p : list Z) : outcome (option (list event * list Z)) :=
  match fuel with
  | O => UB
  | S k =>
      let? c := hlift (ReadOneByte p) in
      if c =? 0 then Ok (Some ([], p))
      else let? filename := hlift (cstr p) in
           let? p := AdvanceLinePtr (zlen filename + 1) p in
           let? '(dirindex, p) := uleb p in
           let? '(mod_time, p) := uleb p in
           let? '(filelength, p) := uleb p in
           let? '(evs, p) := read_files k (u32 (fileindex + 1)) p in
           Ok (Some (EvFile filename fileindex (u32 dirindex) mod_time filelength :: evs, p))
  end.

(** .debug_line_str and .debug_str, if they are there *)
Context (line_str str : option (list Z)).
(** 1314-1338 ReadTypesAndForms with max_types 4 *)
Fixpoint read_formats (n : nat) (p : list Z) : outcome (option (list (Z * Z) * list Z)) :=
  match n with
  | O => Ok (Some ([], p))
  | S k => let? '(t, p) := uleb p in let? '(f, p) := uleb p in
           let? '(l, p) := read_formats k p in Ok (Some ((u32 t, u32 f) :: l, p))
  end.
Definition ReadTypesAndForms (p : list Z) : outcome (option (list (Z * Z) * list Z)) :=
  let? '(count, p) := uleb p in
  let count := u32 count in
  if (count <? 1) || (4 <? count) then Ok None else read_formats (Z.to_nat count) p.
(** 1340-1433 ReadStringForm; [osz] is the offset size *)
Definition ReadStringForm (osz form : Z) (p : list Z) : outcome (option (dname * list Z)) :=
  if form =? 8 then
    let? s := hlift (cstr p) in let? p := AdvanceLinePtr (zlen s + 1) p in Ok (Some (s, p))
  else if form =? 31 then
    let? offset := hlift (ReadSized en osz p) in
    let? p := AdvanceLinePtr osz p in
    match line_str with
    | None => Ok None
    | Some t => let? s := hlift (cstr (from offset t)) in Ok (Some (s, p))
    end
  else if form =? 14 then
    match str with
    | None => Ok None
    | Some [] => Ok None
    | Some t => let? offset := hlift (ReadSized en osz p) in
                let? p := AdvanceLinePtr osz p in
                if offset <? zlen t then let? s := hlift (cstr (from offset t)) in Ok (Some (s, p)) else Ok None
    end
  else Ok None.
(** 1435-1458 ReadUnsignedForm *)
Definition ReadUnsignedForm (form : Z) (p : list Z) : outcome (option (Z * list Z)) :=
  if form =? 15 then uleb p
  else if form =? 11 then byte p
  else if form =? 5 then let? v := hlift (ReadTwoBytes en p) in let? p := AdvanceLinePtr 2 p in Ok (Some (v, p))
  else Ok None.
(** 1620-1638: one row of the version 5 directory table *)
Fixpoint read_dir_row (osz : Z) (cols : list (Z * Z)) (dirname : option dname) (p : list Z) : outcome (option (option dname * list Z)) :=
  match cols with
  | [] => Ok (Some (dirname, p))
  | (ty, form) :: cols =>
      if ty =? 1 then let? '(s, p) := ReadStringForm osz form p in read_dir_row osz cols (Some s) p else Ok None
  end.
Fixpoint read_dir_rows (osz : Z) (cols : list (Z * Z)) (n : nat) (row : Z) (p : list Z) : outcome (option (list event * list Z)) :=
  match n with
  | O => Ok (Some ([], p))
  | S k =>
      let? '(dirname, p) := read_dir_row osz cols None p in
      match dirname with
      | None => Ok None
      | Some s => let? '(evs, p) := read_dir_rows osz cols k (row + 1) p in Ok (Some (EvDir s row :: evs, p))
      end
  end.
(** 1660-1692: one row of the version 5 file table *)
Fixpoint read_file_row (osz : Z) (cols : list (Z * Z)) (filename : option dname) (dirindex : Z) (p : list Z) : outcome (option (option dname * Z * list Z)) :=
  match cols with
  | [] => Ok (Some (filename, dirindex, p))
  | (ty, form) :: cols =>
      if ty =? 1 then let? '(s, p) := ReadStringForm osz form p in read_file_row osz cols (Some s) dirindex p
      else if ty =? 2 then let? '(d, p) := ReadUnsignedForm form p in read_file_row osz cols filename d p
      else Ok None
  end.
Fixpoint read_file_rows (osz : Z) (cols : list (Z * Z)) (n : nat) (row : Z) (p : list Z) : outcome (option (list event * list Z)) :=
  match n with
  | O => Ok (Some ([], p))
  | S k =>
      let? '(filename, dirindex, p) := read_file_row osz cols None 0 p in
      match filename with
      | None => Ok None
      | Some s => let? '(evs, p) := read_file_rows osz cols k (row + 1) p in Ok (Some (EvFile s row (u32 dirindex) 0 0 :: evs, p))
      end
  end.

(** 1462-1858 ReadHeader: the header, the definitions, the rest of the buffer, and
    where the unit ends (lengthstart + unit_length, 2087-2094) *)
Definition ReadHeader (buffer : list Z) : outcome (option (header * list event * list Z * Z)) :=
  let? '(unit_length, initial_length_size, osz) := hlift (ReadInitialLength en buffer) in
  let? p := AdvanceLinePtr initial_length_size buffer in
  if zlen buffer <? initial_length_size + unit_length then Ok None
  else if address_size =? 0 then Ok None
  else
    let? version := hlift (ReadTwoBytes en p) in
    let? p := AdvanceLinePtr 2 p in
    if ((version <? 2) || (5 <? version)) && negb (version =? 61446) then Ok None
    else
      let? p := if version =? 5 then let? '(_, p) := byte p in let? '(_, p) := byte p in Ok (Some p) else Ok (Some p) in
      let? _ := hlift (ReadSized en osz p) in
      let? p := AdvanceLinePtr osz p in
      let? '(min_insn_length, p) := byte p in
      let? p := if 4 <=? version then let? '(_, p) := byte p in Ok (Some p) else Ok (Some p) in
      let? '(default_is_stmt, p) := byte p in
      let? '(line_base, p) := byte p in
      let? '(line_range, p) := byte p in
      let? '(opcode_base, p) := byte p in
      let? '(lengths, p) := read_lengths (Z.to_nat (opcode_base - 1)) p in
      let h := {| version := version; min_insn_length := min_insn_length; default_is_stmt := negb (default_is_stmt =? 0);
                  line_base := schar line_base; line_range := line_range; opcode_base := opcode_base;
                  std_opcode_lengths := 0 :: lengths |} in
      let stop := (if osz =? 8 then 12 else 4) + unit_length in
      if version =? 61446 then Ok None
      else if version =? 5 then
        let? '(cols, p) := ReadTypesAndForms p in
        let? '(count, p) := uleb p in
        let? '(dirs, p) := read_dir_rows osz cols (Z.to_nat (u32 count)) 1 p in
        let? '(cols, p) := ReadTypesAndForms p in
        let? '(count, p) := uleb p in
        let? '(files, p) := read_file_rows osz cols (Z.to_nat (u32 count)) 1 p in
        Ok (Some (h, dirs ++ files, p, stop))
      else
        let? '(dirs, p) := read_dirs (length p) 1 p in
        let? p := AdvanceLinePtr 1 p in
        let? '(files, p) := read_files (length p) 1 p in
        Ok (Some (h, dirs ++ files, from 1 p, stop)).

(** 1288-1298 Start: the calls of the handler and the number of bytes read *)
Definition Start (fuel : nat) (buffer : list Z) : option (outcome (list event * Z)) :=
  match ReadHeader buffer with
  | Ok None => Some (Ok ([], zlen buffer))
  | Ok (Some (h, evs, after_header, stop)) =>
      match read_lines h fuel buffer (zlen buffer - zlen after_header) stop None [] with
      | None => None
      | Some (Ok lines) => Some (Ok (evs ++ lines, stop))
      | Some Abort => Some Abort
      | Some UB => Some UB
      end
  | Abort => Some Abort
  | UB => Some UB
  end.
End Reader.

(** *** CULineInfoHandler and AddressToLineMap *)
(** directories and files of the unit; functioninfo.cc 54-61 Init *)
Record cu := { dirs : list dname; files : list (Z * dname) }.
Definition cu0 : cu := {| dirs := [[]]; files := [(0, [])] |}.
(** directory, file, line, discriminator (functioninfo.h 51-65 LineIdentifier) *)
Notation line_id := (dname * dname * Z * Z)%type (only parsing).
(** functioninfo.h 75-190: line_map_ and logical_lines_ *)
Record linemap := { line_map : list (Z * Z); logical_lines : list line_id }.
Definition linemap0 : linemap := {| line_map := []; logical_lines := [] |}.
(** 106-109 AddLine, 146-148 AddActual *)
Definition map_AddLine (a : Z) (l : line_id) (m : linemap) : linemap :=
  {| line_map := aset Z.eqb a (zlen (logical_lines m ++ [l])) (line_map m); logical_lines := logical_lines m ++ [l] |}.
Definition map_AddActual (a n : Z) (m : linemap) : linemap :=
  {| line_map := aset Z.eqb a n (line_map m); logical_lines := logical_lines m |}.

Section Handler.
Context (vaddr_of_first_load_segment : Z).
(** functioninfo.cc 67-85 ShouldAddAddress, sampled_functions_ == NULL *)
Definition ShouldAddAddress (a : Z) : bool := negb (a <? vaddr_of_first_load_segment).
(** int value of a uint32 *)
Definition s32 (x : Z) : Z := if x <? 2 ^ 31 then x else x - 2 ^ 32.
(** functioninfo.cc 87-91 DefineDir, 93-104 DefineFile, 158-185 AddLine *)
Definition handle (e : event) (st : cu * linemap) : outcome (cu * linemap) :=
  let '(c, m) := st in
  match e with
  | EvDir name num =>
      if num =? zlen (dirs c) then Ok ({| dirs := dirs c ++ [name]; files := files c |}, m) else Abort
  | EvFile name num dir _ _ =>
      if dir <? zlen (dirs c)
      then if (num =? zlen (files c)) || (num =? -1)
           then Ok ({| dirs := dirs c; files := files c ++ [(s32 dir, name)] |}, m)
           else Ok st
      else Abort
  | EvLine a file line _ disc end_ =>
      if negb (ShouldAddAddress a) then Ok st
      else if end_ then Ok (c, map_AddActual a 0 m)
      else if file <? zlen (files c)
           then let '(d, name) := nth (Z.to_nat file) (files c) (0, []) in
                if u64 d <? zlen (dirs c)
                then Ok (c, map_AddLine a (nth (Z.to_nat d) (dirs c) [], name, line, disc) m)
                else Ok st
           else Ok st
  end.
Fixpoint handle_all (evs : list event) (st : cu * linemap) : outcome (cu * linemap) :=
  match evs with [] => Ok st | e :: evs => let! st := handle e st in handle_all evs st end.
(** legacy_addr2line.cc 140-190: the units one after the other (the buffers start
    with them); each has its own handler, the address map is shared *)
Fixpoint read_units (en : endian) (address_size : Z) (wraps : bool) (line_str str : option (list Z)) (fuel : nat)
  (buffers : list (list Z)) (m : linemap) : option (outcome linemap) :=
  match buffers with
  | [] => Some (Ok m)
  | buffer :: buffers =>
      match Start en address_size wraps line_str str fuel buffer with
      | None => None
      | Some (Ok (evs, _)) =>
          match handle_all evs (cu0, m) with
          | Ok (_, m) => read_units en address_size wraps line_str str fuel buffers m
          | Abort => Some Abort
          | UB => Some UB
          end
      | Some Abort => Some Abort
      | Some UB => Some UB
      end
  end.
End Handler.

(** std::map: the entry before upper_bound(a), the one with the greatest key <= a *)
Fixpoint floor_entry (a : Z) (m : list (Z * Z)) : option (Z * Z) :=
  match m with
  | [] => None
  | (k, v) :: m' =>
      match floor_entry a m' with
      | Some (k', v') => if (k <=? a) && (k' <? k) then Some (k, v) else Some (k', v')
      | None => if k <=? a then Some (k, v) else None
      end
  end.
(** GetInlineStack (legacy_addr2line.cc): the innermost source position *)
Definition lookup (a : Z) (m : linemap) : outcome (option line_id) :=
  match floor_entry a (line_map m) with
  | None => Ok None
  | Some (_, n) =>
      if n =? 0 then Ok None
      else if (0 <? n) && (n <=? zlen (logical_lines m))
           then let '(d, f, line, disc) := nth (Z.to_nat (n - 1)) (logical_lines m) ([], [], 0, 0) in
                if line =? 0 then Ok None else Ok (Some (d, f, line, disc))
           else Abort
  end.
