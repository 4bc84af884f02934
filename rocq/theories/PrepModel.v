(** Model of InlineStackHandler as the handler of the debugging entry reader
    (util/symbolize/addr2line_inlinestack.cc 98-113 StartCompilationUnit, 188-239
    StartDIE and EndDIE, 241-500 the attributes; addr2line_inlinestack.h 180-260) and of
    Google3Addr2line::Prepare (legacy_addr2line.cc 77-189) and GetInlineStack on top of the
    contents of the sections.

    The state of the handler is that of DwTreeModel (entries), the line map and the names of the unit
    (DwLineModel) and the offset, base address, version and sizes of the unit.
    Simplifications: reading version 5 range lists and .dwo files are arbitrary functions
    ([rng5], [split]); a line table whose offset size differs from that of its unit changes the
    size in the ByteReader, here [UB]; a line program that never ends is [UB];
    there are no two-level line tables.  Line 398-411: if there is no .debug_line_str the code takes the
    string sections of the line reader from the end iterator, here the arbitrary value
    [junk].  Prepare does not load .debug_str_offsets. *)
From Verif Require Import Base ByteModel RangeMapModel DwarfRangesModel DwLineModel DwTreeModel DieModel.

(** The sections that are loaded, legacy_addr2line.cc 92-105. *)
Record elf := { e_info : list Z; e_abbrev : option (list Z); e_str : option (list Z); e_line_str : option (list Z); e_addr : option (list Z);
  e_line : option (list Z); e_ranges : option (list Z) }.
Definition die_sections (e : elf) : sections :=
  {| s_info := e_info e; s_abbrev := e_abbrev e; s_str := e_str e; s_line_str := e_line_str e; s_str_offsets := None; s_addr := e_addr e |}.

Record istate := { i_tree : DwTreeModel.state; i_names : cu; i_lines : linemap; i_offset : Z; i_base : Z; i_version : Z; i_asz : Z; i_osz : Z;
  i_str_base : Z; i_addr_base : Z; i_ranges_base : Z }.
Definition istate0 : istate := {| i_tree := state0; i_names := cu0; i_lines := linemap0; i_offset := 0; i_base := 0; i_version := 0; i_asz := 0; i_osz := 0;
  i_str_base := 0; i_addr_base := 0; i_ranges_base := 0 |}.
Definition set_tree (t : DwTreeModel.state) (st : istate) : istate :=
  {| i_tree := t; i_names := i_names st; i_lines := i_lines st; i_offset := i_offset st; i_base := i_base st; i_version := i_version st; i_asz := i_asz st; i_osz := i_osz st; i_str_base := i_str_base st; i_addr_base := i_addr_base st; i_ranges_base := i_ranges_base st |}.
Definition set_lines (c : cu) (m : linemap) (st : istate) : istate :=
  {| i_tree := i_tree st; i_names := c; i_lines := m; i_offset := i_offset st; i_base := i_base st; i_version := i_version st; i_asz := i_asz st; i_osz := i_osz st; i_str_base := i_str_base st; i_addr_base := i_addr_base st; i_ranges_base := i_ranges_base st |}.
Definition set_base (b : Z) (st : istate) : istate :=
  {| i_tree := i_tree st; i_names := i_names st; i_lines := i_lines st; i_offset := i_offset st; i_base := b; i_version := i_version st; i_asz := i_asz st; i_osz := i_osz st; i_str_base := i_str_base st; i_addr_base := i_addr_base st; i_ranges_base := i_ranges_base st |}.
Definition set_str_base (b : Z) (st : istate) : istate :=
  {| i_tree := i_tree st; i_names := i_names st; i_lines := i_lines st; i_offset := i_offset st; i_base := i_base st; i_version := i_version st; i_asz := i_asz st; i_osz := i_osz st; i_str_base := b; i_addr_base := i_addr_base st; i_ranges_base := i_ranges_base st |}.
Definition set_addr_base (b : Z) (st : istate) : istate :=
  {| i_tree := i_tree st; i_names := i_names st; i_lines := i_lines st; i_offset := i_offset st; i_base := i_base st; i_version := i_version st; i_asz := i_asz st; i_osz := i_osz st; i_str_base := i_str_base st; i_addr_base := b; i_ranges_base := i_ranges_base st |}.
Definition set_ranges_base (b : Z) (st : istate) : istate :=
  {| i_tree := i_tree st; i_names := i_names st; i_lines := i_lines st; i_offset := i_offset st; i_base := i_base st; i_version := i_version st; i_asz := i_asz st; i_osz := i_osz st; i_str_base := i_str_base st; i_addr_base := i_addr_base st; i_ranges_base := b |}.

(** dwarf2enums.h 22-90 *)
Definition tag_of (t : Z) : tag :=
  match t with 0x2e => TagSubprogram | 0x1d => TagInlined | 0x11 | 0x4a => TagUnit | _ => TagOther end.

Section Handler.
Context (en : endian) (e : elf) (vaddr : Z) (junk : option (list Z)) (rng5 : bool -> Z -> Z -> Z -> Z -> outcome (list (Z * Z))) (split : list Z -> istate -> outcome istate).
(** 98-113; legacy_addr2line.cc 142-147: new tables of names *)
Definition start_unit (offset asz osz len version : Z) (st : istate) : outcome (bool * istate) :=
  match h_stack (i_tree st) with
  | [] => Ok (true, {| i_tree := i_tree st; i_names := cu0; i_lines := i_lines st; i_offset := offset; i_base := 0; i_version := version; i_asz := asz; i_osz := osz;
                       i_str_base := i_str_base st; i_addr_base := i_addr_base st; i_ranges_base := i_ranges_base st |})
  | _ => Abort
  end.
Definition on_tree (a : attr) (st : istate) : outcome istate :=
  let! t := DwTreeModel.ProcessAttribute (i_offset st) (i_names st) a (i_tree st) in Ok (set_tree t st).
(** 241-258 ProcessAttributeString; constructing a string from a null pointer is undefined *)
Definition attr_string (name : Z) (d : option (list Z)) (st : istate) : outcome istate :=
  if name =? 0x1b then match d with None => UB | Some d => on_tree (ACompDir d) st end
  else match h_stack (i_tree st) with
       | [] => Ok st
       | back :: _ =>
           if (name =? 0x2007) || (name =? 0x6e) then match d with None => UB | Some d => on_tree (ALinkageName d) st end
           else if (name =? 0x03) && (match s_name (obj back (i_tree st)) with [] => true | _ => false end)
                then match d with None => UB | Some d => on_tree (AName d) st end
                else Ok st
       end.
(** 337-352, dwarf3ranges.cc 24-33: the base of .debug_addr is not passed on to lists at
    an offset *)
Definition read_ranges (form n : Z) (st : istate) : outcome (list (Z * Z)) :=
  if (form =? 0x17) || (form =? 0x06) || (form =? 0x07) then
    if 5 <=? i_version st then rng5 false n (i_base st) 0 (i_ranges_base st)
    else match e_ranges e with None => Abort | Some b => ReadDwarfRangeList en (i_asz st) b n (i_base st) [] end
  else if form =? 0x23 then rng5 true n (i_base st) (i_addr_base st) (i_ranges_base st) else Abort.
(** 386-426 DW_AT_stmt_list *)
Definition read_lines (n : Z) (st : istate) : outcome istate :=
  match e_line e with
  | None => Abort
  | Some b =>
      let buf := DieModel.at_pos n b in
      let str := match e_str e with None => None | Some _ => match e_line_str e with Some l => Some l | None => junk end end in
      let go :=
        match DwLineModel.Start en (i_asz st) true (e_line_str e) str (3 * length buf + 2) buf with
        | None => UB
        | Some r => let! '(evs, _) := r in let! '(c, m) := handle_all vaddr evs (i_names st, i_lines st) in Ok (set_lines c m st)
        end in
      match ReadInitialLength en buf with Ok (_, _, osz) => if osz =? i_osz st then go else UB | _ => go end
  end.
Definition short_form (form : Z) : bool := (form =? 0x0b) || (form =? 0x05) || (form =? 0x06).
(** 260-459 ProcessAttributeUnsigned *)
Definition attr_unsigned (name form n : Z) (st : istate) : outcome istate :=
  match h_stack (i_tree st) with
  | back :: _ =>
      match name with
      | 0x58 => on_tree (ACallFile false n) st
      | 0x2133 | 0x73 => Ok (set_addr_base n st)
      | 0x2132 | 0x74 => Ok (set_ranges_base n st)
      | 0x59 => if short_form form then on_tree (ACallLine false n) st else Abort
      | 0x2136 => if short_form form then on_tree (ADiscriminator n) st else Abort
      | 0x31 => if form =? 0x10 then on_tree (AAbstractOrigin true n) st else if form =? 0x13 then on_tree (AAbstractOrigin false n) st else Abort
      | 0x47 => if form =? 0x10 then on_tree (ASpecification true n) st else if form =? 0x13 then on_tree (ASpecification false n) st else Abort
      | 0x11 => on_tree (ALowPc n) st
      | 0x12 => on_tree (AHighPc n (negb (form =? 0x01))) st
      | 0x55 => match s_ranges (obj back (i_tree st)) with [] => let! l := read_ranges form n st in on_tree (ARanges l) st | _ => Abort end
      | 0x3b => on_tree (ADeclLine false n) st
      | _ => Ok st
      end
  | [] =>
      match h_dies (i_tree st) with
      | TagUnit :: _ =>
          match name with
          | 0x11 => Ok (set_base n st)
          | 0x10 => read_lines n st
          | 0x72 => Ok (set_str_base n st)
          | 0x55 => if (form =? 0x17) || (form =? 0x06) || (form =? 0x07) then Ok (set_ranges_base n st) else Abort
          | 0x2132 | 0x74 => Ok (set_ranges_base n st)
          | 0x2133 | 0x73 => Ok (set_addr_base n st)
          | _ => Ok st
          end
      | _ => Ok st
      end
  end.
(** 461-500 ProcessAttributeSigned *)
Definition attr_signed (name form n : Z) (st : istate) : outcome istate :=
  match name with
  | 0x58 => if form =? 0x21 then on_tree (ACallFile true n) st else Abort
  | 0x59 => if form =? 0x21 then on_tree (ACallLine true n) st else Abort
  | _ => Ok st
  end.
Definition inline_handler : handler istate := {|
  h_unit := start_unit;
  h_start := fun offset t _ st => let '(wanted, tr) := StartDIE offset (tag_of t) (i_tree st) in Ok (wanted, set_tree tr st);
  h_attr := fun _ name form v st => match v with VUnsigned n => attr_unsigned name form n st | VSigned n => attr_signed name form n st | VString d => attr_string name d st | VBuffer _ => Ok st end;
  h_end := fun _ st => let! tr := EndDIE (i_tree st) in Ok (set_tree tr st);
  h_str_base := i_str_base; h_set_str_base := set_str_base; h_addr_base := i_addr_base; h_set_addr_base := set_addr_base;
  h_split := split |}.

(** legacy_addr2line.cc 165-184: without .debug_info; [width] is the address size of the ELF
    file *)
Fixpoint read_line_section (fuel : nat) (width : Z) (p : list Z) (m : linemap) : outcome linemap :=
  match p with
  | [] => Ok m
  | _ =>
      match fuel with
      | O => UB
      | S fuel =>
          match DwLineModel.ReadHeader en width None None p with
          | Ok None => Ok m
          | _ =>
              match DwLineModel.Start en width true None None (3 * length p + 2) p with
              | None => UB
              | Some r =>
                  let! '(evs, n) := r in
                  let! '(_, m) := handle_all vaddr evs (cu0, m) in
                  if n =? 0 then Ok m else read_line_section fuel width (DieModel.at_pos n p) m
              end
          end
      end
  end.
(** 77-189 Prepare: subprograms, lines, addresses *)
Definition Prepare (width : Z) : outcome (DwTreeModel.state * linemap * list (rentry nat)) :=
  let! '(t, m) :=
    match e_info e with
    | [] => let! m := match e_line e with Some b => read_line_section (length b) width b linemap0 | None => Ok linemap0 end in Ok (state0, m)
    | _ => let! st := ReadUnits en inline_handler (die_sections e) istate0 in Ok (i_tree st, i_lines st)
    end in
  let! a := PopulateSubprogramsByAddress vaddr t in
  Ok (t, m, a).
(** Prepare, then GetInlineStack *)
Definition InlineStack (width : Z) (fuel : nat) (address : Z) : option (outcome (list source)) :=
  match Prepare width with
  | Ok (t, m, a) => GetInlineStack t fuel m a address
  | Abort => Some Abort
  | UB => Some UB
  end.
End Handler.
