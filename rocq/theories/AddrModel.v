(** Model of the address translation and lookup of symbol_map.{h,cc} and
    instruction_map.{h,cc}. *)
From Verif Require Import Base ZMap.

(** One ELF program header: ElfReader::SegmentInfo (type is PT_LOAD, flags
    contain PF_X, file offset, virtual address). *)
Record phdr := { ph_load : bool; ph_exec : bool; ph_offset : Z; ph_vaddr : Z }.

(** symbol_map.cc 456-481 ReadLoadableExecSegmentInfo: the (offset, vaddr)
    pairs added by add_loadable_exec_segment (symbol_map.h 594-599), with the
    kernel's first segment offset subtracted.  The kernel-module case
    (483-492, no program headers at all) is not modelled. *)
Fixpoint exec_segments_from (is_kernel : bool) (koff : option Z) (l : list phdr)
  : list (Z * Z) :=
  match l with
  | [] => []
  | p :: l' =>
      if ph_load p && ph_exec p then
        let koff' := match koff with
                     | Some k => Some k
                     | None => if is_kernel then Some (ph_offset p) else None
                     end in
        let sub := match koff' with Some k => k | None => 0 end in
        (u64 (ph_offset p - sub), ph_vaddr p) :: exec_segments_from is_kernel koff' l'
      else exec_segments_from is_kernel koff l'
  end.
Definition ReadLoadableExecSegmentInfo (is_kernel : bool) (l : list phdr) : list (Z * Z) :=
  exec_segments_from is_kernel None l.

(** symbol_map.h 594-599: the assertion in add_loadable_exec_segment *)
Definition ascending_offsets (segs : list (Z * Z)) : Prop :=
  forall i j a b, (i < j)%nat -> nth_error segs i = Some a -> nth_error segs j = Some b ->
    fst a < fst b.

(** symbol_map.h 331-340 get_static_vaddr; the assert of line 338 (compiled in)
    aborts. *)
Fixpoint base_addr_loop (segs : list (Z * Z)) (offset base : Z) : Z :=
  match segs with
  | [] => base
  | (so, sv) :: segs' =>
      if offset <? so then base else base_addr_loop segs' offset (u64 (sv - so))
  end.
Definition get_static_vaddr (segs : list (Z * Z)) (offset : Z) : outcome Z :=
  let unset := w64 - 1 in
  let base := base_addr_loop segs offset unset in
  if base =? unset then Abort else Ok (u64 (offset + base)).

(** symbol_map.h 345-353 GetFileOffsetFromStaticVaddr: find_if for the first
    segment with vaddr > static_vaddr, then the one before it. *)
Fixpoint seg_before (segs : list (Z * Z)) (prev : option (Z * Z)) (vaddr : Z)
  : option (Z * Z) :=
  match segs with
  | [] => prev
  | (so, sv) :: segs' => if vaddr <? sv then prev else seg_before segs' (Some (so, sv)) vaddr
  end.
Definition GetFileOffsetFromStaticVaddr (segs : list (Z * Z)) (vaddr : Z) : outcome Z :=
  match seg_before segs None vaddr with
  | None => Abort
  | Some (so, sv) => Ok (u64 (so + vaddr - sv))
  end.

(** symbol_map.cc 426-454 SymbolReader::AddSymbol (the symbols that pass the
    filter of BuildSymbolMap 502-511): the first symbol at an address is kept
    in address_symbol_map_, further ones become aliases of it (name_alias_map_,
    here as the list of (kept name, alias) insertions). *)
Section Symbols.
Context {Name : Type}.
Record symtab := { st_map : list (Z * (Name * Z)); st_alias : list (Name * Name) }.
Definition symtab0 : symtab := {| st_map := []; st_alias := [] |}.
Definition AddElfSymbol (t : symtab) (name : Name) (address size : Z) : symtab :=
  match zfind address (st_map t) with
  | None => {| st_map := zinsert address (name, size) (st_map t); st_alias := st_alias t |}
  | Some (first, _) => {| st_map := st_map t; st_alias := st_alias t ++ [(first, name)] |}
  end.

(** symbol_map.cc 393-416 GetSymbolInfoByAddr: (name, start, end) *)
Definition GetSymbolInfoByAddr (m : list (Z * (Name * Z))) (addr : Z)
  : option (Name * Z * Z) :=
  match zpred addr m with
  | None => None
  | Some (start, (name, size)) =>
      if (start <=? addr) && (addr <? u64 (start + size))
      then Some (name, start, u64 (start + size)) else None
  end.

(** symbol_map.cc 418-424 GetSymbolNameByStartAddr *)
Definition GetSymbolNameByStartAddr (m : list (Z * (Name * Z))) (addr : Z) : option Name :=
  option_map fst (zfind addr m).
End Symbols.
Arguments symtab : clear implicits.

(** instruction_map.h 51-54 lookup: the index into inst_map_ *)
Definition inst_lookup (start_addr size addr : Z) : option Z :=
  let idx := u64 (addr - start_addr) in
  if idx <? size then Some idx else None.

(** instruction_map.cc 17-42 BuildPerFunctionInstructionMap, the resulting
    inst_map_ (source stacks by index; [stack_of] is Addr2line::GetInlineStack)
    and start_addr_.  The effect on the symbol map (AddSourceCount with count
    0) is not part of this definition. *)
Definition build_inst_map {A} (stack_of : Z -> A) (start_addr end_addr : Z) : Z * list A :=
  if end_addr <=? start_addr then (start_addr, [])
  else (start_addr,
        map (fun i => stack_of (start_addr + Z.of_nat i)) (seq 0 (Z.to_nat (end_addr - start_addr)))).

(** instruction_map.h 51-54 *)
Definition inst_info {A} (im : Z * list A) (addr : Z) : option A :=
  match inst_lookup (fst im) (zlen (snd im)) addr with
  | Some i => nth_error (snd im) (Z.to_nat i)
  | None => None
  end.
