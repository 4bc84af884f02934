(** What a binary says about its functions, segments and inline stacks, for the
    statement of C66: ELF (ElfSpec) and DWARF (DieSpec, PrepSpec, DwTreeSpec,
    DwLineSpec) put together. *)
From Coq Require Import Ascii String.
From Verif Require Import Base SymbolModel AddrProps CreateSpec DwLineModel DwLineSpec DwTreeModel DwTreeSpec PrepModel PrepProps ElfModel ElfSpec.

Definition text (s : string) : list Z := List.map (fun c => Z.of_nat (nat_of_ascii c)) (list_ascii_of_string s).

(** the contents of the first section of this name *)
Definition section_content (page : Z) (f : list Z) (shs : list shdr) (stridx : Z) (n : string) (o : option (list Z)) : Prop :=
  (o = None /\ forall i s, ~ section_matches f shs stridx (text n) i s) \/
  (exists i s bs, o = Some bs /\ section_matches f shs stridx (text n) i s /\ mappable page s /\
     (forall j s', section_matches f shs stridx (text n) j s' -> (i <= j)%nat) /\
     ElfSpec.at_offset f (sh_offset s) bs /\ zlen bs = sh_size s).
(** the debugging information of the file is [e] *)
Definition debug_info_is (page : Z) (f : list Z) (shs : list shdr) (stridx : Z) (e : PrepModel.elf) : Prop :=
  let sec := section_content page f shs stridx in
  sec ".debug_info"%string (Some (e_info e)) /\ sec ".debug_abbrev"%string (e_abbrev e) /\ sec ".debug_str"%string (e_str e) /\
  sec ".debug_line_str"%string (e_line_str e) /\ sec ".debug_addr"%string (e_addr e) /\ sec ".debug_line"%string (e_line e) /\
  sec ".debug_ranges"%string (e_ranges e) /\ exists o, sec ".debug_rnglists"%string o.

(** the functions among the named symbols *)
Definition functions_are (h : ehdr) (named : list (name * elfsym)) (funcs : list (name * Z * Z)) : Prop :=
  forall f, In f funcs <->
    exists n s, In (n, s) named /\ function_symbol n s /\ f = (n, symbol_address h s, st_size s).

(** the executable segments *)
Definition executable_segments (phs : list segment) : list seg :=
  List.map (fun p => {| sg_off := p_offset p; sg_vaddr := p_vaddr p; sg_size := p_filesz p |})
    (filter (fun p => (p_type p =? 1) && Z.odd (p_flags p)) phs).
(** the address at which the file is loaded *)
Definition load_address (h : ehdr) (phs : list segment) : Z :=
  if e_type h =? 1 then 0 else match find (fun p => p_type p =? 1) phs with Some p => p_vaddr p | None => 0 end.

(** frames without directories and files *)
Definition frame_of (s : source) : sinfo :=
  let '(n, _, _, start, line, disc) := s in
  {| si_func := match n with Some n => n | None => [] end; si_start := start; si_line := line; si_disc := disc |}.
(** the inline stack of an address, from the functions [forest] and the line
    sequences [kept] *)
Inductive inline_stack (vaddr : Z) (forest : DwTreeSpec.forest) (kept : list sequence) (a : Z) : list sinfo -> Prop :=
| is_function place path fs : position kept a (Some place) -> stack_at vaddr a forest path -> frames forest place path fs ->
    inline_stack vaddr forest kept a (List.map frame_of fs)
| is_outside dir file line disc : position kept a (Some (dir, file, line, disc)) -> nowhere vaddr a forest ->
    inline_stack vaddr forest kept a [{| si_func := []; si_start := 0; si_line := line; si_disc := disc |}]
| is_unknown : position kept a None -> inline_stack vaddr forest kept a [].
