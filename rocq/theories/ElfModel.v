(** Model of util/symbolize/elf_reader.cc: what the reader takes from the bytes
    of an ELF file, and of the symbol filter of symbol_map.cc BuildSymbolMap.
    The machine is little endian (as all that run the tools). A pointer into a
    mapped section is a position in the file; reading outside of the file is
    undefined. Log messages and the caching of section readers are left out. *)
From Verif Require Import Base ByteSpec SymbolModel.

(** the [n] bytes at [off] *)
Definition slice (f : list Z) (off n : Z) : list Z := firstn (Z.to_nat n) (skipn (Z.to_nat off) f).
(** pread(fd, buf, n, off) == n, and what was read *)
Definition pread (f : list Z) (n off : Z) : option (list Z) :=
  if off + n <=? zlen f then Some (slice f off n) else None.
(** a field of a structure *)
Definition field (bs : list Z) (off w : Z) : Z := le_value (slice bs off w).
(** conversion to int *)
Definition to_int (x : Z) : Z := let y := x mod 2 ^ 32 in if y <? 2 ^ 31 then y else y - 2 ^ 32.
(** the string at a position: up to the first NUL *)
Fixpoint cstring (bs : list Z) : outcome name :=
  match bs with
  | [] => UB
  | b :: bs' => if b =? 0 then Ok [] else let! n := cstring bs' in Ok (b :: n)
  end.
Definition string_at (f : list Z) (pos : Z) : outcome name :=
  if pos <? 0 then UB else cstring (skipn (Z.to_nat pos) f).

(** <elf.h> Elf32_Ehdr, Elf64_Ehdr (fields that are used) *)
Record ehdr := { e_type : Z; e_machine : Z; e_phoff : Z; e_shoff : Z; e_phnum : Z; e_shnum : Z; e_shstrndx : Z }.
(** Elf32_Shdr, Elf64_Shdr *)
Record shdr := { sh_name : Z; sh_type : Z; sh_flags : Z; sh_addr : Z; sh_offset : Z; sh_size : Z;
                 sh_link : Z; sh_info : Z; sh_addralign : Z; sh_entsize : Z }.
(** Elf32_Phdr, Elf64_Phdr *)
Record segment := { p_type : Z; p_flags : Z; p_offset : Z; p_vaddr : Z; p_paddr : Z; p_filesz : Z; p_memsz : Z; p_align : Z }.
(** Elf32_Sym, Elf64_Sym *)
Record elfsym := { st_name : Z; st_info : Z; st_other : Z; st_shndx : Z; st_value : Z; st_size : Z }.

Definition ehdr_size (is64 : bool) : Z := if is64 then 64 else 52.
Definition get_ehdr (is64 : bool) (b : list Z) : ehdr :=
  if is64 then
    {| e_type := field b 16 2; e_machine := field b 18 2; e_phoff := field b 32 8; e_shoff := field b 40 8;
       e_phnum := field b 56 2; e_shnum := field b 60 2; e_shstrndx := field b 62 2 |}
  else
    {| e_type := field b 16 2; e_machine := field b 18 2; e_phoff := field b 28 4; e_shoff := field b 32 4;
       e_phnum := field b 44 2; e_shnum := field b 48 2; e_shstrndx := field b 50 2 |}.
Definition shdr_size (is64 : bool) : Z := if is64 then 64 else 40.
Definition get_shdr (is64 : bool) (b : list Z) : shdr :=
  if is64 then
    {| sh_name := field b 0 4; sh_type := field b 4 4; sh_flags := field b 8 8; sh_addr := field b 16 8;
       sh_offset := field b 24 8; sh_size := field b 32 8; sh_link := field b 40 4; sh_info := field b 44 4;
       sh_addralign := field b 48 8; sh_entsize := field b 56 8 |}
  else
    {| sh_name := field b 0 4; sh_type := field b 4 4; sh_flags := field b 8 4; sh_addr := field b 12 4;
       sh_offset := field b 16 4; sh_size := field b 20 4; sh_link := field b 24 4; sh_info := field b 28 4;
       sh_addralign := field b 32 4; sh_entsize := field b 36 4 |}.
Definition phdr_size (is64 : bool) : Z := if is64 then 56 else 32.
Definition get_phdr (is64 : bool) (b : list Z) : segment :=
  if is64 then
    {| p_type := field b 0 4; p_flags := field b 4 4; p_offset := field b 8 8; p_vaddr := field b 16 8;
       p_paddr := field b 24 8; p_filesz := field b 32 8; p_memsz := field b 40 8; p_align := field b 48 8 |}
  else
    {| p_type := field b 0 4; p_flags := field b 24 4; p_offset := field b 4 4; p_vaddr := field b 8 4;
       p_paddr := field b 12 4; p_filesz := field b 16 4; p_memsz := field b 20 4; p_align := field b 28 4 |}.
Definition sym_size (is64 : bool) : Z := if is64 then 24 else 16.
Definition get_sym (is64 : bool) (b : list Z) : elfsym :=
  if is64 then
    {| st_name := field b 0 4; st_info := field b 4 1; st_other := field b 5 1; st_shndx := field b 6 2;
       st_value := field b 8 8; st_size := field b 16 8 |}
  else
    {| st_name := field b 0 4; st_info := field b 12 1; st_other := field b 13 1; st_shndx := field b 14 2;
       st_value := field b 4 4; st_size := field b 8 4 |}.
(** ELF32_ST_BIND, ELF32_ST_TYPE (the same for both classes) *)
Definition st_bind (s : elfsym) : Z := Z.shiftr (st_info s) 4.
Definition st_type (s : elfsym) : Z := Z.land (st_info s) 15.

(** consecutive structures of size [w] *)
Fixpoint entries {A} (n : nat) (w : Z) (get : list Z -> A) (bs : list Z) : list A :=
  match n with
  | O => []
  | S n' => get (slice bs 0 w) :: entries n' w get (skipn (Z.to_nat w) bs)
  end.

(** elf_reader.cc 287-318 IsArchElfFile *)
Definition IsArchElfFile (is64 : bool) (f : list Z) : bool :=
  match pread f 16 0 with
  | None => false
  | Some h =>
      name_eqb (slice h 0 4) [127; 69; 76; 70]
      && (nth 4 h 0 =? (if is64 then 2 else 1))
      && (nth 5 h 0 =? 1)
  end.

(** ElfReaderImpl: a section or program header table that was not read is None
    (a null pointer, or not initialised) *)
Record elf := { el_64 : bool; el_hdr : ehdr; el_first : shdr; el_sections : option (list shdr); el_segments : option (list segment) }.
Definition shdr0 : shdr := {| sh_name := 0; sh_type := 0; sh_flags := 0; sh_addr := 0; sh_offset := 0; sh_size := 0;
                              sh_link := 0; sh_info := 0; sh_addralign := 0; sh_entsize := 0 |}.

(** 512-514 HasManySections *)
Definition HasManySections (h : ehdr) : bool := e_shnum h =? 0.
(** 517-522 GetNumProgramHeaders *)
Definition GetNumProgramHeaders (h : ehdr) (first : shdr) : Z :=
  if HasManySections h && (e_phnum h =? 65535) && negb (sh_info first =? 0) then to_int (sh_info first) else e_phnum h.
(** 525-529 GetNumSections *)
Definition GetNumSections (h : ehdr) (first : shdr) : Z :=
  if HasManySections h then to_int (sh_size first) else e_shnum h.
(** 532-540 GetStringTableIndex *)
Definition GetStringTableIndex (h : ehdr) (first : shdr) : Z :=
  if HasManySections h then
    if e_shstrndx h =? 65535 then to_int (sh_link first)
    else if GetNumSections h first <=? e_shstrndx h then 0 else e_shstrndx h
  else e_shstrndx h.

(** 575-634 ParseHeaders; the result is ignored by the constructor (276), what
    was not read stays null. Simplification: a table whose size in bytes is not
    an int ends the program (the size wraps, allocation fails or the buffer
    overflows). *)
Definition ParseHeaders (is64 : bool) (f : list Z) : outcome elf :=
  let hdr := get_ehdr is64 (slice (f ++ repeat 0 64) 0 (ehdr_size is64)) in
  let fail first := Ok {| el_64 := is64; el_hdr := hdr; el_first := first; el_sections := None; el_segments := None |} in
  match pread f (ehdr_size is64) 0 with
  | None => fail shdr0
  | Some _ =>
      if negb ((e_type hdr =? 2) || (e_type hdr =? 3) || (e_type hdr =? 1)) then fail shdr0
      else if e_shoff hdr =? 0 then fail shdr0
      else
        let first := if e_shnum hdr =? 0 then pread f (shdr_size is64) (e_shoff hdr) else Some [] in
        match first with
        | None => fail (get_shdr is64 (slice (f ++ repeat 0 64) (e_shoff hdr) (shdr_size is64)))
        | Some b =>
            let first := if e_shnum hdr =? 0 then get_shdr is64 b else shdr0 in
            let size := GetNumSections hdr first * shdr_size is64 in
            if (size <? 0) || (2 ^ 31 <=? size) then Abort
            else match pread f size (e_shoff hdr) with
                 | None => fail first
                 | Some sb =>
                     let np := GetNumProgramHeaders hdr first in
                     if (np <? 0) || (2 ^ 31 <=? np * phdr_size is64) then Abort
                     else
                       Ok {| el_64 := is64; el_hdr := hdr; el_first := first;
                             el_sections := Some (entries (Z.to_nat (GetNumSections hdr first)) (shdr_size is64) (get_shdr is64) sb);
                             el_segments := match pread f (np * phdr_size is64) (e_phoff hdr) with
                                            | Some pb => Some (entries (Z.to_nat np) (phdr_size is64) (get_phdr is64) pb)
                                            | None => None
                                            end |}
                 end
        end
  end.

Section Reader.
  Variable page : Z.                     (* getpagesize() *)
  Variable f : list Z.
  Variable el : elf.
  Notation nsec := (GetNumSections (el_hdr el) (el_first el)).
  Notation stridx := (GetStringTableIndex (el_hdr el) (el_first el)).

  (** section_headers_[num] *)
  Definition header_of (num : Z) : outcome shdr :=
    if num <? 0 then UB else
    match el_sections el with
    | None => UB
    | Some l => match nth_error l (Z.to_nat num) with Some h => Ok h | None => UB end
    end.
  (** 128-145: mmap of no bytes at all fails *)
  Definition MapSection (h : shdr) : outcome unit :=
    if sh_size h + sh_offset h mod page =? 0 then Abort else Ok tt.
  (** 544-553 GetSectionName through 556-569 GetSection of the string table: the
      position of the name *)
  Definition GetSectionName (name_off : Z) : outcome name :=
    if negb (stridx <? nsec) then Abort else
    let! s := header_of stridx in
    let! _ := MapSection s in
    if sh_size s <? name_off then Abort else string_at f (sh_offset s + name_off).
  (** 556-569 GetSection; the name is looked up and not used *)
  Definition GetSection (num : Z) : outcome shdr :=
    if negb (num <? nsec) then Abort else
    let! h := header_of num in
    let! _ := if num =? stridx then Ok tt else
              (if negb (stridx <? nsec) then Abort else
               let! s := header_of stridx in
               let! _ := MapSection s in
               if sh_size s <? sh_name h then Abort else Ok tt) in
    let! _ := MapSection h in
    Ok h.
  (** 349-357 GetSectionByType: from section [k] on, [fuel] sections *)
  Fixpoint by_type (fuel : nat) (k t : Z) : outcome (option Z) :=
    match fuel with
    | O => Ok None
    | S fuel' =>
        let! h := header_of k in
        if sh_type h =? t then Ok (Some k) else by_type fuel' (k + 1) t
    end.
  (** 379-386 GetSectionIndexByType, -1 as None *)
  Definition GetSectionIndexByType (t start : Z) : outcome (option Z) :=
    by_type (Z.to_nat (nsec - start)) start t.

  (** 859-866 SectionNamesMatch *)
  Definition dot_debug : name := [46; 100; 101; 98; 117; 103; 95].         (* .debug_ *)
  Definition dot_zdebug : name := [46; 122; 100; 101; 98; 117; 103; 95].   (* .zdebug_ *)
  Definition has_prefix (p n : name) : bool := name_eqb (firstn (length p) n) p.
  Definition SectionNamesMatch (n sh : name) : bool :=
    if has_prefix dot_debug n && has_prefix dot_zdebug sh
    then name_eqb (skipn 7 n) (skipn 8 sh)
    else name_eqb n sh.

  (** 391-413 GetSectionContentsByName and 417-441 GetSectionInfoByName: the
      header of the section (its contents are the bytes at sh_offset) *)
  Variable is_dwp : bool.
  Fixpoint by_name (fuel : nat) (k : Z) (n : name) : outcome (option shdr) :=
    match fuel with
    | O => Ok None
    | S fuel' =>
        let shndx := if is_dwp then nsec - k - 1 else k in
        let! h := header_of shndx in
        let! sn := GetSectionName (sh_name h) in
        if SectionNamesMatch n sn then let! h := GetSection shndx in Ok (Some h)
        else by_name fuel' (k + 1) n
    end.
  Definition GetSectionInfoByName (n : name) : outcome (option shdr) := by_name (Z.to_nat nsec) 0 n.
  Definition GetSectionContentsByName (n : name) : outcome (option (list Z)) :=
    let! o := GetSectionInfoByName n in
    Ok (match o with Some h => Some (slice f (sh_offset h) (sh_size h)) | None => None end).

  (** 444-462 GetSegmentInfo *)
  Definition GetSegmentInfo : outcome (list segment) :=
    let n := GetNumProgramHeaders (el_hdr el) (el_first el) in
    if n <=? 0 then Ok [] else
    match el_segments el with Some l => Ok l | None => UB end.
  (** 466-479 VaddrOfFirstLoadSegment *)
  Definition VaddrOfFirstLoadSegment : outcome Z :=
    if e_type (el_hdr el) =? 1 then Ok 0 else
    let! l := GetSegmentInfo in
    Ok (match find (fun p => p_type p =? 1) l with Some p => p_vaddr p | None => 0 end).

  (** 636-655 AdjustSymbolValue *)
  Definition AdjustSymbolValue (s : elfsym) : Z :=
    if (e_machine (el_hdr el) =? 40) && (st_type s =? 2) then Z.land (st_value s) (- 2) else st_value s.

  (** 178-232 SymbolIterator and 320-343 VisitSymbols with symbol_binding and
      symbol_type -1: what the sink is given; [filter pos s] is the filter on the
      symbol whose name is at [pos] *)
  Variable filter : Z -> elfsym -> outcome bool.
  Fixpoint visit (fuel : nat) (i : Z) (sec str : shdr) : outcome (list (name * elfsym)) :=
    match fuel with
    | O => Ok []
    | S fuel' =>
        let pos := sh_offset sec + (i * sh_entsize sec) mod 2 ^ 32 in
        match pread f (sym_size (el_64 el)) pos with
        | None => UB
        | Some b =>
            let s := get_sym (el_64 el) b in
            if st_name s =? 0 then visit fuel' (i + 1) sec str
            else
              let npos := sh_offset str + st_name s in
              let! keep := filter npos s in
              if keep then
                let! n := string_at f npos in
                let! rest := visit fuel' (i + 1) sec str in
                Ok ((n, {| st_name := st_name s; st_info := st_info s; st_other := st_other s; st_shndx := st_shndx s;
                           st_value := AdjustSymbolValue s; st_size := st_size s |}) :: rest)
              else visit fuel' (i + 1) sec str
        end
    end.
  Definition VisitSymbolsOfType (t : Z) : outcome (list (name * elfsym)) :=
    let! o := by_type (Z.to_nat nsec) 0 t in
    match o with
    | None => Ok []
    | Some k =>
        let! sec := GetSection k in
        if sh_entsize sec =? 0 then UB else
        if sh_link sec =? 0 then Abort else
        let! str := GetSection (to_int (sh_link sec)) in
        visit (Z.to_nat (to_int (sh_size sec / sh_entsize sec))) 0 sec str
    end.
  (** 763-777 VisitSymbols: SHT_SYMTAB, then SHT_DYNSYM *)
  Definition VisitSymbols : outcome (list (name * elfsym)) :=
    let! a := VisitSymbolsOfType 2 in
    let! b := VisitSymbolsOfType 11 in
    Ok (a ++ b).
End Reader.

(** 868-930 GetBuildId: the notes of one section from [pos] to [stop]; [size] is
    the size of the section *)
Definition round_up_to_4 (n : Z) : Z := Z.land (n + 3) (- 4).
Definition hexdigit (d : Z) : Z := nth (Z.to_nat d) [48; 49; 50; 51; 52; 53; 54; 55; 56; 57; 97; 98; 99; 100; 101; 102] 0.
Definition hex (bs : list Z) : name := flat_map (fun b => [hexdigit (Z.shiftr b 4); hexdigit (Z.land b 15)]) bs.
Fixpoint notes (f : list Z) (fuel : nat) (pos stop size : Z) : outcome (list name) :=
  match fuel with
  | O => Ok []
  | S fuel' =>
      if pos + 12 <? stop then
        match pread f 12 pos with
        | None => UB
        | Some b =>
            let namesz := field b 0 4 in let descsz := field b 4 4 in let type := field b 8 4 in
            let next := pos + 12 + round_up_to_4 namesz + round_up_to_4 descsz in
            if (16 <=? size) && (type =? 3) && (namesz =? 4) && (descsz <=? 20) then
              match pread f 4 (pos + 12) with
              | None => UB
              | Some g =>
                  if name_eqb g [71; 78; 85; 0] then
                    match pread f descsz (pos + 16) with
                    | None => UB
                    | Some id => let! rest := notes f fuel' next stop size in Ok (hex id :: rest)
                    end
                  else notes f fuel' next stop size
              end
            else notes f fuel' next stop size
        end
      else Ok []
  end.
Fixpoint note_sections (page : Z) (f : list Z) (el : elf) (fuel : nat) (start : Z) : outcome (list name) :=
  match fuel with
  | O => Ok []
  | S fuel' =>
      let! o := GetSectionIndexByType el 7 start in
      match o with
      | None => Ok []
      | Some k =>
          let! h := GetSection page el k in
          let! ids := notes f (S (Z.to_nat (sh_size h))) (sh_offset h) (sh_offset h + sh_size h) (sh_size h) in
          let! rest := note_sections page f el fuel' (k + 1) in
          Ok (ids ++ rest)
      end
  end.
Definition GetBuildId (page : Z) (f : list Z) (el : elf) : outcome name :=
  let! ids := note_sections page f el (S (Z.to_nat (GetNumSections (el_hdr el) (el_first el)))) 0 in
  Ok (match ids with [id] => id | _ => [] end).

(** the file through the public class: IsElf32File, IsElf64File *)
Definition open_elf (f : list Z) : outcome (option elf) :=
  if IsArchElfFile false f then let! e := ParseHeaders false f in Ok (Some e)
  else if IsArchElfFile true f then let! e := ParseHeaders true f in Ok (Some e)
  else Ok None.

(** *** symbol_map.cc 500-509: the filter of BuildSymbolMap *)
Definition s_cold : name := [46; 99; 111; 108; 100].                     (* .cold *)
Definition s_plt : name := [64; 112; 108; 116].                          (* @plt *)
(** __llvm_fs_discriminator__ *)
Definition s_fs : name := [95; 95; 108; 108; 118; 109; 95; 102; 115; 95; 100; 105; 115; 99; 114; 105; 109; 105; 110; 97; 116; 111; 114; 95; 95].
Definition ends_with (n suf : name) : bool :=
  if zlen n <? zlen suf then false else name_eqb (skipn (length n - length suf) n) suf.
(** regex_search for "\.__part\.\d+$": a decimal number of at least one digit at
    the end, preceded by .__part. *)
Definition s_part : name := [46; 95; 95; 112; 97; 114; 116; 46].         (* .__part. *)
Definition is_digit (b : Z) : bool := (48 <=? b) && (b <=? 57).
Fixpoint drop_digits (r : name) : name :=
  match r with [] => [] | b :: r' => if is_digit b then drop_digits r' else r end.
Definition matches_part (n : name) : bool :=
  match rev n with
  | b :: _ => is_digit b && ends_with (rev (drop_digits (rev n))) s_part
  | [] => false
  end.
Definition symbol_filter (f : list Z) (pos : Z) (s : elfsym) : outcome bool :=
  let! n := string_at f pos in
  if name_eqb n s_fs then Ok true
  else if (st_size s =? 0) then Ok false
  else if negb ((st_type s =? 2) || ends_with n s_cold || matches_part n) then Ok false
  else let! t := string_at f (pos + zlen n - 4) in Ok (negb (name_eqb t s_plt)).

(** symbol_map.cc 494-511 BuildSymbolMap: the symbols that are added, in order *)
Definition binary_symbols (page : Z) (f : list Z) : outcome (list (name * Z * Z)) :=
  let! o := open_elf f in
  match o with
  | None => Ok []
  | Some el =>
      let! l := VisitSymbols page f el (symbol_filter f) in
      Ok (map (fun e => (fst e, st_value (snd e), st_size (snd e))) l)
  end.
