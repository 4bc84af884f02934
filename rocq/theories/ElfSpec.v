(** The format of ELF files (System V gABI, chapter 4 and 5): what it means that a
    file holds given headers, sections and symbols. *)
From Verif Require Import Base ByteSpec DwarfRangesSpec SymbolModel ElfModel.

(** the bytes [bs] are in the file at [off] *)
Definition at_offset (f : list Z) (off : Z) (bs : list Z) : Prop :=
  exists pre post, f = pre ++ bs ++ post /\ zlen pre = off.
(** the string [n] with its end is there *)
Definition string_is (f : list Z) (off : Z) (n : name) : Prop :=
  Forall (fun b => b <> 0) n /\ at_offset f off (n ++ [0]).

(** numbers of [w] bytes *)
Definition num (w : nat) (v : Z) : Prop := 0 <= v < 256 ^ Z.of_nat w.
Notation le := le_bytes (only parsing).
(** addresses, offsets and sizes have the size of the class *)
Definition wide (is64 : bool) : nat := if is64 then 8%nat else 4%nat.

Definition ehdr_fits (is64 : bool) (h : ehdr) : Prop :=
  num 2 (e_type h) /\ num 2 (e_machine h) /\ num (wide is64) (e_phoff h) /\ num (wide is64) (e_shoff h) /\
  num 2 (e_phnum h) /\ num 2 (e_shnum h) /\ num 2 (e_shstrndx h).
(** file header; [pad], [entry], [flags] and [sizes] are not looked at *)
Definition enc_ehdr (is64 : bool) (h : ehdr) (pad : list Z) (version entry flags ehsize phentsize shentsize : Z) : list Z :=
  let w := wide is64 in
  [127; 69; 76; 70; (if is64 then 2 else 1); 1] ++ pad
  ++ le 2 (e_type h) ++ le 2 (e_machine h) ++ le 4 version ++ le w entry ++ le w (e_phoff h) ++ le w (e_shoff h)
  ++ le 4 flags ++ le 2 ehsize ++ le 2 phentsize ++ le 2 (e_phnum h) ++ le 2 shentsize ++ le 2 (e_shnum h) ++ le 2 (e_shstrndx h).

Definition shdr_fits (is64 : bool) (s : shdr) : Prop :=
  let w := wide is64 in
  num 4 (sh_name s) /\ num 4 (sh_type s) /\ num w (sh_flags s) /\ num w (sh_addr s) /\ num w (sh_offset s) /\
  num w (sh_size s) /\ num 4 (sh_link s) /\ num 4 (sh_info s) /\ num w (sh_addralign s) /\ num w (sh_entsize s).
Definition enc_shdr (is64 : bool) (s : shdr) : list Z :=
  let w := wide is64 in
  le 4 (sh_name s) ++ le 4 (sh_type s) ++ le w (sh_flags s) ++ le w (sh_addr s) ++ le w (sh_offset s) ++ le w (sh_size s)
  ++ le 4 (sh_link s) ++ le 4 (sh_info s) ++ le w (sh_addralign s) ++ le w (sh_entsize s).

Definition phdr_fits (is64 : bool) (p : segment) : Prop :=
  let w := wide is64 in
  num 4 (p_type p) /\ num 4 (p_flags p) /\ num w (p_offset p) /\ num w (p_vaddr p) /\ num w (p_paddr p) /\
  num w (p_filesz p) /\ num w (p_memsz p) /\ num w (p_align p).
Definition enc_phdr (is64 : bool) (p : segment) : list Z :=
  if is64 then
    le 4 (p_type p) ++ le 4 (p_flags p) ++ le 8 (p_offset p) ++ le 8 (p_vaddr p) ++ le 8 (p_paddr p)
    ++ le 8 (p_filesz p) ++ le 8 (p_memsz p) ++ le 8 (p_align p)
  else
    le 4 (p_type p) ++ le 4 (p_offset p) ++ le 4 (p_vaddr p) ++ le 4 (p_paddr p)
    ++ le 4 (p_filesz p) ++ le 4 (p_memsz p) ++ le 4 (p_flags p) ++ le 4 (p_align p).

Definition sym_fits (is64 : bool) (s : elfsym) : Prop :=
  let w := wide is64 in
  num 4 (st_name s) /\ num 1 (st_info s) /\ num 1 (st_other s) /\ num 2 (st_shndx s) /\ num w (st_value s) /\ num w (st_size s).
Definition enc_sym (is64 : bool) (s : elfsym) : list Z :=
  if is64 then
    le 4 (st_name s) ++ le 1 (st_info s) ++ le 1 (st_other s) ++ le 2 (st_shndx s) ++ le 8 (st_value s) ++ le 8 (st_size s)
  else
    le 4 (st_name s) ++ le 4 (st_value s) ++ le 4 (st_size s) ++ le 1 (st_info s) ++ le 1 (st_other s) ++ le 2 (st_shndx s).

(** The numbers of sections and segments and the index of the section of names
    are in the file header or, if they are too big, in the first section header. *)
Definition counted (h : ehdr) (shs : list shdr) (phs : list segment) (stridx : Z) : Prop :=
  exists first rest, shs = first :: rest /\
    (if e_shnum h =? 0 then sh_size first = zlen shs else e_shnum h = zlen shs) /\
    (if e_phnum h =? 65535 then sh_info first = zlen phs else e_phnum h = zlen phs) /\
    (e_phnum h = 65535 -> 65535 <= zlen phs) /\
    (if e_shstrndx h =? 65535 then sh_link first = stridx else e_shstrndx h = stridx) /\
    (e_shstrndx h = 65535 -> e_shnum h = 0) /\ 0 <= stridx < zlen shs.

(** [f] is an ELF file with these headers (an executable, shared object or
    relocatable object; the tables are smaller than 2 GiB) *)
Definition elf_file (is64 : bool) (h : ehdr) (shs : list shdr) (phs : list segment) (stridx : Z) (f : list Z) : Prop :=
  ehdr_fits is64 h /\ Forall (shdr_fits is64) shs /\ Forall (phdr_fits is64) phs /\
  (exists pad version entry flags ehsize phentsize shentsize, zlen pad = 10 /\
     at_offset f 0 (enc_ehdr is64 h pad version entry flags ehsize phentsize shentsize)) /\
  (e_type h = 1 \/ e_type h = 2 \/ e_type h = 3) /\
  0 < e_shoff h /\ at_offset f (e_shoff h) (concat (map (enc_shdr is64) shs)) /\
  at_offset f (e_phoff h) (concat (map (enc_phdr is64) phs)) /\
  counted h shs phs stridx /\ zlen shs < 2 ^ 24 /\ zlen phs < 2 ^ 24.

(** the name of a section *)
Definition section_named (f : list Z) (shs : list shdr) (stridx : Z) (s : shdr) (n : name) : Prop :=
  exists str, nth_error shs (Z.to_nat stridx) = Some str /\ sh_name s <= sh_size str /\
    string_is f (sh_offset str + sh_name s) n.
(** sections can be mapped unless they are empty and at the start of a page *)
Definition mappable (page : Z) (s : shdr) : Prop := 0 < sh_size s \/ sh_offset s mod page <> 0.
(** ".debug_x" may be stored compressed as ".zdebug_x" *)
Definition names_section (n sn : name) : Prop :=
  sn = n \/ exists x, n = [46; 100; 101; 98; 117; 103; 95] ++ x /\ sn = [46; 122; 100; 101; 98; 117; 103; 95] ++ x.

(** a table of symbols: its section, the section of its names *)
Definition symbol_table (is64 : bool) (f : list Z) (sec str : shdr) (syms : list elfsym) : Prop :=
  Forall (sym_fits is64) syms /\ at_offset f (sh_offset sec) (concat (map (enc_sym is64) syms)) /\
  sh_entsize sec = (if is64 then 24 else 16) /\ sh_size sec = sh_entsize sec * zlen syms /\
  sh_size sec < 2 ^ 31 /\ 52 <= sh_offset str.
(** the symbols of the table with their names (those that have one) *)
Inductive named_symbols (f : list Z) (str : shdr) : list elfsym -> list (name * elfsym) -> Prop :=
| ns_nil : named_symbols f str [] []
| ns_skip s l r : st_name s = 0 -> named_symbols f str l r -> named_symbols f str (s :: l) r
| ns_name s l n r : st_name s <> 0 -> string_is f (sh_offset str + st_name s) n -> named_symbols f str l r ->
    named_symbols f str (s :: l) ((n, s) :: r).

(** the address of a symbol: without the Thumb bit of functions on ARM *)
Definition symbol_address (h : ehdr) (s : elfsym) : Z :=
  if (e_machine h =? 40) && (st_info s mod 16 =? 2) && Z.odd (st_value s) then st_value s - 1 else st_value s.

(** which symbols of a binary are functions: of type function, or parts of one *)
Definition part_suffix (n : name) : Prop :=
  exists p d, n = p ++ [46; 95; 95; 112; 97; 114; 116; 46] ++ d /\ d <> [] /\ Forall (fun b => 48 <= b <= 57) d.
Definition cold_suffix (n : name) : Prop := exists p, n = p ++ [46; 99; 111; 108; 100].
Definition plt_suffix (n : name) : Prop := exists p, n = p ++ [64; 112; 108; 116].
(** __llvm_fs_discriminator__ *)
Definition fs_discriminator_symbol : name :=
  [95; 95; 108; 108; 118; 109; 95; 102; 115; 95; 100; 105; 115; 99; 114; 105; 109; 105; 110; 97; 116; 111; 114; 95; 95].
Definition function_symbol (n : name) (s : elfsym) : Prop :=
  n = fs_discriminator_symbol \/
  (st_size s <> 0 /\ (st_info s mod 16 = 2 \/ cold_suffix n \/ part_suffix n) /\ ~ plt_suffix n).

(** the section at index [i] is one that [n] asks for *)
Definition section_matches (f : list Z) (shs : list shdr) (stridx : Z) (n : name) (i : nat) (s : shdr) : Prop :=
  exists sn, nth_error shs i = Some s /\ section_named f shs stridx s sn /\ names_section n sn.

(** [named] are the named symbols of the first section of type [t] of the file,
    if there is one, whose names are in the section it is linked to *)
Definition symbols_of (is64 : bool) (page : Z) (f : list Z) (shs : list shdr) (t : Z) (named : list (name * elfsym)) : Prop :=
  (Forall (fun s => sh_type s <> t) shs /\ named = []) \/
  (exists before sec after str syms,
     shs = before ++ sec :: after /\ Forall (fun s => sh_type s <> t) before /\ sh_type sec = t /\
     0 < sh_link sec < zlen shs /\ nth_error shs (Z.to_nat (sh_link sec)) = Some str /\
     mappable page sec /\ mappable page str /\
     symbol_table is64 f sec str syms /\ named_symbols f str syms named).

(** short names are not the tail of another name: a NUL comes before them *)
Definition names_apart (f : list Z) (shs : list shdr) (named : list (name * elfsym)) : Prop :=
  forall n s str, In (n, s) named -> zlen n < 4 -> In str shs -> string_is f (sh_offset str + st_name s) n ->
    at_offset f (sh_offset str + st_name s - 1) [0].

(** every section has a name, and the section of the names is not empty *)
Definition named_sections (page : Z) (f : list Z) (shs : list shdr) (stridx : Z) : Prop :=
  page > 0 /\ (exists str, nth_error shs (Z.to_nat stridx) = Some str /\ mappable page str) /\
  forall s, In s shs -> exists n, section_named f shs stridx s n.

(** notes: name, type, descriptor (the sizes of name and descriptor in front;
    both are padded to four bytes) *)
Notation note := (list Z * Z * list Z)%type (only parsing).
Definition pad4 (bs : list Z) : list Z := bs ++ repeat 0 ((4 - length bs mod 4) mod 4).
Definition enc_note (n : note) : list Z :=
  let '(nm, t, d) := n in
  le 4 (zlen nm) ++ le 4 (zlen d) ++ le 4 t ++ pad4 nm ++ pad4 d.
Definition note_fits (n : note) : Prop :=
  let '(nm, t, d) := n in num 4 (zlen nm) /\ num 4 (zlen d) /\ num 4 t /\ Forall is_byte nm /\ Forall is_byte d.
(** the identifier of a build: a note of GNU of type 3, of at most 20 bytes *)
Definition is_build_id (n : note) (d : list Z) : Prop := n = ([71; 78; 85; 0], 3, d) /\ zlen d <= 20.
Definition lower_hex (c : Z) : Z := if c <? 10 then 48 + c else 87 + c.
Definition hex_of (bs : list Z) : list Z := concat (map (fun b => [lower_hex (b / 16); lower_hex (b mod 16)]) bs).
(** the notes of a file: those of its note sections *)
Inductive file_notes (f : list Z) (page : Z) : list shdr -> list note -> Prop :=
| fn_nil : file_notes f page [] []
| fn_other s l ns : sh_type s <> 7 -> file_notes f page l ns -> file_notes f page (s :: l) ns
| fn_notes s l a ns : sh_type s = 7 -> mappable page s -> Forall note_fits a ->
    at_offset f (sh_offset s) (concat (map enc_note a)) -> sh_size s = zlen (concat (map enc_note a)) ->
    file_notes f page l ns -> file_notes f page (s :: l) (a ++ ns).
(** the identifiers among the notes, in order *)
Inductive build_ids : list note -> list (list Z) -> Prop :=
| bi_nil : build_ids [] []
| bi_id n d ns ids : is_build_id n d -> build_ids ns ids -> build_ids (n :: ns) (d :: ids)
| bi_other n ns ids : (forall d, ~ is_build_id n d) -> build_ids ns ids -> build_ids (n :: ns) ids.
