(** Model of create_gcov from the bytes of the binary and of the sample file:
    profile_creator.cc 118-235 CreateProfile and ComputeProfile, on top of the ELF
    reader (ElfModel), Google3Addr2line (PrepModel) and CreateModel. create_gcov is
    the tool that is built without LLVM (CMakeLists.txt 46-120): discriminators
    are taken as they are and the duplication factor is one (source_info.h 38-64).
    Simplifications: a failure while the inline stack of any byte of a function is
    computed is a failure of the run (the code asks for the stacks of reported
    functions only, instruction_map.cc 24-38); kernel modules without program
    headers (symbol_map.cc 483-492) are left out. *)
From Verif Require Import Base ByteModel SymbolModel ElideModel AddrModel AfdoModel CreateModel DwTreeModel PrepModel ElfModel.

(** legacy_addr2line.cc 92-95 *)
Definition n_line : name := [46; 100; 101; 98; 117; 103; 95; 108; 105; 110; 101].                              (* .debug_line *)
Definition n_abbrev : name := [46; 100; 101; 98; 117; 103; 95; 97; 98; 98; 114; 101; 118].                      (* .debug_abbrev *)
Definition n_info : name := [46; 100; 101; 98; 117; 103; 95; 105; 110; 102; 111].                              (* .debug_info *)
Definition n_str : name := [46; 100; 101; 98; 117; 103; 95; 115; 116; 114].                                  (* .debug_str *)
Definition n_ranges : name := [46; 100; 101; 98; 117; 103; 95; 114; 97; 110; 103; 101; 115].                    (* .debug_ranges *)
Definition n_addr : name := [46; 100; 101; 98; 117; 103; 95; 97; 100; 100; 114].                              (* .debug_addr *)
Definition n_rnglists : name := [46; 100; 101; 98; 117; 103; 95; 114; 110; 103; 108; 105; 115; 116; 115].        (* .debug_rnglists *)
Definition n_line_str : name := [46; 100; 101; 98; 117; 103; 95; 108; 105; 110; 101; 95; 115; 116; 114].        (* .debug_line_str *)

Section Binary.
  Variable page : Z.                        (* getpagesize() *)
  Variable junk : option (list Z).          (* see PrepModel *)
  Variable rng5 : list Z -> bool -> Z -> Z -> Z -> Z -> outcome (list (Z * Z)).
  Variable split : list Z -> istate -> outcome istate.
  Variable fuel : nat.

  (** legacy_addr2line.cc 77-119: the sections; the lists of .debug_rnglists are
      read by [rng5] (see PrepModel) *)
  Definition load_sections (f : list Z) (el : ElfModel.elf) : outcome (PrepModel.elf * list Z) :=
    let get n := GetSectionContentsByName page f el false n in
    let! line := get n_line in
    let! abbrev := get n_abbrev in
    let! info := get n_info in
    let! str := get n_str in
    let! ranges := get n_ranges in
    let! addr := get n_addr in
    let! rnglists := get n_rnglists in
    let! line_str := get n_line_str in
    Ok ({| e_info := match info with Some b => b | None => [] end; e_abbrev := abbrev; e_str := str; e_line_str := line_str;
           e_addr := addr; e_line := line; e_ranges := ranges |}, match rnglists with Some b => b | None => [] end).

  (** source_info.h 27-37; the name of a frame without one (a null pointer) is
      not used, as it is the only frame (legacy_addr2line.cc 206-259) *)
  Definition sinfo_of (s : source) : sinfo :=
    let '(n, _, _, start, line, disc) := s in SInfo (match n with Some n => n | None => [] end) start line disc.

  (** Addr2line::Create, then GetInlineStack *)
  Definition binary_stack (f : list Z) (el : ElfModel.elf) (e : PrepModel.elf) (rnglists : list Z) (vaddr a : Z) : outcome (list sinfo) :=
    match InlineStack LittleEndian e vaddr junk (rng5 rnglists) split (if el_64 el then 8 else 4) fuel a with
    | Some (Ok l) => Ok (map sinfo_of l)
    | Some Abort => Abort
    | _ => UB
    end.

  (** symbol_map.cc 456-481: PT_LOAD, PF_X *)
  Definition phdr_of (p : segment) : phdr :=
    {| ph_load := p_type p =? 1; ph_exec := negb (Z.land (p_flags p) 1 =? 0); ph_offset := p_offset p; ph_vaddr := p_vaddr p |}.

  (** all stacks are computed *)
  Fixpoint all_ok (stack : Z -> outcome (list sinfo)) (l : list Z) : outcome unit :=
    match l with
    | [] => Ok tt
    | a :: l' => let! _ := stack a in all_ok stack l'
    end.
  Definition addresses (syms : list (name * Z * Z)) : list Z :=
    flat_map (fun '(_, a, z) => map (fun i => a + Z.of_nat i) (seq 0 (Z.to_nat z))) syms.

  Variable pol : policy.
  Variable use_lbr : bool.
  Variable frac : Z -> Z.
  Variable version : Z.
  Variable extras_of : smap -> extras.

  (** profile_creator.cc 118-148, 206-222; None: the binary is not an ELF file or
      the sample file cannot be read *)
  Definition create_gcov_binary (binary file : list Z) : outcome (option (list Z)) :=
    let! syms := binary_symbols page binary in
    let! o := open_elf binary in
    match o with
    | None => Ok None
    | Some el =>
        let! segs := GetSegmentInfo el in
        let! '(e, rnglists) := load_sections binary el in
        let! vaddr := VaddrOfFirstLoadSegment el in
        let stack := binary_stack binary el e rnglists vaddr in
        let! _ := all_ok stack (addresses syms) in
        create_gcov (fun d => d) pol (fun a => match stack a with Ok l => l | _ => [] end) (fun _ => 1) use_lbr frac version extras_of
          syms (map phdr_of segs) false file
    end.
End Binary.
