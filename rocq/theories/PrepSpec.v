(** What the debugging entries of a binary (DieSpec) say about functions, inlined calls and
    line tables (DWARF 4, sections 2.13-2.17, 3.1-3.3): the entries of DwTreeSpec. *)
From Verif Require Import Base ByteModel ByteSpec DwarfRangesSpec DwLineModel DwLineSpec DwTreeModel DieModel DieSpec PrepModel.

Section Decode.
Context (en : endian) (e : elf).
(** *** Strings *)
Definition string_at (sec : option (list Z)) (offset : Z) (s : list Z) : Prop :=
  exists before after, sec = Some (before ++ s ++ 0 :: after) /\ zlen before = offset /\ ~ In 0 s.
Inductive text : item -> list Z -> Prop :=
| tx_here s : text (IString s) s
| tx_strp o s : string_at (e_str e) o s -> text (IStrp o) s
| tx_line_strp o s : string_at (e_line_str e) o s -> text (ILineStrp o) s.

Context (u : dunit).
(** A constant in the abbreviation. *)
Definition constant (a : decl_attr) (real : Z) (it : item) (n : Z) : Prop :=
  it = IConst /\ real = 0x21 /\ DieSpec.u_version u = 5 /\ a_const a = n /\ 0 <= n < 2 ^ 32.
(** A value that can be read, whatever it is. *)
Inductive readable (a : decl_attr) (real : Z) : item -> Prop :=
| rb_text it s : text it s -> readable a real it
| rb_unsigned n : readable a real (IUnsigned n)
| rb_signed n : readable a real (ISigned n)
| rb_block b : readable a real (IBlock b)
| rb_wide : readable a real IWide
| rb_const n : constant a real IConst n -> readable a real IConst.
(** The attributes of functions that matter here, and those about bases and other files. *)
Definition used_names : list Z :=
  [0x03; 0x11; 0x12; 0x1b; 0x31; 0x3b; 0x47; 0x55; 0x58; 0x59; 0x6e; 0x73; 0x74; 0x76; 0x2007; 0x2130; 0x2132; 0x2133; 0x2136].
Definition data124 (form : Z) : Prop := In form [0x0b; 0x05; 0x06].
Definition offset_form (form : Z) : Prop := In form [0x17; 0x06; 0x07].

(** *** The attributes of a function or an inlined call; [base] is the base address of the unit *)
Inductive attr_says (base : Z) (a : decl_attr) (real : Z) : item -> list attr -> Prop :=
| as_name it s : a_name a = 0x03 -> text it s -> attr_says base a real it [AName s]
| as_linkage it s : In (a_name a) [0x6e; 0x2007] -> text it s -> attr_says base a real it [ALinkageName s]
| as_call_file n : a_name a = 0x58 -> attr_says base a real (IUnsigned n) [ACallFile false n]
| as_call_file_c it n : a_name a = 0x58 -> constant a real it n -> attr_says base a real it [ACallFile true n]
| as_call_line n : a_name a = 0x59 -> data124 real -> attr_says base a real (IUnsigned n) [ACallLine false n]
| as_call_line_c it n : a_name a = 0x59 -> constant a real it n -> attr_says base a real it [ACallLine true n]
| as_discr n : a_name a = 0x2136 -> data124 real -> attr_says base a real (IUnsigned n) [ADiscriminator n]
| as_origin n absolute : a_name a = 0x31 -> real = (if absolute : bool then 0x10 else 0x13) -> attr_says base a real (IUnsigned n) [AAbstractOrigin absolute n]
| as_spec n absolute : a_name a = 0x47 -> real = (if absolute : bool then 0x10 else 0x13) -> attr_says base a real (IUnsigned n) [ASpecification absolute n]
| as_low n : a_name a = 0x11 -> attr_says base a real (IUnsigned n) [ALowPc n]
| as_high_address n : a_name a = 0x12 -> real = 0x01 -> attr_says base a real (IUnsigned n) [AHighPc n false]
| as_high_length n : a_name a = 0x12 -> real <> 0x01 -> attr_says base a real (IUnsigned n) [AHighPc n true]
| as_ranges n before xs after : a_name a = 0x55 -> offset_form real -> DieSpec.u_version u < 5 ->
    e_ranges e = Some (before ++ enc4_list en (u_asz u) xs ++ after) -> zlen before = n -> Forall (rle4_ok (u_asz u)) xs ->
    attr_says base a real (IUnsigned n) [ARanges (denote4 base xs)]
| as_decl_line n : a_name a = 0x3b -> attr_says base a real (IUnsigned n) [ADeclLine false n]
| as_decl_line_s n : a_name a = 0x3b -> attr_says base a real (ISigned n) [ADeclLine true n]
| as_decl_line_c it n : a_name a = 0x3b -> constant a real it n -> attr_says base a real it [ADeclLine true n]
| as_other it : ~ In (a_name a) used_names -> readable a real it -> attr_says base a real it [].
Inductive items_say (base : Z) : list decl_attr -> list (Z * item) -> list attr -> Prop :=
| is_nil : items_say base [] [] []
| is_cons a l real it its x xs : attr_says base a real it x -> items_say base l its xs -> items_say base (a :: l) ((real, it) :: its) (x ++ xs).

(** *** Entries: DW_TAG_subprogram is 0x2e, DW_TAG_inlined_subroutine 0x1d *)
Inductive decodes (base : Z) : list tree -> list die -> Prop :=
| dc_nil : decodes base [] []
| dc_sub off d items kids l attrs ks ds : d_tag d = 0x2e -> items_say base (d_attrs d) items attrs -> decodes base kids ks -> decodes base l ds ->
    decodes base (Tree off d items kids :: l) (Die off TagSubprogram attrs ks :: ds)
| dc_inl off d items kids l attrs ks ds : d_tag d = 0x1d -> items_say base (d_attrs d) items attrs -> decodes base kids ks -> decodes base l ds ->
    decodes base (Tree off d items kids :: l) (Die off TagInlined attrs ks :: ds)
| dc_other off d items kids l ks ds : ~ In (d_tag d) [0x2e; 0x1d; 0x11; 0x4a] -> Forall (fun x => fst x <> 0x1f) items -> decodes base kids ks -> decodes base l ds ->
    decodes base (Tree off d items kids :: l) (Die off TagOther [] ks :: ds).

(** *** The entry of the unit (DW_TAG_compile_unit 0x11, DW_TAG_skeleton_unit 0x4a) *)
Inductive fact := FDir (s : list Z) | FLow (a : Z) | FLines (offset : Z) | FOther.
Inductive unit_says (a : decl_attr) (real : Z) : item -> fact -> Prop :=
| us_dir it s : a_name a = 0x1b -> text it s -> unit_says a real it (FDir s)
| us_low n : a_name a = 0x11 -> unit_says a real (IUnsigned n) (FLow n)
| us_lines n : a_name a = 0x10 -> unit_says a real (IUnsigned n) (FLines n)
| us_ranges n : a_name a = 0x55 -> offset_form real -> unit_says a real (IUnsigned n) FOther
| us_other it : ~ In (a_name a) [0x1b; 0x11; 0x10; 0x55; 0x58; 0x59; 0x76; 0x2130] -> readable a real it -> unit_says a real it FOther.
Inductive facts : list decl_attr -> list (Z * item) -> list fact -> Prop :=
| fa_nil : facts [] [] []
| fa_cons a l real it its x xs : unit_says a real it x -> facts l its xs -> facts (a :: l) ((real, it) :: its) (x :: xs).
Definition is_dir f := match f with FDir _ => true | _ => false end.
Definition is_low f := match f with FLow _ => true | _ => false end.
Definition is_lines f := match f with FLines _ => true | _ => false end.
Definition option_list {A} (o : option A) : list A := match o with Some x => [x] | None => [] end.
(** The names of a line table: directory 0 is that of the compilation, files are numbered
    from 1, files that the program defines follow those of the header. *)
Fixpoint defined (l : list DwLineSpec.item) : list (list Z * Z) :=
  match l with [] => [] | File name d _ _ :: l => (name, d) :: defined l | _ :: l => defined l end.
Definition names_of (lu : unit_) : cu :=
  {| dirs := [] :: u_dirs lu;
     files := (0, []) :: map (fun f => (snd f, fst f)) (map name_dir (u_files lu) ++ defined (run_program (u_params lu) (u_program lu) regs0)) |}.
Definition no_names : cu := {| dirs := [[]]; files := [(0, [])] |}.
(** The line table of the unit: one of version 2 to 4 in .debug_line. *)
Inductive lines_of (o : option Z) : list unit_ -> cu -> Prop :=
| lo_none : o = None -> lines_of o [] no_names
| lo_some lu n before bs after : o = Some n -> e_line e = Some (before ++ bs ++ after) -> zlen before = n ->
    encoded_unit en (u_asz u) (u_osz u) lu bs -> good_unit lu -> lines_of o [lu] (names_of lu).
Inductive decodes_unit : list unit_ -> Z * cu * die -> Prop :=
| du off d items kids fs comp low lines lus names ds : u_trees u = [Tree off d items kids] -> In (d_tag d) [0x11; 0x4a] -> facts (d_attrs d) items fs ->
    filter is_dir fs = [FDir comp] -> filter is_low fs = option_list (option_map FLow low) -> filter is_lines fs = option_list (option_map FLines lines) ->
    lines_of lines lus names -> decodes (match low with Some a => a | None => 0 end) kids ds ->
    decodes_unit lus (u_offset u, names, Die off TagUnit [ACompDir comp] ds).
End Decode.
Section All.
Context (en : endian) (e : elf).
(** The units, their line tables, their entries. *)
Inductive decodes_units : list dunit -> list unit_ -> list (Z * cu * die) -> Prop :=
| dus_nil : decodes_units [] [] []
| dus_cons u us lus lus' d ds : decodes_unit en e u lus d -> decodes_units us lus' ds -> decodes_units (u :: us) (lus ++ lus') (d :: ds).
End All.
