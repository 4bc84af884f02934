(** Model of the inline stack handler: SubprogramInfo and InlineStackHandler
    (util/symbolize/addr2line_inlinestack.{h,cc}), the order in which
    CompilationUnit::ProcessDIEs (util/symbolize/dwarf2reader.cc 898-953) calls it,
    and Google3Addr2line::GetInlineStack (legacy_addr2line.cc 191-266).

    Simplifications.  The debugging entries are given as trees with decoded
    attributes (the bytes are not modelled here); DW_AT_ranges comes with the list
    of ranges that AddressRangeList reads (C25).  Attributes the handler ignores
    are left out.  Forms that make a CHECK fail (call_line and discriminator
    other than data1, data2, data4; references other than ref4 and ref_addr) are
    not considered.  There is no split DWARF (input_file_index_ is 0), no
    two-level line table, sampled_functions_ is NULL.  Pointers to SubprogramInfo
    are numbers in order of creation; a set of pointers is a list. *)
From Verif Require Import Base ISort RangeMapModel DwLineModel.

Inductive tag := TagUnit | TagSubprogram | TagInlined | TagOther.
(** [implicit]: DW_FORM_implicit_const (the handler's ProcessAttributeSigned);
    [absolute]: DW_FORM_ref_addr; [is_offset]: not DW_FORM_addr *)
Inductive attr :=
| ALinkageName (s : list Z) | AName (s : list Z) | ACompDir (s : list Z)
| ACallFile (implicit : bool) (n : Z) | ACallLine (implicit : bool) (n : Z) | ADiscriminator (n : Z)
| AAbstractOrigin (absolute : bool) (n : Z) | ASpecification (absolute : bool) (n : Z)
| ALowPc (a : Z) | AHighPc (n : Z) (is_offset : bool) | ARanges (l : list (Z * Z))
| ADeclLine (implicit : bool) (n : Z).
Inductive die := Die (offset : Z) (t : tag) (attrs : list attr) (children : list die).

(** addr2line_inlinestack.h 42-140 SubprogramInfo *)
Record sub := { s_offset : Z; s_parent : option nat; s_name : list Z; s_ranges : list (Z * Z); s_inlined : bool;
  s_comp : option (list Z); s_dir : option (list Z); s_file : option (list Z); s_line : Z; s_discr : Z;
  s_origin : Z; s_spec : Z; s_used : bool }.
Definition new_sub offset parent inlined comp : sub :=
  {| s_offset := offset; s_parent := parent; s_name := []; s_ranges := []; s_inlined := inlined; s_comp := comp; s_dir := None; s_file := None;
     s_line := 0; s_discr := 0; s_origin := 0; s_spec := 0; s_used := false |}.
Definition set_name n s := {| s_offset := s_offset s; s_parent := s_parent s; s_name := n; s_ranges := s_ranges s; s_inlined := s_inlined s; s_comp := s_comp s; s_dir := s_dir s; s_file := s_file s; s_line := s_line s; s_discr := s_discr s; s_origin := s_origin s; s_spec := s_spec s; s_used := s_used s |}.
Definition set_ranges r s := {| s_offset := s_offset s; s_parent := s_parent s; s_name := s_name s; s_ranges := r; s_inlined := s_inlined s; s_comp := s_comp s; s_dir := s_dir s; s_file := s_file s; s_line := s_line s; s_discr := s_discr s; s_origin := s_origin s; s_spec := s_spec s; s_used := s_used s |}.
Definition set_callsite_directory d s := {| s_offset := s_offset s; s_parent := s_parent s; s_name := s_name s; s_ranges := s_ranges s; s_inlined := s_inlined s; s_comp := s_comp s; s_dir := Some d; s_file := s_file s; s_line := s_line s; s_discr := s_discr s; s_origin := s_origin s; s_spec := s_spec s; s_used := s_used s |}.
Definition set_callsite_filename f s := {| s_offset := s_offset s; s_parent := s_parent s; s_name := s_name s; s_ranges := s_ranges s; s_inlined := s_inlined s; s_comp := s_comp s; s_dir := s_dir s; s_file := Some f; s_line := s_line s; s_discr := s_discr s; s_origin := s_origin s; s_spec := s_spec s; s_used := s_used s |}.
Definition set_callsite_line l s := {| s_offset := s_offset s; s_parent := s_parent s; s_name := s_name s; s_ranges := s_ranges s; s_inlined := s_inlined s; s_comp := s_comp s; s_dir := s_dir s; s_file := s_file s; s_line := l; s_discr := s_discr s; s_origin := s_origin s; s_spec := s_spec s; s_used := s_used s |}.
Definition set_callsite_discr d s := {| s_offset := s_offset s; s_parent := s_parent s; s_name := s_name s; s_ranges := s_ranges s; s_inlined := s_inlined s; s_comp := s_comp s; s_dir := s_dir s; s_file := s_file s; s_line := s_line s; s_discr := d; s_origin := s_origin s; s_spec := s_spec s; s_used := s_used s |}.
Definition set_abstract_origin o s := {| s_offset := s_offset s; s_parent := s_parent s; s_name := s_name s; s_ranges := s_ranges s; s_inlined := s_inlined s; s_comp := s_comp s; s_dir := s_dir s; s_file := s_file s; s_line := s_line s; s_discr := s_discr s; s_origin := o; s_spec := s_spec s; s_used := s_used s |}.
Definition set_specification o s := {| s_offset := s_offset s; s_parent := s_parent s; s_name := s_name s; s_ranges := s_ranges s; s_inlined := s_inlined s; s_comp := s_comp s; s_dir := s_dir s; s_file := s_file s; s_line := s_line s; s_discr := s_discr s; s_origin := s_origin s; s_spec := o; s_used := s_used s |}.
Definition set_used s := {| s_offset := s_offset s; s_parent := s_parent s; s_name := s_name s; s_ranges := s_ranges s; s_inlined := s_inlined s; s_comp := s_comp s; s_dir := s_dir s; s_file := s_file s; s_line := s_line s; s_discr := s_discr s; s_origin := s_origin s; s_spec := s_spec s; s_used := true |}.

(** addr2line_inlinestack.cc 53-60 SetSingletonRangeLow *)
Definition SetSingletonRangeLow (addr : Z) (s : sub) : outcome sub :=
  match s_ranges s with
  | [] => Ok (set_ranges [(addr, 0)] s)
  | [(_, h)] => Ok (set_ranges [(addr, h)] s)
  | _ => Abort
  end.
(** 62-73 SetSingletonRangeHigh *)
Definition SetSingletonRangeHigh (addr : Z) (is_offset : bool) (s : sub) : outcome sub :=
  match s_ranges s with
  | [] => Ok (set_ranges [(0, addr)] s)
  | [(l, _)] => Ok (set_ranges [(l, if is_offset then u64 (l + addr) else addr)] s)
  | _ => Abort
  end.
(** 685-703 SortAndMerge; std::sort of pairs *)
Definition range_le (a b : Z * Z) : bool := (fst a <? fst b) || ((fst a =? fst b) && (snd a <=? snd b)).
Fixpoint merge_from (last : Z * Z) (l : list (Z * Z)) : list (Z * Z) :=
  match l with
  | [] => [last]
  | r :: l' => if snd last <=? fst r then last :: merge_from r l' else merge_from (fst last, Z.max (snd r) (snd last)) l'
  end.
Definition SortAndMerge (l : list (Z * Z)) : list (Z * Z) :=
  match isort range_le l with [] => [] | r :: l' => merge_from r l' end.

(** The state of the handler that matters.  [h_stack] has the back of
    subprogram_stack_ first, [h_dies] that of die_stack_. *)
Record state := { objs : list sub; by_offset : list (Z * nat); h_stack : list nat; h_dies : list tag; order : list nat; comp_dir : option (list Z) }.
Definition state0 : state := {| objs := []; by_offset := []; h_stack := []; h_dies := []; order := []; comp_dir := None |}.
Definition obj (i : nat) (st : state) : sub := nth i (objs st) (new_sub 0 None false None).
Fixpoint update (i : nat) (f : sub -> sub) (l : list sub) : list sub :=
  match l, i with [], _ => [] | s :: l', O => f s :: l' | s :: l', S k => s :: update k f l' end.
Definition set_obj (i : nat) (s : sub) (st : state) : state :=
  {| objs := update i (fun _ => s) (objs st); by_offset := by_offset st; h_stack := h_stack st; h_dies := h_dies st; order := order st; comp_dir := comp_dir st |}.
(** std::map::insert *)
Definition insert_new {V} (k : Z) (v : V) (m : list (Z * V)) : list (Z * V) := match aget Z.eqb k m with Some _ => m | None => aset Z.eqb k v m end.

(** 188-220 StartDIE *)
Definition StartDIE (offset : Z) (t : tag) (st : state) : bool * state :=
  let st := {| objs := objs st; by_offset := by_offset st; h_stack := h_stack st; h_dies := t :: h_dies st; order := order st; comp_dir := comp_dir st |} in
  match t with
  | TagSubprogram | TagInlined =>
      let inlined := match t with TagInlined => true | _ => false end in
      let child := length (objs st) in
      (true, {| objs := objs st ++ [new_sub offset (hd_error (h_stack st)) inlined (comp_dir st)]; by_offset := insert_new offset child (by_offset st);
                h_stack := child :: h_stack st; h_dies := h_dies st; order := order st; comp_dir := comp_dir st |})
  | TagUnit => (true, st)
  | TagOther => (false, st)
  end.
(** 222-239 EndDIE *)
Definition EndDIE (st : state) : outcome state :=
  match h_dies st with
  | [] => UB
  | t :: dies =>
      let st := {| objs := objs st; by_offset := by_offset st; h_stack := h_stack st; h_dies := dies; order := order st; comp_dir := comp_dir st |} in
      match t with
      | TagSubprogram | TagInlined =>
          match h_stack st with
          | [] => UB
          | back :: rest =>
              let used := s_used (obj (last (h_stack st) O) st) in
              let st := if used then set_obj back (set_used (obj back st)) st else st in
              Ok {| objs := objs st; by_offset := by_offset st; h_stack := rest; h_dies := h_dies st;
                    order := if used then order st ++ [back] else order st; comp_dir := comp_dir st |}
          end
      | _ => Ok st
      end
  end.
(** 268-286, 468-487 DW_AT_call_file; [names] are directory_names_ and file_names_ *)
Definition set_call_file (names : cu) (n : Z) (s : sub) : sub :=
  if (n =? 0) || (zlen (files names) <=? u64 n) then s
  else let '(d, f) := nth (Z.to_nat n) (files names) (0, []) in
       set_callsite_filename f (if u64 d <? zlen (dirs names) then set_callsite_directory (nth (Z.to_nat d) (dirs names) []) s else s).
(** 241-258 ProcessAttributeString, 260-459 ProcessAttributeUnsigned, 461-500
    ProcessAttributeSigned *)
Definition ProcessAttribute (cu_offset : Z) (names : cu) (a : attr) (st : state) : outcome state :=
  match a, h_stack st with
  | ACompDir s, _ => Ok {| objs := objs st; by_offset := by_offset st; h_stack := h_stack st; h_dies := h_dies st; order := order st; comp_dir := Some s |}
  | ACallFile true _, [] | ACallLine true _, [] => UB
  | _, [] => Ok st
  | _, back :: rest =>
      let s := obj back st in
      let top := match rest with [] => true | _ => false end in
      match a with
      | ALinkageName n => Ok (set_obj back (set_name n s) st)
      | AName n => Ok (set_obj back (match s_name s with [] => set_name n s | _ => s end) st)
      | ACallFile _ n => Ok (set_obj back (set_call_file names n s) st)
      | ACallLine _ n => Ok (set_obj back (set_callsite_line (u32 n) s) st)
      | ADiscriminator n => Ok (set_obj back (set_callsite_discr (u32 n) s) st)
      | AAbstractOrigin abs n => Ok (set_obj back (set_abstract_origin (if abs then n else u64 (cu_offset + n)) s) st)
      | ASpecification abs n => Ok (set_obj back (set_specification (if abs then n else u64 (cu_offset + n)) s) st)
      | ALowPc v =>
          let! s := SetSingletonRangeLow v s in
          Ok (set_obj back (if top && negb (v =? 0) then set_used s else s) st)
      | AHighPc v is_offset => let! s := SetSingletonRangeHigh v is_offset s in Ok (set_obj back s st)
      | ARanges l =>
          match s_ranges s with
          | [] => let s := if top && existsb (fun r => negb (fst r =? 0)) l then set_used s else s in
                  Ok (set_obj back (set_ranges (SortAndMerge l) s) st)
          | _ => Abort
          end
      | ADeclLine implicit n =>
          if implicit then Ok st
          else match h_dies st with TagSubprogram :: _ => Ok (set_obj back (set_callsite_line (u32 n) s) st) | _ => Ok st end
      | ACompDir _ => Ok st
      end
  end.
Section Walk.
Context (cu_offset : Z) (names : cu).
Fixpoint ProcessAttributes (l : list attr) (st : state) : outcome state :=
  match l with [] => Ok st | a :: l' => let! st := ProcessAttribute cu_offset names a st in ProcessAttributes l' st end.
(** dwarf2reader.cc 898-953: an entry, its attributes if the handler wants them, its
    children, its end *)
Fixpoint process (d : die) (st : state) {struct d} : outcome state :=
  match d with
  | Die offset t attrs children =>
      let '(wanted, st) := StartDIE offset t st in
      let! st := (if wanted then ProcessAttributes attrs st else Ok st) in
      let! st := (fix all (l : list die) (st : state) : outcome state := match l with [] => Ok st | c :: l' => let! st := process c st in all l' st end) children st in
      EndDIE st
  end.
End Walk.
(** legacy_addr2line.cc 139-164 and addr2line_inlinestack.cc 98-114 StartCompilationUnit: offset, names of
    the line table, the entry of the unit *)
Fixpoint read_dies (units : list (Z * cu * die)) (st : state) : outcome state :=
  match units with
  | [] => Ok st
  | (offset, names, d) :: units => match h_stack st with [] => let! st := process offset names d st in read_dies units st | _ => Abort end
  end.

(** *** Which entries are bad: 502-655 FindBadSubprograms *)
Definition contains (a b : Z * Z) : bool := (fst a <=? fst b) && (snd b <=? snd a).
(** 26-45 SubprogramContains *)
Definition SubprogramContains (a b : sub) : bool := forallb (fun r => existsb (fun q => contains q r) (s_ranges a)) (s_ranges b).
Definition mem (i : nat) (l : list nat) : bool := existsb (Nat.eqb i) l.
(** std::set<uint64>: a sorted list *)
Fixpoint set_insert (x : Z) (l : list Z) : list Z :=
  match l with [] => [x] | y :: l' => if x <? y then x :: l else if y <? x then y :: set_insert x l' else l end.
Fixpoint set_from (x : Z) (l : list Z) : list Z := match l with [] => [] | y :: l' => if y <? x then set_from x l' else l end.
Definition starts_inside (starts : list Z) (r : Z * Z) : bool :=
  let it := set_from (fst r) starts in
  let it := match it with y :: it' => if y =? fst r then it' else it | [] => it end in
  match it with y :: _ => y <? snd r | [] => false end.
Section Bad.
Context (vaddr : Z) (st : state).
(** rule 1, 530-538 *)
Definition rule1 (bad : list nat) : list nat :=
  fold_left (fun bad i => if existsb (fun r => fst r <? vaddr) (s_ranges (obj i st)) then i :: bad else bad) (order st) bad.
(** 540-554 *)
Definition start_addresses (bad : list nat) : list Z :=
  fold_left (fun starts i => if s_inlined (obj i st) || mem i bad then starts else fold_left (fun starts r => set_insert (fst r) starts) (s_ranges (obj i st)) starts) (order st) [].
(** rule 2, 556-587 *)
Definition rule2 (starts : list Z) (bad : list nat) : list nat :=
  fold_left (fun bad i => if s_inlined (obj i st) || mem i bad then bad else if existsb (starts_inside starts) (s_ranges (obj i st)) then i :: bad else bad) (order st) bad.
(** rule 3, 589-633; the index maps starts to entries *)
Definition at_start (a : Z) (index : list (Z * list nat)) : list nat := match aget Z.eqb a index with Some l => l | None => [] end.
Definition index_insert (i : nat) (a : Z) (index : list (Z * list nat)) := aset Z.eqb a (if mem i (at_start a index) then at_start a index else i :: at_start a index) index.
Definition index_erase (i : nat) (a : Z) (index : list (Z * list nat)) := aset Z.eqb a (filter (fun j => negb (Nat.eqb i j)) (at_start a index)) index.
Definition rule3_step (i : nat) (acc : list (Z * list nat) * list nat) : list (Z * list nat) * list nat :=
  let '(index, bad) := acc in
  let s := obj i st in
  if s_inlined s || (match s_ranges s with [] => true | _ => false end) || mem i bad then acc
  else
    let others := concat (map (fun r => at_start (fst r) index) (s_ranges s)) in
    if existsb (fun j => SubprogramContains (obj j st) s) others then (index, i :: bad)
    else
      let index := fold_left (fun index j => fold_left (fun index r => index_erase j (fst r) index) (s_ranges (obj j st)) index) others index in
      let index := fold_left (fun index r => index_insert i (fst r) index) (s_ranges s) index in
      (index, others ++ bad).
Definition rule3 (bad : list nat) : list nat := snd (fold_left (fun acc i => rule3_step i acc) (order st) ([], bad)).
(** 637-654: backwards, so that parents come first *)
Definition rule4 (bad : list nat) : list nat :=
  fold_left (fun bad i => match s_parent (obj i st) with
                          | Some p => if mem p bad || negb (SubprogramContains (obj p st) (obj i st)) then i :: bad else bad
                          | None => bad
                          end) (rev (order st)) bad.
Definition FindBadSubprograms : list nat :=
  let bad := rule1 [] in
  let starts := start_addresses bad in
  rule4 (rule3 (rule2 starts bad)).
(** 657-683 PopulateSubprogramsByAddress *)
Fixpoint insert_all (bad l : list nat) (m : list (rentry nat)) : outcome (list (rentry nat)) :=
  match l with
  | [] => Ok m
  | i :: l' => if mem i bad then insert_all bad l' m else let! m := InsertRangeList m (s_ranges (obj i st)) i in insert_all bad l' m
  end.
Definition PopulateSubprogramsByAddress : outcome (list (rentry nat)) := insert_all FindBadSubprograms (order st) [].
End Bad.
(** 705-713 *)
Definition GetSubprogramForAddress (m : list (rentry nat)) (a : Z) : option nat := option_map rval (Find m a).

(** *** Declarations *)
Section Stack.
Context (st : state).
Definition find_offset (o : Z) : outcome nat := match aget Z.eqb o (by_offset st) with Some i => Ok i | None => UB end.
(** 715-735 GetDeclaration; None: more than [fuel] steps *)
Fixpoint GetDeclaration (fuel : nat) (i : nat) : option (outcome nat) :=
  match fuel with
  | O => None
  | S k =>
      let s := obj i st in
      if (match s_name s with [] => true | _ => false end) || (s_line s =? 0)
      then if negb (s_spec s =? 0) then match find_offset (s_spec s) with Ok j => GetDeclaration k j | Abort => Some Abort | UB => Some UB end
           else if negb (s_origin s =? 0) then match find_offset (s_origin s) with Ok j => GetDeclaration k j | Abort => Some Abort | UB => Some UB end
           else Some (Ok i)
      else Some (Ok i)
  end.
(** 737-747 GetAbstractOrigin *)
Definition GetAbstractOrigin (i : nat) : outcome nat := if s_origin (obj i st) =? 0 then Ok i else find_offset (s_origin (obj i st)).

(** std::filesystem::path: is_absolute and operator/ *)
Definition is_absolute (p : list Z) : bool := match p with 47 :: _ => true | _ => false end.
Definition path_join (a b : list Z) : list Z :=
  if is_absolute b then b
  else match a with [] => b | _ => if last a 0 =? 47 then a ++ b else a ++ [47] ++ b end.
(** source_info.h 27-37: function, directory, file, start line, line, discriminator *)
Definition source := (option (list Z) * list Z * list Z * Z * Z * Z)%type.
Definition obind2 {A B} (x : option (outcome A)) (f : A -> option (outcome B)) : option (outcome B) :=
  match x with None => None | Some (Ok a) => f a | Some Abort => Some Abort | Some UB => Some UB end.
(** legacy_addr2line.cc 206-223: name, start line, directory of the compilation *)
Definition function_of (fuel : nat) (i : nat) : option (outcome (list Z * Z * option (list Z))) :=
  obind2 (GetDeclaration fuel i) (fun d =>
  obind2 (Some (GetAbstractOrigin i)) (fun o =>
  let start_line := if s_line (obj o st) =? 0 then s_line (obj d st) else s_line (obj o st) in
  Some (Ok (s_name (obj d st), start_line, match s_comp (obj i st) with Some c => Some c | None => s_comp (obj o st) end)))).
(** 225-228, 247-254 *)
Definition full_dir (comp : option (list Z)) (dir : list Z) : list Z :=
  if is_absolute dir then dir else match comp with Some c => path_join c dir | None => dir end.
(** 237-265: the callers *)
Fixpoint callers (fuel : nat) (i : nat) : option (outcome (list source)) :=
  match fuel with
  | O => None
  | S k =>
      let s := obj i st in
      if s_inlined s then
        match s_parent s with
        | None => Some UB
        | Some p =>
            obind2 (GetDeclaration fuel p) (fun d =>
            obind2 (Some (GetAbstractOrigin p)) (fun o =>
            let start_line := s_line (obj o st) in
            let start_line := if start_line =? 0 then s_line (obj d st) else start_line in
            let start_line := if start_line =? 0 then s_line s else start_line in
            match s_dir s with
            | None => Some UB
            | Some dir =>
                obind2 (match s_comp s with
                        | Some c => Some (Ok (Some c))
                        | None => if is_absolute dir then Some (Ok None) else obind2 (Some (GetAbstractOrigin i)) (fun o' => Some (Ok (s_comp (obj o' st))))
                        end) (fun comp =>
                match s_file s with
                | None => Some UB
                | Some file =>
                    obind2 (callers k p) (fun rest =>
                    Some (Ok ((Some (s_name (obj d st)), full_dir comp dir, file, start_line, s_line s, s_discr s) :: rest)))
                end)
            end))
        end
      else Some (Ok [])
  end.
(** 191-266 GetInlineStack; [lines] is line_map_, [m] is subprograms_by_address_ *)
Definition GetInlineStack (fuel : nat) (lines : linemap) (m : list (rentry nat)) (address : Z) : option (outcome (list source)) :=
  obind2 (Some (lookup address lines)) (fun pos =>
  match pos with
  | None => Some (Ok [])
  | Some (dir, file, line, disc) =>
      match GetSubprogramForAddress m address with
      | None => Some (Ok [(None, dir, file, 0, line, disc)])
      | Some i =>
          obind2 (function_of fuel i) (fun '(name, start_line, comp) =>
          obind2 (callers fuel i) (fun rest =>
          Some (Ok ((Some name, full_dir comp dir, file, start_line, line, disc) :: rest))))
      end
  end).
End Stack.
