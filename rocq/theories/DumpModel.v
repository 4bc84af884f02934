(** Model of the text that dump_gcov prints: symbol_map.cc 68-87 (Indentation,
    PrintSourceLocation), 105-130 (TargetCountCompare, GetSortedTargetCountPairs),
    642-683 (Symbol::DumpBody, Dump) and 976-993 (SymbolMap::Dump), for a map as
    AutoFDOProfileReader (profile_reader.cc 38-103) leaves it: the start line of
    every symbol is 0, the file name of an inlined one is empty, and the name of
    a symbol is the one it is found under.  std::sort is isort (the keys
    differ).  --demangle_symbol_names is off (its default); a NUL in a name is
    not looked at. *)
From Verif Require Import Base SymbolModel AfdoModel ISort WriterModel.
From Coq Require Import Ascii String.
Open Scope string_scope.
Open Scope list_scope.
Open Scope Z_scope.

(** symbol_map.cc:70-74 *)
Definition Indentation (indent : nat) : text := repeat 32 indent.
(** source_info.h:84-91 *)
Definition line_of (offset : Z) : Z := u32 (Z.land (Z.shiftr offset 32) 65535).
Definition disc_of (offset : Z) : Z := Z.land offset 4294967295.
(** symbol_map.cc:78-87 with start_line 0 *)
Definition PrintSourceLocation (offset : Z) (indent : nat) : text :=
  Indentation indent ++
  (if negb (disc_of offset =? 0) then dec (line_of offset) ++ txt "." ++ dec (disc_of offset) ++ txt ": "
   else dec (line_of offset) ++ txt ": ").

(** symbol_map.cc:113-121: t1 is not after t2 *)
Definition target_leb (t1 t2 : name * Z) : bool :=
  if snd t1 =? snd t2 then negb (name_ltb (fst t1) (fst t2)) else snd t2 <? snd t1.
(** symbol_map.cc:123-130 *)
Definition GetSortedTargetCountPairs (m : list (name * Z)) : list (name * Z) := isort target_leb m.
(** symbol_map.h:113-120 CallsiteLessThan (names are not null here) *)
Definition callsite_leb (c1 c2 : callsite) : bool :=
  if fst c1 =? fst c2 then negb (name_ltb (snd c2) (snd c1)) else fst c1 <? fst c2.

(** symbol_map.cc:648-659: one position *)
Definition dump_position (file : name) (indent : nat) (p : Z * pinfo) : text :=
  PrintSourceLocation (fst p) (indent + 2) ++ dec (p_count (snd p)) ++
  List.concat (List.map (fun t => txt "  " ++ fst t ++ txt ":" ++ file ++ txt ":" ++ dec (snd t)) (GetSortedTargetCountPairs (p_targets (snd p)))) ++
  [10].
(** symbol_map.cc:642-671 DumpBody, with 681-683 Dump of an inlined symbol *)
Fixpoint DumpBody (file : name) (s : symbol) (indent : nat) : text :=
  match s with
  | Sym _ _ _ pos calls =>
      List.concat (List.map (dump_position file indent) (isort (fun a b => fst a <=? fst b) pos)) ++
      List.concat (List.map snd (isort (fun a b => callsite_leb (fst a) (fst b))
        (map (fun c => (fst c,
           PrintSourceLocation (fst (fst c)) (indent + 2) ++
           snd (fst c) ++ txt ":" ++ txt " total:" ++ dec (s_total (snd c)) ++ [10] ++
           DumpBody [] (snd c) (indent + 2)))
         calls)))
  end.
(** An entry of map_: the name, info.file_name and the rest of the symbol. *)
Record entry := Entry { e_name : name; e_file : name; e_sym : symbol }.
(** symbol_map.cc:673-683 Dump with indent 0 *)
Definition Dump_symbol (e : entry) : text :=
  e_name e ++ txt ":" ++ e_file e ++ txt " total:" ++ dec (s_total (e_sym e)) ++ txt " head:" ++ dec (s_head (e_sym e)) ++
  txt " timestamp: " ++ dec (s_ts (e_sym e)) ++ [10] ++ DumpBody (e_file e) (e_sym e) 0.

(** count_names_map[k].insert(n): std::map of std::set (AfdoModel.sinsert) *)
Fixpoint map_insert (k : Z) (n : name) (m : list (Z * list name)) : list (Z * list name) :=
  match m with
  | [] => [(k, [n])]
  | (k', ns) :: m' => if k <? k' then (k, [n]) :: m else if k' <? k then (k', ns) :: map_insert k n m' else (k', sinsert n ns) :: m'
  end.
Definition complement (c : Z) : Z := 18446744073709551615 - c.
(** symbol_map.cc:977-983 *)
Definition count_names_map (l : list entry) : list (Z * list name) :=
  fold_left (fun m e => if 0 <? s_total (e_sym e) then map_insert (complement (s_total (e_sym e))) (e_name e) m else m) l [].
(** map_.find(name)->second *)
Definition find_entry (n : name) (l : list entry) : option entry := find (fun e => name_eqb (e_name e) n) l.
(** symbol_map.cc:976-993 SymbolMap::Dump(false) *)
Definition Dump (l : list entry) : text :=
  List.concat (List.map (fun n => match find_entry n l with Some e => Dump_symbol e | None => [] end) (List.concat (List.map snd (count_names_map l)))).
