(** Model of profile_diff: symbol_map.cc 995-1026 SymbolMap::Overlap and
    1028-1104 DumpFuncLevelProfileCompare, on the names and total counts of the
    two maps.  A map_ is a std::map by name: a list in increasing order of names
    (AfdoModel.name_ltb is the order of std::string); two names for one Symbol
    (SymbolMap::AddAlias) are two entries.  Reading the profiles and the
    demangling of printed names are not part of it. *)
From Verif Require Import Base SymbolModel AfdoModel StatusModel.
From Coq Require Import Reals.
Open Scope Z_scope.

(** overlap_map[n] = f overlap_map[n], a new entry being two zeros *)
Fixpoint oset (n : name) (f : Z * Z -> Z * Z) (m : list (name * (Z * Z))) : list (name * (Z * Z)) :=
  match m with
  | [] => [(n, f (0, 0))]
  | (k, v) :: m' =>
      if name_ltb n k then (n, f (0, 0)) :: m
      else if name_ltb k n then (k, v) :: oset n f m'
      else (k, f v) :: m'
  end.
Definition ofind (n : name) (m : list (name * (Z * Z))) : bool := existsb (fun e => name_eqb (fst e) n) m.

(** symbol_map.cc:1000-1004 *)
Fixpoint prepare1 (l : list (name * Z)) (total : Z) (m : list (name * (Z * Z))) : Z * list (name * (Z * Z)) :=
  match l with
  | [] => (total, m)
  | (n, c) :: l' => prepare1 l' (u64 (total + c)) (oset n (fun v => (fst v, 0)) (oset n (fun v => (c, snd v)) m))
  end.
(** symbol_map.cc:1005-1011 *)
Fixpoint prepare2 (l : list (name * Z)) (total : Z) (m : list (name * (Z * Z))) : Z * list (name * (Z * Z)) :=
  match l with
  | [] => (total, m)
  | (n, c) :: l' =>
      let m1 := if ofind n m then m else oset n (fun v => (0, snd v)) m in
      prepare2 l' (u64 (total + c)) (oset n (fun v => (fst v, c)) m1)
  end.

(** static_cast<float>(count) / total: the uint64_t divisor is converted to
    float, too; float operations round to nearest (StatusModel.rnd32; all values
    are far below the overflow threshold). *)
Definition share32 (count total : Z) : R := rnd32 (rnd32 (IZR count) / rnd32 (IZR total)).
(** symbol_map.cc:1018-1024 *)
Fixpoint overlap_loop (t1 t2 : Z) (m : list (name * (Z * Z))) (overlap : R) : R :=
  match m with
  | [] => overlap
  | (_, (c1, c2)) :: m' => overlap_loop t1 t2 m' (rnd32 (overlap + Rmin (share32 c1 t1) (share32 c2 t2)))
  end.
(** symbol_map.cc:995-1026 Overlap *)
Definition Overlap (l1 l2 : list (name * Z)) : R :=
  let '(t1, m1) := prepare1 l1 0 [] in
  let '(t2, m2) := prepare2 l2 0 m1 in
  if (t1 =? 0) || (t2 =? 0) then 0%R else overlap_loop t1 t2 m2 0%R.

(** symbol_map.cc:1032-1038, 1064-1070: std::max over the counts *)
Definition max_count (l : list (name * Z)) : Z := fold_left (fun m e => Z.max (snd e) m) l 0.
(** count_names_map[c].push_back(n) on a btree_map *)
Fixpoint push_name (c : Z) (n : name) (m : list (Z * list name)) : list (Z * list name) :=
  match m with
  | [] => [(c, [n])]
  | (k, ns) :: m' => if c <? k then (c, [n]) :: m else if k <? c then (k, ns) :: push_name c n m' else (k, ns ++ [n]) :: m'
  end.
(** symbol_map.cc:1041-1047, 1073-1079 *)
Definition count_names (l : list (name * Z)) : list (Z * list name) :=
  fold_left (fun m e => if 0 <? snd e then push_name (snd e) (fst e) m else m) l [].

(** map.find(name): the count, if there is an entry *)
Definition find_count (n : name) (l : list (name * Z)) : option Z := aget name_eqb n l.
Definition count_or_0 (n : name) (l : list (name * Z)) : Z := match find_count n l with Some c => c | None => 0 end.
(** total_count * 100 < max * --dump_cutoff_percent: the int32_t is converted to
    uint64_t *)
Definition below (count max cutoff : Z) : bool := u64 (count * 100) <? u64 (max * u64 cutoff).

(** symbol_map.cc:1051-1068: the inner loop is left at a function that is not
    hot (all functions of one list have the same count); a line is the name with
    the two counts that are printed as percentages of the maxima. *)
Fixpoint dump1 (l1 l2 : list (name * Z)) (max1 cutoff : Z) (ns : list name) : list (name * (Z * Z)) :=
  match ns with
  | [] => []
  | n :: ns' =>
      let c := count_or_0 n l1 in
      if below c max1 cutoff then [] else (n, (c, count_or_0 n l2)) :: dump1 l1 l2 max1 cutoff ns'
  end.
(** symbol_map.cc:1082-1103 *)
Fixpoint dump2 (l1 l2 : list (name * Z)) (max1 max2 cutoff : Z) (ns : list name) : list (name * (Z * Z)) :=
  match ns with
  | [] => []
  | n :: ns' =>
      let c := count_or_0 n l2 in
      if below c max2 cutoff then []
      else match find_count n l1 with
           | Some c1 =>
               if negb (below c1 max1 cutoff) then dump2 l1 l2 max1 max2 cutoff ns'
               else (n, (c1, c)) :: dump2 l1 l2 max1 max2 cutoff ns'
           | None => (n, (0, c)) :: dump2 l1 l2 max1 max2 cutoff ns'
           end
  end.
(** symbol_map.cc:1028-1104 DumpFuncLevelProfileCompare *)
Definition DumpFuncLevelProfileCompare (cutoff : Z) (l1 l2 : list (name * Z)) : list (name * (Z * Z)) :=
  let max1 := max_count l1 in
  let max2 := max_count l2 in
  flat_map (fun g => dump1 l1 l2 max1 cutoff (snd g)) (rev (count_names l1)) ++
  flat_map (fun g => dump2 l1 l2 max1 max2 cutoff (snd g)) (rev (count_names l2)).

(** profile_diff.cc:20-46 main.  [parse] is absl::ParseCommandLine: the value of
    --compare_function, and the words that are not flags.  It takes argc and argv
    by value and leaves the array alone, and main does not look at the words it
    returns.  [read] is LLVMProfileReader::ReadFromFile with the names and total
    counts that are then in the map.  The result: the listing, if there is one,
    and the overlap (printed with four digits). *)
Definition profile_diff_main (parse : list name -> bool * list name) (read : name -> outcome (list (name * Z))) (cutoff : Z) (argv : list name)
  : outcome (option (list (name * (Z * Z))) * R) :=
  let '(compare_function, _) := parse argv in
  match argv with
  | [_; a1; a2] =>
      obind (read a1) (fun l1 => obind (read a2) (fun l2 =>
        Ok (if compare_function then Some (DumpFuncLevelProfileCompare cutoff l1 l2) else None, Overlap l1 l2)))
  | _ => Abort
  end.
