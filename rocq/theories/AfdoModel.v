(** Model of the AutoFDO (gcov format) profile writer and reader:
    profile_writer.{h,cc} and profile_reader.cc, on top of the gcov primitives
    (GcovModel) and the in-memory profile (SymbolModel).

    Simplifications: file names of functions are not part of SymbolModel, so the
    table of file names and the file index of a function name are parameters of
    the writer ([files], [file_idx]; the class FileIndexMap itself is modelled at
    the end) and the reader reads and drops them; the computed summary is a
    parameter too (its computation is modelled in HistModel); --gcov_version and
    the writer's version are the same number; int arithmetic in the length
    computation does not overflow in the model, the number is truncated when it
    is written; the output file can be opened and written. *)
From Verif Require Import Base GcovModel GcovSpec SrcOffsetModel SymbolModel ByteModel.

(** ** Traversal *)

(** What SymbolTraverser (profile_writer.h 114-148) does in order: calls of
    VisitTopSymbol, Visit and VisitCallsite. *)
Inductive event := ETop (n : name) (s : symbol) | ENode (s : symbol) | ECall (c : callsite).

(** profile_writer.h 138-146 Traverse *)
Fixpoint traverse (s : symbol) : list event :=
  ENode s ::
  match s with
  | Sym _ _ _ _ cs => flat_map (fun '(k, c) => ECall k :: traverse c) cs
  end.

(** symbol_map.h 305 ShouldEmit (the uint64_t total is converted to int64_t) *)
Definition ShouldEmit (threshold total : Z) : bool := threshold <? s64 total.

(** profile_writer.h 124-132 Start; [tops] is symbol_map.map() in iteration
    order, name and function *)
Definition start (threshold : Z) (tops : list (name * symbol)) : list event :=
  flat_map (fun '(n, s) =>
    if ShouldEmit threshold (s_total s) then ETop n s :: traverse s else []) tops.

(** symbol_map.map() of a symbol map *)
Definition map_entries (m : smap) : list (name * symbol) :=
  flat_map (fun '(n, _) => match sm_find m n with Some s => [(n, s)] | None => [] end) (sm_names m).

(** ** Length: profile_writer.cc 58-92 SourceProfileLengther *)
Definition event_length (e : event) : Z :=
  match e with
  | ETop _ _ => 0
  | ECall _ => 0
  | ENode s => 3 + zlen (s_pos s) * 4 + zlen (s_calls s)
               + fold_right (fun '(_, i) a => zlen (p_targets i) * 5 + a) 0 (s_pos s)
  end.
Definition event_top (e : event) : Z := match e with ETop _ _ => 1 | _ => 0 end.
Definition lengther_num_functions (evs : list event) : Z :=
  fold_left (fun a e => a + event_top e) evs 0.
Definition lengther_length (evs : list event) : Z :=
  fold_left (fun a e => a + event_length e) evs 0 + lengther_num_functions evs * 2.

(** ** String table: profile_writer.h 200-243 StringTableUpdater *)

(** operator< of std::string *)
Fixpoint name_ltb (a b : name) : bool :=
  match a, b with
  | [], [] => false
  | [], _ => true
  | _, [] => false
  | x :: a', y :: b' => (x <? y) || ((x =? y) && name_ltb a' b')
  end.
(** map[name] = 0 on a std::map<std::string, int>: the sorted keys *)
Fixpoint sinsert (n : name) (l : list name) : list name :=
  match l with
  | [] => [n]
  | m :: l' => if name_ltb n m then n :: l
               else if name_ltb m n then m :: sinsert n l' else l
  end.

(** symbol_map.h 180-183 Symbol::Name: aborts on an empty name *)
Definition checked_name (n : name) : outcome name :=
  match n with [] => Abort | _ => Ok n end.

(** the names a call of Visit*/VisitTopSymbol/VisitCallsite adds
    (profile_writer.h 214-236) *)
Definition event_names (e : event) : outcome (list name) :=
  match e with
  | ETop n _ => let! n := checked_name n in Ok [n]
  | ECall (_, n) => let! n := checked_name n in Ok [n]
  | ENode s => Ok (flat_map (fun '(_, i) => map fst (p_targets i)) (s_pos s))
  end.
Fixpoint all_names (evs : list event) : outcome (list name) :=
  match evs with
  | [] => Ok []
  | e :: evs' => let! a := event_names e in let! b := all_names evs' in Ok (a ++ b)
  end.

(** profile_writer.cc 159-164: the keys of string_index_map; the empty string
    is always there *)
Definition string_table (evs : list event) : outcome (list name) :=
  let! ns := all_names evs in Ok (fold_left (fun t n => sinsert n t) ns [[]]).

(** profile_writer.cc 187-188: the index of a name is its position *)
Fixpoint index_from (i : Z) (n : name) (t : list name) : option Z :=
  match t with
  | [] => None
  | m :: t' => if name_eqb n m then Some i else index_from (i + 1) n t'
  end.
(** profile_writer.cc 145-149 GetStringIndex; None: the CHECK fails *)
Definition GetStringIndex (t : list name) (n : name) : option Z := index_from 0 n t.

(** ** Function profiles: profile_writer.cc 94-152 SourceProfileWriter *)
Definition HIST_TYPE_INDIR_CALL_TOPN : Z := 7.

Definition index_checked (t : list name) (n : name) : outcome Z :=
  match GetStringIndex t n with Some i => Ok i | None => Abort end.
(** 130-132 and 138-140: name checks and the CHECK on index 0 *)
Definition nonzero_index (t : list name) (n : name) : outcome Z :=
  let! n := checked_name n in
  let! i := index_checked t n in
  if i =? 0 then Abort else Ok i.

(** 117-121 *)
Fixpoint target_vals (t : list name) (ts : list (name * Z)) : outcome (list gval) :=
  match ts with
  | [] => Ok []
  | (n, c) :: ts' =>
      let! i := index_checked t n in
      let! r := target_vals t ts' in
      Ok (VWord HIST_TYPE_INDIR_CALL_TOPN :: VCounter i :: VCounter c :: r)
  end.
(** 110-122 *)
Fixpoint pos_vals (t : list name) (ps : list (Z * pinfo)) : outcome (list gval) :=
  match ps with
  | [] => Ok []
  | (l, i) :: ps' =>
      let! ts := target_vals t (p_targets i) in
      let! r := pos_vals t ps' in
      Ok (VWord (GenerateCompressedOffset l) :: VWord (zlen (p_targets i)) :: VCounter (p_count i)
          :: ts ++ r)
  end.
(** 107-124 Visit, 125-133 VisitTopSymbol, 135-141 VisitCallsite *)
Definition event_vals (version : Z) (t : list name) (e : event) : outcome (list gval) :=
  match e with
  | ETop n s =>
      let! i := nonzero_index t n in
      Ok (VCounter (s_head s) :: (if 3 <=? version then [VCounter (s_ts s)] else []) ++ [VWord i])
  | ECall (l, n) =>
      let! i := nonzero_index t n in
      Ok [VWord (GenerateCompressedOffset l); VWord i]
  | ENode s =>
      let! r := pos_vals t (s_pos s) in
      Ok (VWord (zlen (s_pos s)) :: VWord (zlen (s_calls s)) :: r)
  end.
Fixpoint events_vals (version : Z) (t : list name) (evs : list event) : outcome (list gval) :=
  match evs with
  | [] => Ok []
  | e :: evs' =>
      let! a := event_vals version t e in
      let! b := events_vals version t evs' in Ok (a ++ b)
  end.

(** ** The file: profile_writer.cc 36-53, 154-271 *)

(** 204-218: names that GCC spells differently.  [ends s suf]: strcmp of the
    last bytes of the name. *)
Definition ends (n suf : name) : bool := name_eqb (skipn (length n - length suf) n) suf.
Definition D4Ev : name := [68; 52; 69; 118].
Definition C4Ev : name := [67; 52; 69; 118].
Definition C4EPKc : name := [67; 52; 69; 80; 75; 99].
Definition C4EPKcRKS2_ : name := [67; 52; 69; 80; 75; 99; 82; 75; 83; 50; 95].
Definition rewrite_name (n : name) : name :=
  let len := length n in
  if (Nat.ltb 5 len) && (ends n D4Ev || ends n C4Ev) then set_nth (len - 3) 50 n
  else if (Nat.ltb 7 len) && ends n C4EPKc then set_nth (len - 5) 50 n
  else if (Nat.ltb 12 len) && ends n C4EPKcRKS2_ then set_nth (len - 10) 50 n
  else n.

(** ProfileSummaryInformation, profile_writer.h 245-292 *)
Record summary := { su_total : Z; su_max : Z; su_max_fn : Z; su_num : Z; su_fns : Z;
                    su_detail : list (Z * Z * Z) }.
(** 166-183 *)
Definition summary_vals (s : summary) : list gval :=
  [VWord 2818572288; VCounter (su_total s); VCounter (su_max s); VCounter (su_max_fn s);
   VCounter (su_num s); VCounter (su_fns s); VCounter (zlen (su_detail s))]
  ++ flat_map (fun '(c, m, n) => [VWord c; VCounter m; VCounter n]) (su_detail s).

(** 185-191: the length written in front of the name table *)
Definition name_table_length (t : list name) : Z :=
  fold_left (fun a n => a + (zlen n + 4) / 4 + 1) t 0 + 1.

(** 193-227 *)
Definition name_vals (version : Z) (files : list name) (file_idx : name -> Z) (t : list name)
  : list gval :=
  [VWord 2852126720; VWord (u32 (name_table_length t))]
  ++ (if 3 <=? version then VWord (zlen files) :: map VString files else [])
  ++ VWord (zlen t)
  :: flat_map (fun n => VString (rewrite_name n)
                 :: (if 3 <=? version then [VWord (u32 (file_idx n))] else [])) t.

(** 229-234 *)
Definition function_header (evs : list event) : list gval :=
  [VWord 2885681152; VWord (u32 (lengther_length evs + 1)); VWord (u32 (lengther_num_functions evs))].

(** 237-243 *)
Definition module_vals : list gval := [VWord 2919235584; VWord 0; VWord 0].
(** 245-253; [ws] is the array of 128 (num_counters, min_counter) *)
Definition working_set_vals (ws : list (Z * Z)) : list gval :=
  [VWord 2936012800; VWord 384] ++ flat_map (fun '(n, c) => [VWord (n / 10); VCounter c]) ws.

Record extras := { ex_files : list name; ex_file_idx : name -> Z; ex_summary : summary;
                   ex_ws : list (Z * Z) }.

(** 255-271 WriteToFile: the calls of the gcov primitives *)
Definition write_file (version threshold : Z) (x : extras) (tops : list (name * symbol))
  : outcome (list gval) :=
  let evs := start threshold tops in
  let! t := string_table evs in
  let! body := events_vals version t evs in
  Ok ([VWord 1734567009; VWord version; VWord 0]
      ++ (if 3 <=? version then summary_vals (ex_summary x) else [])
      ++ name_vals version (ex_files x) (ex_file_idx x) t
      ++ function_header evs ++ body ++ module_vals ++ working_set_vals (ex_ws x)).
Definition WriteToFile (version threshold : Z) (x : extras) (tops : list (name * symbol))
  : outcome (list byte) :=
  let! vs := write_file version threshold x tops in Ok (write_vals version vs).

(** ** Reader: profile_reader.cc *)

Section Reader.
  (** [base]: discriminator flag handling, [orig]: GetOriginalName,
      [force]: force_update_ *)
  Variables (base : Z -> Z) (orig : name -> name) (version : Z) (force : bool).
  (** names_ without the file index *)
  Variable names : list name.

  Definition rm := (rstate * smap)%type.

  Fixpoint rep {A} (n : nat) (f : A -> outcome A) (a : A) : outcome A :=
    match n with O => Ok a | S n' => let! a := f a in rep n' f a end.

  (** names_.at(i).first; out of range throws *)
  Definition name_at (i : Z) : outcome name :=
    if (0 <=? i) && (i <? zlen names) then
      match nth_error names (Z.to_nat i) with Some n => Ok n | None => UB end
    else UB.

  (** 69-70, 93-94: the stack entry made from an offset word *)
  Definition stack_entry (n : name) (offset : Z) : sinfo :=
    SInfo n 0 (ReaderLine offset) (ReaderDisc offset).

  (** new_stack[new_stack.size() - 1].func_name *)
  Definition top_func (stack : list sinfo) : name := si_func (last stack (SInfo [] 0 0 0)).

  (** 78-88 *)
  Definition read_target (update : bool) (new_stack : list sinfo) (x : rm) : outcome rm :=
    let '(st, m) := x in
    let! '(ty, st) := gcov_read_unsigned st in
    if ty =? HIST_TYPE_INDIR_CALL_TOPN then
      let! '(i, st) := gcov_read_counter st in
      let! t := name_at i in
      let! '(c, st) := gcov_read_counter st in
      if force || update then
        let! m := AddIndirectCallTarget base orig false (top_func new_stack) new_stack t c m in
        Ok (st, m)
      else Ok (st, m)
    else Abort.
  (** 65-89 *)
  Definition read_pos (update : bool) (n : name) (stack : list sinfo) (x : rm) : outcome rm :=
    let '(st, m) := x in
    let! '(offset, st) := gcov_read_unsigned st in
    let! '(num_targets, st) := gcov_read_unsigned st in
    let! '(count, st) := gcov_read_counter st in
    let new_stack := stack_entry n offset :: stack in
    let! m := if force || update
              then AddSourceCount base false (top_func new_stack) new_stack count 1 m else Ok m in
    rep (Z.to_nat num_targets) (read_target update new_stack) (st, m).

  (** 55-64, for a top-level symbol: the new map and the flag [update] *)
  Definition enter_top (n : name) (head ts : Z) (update : bool) (m : smap) : outcome (bool * smap) :=
    let m := AddSymbol [] n m in
    let! m := AddSymbolTimestamp n ts m in
    match sm_find m n with
    | None => UB
    | Some s =>
        let update := if negb force && (0 <? s_total s) then false else update in
        let! m := if force || update then AddSymbolEntryCount n head 0 m else Ok m in
        Ok (update, m)
    end.

  (** 37-104 ReadSymbolProfile; [fuel] bounds the recursion depth *)
  Fixpoint read_symbol (fuel : nat) (stack : list sinfo) (update : bool) (x : rm) {struct fuel}
    : outcome rm :=
    match fuel with
    | O => UB
    | S fuel =>
        let '(st, m) := x in
        let is_top := match stack with [] => true | _ => false end in
        let! '(head, st) := if is_top then gcov_read_counter st else Ok (0, st) in
        let! '(ts, st) := if is_top && (3 <=? version) then gcov_read_counter st else Ok (0, st) in
        let! '(name_index, st) := gcov_read_unsigned st in
        let! n := name_at name_index in
        let! '(num_pos_counts, st) := gcov_read_unsigned st in
        let! '(num_callsites, st) := gcov_read_unsigned st in
        let! '(update, m) := if is_top then enter_top n head ts update m else Ok (update, m) in
        let! x := rep (Z.to_nat num_pos_counts) (read_pos update n stack) (st, m) in
        rep (Z.to_nat num_callsites)
          (fun x : rm =>
             let '(st, m) := x in
             let! '(offset, st) := gcov_read_unsigned st in
             read_symbol fuel (stack_entry n offset :: stack) update (st, m)) x
    end.
End Reader.

(** a CHECK_EQ on a tag *)
Definition read_tag (tag : Z) (st : rstate) : outcome rstate :=
  let! '(v, st) := gcov_read_unsigned st in if v =? tag then Ok st else Abort.

(** 106-127 ReadSummary, the branch for version 3 *)
Definition read_summary (st : rstate) : outcome (summary * rstate) :=
  let! st := read_tag 2818572288 st in
  let! '(a, st) := gcov_read_counter st in
  let! '(b, st) := gcov_read_counter st in
  let! '(c, st) := gcov_read_counter st in
  let! '(d, st) := gcov_read_counter st in
  let! '(e, st) := gcov_read_counter st in
  let! '(num, st) := gcov_read_counter st in
  let! '(ds, st) :=
    rep (Z.to_nat (u32 num)) (fun '(ds, st) =>
      let! '(x, st) := gcov_read_unsigned st in
      let! '(y, st) := gcov_read_counter st in
      let! '(z, st) := gcov_read_counter st in
      Ok (ds ++ [(x, y, z)], st)) ([], st) in
  Ok ({| su_total := a; su_max := b; su_max_fn := c; su_num := d; su_fns := e; su_detail := ds |}, st).

(** a string that is converted to std::string at once; a null pointer is UB *)
Definition read_str (version : Z) (st : rstate) : outcome (name * rstate) :=
  let! '(r, st) := gcov_read_string version st in
  match r with Some s => Ok (s, st) | None => UB end.

(** 129-146 ReadNameTable: names_ and the file indices *)
Definition read_name_table (version : Z) (st : rstate)
  : outcome (list name * list (name * Z) * rstate) :=
  let! st := read_tag 2852126720 st in
  let! '(_, st) := gcov_read_unsigned st in
  let! '(files, st) :=
    if 3 <=? version then
      let! '(n, st) := gcov_read_unsigned st in
      rep (Z.to_nat n) (fun '(fs, st) =>
        let! '(f, st) := read_str version st in Ok (fs ++ [f], st)) ([], st)
    else Ok ([], st) in
  let! '(n, st) := gcov_read_unsigned st in
  let! '(names, st) :=
    rep (Z.to_nat n) (fun '(ns, st) =>
      let! '(s, st) := read_str version st in
      let! '(i, st) := if 3 <=? version then gcov_read_unsigned st else Ok (w32 - 1, st) in
      Ok (ns ++ [(s, i)], st)) ([], st) in
  Ok (files, names, st).

(** 27-35 ReadFunctionProfile *)
Definition read_functions (base : Z -> Z) (orig : name -> name) (version : Z) (force : bool)
    (names : list name) (fuel : nat) (x : rm) : outcome rm :=
  let '(st, m) := x in
  let! st := read_tag 2885681152 st in
  let! '(_, st) := gcov_read_unsigned st in
  let! '(n, st) := gcov_read_unsigned st in
  rep (Z.to_nat n) (read_symbol base orig version force names fuel [] true) (st, m).

(** 20-26 ReadModuleGroup *)
Definition read_module_group (st : rstate) : outcome rstate :=
  let! st := read_tag 2919235584 st in
  let! '(_, st) := gcov_read_unsigned st in
  let! '(_, st) := gcov_read_unsigned st in Ok st.

(** 148-157 ReadWorkingSet: the arguments of UpdateWorkingSet *)
Definition read_working_set (st : rstate) : outcome (list (Z * Z) * rstate) :=
  let! st := read_tag 2936012800 st in
  let! '(_, st) := gcov_read_unsigned st in
  rep 128 (fun '(l, st) =>
    let! '(n, st) := gcov_read_unsigned st in
    let! '(c, st) := gcov_read_counter st in
    Ok (l ++ [(u32 (n * 10), c)], st)) ([], st).

Record afdo := { af_version : Z; af_summary : option summary; af_files : list name;
                 af_names : list (name * Z); af_map : smap; af_ws : list (Z * Z) }.

(** 159-176 ReadFromFile; [alloc]: see gcov_open_read.  The fuel is the number
    of bytes of the file. *)
Definition ReadFromFile (base : Z -> Z) (orig : name -> name) (force : bool) (alloc : Z)
    (content : list byte) (m : smap) : outcome afdo :=
  let st := gcov_open_read alloc content in
  let! st := read_tag 1734567009 st in
  let! '(version, st) := gcov_read_unsigned st in
  let! '(_, st) := gcov_read_unsigned st in
  let! '(su, st) := if 3 <=? version then let! '(s, st) := read_summary st in Ok (Some s, st)
                    else Ok (None, st) in
  let! '(files, names, st) := read_name_table version st in
  let! '(st, m) := read_functions base orig version force (map fst names) (length content) (st, m) in
  let! st := read_module_group st in
  let! '(ws, st) := read_working_set st in
  Ok {| af_version := version; af_summary := su; af_files := files; af_names := names;
        af_map := m; af_ws := ws |}.

(** ** FileIndexMap, profile_writer.h 155-198 *)
Record fimap := { fi_names : list name; fi_name_map : list (name * Z); fi_file_map : list (name * Z) }.
Definition fimap0 : fimap := {| fi_names := []; fi_name_map := []; fi_file_map := [] |}.
(** 164-169 GetFileIndex *)
Definition GetFileIndex (f : fimap) (sym : name) : Z :=
  match aget name_eqb sym (fi_name_map f) with Some i => i | None => -1 end.
(** 171-176 GetFileName *)
Definition GetFileName (f : fimap) (sym : name) : option name :=
  match aget name_eqb sym (fi_name_map f) with
  | Some i => nth_error (fi_names f) (Z.to_nat i)
  | None => Some []
  end.
(** 180-189 AddFileName *)
Definition AddFileName (f : fimap) (sym file : name) : fimap :=
  match aget name_eqb file (fi_file_map f) with
  | Some i => {| fi_names := fi_names f; fi_name_map := aset name_eqb sym i (fi_name_map f);
                 fi_file_map := fi_file_map f |}
  | None =>
      let i := zlen (fi_names f) in
      {| fi_names := fi_names f ++ [file]; fi_name_map := aset name_eqb sym i (fi_name_map f);
         fi_file_map := aset name_eqb file i (fi_file_map f) |}
  end.
