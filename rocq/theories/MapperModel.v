(** Model of llvm_propeller_binary_address_mapper.{h,cc}: which functions of
    the binary Propeller works on, and which basic block an address is in. *)
From Verif Require Import Base SymbolModel ElideModel StdSearch.
From Coq Require Import Permutation.

(** llvm::object::BBAddrMap::BBEntry, as far as the mapper and the CFG builder
    read it: Offset, Size, canFallThrough(), hasReturn(). *)
Record bb_entry := BBEntry {
  be_offset : Z; be_size : Z; be_fallthrough : bool; be_return : bool }.
(** llvm::object::BBAddrMap: getFunctionAddress(), getBBEntries(). *)
Record func_map := FuncMap { fm_addr : Z; fm_entries : list bb_entry }.
(** llvm_propeller_binary_address_mapper.h:110-116 FunctionSymbolInfo. *)
Record sym_info := SymInfo { si_aliases : list name; si_section : name }.

(** llvm_propeller_binary_address_mapper.h:26-31 BbHandle. *)
Record bb_handle := BbHandle { bh_func : nat; bh_bb : nat }.

(** llvm_propeller_binary_address_mapper.h: the members the modelled functions
    use: selected_functions_, bb_addr_map_, bb_handles_. *)
Record mapper := Mapper {
  mp_selected : list nat;
  mp_funcs : list func_map;
  mp_handles : list bb_handle }.

(** Reading a vector at an index; the defaults stand for undefined behaviour
    and are only reached with indices outside the vector. *)
Definition no_func : func_map := FuncMap 0 [].
Definition no_entry : bb_entry := BBEntry 0 0 false false.
Definition no_handle : bb_handle := BbHandle 0 0.

(** llvm_propeller_binary_address_mapper.h:164-178 GetFunctionEntry,
    GetBBEntry, GetAddress. *)
Definition GetFunctionEntry (fs : list func_map) (h : bb_handle) : func_map :=
  nth (bh_func h) fs no_func.
Definition GetBBEntry (fs : list func_map) (h : bb_handle) : bb_entry :=
  nth (bh_bb h) (fm_entries (GetFunctionEntry fs h)) no_entry.
Definition GetAddress (fs : list func_map) (h : bb_handle) : Z :=
  u64 (fm_addr (GetFunctionEntry fs h) + be_offset (GetBBEntry fs h)).

Inductive direction := DFrom | DTo.

(** llvm_propeller_binary_address_mapper.cc:244-250: walk back over the blocks
    of the same function at the same address.  The argument is the index of
    [it]. *)
Fixpoint first_at (fs : list func_map) (hs : list bb_handle) (address : Z) (f : nat) (it : nat) : nat :=
  match it with
  | O => O
  | S p =>
      let h := nth p hs no_handle in
      if (GetAddress fs h =? address) && (bh_func h =? f)%nat
      then first_at fs hs address f p else it
  end.

(** llvm_propeller_binary_address_mapper.cc:221-260
    FindBbHandleIndexUsingBinaryAddress.  [dbg] tells whether DCHECKs are
    compiled in (line 254). *)
Definition FindBb (dbg : bool) (mp : mapper) (address : Z) (dir : direction) : outcome (option nat) :=
  let fs := mp_funcs mp in
  let hs := mp_handles mp in
  match upper_bound (fun i => address <? GetAddress fs (nth i hs no_handle)) (length hs) with
  | O => Ok None
  | S it =>
      let h := nth it hs no_handle in
      if GetAddress fs h <? address then
        if u64 (GetAddress fs h + be_size (GetBBEntry fs h)) <=? address then Ok None
        else Ok (Some it)
      else
        match dir with
        | DTo => Ok (Some (first_at fs hs address (bh_func h) it))
        | DFrom => if dbg && (be_size (GetBBEntry fs h) =? 0) then Abort else Ok (Some it)
        end
  end.

(** llvm_propeller_binary_address_mapper.cc:277-291: the loop from bb index
    [i], [n] blocks. *)
Fixpoint ft_loop (fs : list func_map) (f : nat) (i n : nat) : bool :=
  match n with
  | O => true
  | S n' => if be_fallthrough (GetBBEntry fs (BbHandle f i)) then ft_loop fs f (S i) n' else false
  end.
(** llvm_propeller_binary_address_mapper.cc:262-300 CanFallThrough (the log
    messages are left out). *)
Definition CanFallThrough (mp : mapper) (from to : nat) : bool :=
  if (from =? to)%nat then true else
  let a := nth from (mp_handles mp) no_handle in
  let b := nth to (mp_handles mp) no_handle in
  if negb (bh_func a =? bh_func b)%nat then false else
  if (bh_bb b <? bh_bb a)%nat then false else
  ft_loop (mp_funcs mp) (bh_func a) (bh_bb a) (bh_bb b - bh_bb a).

(** absl::btree_set<int> as its ascending list of elements. *)
Fixpoint set_insert (x : nat) (l : list nat) : list nat :=
  match l with
  | [] => [x]
  | y :: l' => if (x <? y)%nat then x :: l else if (x =? y)%nat then l else y :: set_insert x l'
  end.
Definition set_erase (x : nat) (l : list nat) : list nat := filter (fun y => negb (y =? x)%nat) l.

(** llvm_propeller_binary_address_mapper.cc:307-324 add_to_hot_functions;
    back() of an empty vector is undefined. *)
Definition hot_function_of (fs : list func_map) (a : Z) : outcome (option nat) :=
  match upper_bound (fun i => a <? fm_addr (nth i fs no_func)) (length fs) with
  | O => Ok None
  | S it =>
      let f := nth it fs no_func in
      match rev (fm_entries f) with
      | [] => UB
      | e :: _ => if u64 (u64 (fm_addr f + be_offset e) + be_size e) <=? a then Ok None else Ok (Some it)
      end
  end.
(** llvm_propeller_binary_address_mapper.cc:304-327 CalculateHotFunctions
    (without the statistics); [addrs] is hot_addresses in some order. *)
Fixpoint hot_loop (fs : list func_map) (addrs : list Z) (acc : list nat) : outcome (list nat) :=
  match addrs with
  | [] => Ok acc
  | a :: addrs' =>
      let! r := hot_function_of fs a in
      hot_loop fs addrs' (match r with Some i => set_insert i acc | None => acc end)
  end.
Definition CalculateHotFunctions (fs : list func_map) (addrs : list Z) : outcome (list nat) :=
  hot_loop fs addrs [].

(** symbol_info_map_: from function index to symbol info. *)
Notation info_map := (list (nat * sym_info)).
Definition info_of (im : info_map) (i : nat) : option sym_info := aget Nat.eqb i im.
Definition aliases_of (im : info_map) (i : nat) : list name :=
  match info_of im i with Some s => si_aliases s | None => [] end.

(** llvm_propeller_binary_address_mapper.cc:336-349 FilterNoNameFunctions. *)
Definition FilterNoNameFunctions (im : info_map) (sel : list nat) : list nat :=
  filter (fun i => match info_of im i with Some _ => true | None => false end) sel.

Definition dot_text : name := [46; 116; 101; 120; 116].                (* .text *)
(** llvm_propeller_binary_address_mapper.cc:351-367 FilterNonTextFunctions
    (all elements of [sel] have an entry in [im] here). *)
Definition FilterNonTextFunctions (im : info_map) (sel : list nat) : list nat :=
  filter (fun i => match info_of im i with Some s => name_eqb (si_section s) dot_text | None => false end) sel.

(** llvm_propeller_binary_address_mapper.cc:376-380: name_to_function_index. *)
Definition push_index (f : nat) (t : list (name * list nat)) (n : name) : list (name * list nat) :=
  aset name_eqb n ((match aget name_eqb n t with Some l => l | None => [] end) ++ [f]) t.
Definition name_to_function_index (im : info_map) (sel : list nat) : list (name * list nat) :=
  fold_left (fun t f => fold_left (push_index f) (aliases_of im f) t) sel [].

Definition dot_uniq : name := [46; 95; 95; 117; 110; 105; 113; 46].    (* .__uniq. *)
Definition name_contains (n sub : name) : bool :=
  match rfind sub n with Some _ => true | None => false end.

(** llvm_propeller_binary_address_mapper.cc:394-400: absl::c_equal of two
    lists of entries by Offset and Size. *)
Fixpoint same_entries (a b : list bb_entry) : bool :=
  match a, b with
  | [], [] => true
  | x :: a', y :: b' => (be_offset x =? be_offset y) && (be_size x =? be_size y) && same_entries a' b'
  | _, _ => false
  end.
Definition same_structure (fs : list func_map) (idx : list nat) : bool :=
  match idx with
  | [] => true
  | i0 :: _ => forallb (fun i => same_entries (fm_entries (nth i0 fs no_func)) (fm_entries (nth i fs no_func))) idx
  end.
(** llvm_propeller_binary_address_mapper.cc:382-415: one name. *)
Definition filter_dup_step (fs : list func_map) (e : name * list nat) (s : list nat * Z) : list nat * Z :=
  let '(n, idx) := e in
  let '(sel, dup) := s in
  if (length idx <=? 1)%nat then s
  else
    let dup' := dup + (zlen idx - 1) in
    if name_contains n dot_uniq && same_structure fs idx
    then (fold_left (fun s i => set_erase i s) (tl idx) sel, dup')
    else (fold_left (fun s i => set_erase i s) idx sel, dup').
(** llvm_propeller_binary_address_mapper.cc:374-418
    FilterDuplicateNameFunctions; [order] is the order in which the hash map
    is iterated. *)
Definition FilterDuplicateNameFunctions (order : list (name * list nat) -> list (name * list nat))
    (fs : list func_map) (im : info_map) (sel : list nat) : list nat * Z :=
  fold_left (fun s e => filter_dup_step fs e s) (order (name_to_function_index im sel)) (sel, 0).

(** llvm_propeller_binary_address_mapper.cc:420-436 SelectFunctions: the
    selection and the increase of the duplicate_symbols statistic. *)
Definition SelectFunctions (order : list (name * list nat) -> list (name * list nat))
    (only_text : bool) (fs : list func_map) (im : info_map) (hot : option (list Z))
    : outcome (list nat * Z) :=
  let! sel := match hot with
              | Some addrs => CalculateHotFunctions fs addrs
              | None => Ok (seq 0 (length fs))
              end in
  let sel := FilterNoNameFunctions im sel in
  let sel := if only_text then FilterNonTextFunctions im sel else sel in
  Ok (FilterDuplicateNameFunctions order fs im sel).

(** llvm_propeller_binary_address_mapper.cc:486-499: the loop of Build. *)
Fixpoint build_loop (fs : list func_map) (last : option Z) (sel : list nat) (acc : list bb_handle)
    : outcome (list bb_handle) :=
  match sel with
  | [] => Ok acc
  | i :: sel' =>
      let f := nth i fs no_func in
      if (match last with Some l => negb (l <? fm_addr f) | None => false end) then Abort
      else build_loop fs (Some (fm_addr f)) sel'
             (acc ++ map (BbHandle i) (seq 0 (length (fm_entries f))))
  end.
(** llvm_propeller_binary_address_mapper.cc:480-505
    BinaryAddressMapperBuilder::Build.  DropNonSelectedFunctions (329-334) only
    erases from symbol_info_map_, which is not part of [mapper]. *)
Definition BuildMapper (order : list (name * list nat) -> list (name * list nat))
    (only_text : bool) (fs : list func_map) (im : info_map) (hot : option (list Z)) : outcome mapper :=
  let! '(sel, _) := SelectFunctions order only_text fs im hot in
  let! hs := build_loop fs None sel [] in
  Ok (Mapper sel fs hs).
