(** Model of the in-memory function profile: class Symbol / ProfileInfo /
    SymbolMap of symbol_map.h and symbol_map.cc.

    Simplifications: the containers (std::map, absl::node_hash_map,
    absl::btree_map) are association lists in some iteration order; 64-bit
    counters wrap as in C++ ([add64]); file and directory names, start lines and
    total_count_incl are left out (they never influence the counts); the name of
    an inlined symbol is the callee name of its callsite key (every place that
    creates a nested Symbol sets it so: symbol_map.cc:158, 556, 1322). *)
From Verif Require Import Base SrcOffsetModel.

(** A function name: its bytes. *)
Definition name := list Z.
Fixpoint name_eqb (a b : name) : bool :=
  match a, b with
  | [], [] => true
  | x :: a', y :: b' => (x =? y) && name_eqb a' b'
  | _, _ => false
  end.

(** uint64_t addition. *)
Definition add64 (a b : Z) : Z := u64 (a + b).

(** symbol_map.h:76-84 class ProfileInfo. *)
Record pinfo := PInfo { p_count : Z; p_ninst : Z; p_targets : list (name * Z) }.
Definition pinfo0 : pinfo := PInfo 0 0 [].

(** symbol_map.h:93-96, 100-108 struct Callsite with CallsiteEqual. *)
Definition callsite := (Z * name)%type.
Definition callsite_eqb (a b : callsite) : bool :=
  (fst a =? fst b) && name_eqb (snd a) (snd b).

(** symbol_map.h:134-243 class Symbol. *)
Inductive symbol :=
  Sym (head total ts : Z) (pos : list (Z * pinfo)) (calls : list (callsite * symbol)).
Definition s_head s := match s with Sym h _ _ _ _ => h end.
Definition s_total s := match s with Sym _ t _ _ _ => t end.
Definition s_ts s := match s with Sym _ _ ts _ _ => ts end.
Definition s_pos s := match s with Sym _ _ _ p _ => p end.
Definition s_calls s := match s with Sym _ _ _ _ c => c end.
Definition sym0 : symbol := Sym 0 0 0 [] [].

(** Lookups with the value-initialised default of operator[]. *)
Definition tget (t : name) (m : list (name * Z)) : Z :=
  match aget name_eqb t m with Some v => v | None => 0 end.
Definition pget (l : Z) (m : list (Z * pinfo)) : pinfo :=
  match aget Z.eqb l m with Some v => v | None => pinfo0 end.
Definition cget (c : callsite) (m : list (callsite * symbol)) : symbol :=
  match aget callsite_eqb c m with Some v => v | None => sym0 end.

(** symbol_map.cc:104-111 ProfileInfo::operator+=. *)
Definition targets_add (d s : list (name * Z)) : list (name * Z) :=
  fold_left (fun m '(t, c) => aset name_eqb t (add64 (tget t m) c) m) s d.
Definition pinfo_add (d s : pinfo) : pinfo :=
  PInfo (add64 (p_count d) (p_count s)) (add64 (p_ninst d) (p_ninst s))
        (targets_add (p_targets d) (p_targets s)).
(** symbol_map.cc:149-150: pos_counts[..] += .. for every entry. *)
Definition pos_add (d s : list (Z * pinfo)) : list (Z * pinfo) :=
  fold_left (fun m '(l, i) => aset Z.eqb l (pinfo_add (pget l m) i) m) s d.

(** symbol_map.cc:142-163 Symbol::Merge. *)
Fixpoint merge (dst src : symbol) {struct src} : symbol :=
  match src with
  | Sym h t _ pos calls =>
      Sym (add64 (s_head dst) h) (add64 (s_total dst) t) (s_ts dst)
        (pos_add (s_pos dst) pos)
        ((fix go (l acc : list (callsite * symbol)) : list (callsite * symbol) :=
            match l with
            | [] => acc
            | (k, c) :: l' => go l' (aset callsite_eqb k (merge (cget k acc) c) acc)
            end) calls (s_calls dst))
  end.
(** The loop over other->callsites (symbol_map.cc:152-162), by itself. *)
Definition calls_merge (d s : list (callsite * symbol)) : list (callsite * symbol) :=
  fold_left (fun m '(k, c) => aset callsite_eqb k (merge (cget k m) c) m) s d.

(** *** SymbolMap: names to shared Symbol objects *)

(** symbol_map.h: map_ (names to Symbol pointers; several names may share an
    object) and unique_symbols_ (the objects, addressed here by index). *)
Record smap := SMap { sm_names : list (name * nat); sm_heap : list symbol }.

Definition sm_find (m : smap) (n : name) : option symbol :=
  match aget name_eqb n (sm_names m) with
  | Some i => nth_error (sm_heap m) i
  | None => None
  end.
Fixpoint set_nth {A} (i : nat) (x : A) (l : list A) : list A :=
  match i, l with
  | O, _ :: l' => x :: l'
  | S i', y :: l' => y :: set_nth i' x l'
  | _, [] => []
  end.
(** Running [f] on the object a name points to; an unknown name is
    map_.find(name)->second on end(): undefined behaviour. *)
Definition sm_update (n : name) (f : symbol -> symbol) (m : smap) : outcome smap :=
  match aget name_eqb n (sm_names m) with
  | None => UB
  | Some i => match nth_error (sm_heap m) i with
              | None => UB
              | Some s => Ok (SMap (sm_names m) (set_nth i (f s) (sm_heap m)))
              end
  end.

(** symbol_map.cc:343-357 AddSymbol, given the aliases of the name
    (name_alias_map_). *)
Definition AddSymbol (aliases : list name) (n : name) (m : smap) : smap :=
  match aget name_eqb n (sm_names m) with
  | Some _ => m
  | None =>
      let id := length (sm_heap m) in
      SMap (fold_left (fun ns a => aset name_eqb a id ns) aliases
              (aset name_eqb n id (sm_names m)))
           (sm_heap m ++ [sym0])
  end.

(** *** Source stacks *)

(** source_info.h:18-110 struct SourceInfo (names of files left out). *)
Record sinfo := SInfo { si_func : name; si_start : Z; si_line : Z; si_disc : Z }.
(** source_info.h:38-54 Offset; [base] is the identity or LLVM's
    getBaseDiscriminatorFromDiscriminator according to the flags. *)
Definition si_offset (base : Z -> Z) (i : sinfo) : Z :=
  GenerateOffset (u32 (si_line i - si_start i)) (base (si_disc i)).
(** source_info.h:66-69 HasInvalidInfo. *)
Definition si_invalid (i : sinfo) : bool := (si_start i =? 0) || (si_line i =? 0).

(** The data source of a profile (symbol_map.h enum DataSource): need
    conversion = PERFDATA or AFDOPROTO, otherwise an AutoFDO profile. *)
Definition add_total (c : Z) (s : symbol) : symbol :=
  match s with Sym h t ts p cs => Sym h (add64 t c) ts p cs end.
Definition set_pos (l : Z) (f : pinfo -> pinfo) (s : symbol) : symbol :=
  match s with Sym h t ts p cs => Sym h t ts (aset Z.eqb l (f (pget l p)) p) cs end.

(** symbol_map.cc:533-564 TraverseInlineStack together with what its callers do
    to the node it returns ([k]), as a function on the outermost symbol.
    [outer] is the stack from the outermost entry (src[size-1]) inwards. *)
Fixpoint on_stack_node (base : Z -> Z) (conv : bool) (count : Z) (k : symbol -> symbol)
    (outer : list sinfo) (s : symbol) {struct outer} : symbol :=
  let s := add_total count s in
  match outer with
  | i :: (j :: _) as rest =>
      if conv && si_invalid i then k s
      else match s with
           | Sym h t ts p cs =>
               let key := (si_offset base i, si_func j) in
               Sym h t ts p
                 (aset callsite_eqb key (on_stack_node base conv count k rest (cget key cs)) cs)
           end
  | _ => k s
  end.

(** symbol_map.cc:566-591 AddSourceCount ([src] innermost first; the
    duplication factor is applied by the caller here: [count] is the product). *)
Definition AddSourceCount (base : Z -> Z) (conv : bool) (symbol_name : name)
    (src : list sinfo) (count num_inst : Z) (m : smap) : outcome smap :=
  match src with
  | [] => Ok m
  | leaf :: _ =>
      sm_update symbol_name
        (on_stack_node base conv count
           (fun s =>
              if conv && si_invalid leaf then s
              else set_pos (si_offset base leaf)
                     (fun p => PInfo (if conv then Z.max (p_count p) count
                                      else add64 (p_count p) count)
                                     (add64 (p_ninst p) num_inst) (p_targets p)) s)
           (rev src)) m
  end.

(** symbol_map.cc:593-607 AddIndirectCallTarget; [orig] is GetOriginalName. *)
Definition AddIndirectCallTarget (base : Z -> Z) (orig : name -> name) (conv : bool)
    (symbol_name : name) (src : list sinfo) (target : name) (count : Z) (m : smap)
  : outcome smap :=
  match src with
  | [] => Ok m
  | leaf :: _ =>
      sm_update symbol_name
        (on_stack_node base conv 0
           (fun s =>
              if conv && si_invalid leaf then s
              else set_pos (si_offset base leaf)
                     (fun p => PInfo (p_count p) (p_ninst p)
                                 (aset name_eqb (orig target) count (p_targets p))) s)
           (rev src)) m
  end.

(** symbol_map.cc:521-526 AddSymbolEntryCount. *)
Definition AddSymbolEntryCount (n : name) (head total : Z) (m : smap) : outcome smap :=
  sm_update n (fun s => match s with
    Sym h t ts p cs => Sym (add64 h head) (add64 t total) ts p cs end) m.
(** symbol_map.cc:528-531 AddSymbolTimestamp. *)
Definition AddSymbolTimestamp (n : name) (ts : Z) (m : smap) : outcome smap :=
  sm_update n (fun s => match s with Sym h t _ p cs => Sym h t ts p cs end) m.
