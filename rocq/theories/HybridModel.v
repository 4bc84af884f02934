(** Model of SymbolMap::BuildFlatProfile, SymbolMap::BuildHybridProfile and
    Symbol::PopulateSymbolRetainingHotInlineStacks (symbol_map.cc:198-213,
    1279-1359, 1426-1461): copying a profile while turning inlined callees into
    calls.

    The source and the destination are different SymbolMap objects.  As in
    FlattenModel.v a pointer into the destination is the index of a top-level
    object and the chain of callsites to the node; the name of a node is the
    callee name of its callsite (for a function: its name in the map, there
    being no aliases).  Source nodes are visited once each, so the changes the
    code makes to a source node (estimated head counts, new call targets) are
    passed on as values; [source_after] gives what is left in the source. *)
From Verif Require Import Base SymbolModel SymbolSpec FlattenModel.

(** symbol_map.cc:198-202 FlattenCallsite *)
Definition flatten_site (loc : Z) (callee : name) (head : Z) (pos : list (Z * pinfo)) : list (Z * pinfo) :=
  let i := pget loc pos in
  aset Z.eqb loc (PInfo (Z.max (p_count i) head) (p_ninst i)
                        (aset name_eqb callee (add64 (tget callee (p_targets i)) head) (p_targets i))) pos.

(** symbol_map.cc:204-212 FlatMerge *)
Definition FlatMerge (dst src : symbol) : symbol :=
  match dst with
  | Sym h t ts pos cs =>
      Sym (add64 h (s_head src))
          (add64 t (fold_left (fun a e => add64 a (p_count (snd e))) (s_pos src) 0)) ts
          (pos_add pos (s_pos src)) cs
  end.

(** symbol_map.cc:1451-1458, the loop over the callsites of one work item (head
    counts already estimated) *)
Definition flatten_sites (cs : list (callsite * symbol)) (pos : list (Z * pinfo)) : list (Z * pinfo) :=
  fold_left (fun p kc => flatten_site (fst (fst kc)) (snd (fst kc)) (s_head (snd kc)) p) cs pos.

Fixpoint tree_size (s : symbol) : nat :=
  match s with Sym _ _ _ _ cs => S (fold_right (fun kc a => (tree_size (snd kc) + a)%nat) O cs) end.

(** symbol_map.cc:1447-1460, the work list; its last element is the first of
    the list here. *)
Fixpoint flat_work (selective : bool) (fuel : nat) (work : list (name * symbol)) (m : smap) : outcome smap :=
  match fuel, work with
  | _, [] => Ok m
  | O, _ => UB
  | S fuel, (n, Sym h t ts pos cs) :: work =>
      let m := AddSymbol [] n m in
      let cs' := map (fun kc => (fst kc, EstimateHeadCount (snd kc))) cs in
      let pos' := flatten_sites cs' pos in
      let work := if selective then work
                  else rev (map (fun kc => (snd (fst kc), snd kc)) cs') ++ work in
      let! m := sm_update n (fun d => FlatMerge d (Sym h t ts pos' cs')) m in
      flat_work selective fuel work m
  end.

(** symbol_map.cc:1436-1446, the loop over the source map: the destination, the
    work list and the two counters *)
Fixpoint flat_scan (selective : bool) (thr : Z) (heap : list symbol) (names : list (name * nat))
    (work : list (name * symbol)) (m : smap) (ntot nflat : Z) : outcome (list (name * symbol) * smap * Z * Z) :=
  match names with
  | [] => Ok (work, m, ntot, nflat)
  | (n, i) :: names =>
      match nth_error heap i with
      | None => UB
      | Some s =>
          if selective && (thr <=? s_total s)
          then let! m := sm_update n (fun d => merge d s) (AddSymbol [] n m) in
               flat_scan selective thr heap names work m (add64 ntot 1) nflat
          else flat_scan selective thr heap names ((n, s) :: work) m (add64 ntot 1) (add64 nflat 1)
      end
  end.

(** symbol_map.cc:1426-1461 BuildFlatProfile into [m] *)
Definition BuildFlatProfile (selective : bool) (thr : Z) (src m : smap) (ntot nflat : Z) : outcome (smap * Z * Z) :=
  let! '(work, m, ntot, nflat) := flat_scan selective thr (sm_heap src) (sm_names src) [] m ntot nflat in
  let! m := flat_work selective (fold_right (fun w a => (tree_size (snd w) + a)%nat) O work) work m in
  Ok (m, ntot, nflat).

(** symbol_map.cc:1297-1298 *)
Definition add_ht (h t : Z) (s : symbol) : symbol :=
  match s with Sym h' t' ts pos cs => Sym (add64 h' h) (add64 t' t) ts pos cs end.
(** symbol_map.cc:1320-1328 callsites.insert *)
Definition ins_child (k : callsite) (s : symbol) : symbol :=
  match s with Sym h t ts pos cs => Sym h t ts pos (aset callsite_eqb k (cget k cs) cs) end.
(** symbol_map.cc:1339-1340 *)
Definition add_pos (p : list (Z * pinfo)) (s : symbol) : symbol :=
  match s with Sym h t ts pos cs => Sym h t ts (pos_add pos p) cs end.

Section Hybrid.
  Variable thr : Z.

  (** symbol_map.cc:1291-1341 PopulateSymbolRetainingHotInlineStacks on the
      destination node (i, p); the state is the destination map and the counters
      total and num_flattened. *)
  Fixpoint populate (other : symbol) (i : nat) (p : path) (st : smap * Z * Z) {struct other} : outcome (smap * Z * Z) :=
    match other with
    | Sym h t _ pos cs =>
        let '(m, tot, num) := st in
        let m := node_upd i p (add_ht h t) m in
        let! '(m, tot, num, pos) :=
          (fix go (cs : list (callsite * symbol)) (m : smap) (tot num : Z) (pos : list (Z * pinfo))
             {struct cs} : outcome (smap * Z * Z * list (Z * pinfo)) :=
             match cs with
             | [] => Ok (m, tot, num, pos)
             | (k, c) :: cs =>
                 let tot := add64 tot 1 in
                 if s_total c <=? thr then
                   let num := add64 num 1 in
                   let pos := flatten_site (fst k) (snd k) (s_head c) pos in
                   let m := AddSymbol [] (snd k) m in
                   match aget name_eqb (snd k) (sm_names m) with
                   | None => UB
                   | Some j =>
                       let! '(m, tot, num) := populate c j [] (m, tot, num) in
                       go cs m tot num pos
                   end
                 else
                   let m := node_upd i p (ins_child k) m in
                   let! '(m, tot, num) := populate c i (p ++ [k]) (m, tot, num) in
                   go cs m tot num pos
             end) cs m tot num pos in
        Ok (node_upd i p (add_pos pos) m, tot, num)
    end.

  (** symbol_map.cc:1348-1359 BuildHybridProfile *)
  Fixpoint hybrid_scan (heap : list symbol) (names : list (name * nat)) (st : smap * Z * Z) : outcome (smap * Z * Z) :=
    match names with
    | [] => Ok st
    | (n, i) :: names =>
        let '(m, tot, num) := st in
        match nth_error heap i with
        | None => UB
        | Some s =>
            let m := AddSymbol [] n m in
            match aget name_eqb n (sm_names m) with
            | None => UB
            | Some j => let! st := populate s j [] (m, tot, num) in hybrid_scan heap names st
            end
        end
    end.
  Definition BuildHybridProfile (src m : smap) (tot num : Z) : outcome (smap * Z * Z) :=
    hybrid_scan (sm_heap src) (sm_names src) (m, tot, num).

  (** What the calls of FlattenCallsite (symbol_map.cc:1311-1312) leave in the
      source, which is passed as const SymbolMap&. *)
  Fixpoint source_after (s : symbol) : symbol :=
    match s with
    | Sym h t ts pos cs =>
        Sym h t ts (flatten_sites (filter (fun kc => s_total (snd kc) <=? thr) cs) pos)
            (map (fun kc => (fst kc, source_after (snd kc))) cs)
    end.
  Definition src_after (m : smap) : smap := SMap (sm_names m) (map source_after (sm_heap m)).
End Hybrid.
