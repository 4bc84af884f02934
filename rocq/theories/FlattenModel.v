(** Model of limiting the inline nesting depth of a profile:
    SymbolMap::FlattenNestedInlineCallsites (symbol_map.cc:1361-1424) with
    Symbol::EstimateHeadCount and Symbol::FlattenCallsite
    (symbol_map.cc:166-202).

    The code follows raw Symbol pointers into the trees of a shared heap; a
    pointer is modelled by an address: the index of a top-level object and the
    chain of callsites leading from it to the node.  As in SymbolModel.v the
    name of a node is the callee name of its callsite.

    Simplifications: AddSymbol is given no aliases (the only caller,
    profile_merger.cc:274, has an empty alias map); callees without a name
    (nullptr) do not occur; flattened callees, which the code leaks, are gone. *)
From Verif Require Import Base SymbolModel SymbolSpec AfdoModel.

(** The node at an address. *)
Definition node_get (m : smap) (i : nat) (p : path) : option symbol :=
  match nth_error (sm_heap m) i with Some s => node_at s p | None => None end.

(** Running [f] on the node at a path of a tree (nothing if there is none). *)
Fixpoint upd_at (p : path) (f : symbol -> symbol) (s : symbol) : symbol :=
  match p with
  | [] => f s
  | k :: p' =>
      match s with
      | Sym h t ts pos cs =>
          match aget callsite_eqb k cs with
          | Some c => Sym h t ts pos (aset callsite_eqb k (upd_at p' f c) cs)
          | None => s
          end
      end
  end.
Definition node_upd (i : nat) (p : path) (f : symbol -> symbol) (m : smap) : smap :=
  match nth_error (sm_heap m) i with
  | Some s => SMap (sm_names m) (set_nth i (upd_at p f s) (sm_heap m))
  | None => m
  end.

(** symbol_map.h:113-120 CallsiteLessThan (strcmp compares as unsigned bytes) *)
Definition callsite_ltb (a b : callsite) : bool :=
  if fst a =? fst b then name_ltb (snd a) (snd b) else fst a <? fst b.
(** std::min_element *)
Definition min_callsite (l : list callsite) : option callsite :=
  fold_left (fun best c => match best with
                           | None => Some c
                           | Some b => if callsite_ltb c b then Some c else best
                           end) l None.
Definition min_pos (l : list Z) : option Z :=
  fold_left (fun best c => match best with
                           | None => Some c
                           | Some b => if c <? b then Some c else best
                           end) l None.

(** symbol_map.cc:166-196 EstimateHeadCount *)
Fixpoint EstimateHeadCount (s : symbol) : symbol :=
  match s with
  | Sym h t ts pos cs =>
      if negb (h =? 0) then s
      else
        let '(h1, offset) := match min_pos (akeys pos) with
                             | Some l => (p_count (pget l pos), l)
                             | None => (h, 2 ^ 64 - 1)
                             end in
        match min_callsite (akeys cs) with
        | None => Sym h1 t ts pos cs
        | Some e =>
            if offset <=? fst e then Sym h1 t ts pos cs
            else
              let cs' := map (fun kc => (fst kc, if callsite_eqb (fst kc) e
                                                 then EstimateHeadCount (snd kc) else snd kc)) cs in
              Sym (s_head (cget e cs')) t ts pos cs'
        end
  end.

(** symbol_map.cc:1387-1394: original_count, FlattenCallsite (198-202), the
    adjustment of the count, the adjustment of the total *)
Definition flatten_pos (loc : Z) (callee : name) (head : Z) (pos : list (Z * pinfo)) : list (Z * pinfo) :=
  let i := pget loc pos in
  let tgt := add64 (tget callee (p_targets i)) head in
  aset Z.eqb loc (PInfo (Z.max (Z.max (p_count i) head) tgt) (p_ninst i)
                        (aset name_eqb callee tgt (p_targets i))) pos.
Definition flatten_into (loc : Z) (callee : name) (head : Z) (s : symbol) : symbol :=
  match s with
  | Sym h t ts pos cs =>
      let pos' := flatten_pos loc callee head pos in
      Sym h (u64 (t + (p_count (pget loc pos') - p_count (pget loc pos)))) ts pos' cs
  end.
(** 1378 func->total_count -= callsite->total_count *)
Definition sub_total (c : Z) (s : symbol) : symbol :=
  match s with Sym h t ts pos cs => Sym h (u64 (t - c)) ts pos cs end.
(** 1409 func->total_count += diff (int64_t to uint64_t) *)
Definition add_diff (d : Z) (s : symbol) : symbol :=
  match s with Sym h t ts pos cs => Sym h (u64 (t + d)) ts pos cs end.
(** 1401 *)
Definition clear_calls (s : symbol) : symbol :=
  match s with Sym h t ts pos cs => Sym h t ts pos [] end.

Section Impl.
  Variable k : nat.  (* max_inline_callsite_nesting_level *)

  (** 1375-1400, one callsite of the function at (i, p); [rec] is the recursive call *)
  Definition flatten_one (rec : nat -> nat -> path -> smap -> outcome (Z * smap))
      (i : nat) (p : path) (key : callsite) (m : smap) : outcome smap :=
    match node_get m i (p ++ [key]) with
    | None => UB
    | Some c =>
        let m := node_upd i p (sub_total (s_total c)) m in
        let! '(_, m) := rec 1%nat i (p ++ [key]) m in
        let m := node_upd i (p ++ [key]) EstimateHeadCount m in
        match node_get m i (p ++ [key]) with
        | None => UB
        | Some c =>
            let m := node_upd i p (flatten_into (fst key) (snd key) (s_head c)) m in
            let m := AddSymbol [] (snd key) m in
            sm_update (snd key) (fun r => merge r c) m
        end
    end.
  Fixpoint flatten_loop (rec : nat -> nat -> path -> smap -> outcome (Z * smap))
      (i : nat) (p : path) (keys : list callsite) (m : smap) : outcome smap :=
    match keys with
    | [] => Ok m
    | key :: keys' =>
        let! m := flatten_one rec i p key m in flatten_loop rec i p keys' m
    end.
  (** 1403-1410 *)
  Fixpoint descend_loop (rec : nat -> nat -> path -> smap -> outcome (Z * smap)) (depth : nat)
      (i : nat) (p : path) (keys : list callsite) (m : smap) : outcome smap :=
    match keys with
    | [] => Ok m
    | key :: keys' =>
        let! '(diff, m) := rec (S depth) i (p ++ [key]) m in
        descend_loop rec depth i p keys' (node_upd i p (add_diff diff) m)
    end.

  (** 1361-1410 FlattenNestedInlineCallsitesImpl; the returned int64_t is given
      modulo 2^64.  The recursion descends the tree; [fuel] bounds it. *)
  Fixpoint FlattenImpl (fuel : nat) (depth : nat) (i : nat) (p : path) (m : smap) : outcome (Z * smap) :=
    match fuel with
    | O => UB
    | S fuel =>
        match node_get m i p with
        | None => UB
        | Some func =>
            let keys := akeys (s_calls func) in
            let! m :=
              if Nat.eqb depth k
              then let! m := flatten_loop (FlattenImpl fuel) i p keys m in
                   Ok (node_upd i p clear_calls m)
              else descend_loop (FlattenImpl fuel) depth i p keys m in
            match node_get m i p with
            | None => UB
            | Some func' => Ok (u64 (s_total func' - s_total func), m)
            end
        end
    end.

  (** number of nodes on the longest chain of a tree *)
  Fixpoint height (s : symbol) : nat :=
    match s with Sym _ _ _ _ cs => S (fold_right (fun kc a => Nat.max (height (snd kc)) a) O cs) end.

  (** the next entry of the std::map in name order, after [cur] (from the
      start if None); entries inserted meanwhile are met if they come later *)
  Definition after (cur : option name) (n : name) : bool :=
    match cur with None => true | Some c => name_ltb c n end.
  Definition next_name (cur : option name) (names : list (name * nat)) : option (name * nat) :=
    fold_left (fun best e => if after cur (fst e)
                             then match best with
                                  | None => Some e
                                  | Some b => if name_ltb (fst e) (fst b) then Some e else best
                                  end
                             else best) names None.

  (** all names of functions in the map, the inlined ones included *)
  Fixpoint callee_names (s : symbol) : list name :=
    match s with Sym _ _ _ _ cs => flat_map (fun kc => snd (fst kc) :: callee_names (snd kc)) cs end.
  Definition function_names (m : smap) : list name :=
    map fst (sm_names m) ++ flat_map callee_names (sm_heap m).

  (** 1411-1424 the loop over the map *)
  Fixpoint flatten_all (fuel : nat) (cur : option name) (num : Z) (m : smap) : outcome (Z * smap) :=
    match fuel with
    | O => UB
    | S fuel =>
        match next_name cur (sm_names m) with
        | None => Ok (num, m)
        | Some (n, i) =>
            let f := match nth_error (sm_heap m) i with Some s => height s | None => O end in
            let! '(diff, m) := FlattenImpl (k + f) 1 i [] m in
            flatten_all fuel (Some n) (if diff =? 0 then num else num + 1) m
        end
    end.
  Definition FlattenNestedInlineCallsites (m : smap) : outcome (Z * smap) :=
    if Nat.eqb k 0 then Ok (0, m)
    else flatten_all (S (length (function_names m))) None 0 m.
End Impl.
