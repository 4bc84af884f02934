(** Model of the two size limits on function profiles: symbol_map.cc:1546-1647. *)
From Verif Require Import Base SymbolModel ISort.

(** std::string operator<. *)
Fixpoint name_ltb (a b : name) : bool :=
  match a, b with
  | [], [] => false
  | [], _ :: _ => true
  | _ :: _, [] => false
  | x :: a', y :: b' => (x <? y) || ((x =? y) && name_ltb a' b')
  end.

(** symbol_map.cc:1633-1638: the comparison passed to nth_element. *)
Definition target_before (a b : name * Z) : bool :=
  if snd a =? snd b then name_ltb (fst a) (fst b) else snd b <? snd a.

(** symbol_map.cc:1624-1645 for one location.  nth_element leaves the k first
    elements of the sorted order in the first k slots (in some order); the
    comparison of size() with a signed 64-bit limit is unsigned. *)
Definition trim_targets (k : Z) (m : list (name * Z)) : list (name * Z) :=
  if zlen m <=? u64 k then m
  else firstn (Z.to_nat k) (isort (fun a b => negb (target_before b a)) m).

(** symbol_map.cc:1622-1647 Symbol::TrimCallTargets. *)
Fixpoint TrimCallTargets (k : Z) (s : symbol) : symbol :=
  match s with
  | Sym h t ts pos calls =>
      Sym h t ts
        (map (fun '(l, i) => (l, PInfo (p_count i) (p_ninst i) (trim_targets k (p_targets i)))) pos)
        (map (fun '(c, n) => (c, TrimCallTargets k n)) calls)
  end.

(** symbol_map.cc:1566-1575: location ascending, then hottest first; the sort
    is stable.  The entries are (callsite, (total_count, rest)). *)
Definition site_leb {A} (a b : callsite * (Z * A)) : bool :=
  let '((la, _), (ta, _)) := a in
  let '((lb, _), (tb, _)) := b in
  if la =? lb then tb <=? ta else la <? lb.

(** symbol_map.cc:1577-1597: walk over the sorted callsites with the counter
    num_inline_instances_at_same_loc; returns the callsites erased. *)
Fixpoint throttle_walk {A} (k num : Z) (l : list (callsite * (Z * A))) : list callsite :=
  match l with
  | [] => []
  | (c, _) :: l' =>
      let num' := match l' with
                  | (c', _) :: _ => if fst c' =? fst c then num + 1 else 0
                  | [] => num + 1
                  end in
      (if k <=? num then [c] else []) ++ throttle_walk k num' l'
  end.

(** symbol_map.cc:1556-1608 Symbol::throttleInlineInstancesAtSameLocation:
    (new symbol, removed_count).  removed_count is an int64 compared with the
    unsigned total_count; it is carried here as its 64-bit pattern.  The
    recursive results are computed for every callee but used only for those
    that stay (the C++ recurses after erasing). *)
Fixpoint throttle (k : Z) (s : symbol) : symbol * Z :=
  match s with
  | Sym h t ts pos calls =>
      let sites := map (fun '(c, n) => (c, (s_total n, throttle k n))) calls in
      let erased := if k <? zlen calls then throttle_walk k 0 (isort site_leb sites) else [] in
      let kept := filter (fun e => negb (existsb (callsite_eqb (fst e)) erased)) sites in
      let dropped := filter (fun e => existsb (callsite_eqb (fst e)) erased) sites in
      let removed :=
        add64 (fold_right (fun e acc => add64 (fst (snd e)) acc) 0 dropped)
              (fold_right (fun e acc => add64 (snd (snd (snd e))) acc) 0 kept) in
      let removed := if t <? removed then t else removed in
      (Sym h (t - removed) ts pos (map (fun e => (fst e, fst (snd (snd e)))) kept), removed)
  end.

(** symbol_map.cc:1546-1553: a negative limit means no limit. *)
Definition throttleInlineInstances (k : Z) (s : symbol) : symbol :=
  if k <? 0 then s else fst (throttle k s).
