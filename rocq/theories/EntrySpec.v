(** How often a function is entered, going by its samples. *)
From Verif Require Import Base SrcOffsetModel SymbolModel.
From Coq Require Import Permutation.
Open Scope Z_scope.

(** Locations up to line 9999 (counted from the start of the function). *)
Definition near (o : Z) : Prop := o < 10000 * 2 ^ 32.
(** [o] is no later than every position and call site. *)
Definition first_of (o : Z) (p : list (Z * pinfo)) (c : list (callsite * symbol)) : Prop :=
  (forall o' i, In (o', i) p -> o <= o') /\ (forall o' n s, In ((o', n), s) c -> o <= o').
(** The count at the first location of the function; if an inlined call is
    there and nothing else, the count at the first location of the callee, and
    so on; nothing counts from line 10000 on. *)
Inductive entry_count : symbol -> Z -> Prop :=
| EntryPos h t ts p c o i : In (o, i) p -> near o -> first_of o p c -> entry_count (Sym h t ts p c) (p_count i)
| EntryCall h t ts p c o n s k : In ((o, n), s) c -> near o -> first_of o p c -> (forall i, ~ In (o, i) p) -> entry_count s k ->
    entry_count (Sym h t ts p c) k
| EntryNone h t ts p c : (forall o i, In (o, i) p -> ~ near o) -> (forall o n s, In ((o, n), s) c -> ~ near o) -> entry_count (Sym h t ts p c) 0.
(** At every depth, every position once, and one inlined callee at a location. *)
Inductive one_callee : symbol -> Prop :=
| OneCallee h t ts p c : NoDup (map fst p) -> NoDup (map (fun x => fst (fst x)) c) -> (forall k s, In (k, s) c -> one_callee s) -> one_callee (Sym h t ts p c).
(** The same samples up to the order of the tables, at every depth. *)
Inductive reordered : symbol -> symbol -> Prop :=
| Reordered h t ts p p' c c' q : Permutation.Permutation p p' -> Permutation.Permutation c q ->
    Forall2 (fun a b => fst a = fst b /\ reordered (snd a) (snd b)) q c' -> reordered (Sym h t ts p c) (Sym h t ts p' c').
