(** Which functions have been sampled. *)
From Verif Require Import Base SymbolModel.
From Coq Require Import Sorted.
Open Scope Z_scope.

(** The functions of a binary: addresses in increasing order, none beginning
    before the end of the one before it. *)
Definition disjoint (t : list (Z * (name * Z))) : Prop :=
  StronglySorted (fun a b => fst a < fst b /\ fst a + snd (snd a) <= fst b) t /\ forall e, In e t -> 0 <= fst e /\ 0 <= snd (snd e).
(** The function at [k] is the last one that begins at or before [v]. *)
Definition at_or_before (t : list (Z * (name * Z))) (k v : Z) : Prop :=
  k <= v /\ forall e, In e t -> fst e <= v -> fst e <= k.
