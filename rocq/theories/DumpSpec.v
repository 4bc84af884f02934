(** What the text printed by dump_gcov tells about a profile. *)
From Verif Require Import Base SymbolModel AfdoModel DumpModel.
From Coq Require Import Permutation Sorted.
Open Scope Z_scope.

(** The same list of pairs up to order, with related values. *)
Definition same_map {K A} (R : A -> A -> Prop) (l l' : list (K * A)) : Prop :=
  exists q, Permutation l q /\ Forall2 (fun a b => fst a = fst b /\ R (snd a) (snd b)) q l'.
(** Positions: the same count and the same call targets with their counts. *)
Definition same_info (a b : pinfo) : Prop := p_count a = p_count b /\ Permutation (p_targets a) (p_targets b).
(** The same samples at the same positions, and the same inlined callees with
    the same samples, at every depth.  The order of the entries does not matter,
    nor do numbers of instructions, or head counts and timestamps of inlined
    symbols. *)
Inductive same : symbol -> symbol -> Prop :=
| Same h h' ts ts' t p p' c c' q :
    same_map same_info p p' -> Permutation c q -> Forall2 (fun a b => fst a = fst b /\ same (snd a) (snd b)) q c' ->
    same (Sym h t ts p c) (Sym h' t ts' p' c').

(** Profiles as they come out of a file: 16-bit lines, 32-bit discriminators,
    64-bit counts, and different keys in each table. *)
Definition offset_ok (o : Z) : Prop := 0 <= o < 2 ^ 48.
Definition count_ok (c : Z) : Prop := 0 <= c < 2 ^ 64.
(** Names and files that can be told apart in the text: no line end, no blank
    and no colon. *)
Definition plain (n : name) : Prop := forall b, In b n -> b <> 10 /\ b <> 32 /\ b <> 58.
Inductive symbol_ok : symbol -> Prop :=
| SymOk h t ts p c :
    count_ok h -> count_ok t -> count_ok ts ->
    NoDup (map fst p) -> NoDup (map fst c) ->
    (forall o i, In (o, i) p -> offset_ok o /\ count_ok (p_count i) /\ NoDup (map fst (p_targets i)) /\
                                forall n k, In (n, k) (p_targets i) -> plain n /\ count_ok k) ->
    (forall o n s, In ((o, n), s) c -> offset_ok o /\ plain n /\ symbol_ok s) ->
    symbol_ok (Sym h t ts p c).
Definition profile_ok (l : list entry) : Prop :=
  StronglySorted (fun a b => name_ltb (e_name a) (e_name b) = true) l /\
  forall e, In e l -> plain (e_name e) /\ plain (e_file e) /\ symbol_ok (e_sym e).

(** The same function with the same samples. *)
Definition same_entry (a b : entry) : Prop :=
  e_name a = e_name b /\ e_file a = e_file b /\ s_head (e_sym a) = s_head (e_sym b) /\ s_ts (e_sym a) = s_ts (e_sym b) /\ same (e_sym a) (e_sym b).
(** The functions with samples. *)
Definition counted (l : list entry) : list entry := filter (fun e => 0 <? s_total (e_sym e)) l.
(** Larger counts first, equal ones by name. *)
Definition shown_before (a b : entry) : Prop :=
  s_total (e_sym b) < s_total (e_sym a) \/ (s_total (e_sym a) = s_total (e_sym b) /\ name_ltb (e_name a) (e_name b) = true).
