(** What flattening must do to a profile, stated on the profile alone. *)
From Verif Require Import Base SymbolModel SymbolSpec.

(** A profile of functions without aliases: every name has its own object. *)
Definition no_sharing (m : smap) : Prop :=
  NoDup (map fst (sm_names m)) /\ map snd (sm_names m) = seq 0 (length (sm_heap m)).
(** ... whose trees are well-formed. *)
Definition smap_ok (m : smap) : Prop := no_sharing m /\ Forall sym_ok (sm_heap m).

(** No inlined call chain reaches level [k], the function itself being level 1
    and a callee inlined through a chain of length q being level q + 1. *)
Definition within_level (k : nat) (s : symbol) : Prop :=
  forall q, has_node s q = true -> (length q < k)%nat.

(** The sum of an observation over all copies of the function [F] in a tree for
    function [n]: outlined or inlined anywhere. *)
Fixpoint tree_sum (obs : list (Z * pinfo) -> Z) (F n : name) (s : symbol) : Z :=
  match s with
  | Sym _ _ _ pos cs =>
      (if name_eqb n F then obs pos else 0)
      + fold_right (fun kc a => tree_sum obs F (snd (fst kc)) (snd kc) + a) 0 cs
  end.
Definition map_sum (obs : list (Z * pinfo) -> Z) (F : name) (m : smap) : Z :=
  fold_right (fun e a => match nth_error (sm_heap m) (snd e) with
                         | Some s => tree_sum obs F (fst e) s
                         | None => 0
                         end + a) 0 (sm_names m).

(** Observations of the body of one copy. *)
Definition inst_obs (l : Z) (pos : list (Z * pinfo)) : Z :=
  match aget Z.eqb l pos with Some i => p_ninst i | None => 0 end.
Definition count_obs (l : Z) (pos : list (Z * pinfo)) : Z :=
  match aget Z.eqb l pos with Some i => p_count i | None => 0 end.
Definition target_obs (l : Z) (t : name) (pos : list (Z * pinfo)) : Z :=
  match aget Z.eqb l pos with
  | Some i => match aget name_eqb t (p_targets i) with Some c => c | None => 0 end
  | None => 0
  end.

(** [F] has, in some copy in the tree for function [n], an inlined callsite satisfying [P]. *)
Fixpoint calls_in (P : callsite -> Prop) (F n : name) (s : symbol) : Prop :=
  match s with
  | Sym _ _ _ _ cs =>
      fold_right (fun kc a => (n = F /\ P (fst kc)) \/ calls_in P F (snd (fst kc)) (snd kc) \/ a) False cs
  end.
Definition calls_in_map (P : callsite -> Prop) (F : name) (m : smap) : Prop :=
  exists n s, sm_find m n = Some s /\ calls_in P F n s.
(** [g] is inlined somewhere. *)
Definition inlined (g : name) (m : smap) : Prop :=
  exists F, calls_in_map (fun key => snd key = g) F m.
