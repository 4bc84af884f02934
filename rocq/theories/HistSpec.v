(** Specification vocabulary for C14 and C15: the counters of a profile,
    independent of any histogram. *)
From Verif Require Import Base SymbolModel.
From Coq Require Import Sorted.

(** all positions (locations with samples) of a symbol, inlined ones included *)
Fixpoint positions (s : symbol) : list pinfo :=
  match s with
  | Sym _ _ _ pos calls => map snd pos ++ flat_map (fun cs => positions (snd cs)) calls
  end.

Definition zsum (l : list Z) : Z := fold_right Z.add 0 l.

(** one counter per instruction of a position, each with the position's count *)
Definition counters (ps : list pinfo) : list Z :=
  flat_map (fun p => repeat (p_count p) (Z.to_nat (p_ninst p))) ps.

Definition descending (l : list Z) : Prop := StronglySorted (fun a b => b <= a) l.

(** the count a cutoff (in millionths) asks to be covered *)
Definition cutoff_target (total cutoff : Z) : Z := total * cutoff / 1000000.

(** counts at least [m] / more than [m] *)
Definition at_least (m : Z) (C : list Z) : list Z := filter (fun x => m <=? x) C.
Definition above (m : Z) (C : list Z) : list Z := filter (fun x => m <? x) C.

(** [m] is the largest threshold such that the counts of at least [m] add up
    to the target [D], and [n] says how many counts that takes; with a zero
    target nothing is needed. *)
Definition summary_entry_ok (C : list Z) (D m n : Z) : Prop :=
  if D =? 0 then m = 0 /\ n = 0
  else In m C /\ D <= zsum (at_least m C) /\ zsum (above m C) < D
       /\ n = zlen (at_least m C).
