(** Forced edges and paths, from the control flow graph alone. *)
From Verif Require Import Base ForcedModel.

(** A branch or fall-through edge that was taken. *)
Definition hot (e : cedge) : Prop := ce_weight e <> 0 /\ ce_kind e = EBranch.
(** The edge from [a] to [b] is the only hot edge out of [a] and the only hot
    edge into [b]: some occurrence in the edge list is hot and every other hot
    occurrence has another source and another sink. *)
Definition forced (g : fcfg) (a b : Z) : Prop :=
  exists es1 e es2, fc_edges g = es1 ++ e :: es2 /\ hot e /\ ce_src e = a /\ ce_sink e = b /\
    forall e', In e' (es1 ++ es2) -> hot e' -> ce_src e' <> a /\ ce_sink e' <> b.
Definition adjacent {A} (l : list A) (a b : A) : Prop := exists l1 l2, l = l1 ++ a :: b :: l2.
(** [a] starts [l] and [b] ends it. *)
Definition starts {A} (l : list A) (a : A) : Prop := exists l', l = a :: l'.
Definition ends {A} (l : list A) (b : A) : Prop := exists l', l = l' ++ [b].
