(** Layouts of basic blocks and their score, from the block sizes and the edges
    alone. *)
From Verif Require Import Base ForcedModel ChainModel.

Definition memz (n : Z) (l : list Z) : bool := existsb (Z.eqb n) l.
(** Total size of a list of blocks laid out one after the other. *)
Definition tot (sz : Z -> Z) (l : list Z) : Z := sumz (map sz l).
(** Address of block [n] in a layout that starts at 0. *)
Fixpoint pos (sz : Z -> Z) (l : list Z) (n : Z) : Z :=
  match l with
  | [] => 0
  | m :: l' => if m =? n then 0 else sz m + pos sz l' n
  end.
(** Distance from the end of the source of an edge to its sink. *)
Definition dist (sz : Z -> Z) (l : list Z) (e : cedge) : Z :=
  pos sz l (ce_sink e) - pos sz l (ce_src e) - sz (ce_src e).
Definition inside (l : list Z) (e : cedge) : bool := memz (ce_src e) l && memz (ce_sink e) l.
Definition from_to (l k : list Z) (e : cedge) : bool := memz (ce_src e) l && memz (ce_sink e) k.
Definition sumf {A} (f : A -> Z) (l : list A) : Z := sumz (map f l).
(** The score of a layout: the edges with both ends in it, each with its
    distance in the layout. *)
Definition layout_score (sc : cedge -> Z -> Z) (sz : Z -> Z) (es : list cedge) (l : list Z) : Z :=
  sumf (fun e => sc e (dist sz l e)) (filter (inside l) es).

(** The block orders a merge of a chain [s], cut into [s1] and [s2], with a
    chain [u] can produce. *)
Inductive slice_order (s1 s2 u : list Z) : merge_order -> list Z -> Prop :=
| so_su : slice_order s1 s2 u kSU (s1 ++ s2 ++ u)
| so_s2s1u : slice_order s1 s2 u kS2S1U (s2 ++ s1 ++ u)
| so_s1us2 : slice_order s1 s2 u kS1US2 (s1 ++ u ++ s2)
| so_us2s1 : slice_order s1 s2 u kUS2S1 (u ++ s2 ++ s1)
| so_s2us1 : slice_order s1 s2 u kS2US1 (s2 ++ u ++ s1).

(** Where a chain may be cut: nowhere for the order that keeps it whole, between
    two of its bundles for the others. *)
Definition valid_cut (cs : chain) (o : merge_order) (p : option Z) : Prop :=
  match o, p with
  | kSU, None => True
  | kSU, Some _ => False
  | _, None => False
  | _, Some p => 0 < p < zlen (c_bundles cs)
  end.
(** The bundles before and after the cut. *)
Definition cut (cs : chain) (p : option Z) : nat := match p with Some p => Z.to_nat p | None => length (c_bundles cs) end.
Definition before_cut (cs : chain) (p : option Z) : list Z := flat_map b_nodes (firstn (cut cs p) (c_bundles cs)).
Definition after_cut (cs : chain) (p : option Z) : list Z := flat_map b_nodes (skipn (cut cs p) (c_bundles cs)).
