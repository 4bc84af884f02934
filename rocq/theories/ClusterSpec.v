(** What clustering the chains means: a cluster is a list of chains. *)
From Verif Require Import Base ISort ForcedModel ChainModel ChainSpec ChainBuildModel ClusterModel.

Definition blocks (a : list kchain) : list Z := flat_map h_nodes a.
Definition csize (a : list kchain) : Z := sumf h_size a.
Definition cfreq (a : list kchain) : Z := sumf h_freq a.
(** The cluster goes by the name of its first chain. *)
Definition cname (a : list kchain) : Z := match a with h :: _ => h_id h | [] => 0 end.

(** The edges worth following into a chain: those into its blocks, or only
    those into its first block when functions are laid out one by one. *)
Definition into (P : prog) (h : kchain) : list cedge :=
  if p_ifr P then flat_map (p_ins P) (h_nodes h) else flat_map (p_ins P) (firstn 1 (h_nodes h)).
(** Edges that count at all, and those that carry a tenth of what their sink
    is executed. *)
Definition counts (P : prog) (e : cedge) : bool :=
  negb (ce_weight e =? 0) && negb (p_inter_section P e) && match ce_kind e with EReturn => false | _ => true end.
Definition strong (P : prog) (e : cedge) : bool := counts P e && (frequency P (ce_sink e) <=? 10 * ce_weight e).
Definition inb (l : list Z) (n : Z) : bool := existsb (Z.eqb n) l.
(** The weight with which cluster [a] feeds chain [h]. *)
Definition feeds (P : prog) (a : list kchain) (h : kchain) : Z :=
  sumf ce_weight (filter (fun e => strong P e && inb (blocks a) (ce_src e)) (into P h)).
(** [b] may be put behind [a]: neither is above the limit, and the density of
    [a] does not fall to less than an eighth. *)
Definition may_follow (thr : Z) (a b : list kchain) : Prop :=
  csize a <= thr /\ csize b <= thr /\ cfreq a * (csize a + csize b) <= 8 * csize a * (cfreq a + cfreq b).
(** Clusters above the limit are left alone. *)

(** What happens when chain [h], in cluster [b], is looked at: [b] is put behind
    the cluster that feeds [h] most (of equals the one with the larger name), or
    nothing happens as there is none, or as [h] is not dense enough. *)
Inductive look (C : cparams) (h : kchain) (X Y : list (list kchain)) : Prop :=
| look_merge a b R :
    q_min C <= q_dens C (h_freq h) (h_size h) ->
    Permutation X (a :: b :: R) -> Permutation Y ((a ++ b) :: R) -> In h b ->
    may_follow (q_thr C) a b -> 0 < feeds (q_prog C) a h ->
    (forall c, In c R -> may_follow (q_thr C) c b ->
       feeds (q_prog C) c h < feeds (q_prog C) a h \/ (feeds (q_prog C) c h = feeds (q_prog C) a h /\ cname c < cname a)) ->
    look C h X Y
| look_nothing b R :
    Permutation X (b :: R) -> Y = X -> In h b ->
    (q_dens C (h_freq h) (h_size h) < q_min C \/ forall c, In c R -> may_follow (q_thr C) c b -> feeds (q_prog C) c h = 0) ->
    look C h X Y.
Inductive look_all (C : cparams) : list kchain -> list (list kchain) -> list (list kchain) -> Prop :=
| la_nil X : look_all C [] X X
| la_cons h l X Y T : look C h X Y -> look_all C l Y T -> look_all C (h :: l) X T.

(** The weight of all edges into the chain from other chains. *)
Definition incoming (P : prog) (h : kchain) : Z :=
  sumf ce_weight (filter (fun e => counts P e && negb (inb (h_nodes h) (ce_src e))) (flat_map (p_ins P) (h_nodes h))).
(** The chains with such an edge, heaviest first, of equals that with the
    smaller name. *)
Definition by_incoming (P : prog) (hs l : list kchain) : Prop :=
  NoDup l /\ (forall h, In h l <-> In h hs /\ incoming P h <> 0) /\
  StronglySorted (fun a b => incoming P b < incoming P a \/ (incoming P a = incoming P b /\ h_id a < h_id b)) l.

(** Chains as the chain builder gives them: no block twice, named after
    different blocks, sizes and frequencies not negative, in the bounds of int
    all together; no edge into them from outside them; weights not negative and
    in bounds; with functions laid out one by one each starts with an entry. *)
Record chains_ok (C : cparams) (hs : list kchain) : Prop := {
  co_ids : NoDup (map h_id hs);
  co_nodes : NoDup (blocks hs);
  co_nonempty : forall h, In h hs -> h_nodes h <> [];
  co_size : forall h, In h hs -> 0 <= h_size h;
  co_freq : forall h, In h hs -> 0 <= h_freq h;
  co_sizes : csize hs < 2 ^ 31;
  co_freqs : cfreq hs < 2 ^ 31;
  co_thr : 0 <= q_thr C <= 2 ^ 27;
  co_weight : forall n e, In n (blocks hs) -> In e (p_ins (q_prog C) n) -> 0 <= ce_weight e /\ 10 * ce_weight e < 2 ^ 31;
  co_src : forall n e, In n (blocks hs) -> In e (p_ins (q_prog C) n) -> counts (q_prog C) e = true -> In (ce_src e) (blocks hs);
  co_entry : p_ifr (q_prog C) = false -> forall h, In h hs -> incoming (q_prog C) h <> 0 -> p_entry (q_prog C) (hd 0 (h_nodes h)) = true }.
