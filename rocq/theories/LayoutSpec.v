(** What the cluster information says about a layout. *)
From Verif Require Import Base ISort ForcedModel ChainModel ChainSpec ChainBuildModel ChainBuildSpec ClusterModel ClusterSpec LayoutModel.

(** The elements with their numbers. *)
Fixpoint numbered {A} (i : Z) (l : list A) : list (Z * A) :=
  match l with [] => [] | x :: l' => (i, x) :: numbered (i + 1) l' end.
(** 0, 1, ..., n-1 *)
Definition range (n : Z) : list Z := map Z.of_nat (seq 0 (Z.to_nat n)).
(** The different elements in the order of their first appearance. *)
Fixpoint firsts (l : list Z) : list Z :=
  match l with [] => [] | x :: l' => x :: filter (fun y => negb (y =? x)) (firsts l') end.

(** A layout taken apart into groups: each has blocks of one function, an entry
    block only in front, and as many blocks as possible. *)
Record groups (func : Z -> Z) (entry : Z -> bool) (ns : list Z) (G : list (Z * list Z)) : Prop := {
  gr_concat : flat_map snd G = ns;
  gr_func : forall f b, In (f, b) G -> b <> [] /\ forall n, In n b -> func n = f;
  gr_entry : forall f b n, In (f, b) G -> In n (tl b) -> entry n = false;
  gr_max : forall G1 f b f' b' G2, G = G1 ++ (f, b) :: (f', b') :: G2 -> f <> f' \/ entry (hd 0 b') = true }.
(** All clusters of the functions. *)
Definition all_clusters (zs : list finfo) : list (Z * (Z * list Z)) :=
  flat_map (fun z => map (fun y => (y_index y, (z_func z, y_blocks y))) (z_clusters z)) zs.

(** The score of the edges that count when the blocks are at [addr]. *)
Definition score_at_addr (P : prog) (addr : Z -> Z) (es : list cedge) : Z :=
  sumf (fun e => p_score P e (addr (ce_sink e) - addr (ce_src e) - p_size P (ce_src e)))
    (filter (fun e => negb (ce_weight e =? 0) && match ce_kind e with EReturn => false | _ => true end) es).
Definition scores_of (L : lparams) (many : bool) (addr : Z -> Z) (g : bcfg) : Z * Z :=
  let P := q_prog (l_C L) in
  (score_at_addr P addr (g_intra g),
   if many then score_at_addr P addr (filter (fun e => negb (p_inter_section P e)) (l_inter L g)) else 0).

(** The cluster information for the layout [ns]. *)
Record layout_info (L : lparams) (gs : list bcfg) (ns : list Z) (zs : list finfo) : Prop := {
  li_groups : exists G, groups (p_func (q_prog (l_C L))) (p_entry (q_prog (l_C L))) ns G /\
    Permutation (all_clusters zs) (numbered 0 G) /\
    Permutation (map (fun z => (z_cold z, z_func z)) zs) (numbered 0 (firsts (map fst G)));
  li_order : StronglySorted (fun a b => z_func a < z_func b) zs;
  li_nonempty : forall z, In z zs -> z_clusters z <> [];
  li_inside : forall z, In z zs -> StronglySorted (fun a b => l_bb L (hd 0 (y_blocks a)) <= l_bb L (hd 0 (y_blocks b))) (z_clusters z);
  li_scores : forall z g, In z zs -> In g gs -> l_func L g = z_func z ->
    z_orig z = scores_of L (zlen gs >? 1) (l_addr L) g /\
    z_opt z = scores_of L (zlen gs >? 1) (pos (p_size (q_prog (l_C L))) ns) g }.

(** The functions of one section: all blocks of a function have its index, the
    indices differ and none is -1; an edge that counts and stays in the section
    stays in these functions; the inter-function edges are edges of the blocks;
    everything is in the bounds of int. *)
Record section_ok (L : lparams) (gs : list bcfg) : Prop := {
  so_graphs : graphs_ok (q_prog (l_C L)) gs;
  so_score : forall e x, 0 <= p_score (q_prog (l_C L)) e x;
  so_initial : forall g, In g gs -> initial_ok (q_prog (l_C L)) g;
  so_func : forall g n, In g gs -> In n (g_nodes g) -> p_func (q_prog (l_C L)) n = l_func L g;
  so_funcs : NoDup (map (l_func L) gs);
  so_index : forall g, In g gs -> 0 <= l_func L g;
  so_inside : forall n e, In n (flat_map g_nodes gs) -> (In e (p_ins (q_prog (l_C L)) n) \/ In e (p_outs (q_prog (l_C L)) n)) -> counts (q_prog (l_C L)) e = true ->
    In (ce_src e) (flat_map g_nodes gs) /\ In (ce_sink e) (flat_map g_nodes gs);
  so_inter : forall g e, In g gs -> In e (l_inter L g) -> In (ce_src e) (g_nodes g) /\ In e (p_outs (q_prog (l_C L)) (ce_src e));
  so_weight : forall n e, In n (flat_map g_nodes gs) -> In e (p_ins (q_prog (l_C L)) n) -> 10 * ce_weight e < 2 ^ 31;
  so_thr : 0 <= q_thr (l_C L) <= 2 ^ 27;
  so_size : tot (p_size (q_prog (l_C L))) (flat_map g_nodes gs) < 2 ^ 31;
  so_freq : tot (frequency (q_prog (l_C L))) (flat_map g_nodes gs) < 2 ^ 31;
  so_entry : p_ifr (q_prog (l_C L)) = false -> forall g, In g gs ->
    entry_in_front (q_prog (l_C L)) g /\ (is_hot (q_prog (l_C L)) g = true -> p_entry (q_prog (l_C L)) (hd 0 (g_nodes g)) = true) }.
