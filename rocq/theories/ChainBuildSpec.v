(** What the chain builder is asked to do, from the program alone. *)
From Verif Require Import Base ISort ForcedModel ForcedSpec ChainModel ChainSpec ChainBuildModel.

(** The blocks of a function that get a place in the hot layout: those executed
    (the entry block always when functions are laid out one by one, the landing
    pads when one of them is executed), or all blocks if functions are not
    split; nothing of a function without samples. *)
Definition laid_out (P : prog) (g : bcfg) : list Z :=
  if is_hot P g then (if p_split_functions P then filter (hot_node P g) (g_nodes g) else g_nodes g) else [].
(** Graphs that fit together: no block in two places, edges recorded at both
    ends, weights not negative; [inside_edges]: an edge the layout looks at does
    not leave the given graphs. *)
Record graphs_ok (P : prog) (gs : list bcfg) : Prop := {
  go_nodup : NoDup (flat_map g_nodes gs);
  go_outs : forall n e, In e (p_outs P n) -> ce_src e = n /\ 0 <= ce_weight e /\ In e (p_ins P (ce_sink e));
  go_ins : forall n e, In e (p_ins P n) -> ce_sink e = n /\ 0 <= ce_weight e /\ In e (p_outs P (ce_src e));
  go_intra : forall g e, In g gs -> In e (g_intra g) ->
    In (ce_src e) (g_nodes g) /\ In (ce_sink e) (g_nodes g) /\ In e (p_outs P (ce_src e));
  go_inside : forall n e, In n (flat_map g_nodes gs) -> should_visit P (zlen gs) e = true ->
    (In e (p_outs P n) -> In (ce_sink e) (flat_map g_nodes gs)) /\ (In e (p_ins P n) -> In (ce_src e) (flat_map g_nodes gs));
  go_local : forall g n e, In g gs -> In n (g_nodes g) -> ce_weight e <> 0 -> ce_kind e = EBranch ->
    (In e (p_outs P n) -> In (ce_sink e) (g_nodes g)) /\ (In e (p_ins P n) -> In (ce_src e) (g_nodes g));
  go_size : forall n, 0 <= p_size P n;
  go_ord : forall l, Permutation (p_ord P l) l }.
(** The initial chains of a function are disjoint lists of its hot blocks, and
    there is something to keep in order when hot blocks are not reordered. *)
Definition initial_ok (P : prog) (g : bcfg) : Prop :=
  NoDup (concat (g_init g)) /\ (forall n, In n (concat (g_init g)) -> In n (g_nodes g) /\ hot_node P g n = true) /\
  (p_reorder P = false -> is_hot P g = true -> filter (hot_node P g) (g_nodes g) <> []).

(** One merge, seen from outside: two of the layouts are replaced by one, made
    of the two parts of one of them and the other.  Unless functions are
    reordered, a layout that starts with an entry block is not put behind other
    blocks. *)
Definition starts_with_entry (entry : Z -> bool) (l : list Z) : bool := match l with n :: _ => entry n | [] => false end.
Inductive merge_step (ifr : bool) (entry : Z -> bool) (X Y : list (list Z)) : Prop :=
| ms_one s1 s2 u o l R :
    Permutation X ((s1 ++ s2) :: u :: R) -> Permutation Y (l :: R) -> slice_order s1 s2 u o l ->
    (ifr = false -> starts_with_entry entry (s1 ++ s2) || starts_with_entry entry u = true -> starts_with_entry entry l = true) ->
    merge_step ifr entry X Y.
Inductive merge_steps (ifr : bool) (entry : Z -> bool) : list (list Z) -> list (list Z) -> Prop :=
| mss_refl X : merge_steps ifr entry X X
| mss_step X Y T : merge_step ifr entry X Y -> merge_steps ifr entry Y T -> merge_steps ifr entry X T.
(** Nothing given to the builder puts a block before the entry block of a
    function: the entry is its first block, no edge into it is forced, and no
    initial chain has it behind another block. *)
Definition entry_in_front (P : prog) (g : bcfg) : Prop :=
  (forall n, In n (g_nodes g) -> p_entry P n = true -> hd 0 (g_nodes g) = n) /\
  (forall a n, forced (Fcfg (g_intra g) (g_bb g)) a n -> p_entry P n = false) /\
  (forall ns n, In ns (g_init g) -> In n ns -> p_entry P n = true -> hd 0 ns = n).
(** The edges the layout of these graphs looks at. *)
Definition looked_at (P : prog) (gs : list bcfg) : list cedge :=
  filter (should_visit P (zlen gs)) (flat_map (p_outs P) (flat_map (laid_out P) gs)).

(** Every state the builder can get into: after the initialisation, after
    merging the best assembly of the queue, or after merging any two chains in
    any way for which an assembly can be built. *)
Inductive history (P : prog) (gs : list bcfg) : state -> queue -> Prop :=
| h_init st0 st q :
    InitNodeChains P (build_one P) gs = Ok st0 -> InitChainEdges P (env_of P (zlen gs)) st0 = Ok st ->
    InitChainAssemblies P (env_of P (zlen gs)) st = Ok q -> history P gs st q
| h_best st q a st' q' :
    history P gs st q -> best_of q = Some a -> MergeChains P (env_of P (zlen gs)) st q a = Ok (st', q') -> history P gs st' q'
| h_any st q cs cu o p z a st' q' :
    history P gs st q -> get_chain st (c_id cs) = Some cs -> get_chain st (c_id cu) = Some cu ->
    BuildNodeChainAssembly (env_of P (zlen gs)) (loc st) cs cu o p z = Ok (Some a) -> (z = true \/ o = kSU) ->
    MergeChains P (env_of P (zlen gs)) st q a = Ok (st', q') -> history P gs st' q'.

(** Both ends of an edge lie in one bundle. *)
Definition same_bundle (st : state) (e : cedge) : bool :=
  existsb (fun b => inside (b_nodes b) e) (flat_map c_bundles (s_chains st)).
(** All edges recorded in the chains. *)
Definition recorded (st : state) : list cedge :=
  flat_map (fun c => flat_map b_edges (c_bundles c) ++ flat_map snd (c_out c)) (s_chains st).
(** The books of the builder are right. *)
Record books (P : prog) (gs : list bcfg) (st : state) : Prop := {
  bk_blocks : Permutation (flat_map chain_nodes (s_chains st)) (flat_map (laid_out P) gs);
  bk_once : NoDup (flat_map chain_nodes (s_chains st));
  bk_ids : NoDup (map c_id (s_chains st)) /\ NoDup (map b_id (flat_map c_bundles (s_chains st)));
  bk_map : forall n, In n (flat_map (laid_out P) gs) -> exists c b l1 l2,
    In c (s_chains st) /\ In b (c_bundles c) /\ b_nodes b = l1 ++ n :: l2 /\ s_map st n = Some (b_id b, tot (p_size P) l1) /\
    (forall c' b', In c' (s_chains st) -> In b' (c_bundles c') -> In n (b_nodes b') -> c' = c /\ b' = b);
  bk_bundle : forall c bs1 b bs2, In c (s_chains st) -> c_bundles c = bs1 ++ b :: bs2 ->
    b_chain b = c_id c /\ b_index b = zlen bs1 /\ b_offset b = tot (p_size P) (flat_map b_nodes bs1) /\ b_nodes b <> [] /\
    b_size b = tot (p_size P) (b_nodes b) /\ b_freq b = tot (frequency P) (b_nodes b);
  bk_chain : forall c, In c (s_chains st) ->
    c_size c = tot (p_size P) (chain_nodes c) /\ c_freq c = tot (frequency P) (chain_nodes c);
  bk_edges : Permutation (recorded st) (filter (fun e => negb (same_bundle st e)) (looked_at P gs));
  bk_intra : forall c b e, In c (s_chains st) -> In b (c_bundles c) -> In e (b_edges b) ->
    In (ce_src e) (b_nodes b) /\ In (ce_sink e) (chain_nodes c);
  bk_inter : forall c y es, In c (s_chains st) -> In (y, es) (c_out c) -> exists d,
    In d (s_chains st) /\ c_id d = y /\ c_id c <> y /\
    forall e, In e es -> In (ce_src e) (chain_nodes c) /\ In (ce_sink e) (chain_nodes d);
  bk_keys : forall c, In c (s_chains st) -> NoDup (map fst (c_out c));
  bk_in : forall d x, In d (s_chains st) ->
    (In x (c_in d) <-> exists c, In c (s_chains st) /\ c_id c = x /\ In (c_id d) (map fst (c_out c))) }.
