(** Model of ChainClusterBuilder (llvm_propeller_chain_cluster_builder.{h,cc}):
    the chains of the layout are joined into clusters along hot edges.  A basic
    block is an integer and an InterCfgId the integer of its block, as in
    ChainModel.  Overflow of int and of int64_t products is undefined behaviour;
    the int64_t sums of weights are unbounded.  The hash maps are lists: where
    the code depends on an order it sorts by a total one, or takes a maximum of
    distinct keys. *)
From Verif Require Import Base ISort ForcedModel ChainModel ChainBuildModel.

(** The parameters: the program with inter_function_reordering() in it,
    cluster_merge_size_threshold(), call_chain_clustering(), the value of the
    double freq / max(size, 1) as a rank among doubles (an arbitrary function:
    no assumption on rounding), and the rank of kChainExecutionDensityThreshold. *)
Record cparams := CParams {
  q_prog : prog; q_thr : Z; q_clustering : bool; q_dens : Z -> Z -> Z; q_min : Z }.
(** llvm_propeller_node_chain.h NodeChain, what the cluster builder sees of it. *)
Record kchain := KChain { h_id : Z; h_nodes : list Z; h_size : Z; h_freq : Z }.
Definition of_chain (c : chain) : kchain := KChain (c_id c) (chain_nodes c) (c_size c) (c_freq c).
(** llvm_propeller_chain_cluster_builder.h:20-80 ChainCluster *)
Record cluster := Cluster { k_id : Z; k_chains : list kchain; k_size : Z; k_freq : Z }.
(** clusters_ and chain_to_cluster_map_ (pointers are ids). *)
Record cstate := CState { t_clusters : list cluster; t_of : Z -> option Z }.

Definition is_int (x : Z) : bool := (-2147483648 <=? x) && (x <=? 2147483647).
Definition is_int64 (x : Z) : bool := (-9223372036854775808 <=? x) && (x <=? 9223372036854775807).

(** llvm_propeller_chain_cluster_builder.cc:28-36 BuildNodeToChainMap, and the
    id of the chain found with at(): emplace keeps the first. *)
Definition chain_of (hs : list kchain) (n : Z) : option Z :=
  match find (fun h => existsb (Z.eqb n) (h_nodes h)) hs with Some h => Some (h_id h) | None => None end.
(** llvm_propeller_chain_cluster_builder.cc:39-54 the constructor *)
Fixpoint init_clusters (hs : list kchain) (ks : list cluster) : outcome (list cluster) :=
  match hs with
  | [] => Ok ks
  | h :: hs' =>
      if existsb (fun k => k_id k =? h_id h) ks then Abort
      else init_clusters hs' (ks ++ [Cluster (h_id h) [h] (h_size h) (h_freq h)])
  end.
Definition new_builder (hs : list kchain) : outcome cstate :=
  let! ks := init_clusters hs [] in
  Ok (CState ks (fun i => if existsb (fun h => h_id h =? i) hs then Some i else None)).

(** chain_to_cluster_map_.at(&chain), dereferenced. *)
Definition cluster_of (st : cstate) (i : Z) : option cluster :=
  match t_of st i with
  | None => None
  | Some c => find (fun k => k_id k =? c) (t_clusters st)
  end.
(** weight_from[src_cluster] += weight *)
Fixpoint add_weight (w : list (Z * Z)) (i x : Z) : list (Z * Z) :=
  match w with
  | [] => [(i, x)]
  | (j, y) :: w' => if j =? i then (j, y + x) :: w' else (j, y) :: add_weight w' i x
  end.

(** llvm_propeller_chain_cluster_builder.cc:71-103 inspect_in_edges, one edge. *)
Definition inspect_edge (C : cparams) (hs : list kchain) (st : cstate) (i : Z) (k : cluster) (w : list (Z * Z)) (e : cedge)
    : outcome (list (Z * Z)) :=
  if is_return e then Ok w
  else if p_inter_section (q_prog C) e then Ok w
  else if ce_weight e =? 0 then Ok w
  else if negb (is_int (ce_weight e * 10)) then UB
  else if ce_weight e * 10 <? frequency (q_prog C) (ce_sink e) then Ok w
  else
    match chain_of hs (ce_src e) with
    | None => UB
    | Some s =>
        if s =? i then Ok w
        else
          match cluster_of st s with
          | None => UB
          | Some ks =>
              if k_id ks =? k_id k then Ok w
              else if k_size ks >? q_thr C then Ok w
              else if negb (is_int (k_freq k + k_freq ks) && is_int (k_size k + k_size ks) &&
                            is_int64 (8 * k_size ks * (k_freq k + k_freq ks)) &&
                            is_int64 (k_freq ks * (k_size k + k_size ks))) then UB
              else if 8 * k_size ks * (k_freq k + k_freq ks) <? k_freq ks * (k_size k + k_size ks) then Ok w
              else Ok (add_weight w (k_id ks) (ce_weight e))
          end
    end.
Fixpoint inspect_edges (C : cparams) (hs : list kchain) (st : cstate) (i : Z) (k : cluster) (w : list (Z * Z)) (es : list cedge)
    : outcome (list (Z * Z)) :=
  match es with
  | [] => Ok w
  | e :: es' => let! w1 := inspect_edge C hs st i k w e in inspect_edges C hs st i k w1 es'
  end.
(** llvm_propeller_chain_cluster_builder.cc:119-124: the largest
    (weight, id). *)
Definition best_pred (w : list (Z * Z)) : option (Z * Z) :=
  fold_left (fun acc p => match acc with
                          | None => Some p
                          | Some b => if (snd b <? snd p) || ((snd b =? snd p) && (fst b <? fst p)) then Some p else Some b
                          end) w None.
(** llvm_propeller_chain_cluster_builder.cc:131-145 MergeClusters and
    llvm_propeller_chain_cluster_builder.h:53-57 MergeWith *)
Definition MergeClusters (st : cstate) (l r : cluster) : outcome cstate :=
  if negb (is_int (k_freq l + k_freq r) && is_int (k_size l + k_size r)) then UB
  else
    Ok (CState
      (map (fun k => if k_id k =? k_id l then Cluster (k_id l) (k_chains l ++ k_chains r) (k_size l + k_size r) (k_freq l + k_freq r) else k)
           (filter (fun k => negb (k_id k =? k_id r)) (t_clusters st)))
      (fun i => if existsb (fun h => h_id h =? i) (k_chains r) then Some (k_id l) else t_of st i)).

(** llvm_propeller_chain_cluster_builder.cc:56-127 MergeWithBestPredecessorCluster;
    [None] for the first node: GetFirstNode of an empty chain. *)
Definition MergeWithBest (C : cparams) (hs : list kchain) (st : cstate) (h : kchain) : outcome cstate :=
  match cluster_of st (h_id h) with
  | None => UB
  | Some k =>
      if k_size k >? q_thr C then Ok st
      else
        let! w :=
          if p_ifr (q_prog C) then inspect_edges C hs st (h_id h) k [] (flat_map (p_ins (q_prog C)) (h_nodes h))
          else
            match h_nodes h with
            | [] => UB
            | n :: _ => if p_entry (q_prog C) n then inspect_edges C hs st (h_id h) k [] (p_ins (q_prog C) n) else Abort
            end in
        match best_pred w with
        | None => Ok st
        | Some (l, _) =>
            match find (fun k => k_id k =? l) (t_clusters st) with
            | None => UB
            | Some kl => MergeClusters st kl k
            end
        end
  end.

(** llvm_propeller_chain_cluster_builder.cc:163-176: the total weight of the
    edges into a chain. *)
Fixpoint sum_weight (C : cparams) (hs : list kchain) (i acc : Z) (es : list cedge) : outcome Z :=
  match es with
  | [] => Ok acc
  | e :: es' =>
      if (ce_weight e =? 0) || is_return e || p_inter_section (q_prog C) e then sum_weight C hs i acc es'
      else
        match chain_of hs (ce_src e) with
        | None => UB
        | Some s => if s =? i then sum_weight C hs i acc es' else sum_weight C hs i (acc + ce_weight e) es'
        end
  end.
(** llvm_propeller_chain_cluster_builder.cc:161-180: weight_to. *)
Fixpoint weights_to (C : cparams) (all hs : list kchain) : outcome (list (kchain * Z)) :=
  match hs with
  | [] => Ok []
  | h :: hs' =>
      let! x := sum_weight C all (h_id h) 0 (flat_map (p_ins (q_prog C)) (h_nodes h)) in
      let! r := weights_to C all hs' in
      Ok (if x =? 0 then r else (h, x) :: r)
  end.
(** llvm_propeller_chain_cluster_builder.cc:187-191: the order. *)
Definition weight_leb (a b : kchain * Z) : bool :=
  (snd b <? snd a) || ((snd b =? snd a) && (h_id (fst a) <=? h_id (fst b))).
(** llvm_propeller_chain_cluster_builder.cc:193-197 *)
Fixpoint merge_all (C : cparams) (hs : list kchain) (st : cstate) (l : list kchain) : outcome cstate :=
  match l with
  | [] => Ok st
  | h :: l' =>
      if q_dens C (h_freq h) (h_size h) <? q_min C then merge_all C hs st l'
      else let! st1 := MergeWithBest C hs st h in merge_all C hs st1 l'
  end.
(** llvm_propeller_chain_cluster_builder.cc:201-205 and 152-154 *)
Definition dens_leb (C : cparams) (a b : cluster) : bool :=
  let d k := q_dens C (k_freq k) (k_size k) in
  (d b <? d a) || ((d b =? d a) && (k_id a <=? k_id b)).
Definition id_leb (a b : cluster) : bool := k_id a <=? k_id b.
(** llvm_propeller_chain_cluster_builder.cc:147-207 BuildClusters, with the
    constructor; the result in order. *)
Definition BuildClusters (C : cparams) (hs : list kchain) : outcome (list cluster) :=
  let! st := new_builder hs in
  if negb (q_clustering C) then Ok (isort id_leb (t_clusters st))
  else
    let! ws := weights_to C hs hs in
    let! st1 := merge_all C hs st (map fst (isort weight_leb ws)) in
    Ok (isort (dens_leb C) (t_clusters st1)).
