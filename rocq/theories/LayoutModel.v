(** Model of CodeLayout::OrderAll (llvm_propeller_code_layout.cc): from the
    control flow graphs of one section to the cluster information of its
    functions.  Addresses and scores are unbounded integers added exactly (see
    ChainModel).  The statistics are not modelled.  With inter-function
    reordering the code uses NodeChainAssemblyBalancedTreeQueue; the model uses
    the queue of ChainBuildModel in both cases (both return the largest
    assembly). *)
From Verif Require Import Base ISort ForcedModel ChainModel ChainBuildModel ClusterModel.

(** What OrderAll needs besides the parameters of the cluster builder:
    ControlFlowGraph::function_index(), CFGNode::bb_id(), CFGNode::addr() and
    ControlFlowGraph::inter_edges(). *)
Record lparams := LParams { l_C : cparams; l_func : bcfg -> Z; l_bb : Z -> Z; l_addr : Z -> Z; l_inter : bcfg -> list cedge }.
(** llvm_propeller_function_cluster_info.h: BBCluster (a block stands for its
    full_intra_cfg_id) and FunctionClusterInfo with CFGScore as a pair. *)
Record bbcluster := BBCluster { y_index : Z; y_blocks : list Z }.
Record finfo := FInfo { z_func : Z; z_clusters : list bbcluster; z_orig : Z * Z; z_opt : Z * Z; z_cold : Z }.

(** llvm_propeller_code_layout.cc:51-58 and 61-69: the score of a list of edges
    that pass [ok]; [addr] may throw. *)
Fixpoint sum_edges (P : prog) (addr : Z -> outcome Z) (ok : cedge -> bool) (acc : Z) (es : list cedge) : outcome Z :=
  match es with
  | [] => Ok acc
  | e :: es' =>
      if negb (ok e) then sum_edges P addr ok acc es'
      else
        let! a := addr (ce_sink e) in
        let! b := addr (ce_src e) in
        sum_edges P addr ok (acc + p_score P e (a - b - p_size P (ce_src e))) es'
  end.
(** llvm_propeller_code_layout.cc:45-75 ComputeCfgScores *)
Fixpoint cfg_scores (L : lparams) (ncfgs : Z) (addr : Z -> outcome Z) (m : list (Z * (Z * Z))) (gs : list bcfg) : outcome (list (Z * (Z * Z))) :=
  let P := q_prog (l_C L) in
  match gs with
  | [] => Ok m
  | g :: gs' =>
      let! intra := sum_edges P addr (fun e => negb ((ce_weight e =? 0) || is_return e)) 0 (g_intra g) in
      let! inter := if ncfgs >? 1
                    then sum_edges P addr (fun e => negb ((ce_weight e =? 0) || is_return e || p_inter_section P e)) 0 (l_inter L g)
                    else Ok 0 in
      (* emplace keeps the first *)
      cfg_scores L ncfgs addr (if existsb (fun p => fst p =? l_func L g) m then m else m ++ [(l_func L g, (intra, inter))]) gs'
  end.
(** llvm_propeller_code_layout.cc:79-81 ComputeOrigLayoutScores *)
Definition orig_scores (L : lparams) (gs : list bcfg) := cfg_scores L (zlen gs) (fun n => Ok (l_addr L n)) [] gs.
(** llvm_propeller_code_layout.cc:88-96: layout_address_map, and at(). *)
Fixpoint address_map (P : prog) (a : Z) (ns : list Z) (m : Z -> option Z) : Z -> option Z :=
  match ns with
  | [] => m
  | n :: ns' => address_map P (a + p_size P n) ns' (fun x => match m x with Some y => Some y | None => if x =? n then Some a else None end)
  end.
(** llvm_propeller_code_layout.cc:85-101 ComputeOptLayoutScores *)
Definition opt_scores (L : lparams) (gs : list bcfg) (ns : list Z) :=
  let m := address_map (q_prog (l_C L)) 0 ns (fun _ => None) in
  cfg_scores L (zlen gs) (fun n => match m n with Some a => Ok a | None => UB end) [] gs.

(** flat_hash_map::at *)
Definition score_at (m : list (Z * (Z * Z))) (f : Z) : option (Z * Z) :=
  match find (fun p => fst p =? f) m with Some p => Some (snd p) | None => None end.
(** emplace_back of a cluster, and push_back of a block to the last cluster of
    the information of function [f]. *)
Definition start_cluster (i : Z) (z : finfo) : finfo := FInfo (z_func z) (z_clusters z ++ [BBCluster i []]) (z_orig z) (z_opt z) (z_cold z).
Fixpoint push_last (n : Z) (l : list bbcluster) : list bbcluster :=
  match l with
  | [] => []
  | [y] => [BBCluster (y_index y) (y_blocks y ++ [n])]
  | y :: l' => y :: push_last n l'
  end.
Definition push_block (n : Z) (z : finfo) : finfo := FInfo (z_func z) (push_last n (z_clusters z)) (z_orig z) (z_opt z) (z_cold z).
Definition upd_info (f : Z) (u : finfo -> finfo) (m : list finfo) : list finfo := map (fun z => if z_func z =? f then u z else z) m.
Definition has_info (f : Z) (m : list finfo) : bool := existsb (fun z => z_func z =? f) m.

(** llvm_propeller_code_layout.cc:147-173: the blocks in the order of the
    layout; [fi] is function_index, [li] layout_index, [ci]
    cold_cluster_layout_index.  Without information of the current function
    there is no cluster to push to: the iterator is end(). *)
Fixpoint walk (L : lparams) (orig opt : list (Z * (Z * Z))) (fi li ci : Z) (m : list finfo) (ns : list Z) : outcome (list finfo) :=
  let P := q_prog (l_C L) in
  match ns with
  | [] => Ok m
  | n :: ns' =>
      if negb (fi =? p_func P n) || p_entry P n then
        let f := p_func P n in
        match score_at orig f, score_at opt f with
        | Some so, Some sp =>
            let m1 := if has_info f m then m else m ++ [FInfo f [] so sp ci] in
            let ci1 := if has_info f m then ci else ci + 1 in
            walk L orig opt f (li + 1) ci1 (upd_info f (push_block n) (upd_info f (start_cluster li) m1)) ns'
        | _, _ => UB
        end
      else if has_info fi m then walk L orig opt fi li ci (upd_info fi (push_block n) m) ns' else UB
  end.

(** llvm_propeller_code_layout.cc:192-199: by the id of the first block. *)
Definition bb_leb (L : lparams) (a b : bbcluster) : bool := l_bb L (hd 0 (y_blocks a)) <=? l_bb L (hd 0 (y_blocks b)).
Definition sort_clusters (L : lparams) (z : finfo) : finfo := FInfo (z_func z) (isort (bb_leb L) (z_clusters z)) (z_orig z) (z_opt z) (z_cold z).
(** llvm_propeller_code_layout.cc:203-206 *)
Definition func_leb (a b : finfo) : bool := z_func a <=? z_func b.

(** llvm_propeller_code_layout.cc:104-122: the chains. *)
Fixpoint chains_each (P : prog) (gs : list bcfg) : outcome (list chain) :=
  match gs with
  | [] => Ok []
  | g :: gs' => let! st := BuildChains P [g] in let! cs := chains_each P gs' in Ok (s_chains st ++ cs)
  end.
Definition layout_chains (P : prog) (gs : list bcfg) : outcome (list chain) :=
  if p_ifr P then let! st := BuildChains P gs in Ok (s_chains st) else chains_each P gs.
Definition cluster_nodes (k : cluster) : list Z := flat_map h_nodes (k_chains k).
(** llvm_propeller_code_layout.cc:104-209 OrderAll *)
Definition OrderAll (L : lparams) (gs : list bcfg) : outcome (list finfo) :=
  let P := q_prog (l_C L) in
  let! cs := layout_chains P gs in
  let! ks := BuildClusters (l_C L) (map of_chain cs) in
  let ns := flat_map cluster_nodes ks in
  let! orig := orig_scores L gs in
  let! opt := opt_scores L gs ns in
  let! m := walk L orig opt (-1) 0 0 [] ns in
  Ok (isort func_leb (map (sort_clusters L) m)).
