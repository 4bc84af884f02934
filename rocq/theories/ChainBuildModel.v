(** Model of NodeChainBuilder (llvm_propeller_node_chain_builder.{h,cc}) on top
    of ChainModel: from the control flow graphs to the chains.  The queue of
    assemblies is NodeChainAssemblyIterativeQueue, the default.  The iteration
    order of the hash containers is an arbitrary function [p_ord].  Statistics
    and log messages are not modelled. *)
From Verif Require Import Base ISort ForcedModel ChainModel.

(** llvm_propeller_cfg.h ControlFlowGraph: the blocks in order, intra_edges()
    and bb_index, and the initial chains given for this function
    (llvm_propeller_node_chain_builder.cc:217-221; empty if none).  Block ids of
    initial chains that do not exist (a crash in GetNodeById) are not modelled. *)
Record bcfg := BCfg { g_nodes : list Z; g_intra : list cedge; g_bb : Z -> Z; g_init : list (list Z) }.
(** The program and the code layout parameters. *)
Record prog := Prog {
  p_size : Z -> Z; p_func : Z -> Z; p_entry : Z -> bool; p_lp : Z -> bool;
  p_outs : Z -> list cedge;           (* intra_outs_ then inter_outs_ *)
  p_ins : Z -> list cedge;            (* intra_ins_ then inter_ins_ *)
  p_inter_section : cedge -> bool;    (* CFGEdge::inter_section() *)
  p_score : cedge -> Z -> Z;
  p_ifr : bool; p_chain_split : bool; p_threshold : Z;
  p_split_functions : bool; p_reorder : bool;
  p_ord : list Z -> list Z }.

Definition is_call (e : cedge) : bool := match ce_kind e with ECall => true | _ => false end.
Definition is_return (e : cedge) : bool := match ce_kind e with EReturn => true | _ => false end.
Definition maxz (l : list Z) : Z := fold_right Z.max 0 l.
(** llvm_propeller_cfg.cc:118-159 CFGNode::CalculateFrequency, without the
    bounds of int (CfgFreqModel.v has them). *)
Definition frequency (P : prog) (n : Z) : Z :=
  let wt (p : cedge -> bool) l := map ce_weight (filter p l) in
  Z.max (maxz (wt is_call (p_outs P n)))
    (Z.max (maxz (wt is_return (p_ins P n)))
       (Z.max (sumz (wt (fun e => negb (is_call e)) (p_outs P n))) (sumz (wt (fun e => negb (is_return e)) (p_ins P n))))).
(** llvm_propeller_node_chain_builder.h:258-264 ShouldVisitEdge; [ncfgs] is
    cfgs_.size(). *)
Definition should_visit (P : prog) (ncfgs : Z) (e : cedge) : bool :=
  negb (ce_weight e =? 0) && negb (is_return e) &&
  ((p_ifr P && (ncfgs >? 1) && negb (p_inter_section P e)) || negb (is_call e)).
Definition env_of (P : prog) (ncfgs : Z) : env :=
  Env (p_size P) (frequency P) (p_func P) (p_entry P) (p_ifr P) (p_chain_split P) (p_threshold P) (p_score P)
      (p_outs P) (p_ins P) (should_visit P ncfgs).

(** * InitNodeChains *)

(** llvm_propeller_node_chain_builder.cc:205-213 *)
Fixpoint place_nodes (E : env) (bid : Z) (ns : list Z) (off : Z) (mp : Z -> option (Z * Z)) : outcome (Z -> option (Z * Z)) :=
  match ns with
  | [] => Ok mp
  | n :: ns' =>
      match mp n with
      | Some _ => Abort
      | None => place_nodes E bid ns' (off + e_size E n) (fun m => if m =? n then Some (bid, off) else mp m)
      end
  end.
Fixpoint place_bundles (E : env) (bs : list bundle) (mp : Z -> option (Z * Z)) : outcome (Z -> option (Z * Z)) :=
  match bs with
  | [] => Ok mp
  | b :: bs' => let! mp' := place_nodes E (b_id b) (b_nodes b) 0 mp in place_bundles E bs' mp'
  end.
(** llvm_propeller_node_chain_builder.cc:192-218 AddNewChain *)
Definition AddNewChain (E : env) (st : state) (ns : list Z) (together : bool) : outcome state :=
  match ns with
  | [] => Ok st
  | _ =>
      let c := new_chain E ns together in
      let! mp := place_bundles E (c_bundles c) (s_map st) in
      if existsb (fun d => c_id d =? c_id c) (s_chains st) then Abort
      else Ok (State (s_chains st ++ [c]) mp)
  end.
Fixpoint add_all (E : env) (st : state) (l : list (list Z)) (together : bool) : outcome state :=
  match l with
  | [] => Ok st
  | ns :: l' => let! st1 := AddNewChain E st ns together in add_all E st1 l' together
  end.
(** llvm_propeller_node_chain_builder.cc:317-322 *)
Fixpoint add_singles (E : env) (st : state) (ns : list Z) : outcome state :=
  match ns with
  | [] => Ok st
  | n :: ns' =>
      match s_map st n with
      | Some _ => add_singles E st ns'
      | None => let! st1 := AddNewChain E st [n] false in add_singles E st1 ns'
      end
  end.

(** llvm_propeller_cfg.h:345-349 is_hot: an edge from or to some block. *)
Definition is_hot (P : prog) (g : bcfg) : bool :=
  existsb (fun n => match p_outs P n, p_ins P n with [], [] => false | _, _ => true end) (g_nodes g).
(** llvm_propeller_cfg.h:330 and 334-341 *)
Definition n_landing_pads (P : prog) (g : bcfg) : Z := zlen (filter (p_lp P) (g_nodes g)).
Definition has_hot_landing_pads (P : prog) (g : bcfg) : bool :=
  existsb (fun n => p_lp P n && negb (frequency P n =? 0)) (g_nodes g).
(** llvm_propeller_node_chain_builder.cc:269-277: the blocks that count as hot. *)
Definition hot_node (P : prog) (g : bcfg) (n : Z) : bool :=
  negb (frequency P n =? 0) || (p_entry P n && negb (p_ifr P)) || (p_lp P n && has_hot_landing_pads P g).
(** llvm_propeller_node_chain_builder.cc:244-247: the landing pads must be
    coalesced first. *)
Definition coalesced_first (P : prog) (ncfgs : Z) (g : bcfg) : bool :=
  p_ifr P && (ncfgs >? 1) && (n_landing_pads P g >? 1) && has_hot_landing_pads P g.
(** llvm_propeller_node_chain_builder.cc:220-323: one iteration over cfgs_;
    [inner] builds the chains of one graph alone. *)
Definition init_cfg (P : prog) (ncfgs : Z) (inner : bcfg -> outcome (list (list Z))) (st : state) (g : bcfg) : outcome state :=
  let E := env_of P ncfgs in
  if negb (is_hot P g) then Ok st
  else if coalesced_first P ncfgs g then let! chains := inner g in add_all E st chains true
  else
    let hot := filter (hot_node P g) (g_nodes g) in
    let cold := filter (fun n => negb (hot_node P g n)) (g_nodes g) in
    let! st1 := if p_split_functions P then Ok st else AddNewChain E st cold true in
    if negb (p_reorder P) then match hot with [] => Abort | _ => AddNewChain E st1 hot true end
    else
      let! st2 := match g_init g with
                  | [] => let! paths := GetForcedPaths (Fcfg (g_intra g) (g_bb g)) in add_all E st1 paths true
                  | chains => add_all E st1 chains false
                  end in
      add_singles E st2 hot.
Fixpoint init_cfgs (P : prog) (ncfgs : Z) (inner : bcfg -> outcome (list (list Z))) (st : state) (gs : list bcfg) : outcome state :=
  match gs with
  | [] => Ok st
  | g :: gs' => let! st1 := init_cfg P ncfgs inner st g in init_cfgs P ncfgs inner st1 gs'
  end.
(** llvm_propeller_node_chain_builder.cc:191-324 InitNodeChains *)
Definition InitNodeChains (P : prog) (inner : bcfg -> outcome (list (list Z))) (gs : list bcfg) : outcome state :=
  init_cfgs P (zlen gs) inner (State [] (fun _ => None)) gs.

(** * InitChainEdges *)

(** llvm_propeller_node_chain_builder.cc:476-500: one edge out of a block of
    the chain [from].  The branch for another chain does what move_edges does. *)
Definition init_edge (st : state) (from : Z) (e : cedge) : outcome state :=
  match loc st (ce_src e), loc st (ce_sink e) with
  | Some (b1, _), Some (b2, _) => if b_id b1 =? b_id b2 then Ok st else move_edges st [e] from (b_chain b2)
  | _, _ => UB
  end.
Fixpoint init_edges (st : state) (l : list (Z * cedge)) : outcome state :=
  match l with
  | [] => Ok st
  | (from, e) :: l' => let! st1 := init_edge st from e in init_edges st1 l'
  end.
(** llvm_propeller_node_chain_builder.cc:472-476: the edges in the order of the
    loops (the chains and their blocks do not change in the loops). *)
Definition edge_work (P : prog) (E : env) (st : state) : list (Z * cedge) :=
  flat_map (fun id => match get_chain st id with
                      | None => []
                      | Some c => map (pair id) (filter (e_visit E) (flat_map (e_outs E) (chain_nodes c)))
                      end) (p_ord P (map c_id (s_chains st))).
(** llvm_propeller_node_chain.cc:251-267 ComputeScore *)
Fixpoint score_edges (E : env) (st : state) (bid : Z) (es : list cedge) : outcome Z :=
  match es with
  | [] => Ok 0
  | e :: es' =>
      match loc st (ce_src e), loc st (ce_sink e) with
      | Some l1, Some l2 =>
          if b_id (fst l2) =? bid then Abort
          else let! y := score_edges E st bid es' in
               Ok (e_score E e (node_offset l2 - node_offset l1 - e_size E (ce_src e)) + y)
      | _, _ => UB
      end
  end.
Definition ComputeScore (E : env) (st : state) (c : chain) : outcome Z :=
  gain_bundles (fun b => score_edges E st (b_id b) (b_edges b)) (c_bundles c).
(** llvm_propeller_node_chain_builder.cc:502-505 *)
Fixpoint scores (E : env) (st : state) (cs : list chain) : outcome (list chain) :=
  match cs with
  | [] => Ok []
  | c :: cs' => let! s := ComputeScore E st c in let! ds := scores E st cs' in Ok (set_score c s :: ds)
  end.
(** llvm_propeller_node_chain_builder.cc:470-506 InitChainEdges *)
Definition InitChainEdges (P : prog) (E : env) (st : state) : outcome state :=
  let! st1 := init_edges st (edge_work P E st) in
  let! cs := scores E st1 (s_chains st1) in Ok (State cs (s_map st1)).

(** * Assemblies *)

(** llvm_propeller_node_chain_builder.h:104-135 NodeChainAssemblyIterativeQueue:
    a map from a pair of chains. *)
Notation queue := (list ((Z * Z) * assembly)).
Definition pair_eqb (a b : Z * Z) : bool := (fst a =? fst b) && (snd a =? snd b).
(** llvm_propeller_node_chain_assembly.cc:250-258 NodeChainAssemblyComparator;
    an absent slice_pos is less than a present one. *)
Definition pos_ltb (a b : option Z) : bool :=
  match a, b with None, Some _ => true | Some x, Some y => x <? y | _, None => false end.
Definition asm_ltb (a b : assembly) : bool :=
  (a_gain a <? a_gain b) || ((a_gain a =? a_gain b) &&
  ((a_split b <? a_split a) || ((a_split a =? a_split b) &&
  ((a_unsplit b <? a_unsplit a) || ((a_unsplit a =? a_unsplit b) &&
  ((order_rank (a_order a) <? order_rank (a_order b)) || ((order_rank (a_order a) =? order_rank (a_order b)) &&
   pos_ltb (a_pos a) (a_pos b)))))))).
(** llvm_propeller_node_chain_builder.h:113-120 GetBestAssembly *)
Definition best_of (q : queue) : option assembly :=
  fold_left (fun acc ka => match acc with
                           | None => Some (snd ka)
                           | Some b => if asm_ltb b (snd ka) then Some (snd ka) else Some b
                           end) q None.

(** llvm_propeller_node_chain_builder.cc:355-362 *)
Definition better (best new : option assembly) : option assembly :=
  match new with
  | None => best
  | Some a => match best with
              | None => new
              | Some b => if asm_ltb b a then new else best
              end
  end.
Fixpoint try_all (E : env) (st : state) (cs cu : chain) (l : list (merge_order * Z)) (best : option assembly) : outcome (option assembly) :=
  match l with
  | [] => Ok best
  | (o, k) :: l' =>
      let! a := BuildNodeChainAssembly E (loc st) cs cu o (Some k) true in
      try_all E st cs cu l' (better best a)
  end.
(** llvm_propeller_node_chain_builder.cc:367-381: every position. *)
Definition every_cut (cs : chain) : list (merge_order * Z) :=
  flat_map (fun o => map (fun i => (o, Z.of_nat i)) (seq 1 (length (c_bundles cs) - 1))) [kS1US2; kS2S1U; kUS2S1; kS2US1].
(** llvm_propeller_node_chain_builder.cc:386-398 try_assemblies *)
Definition cut_at (cs : chain) (k : Z) (os : list merge_order) : list (merge_order * Z) :=
  if (k =? 0) || (k =? zlen (c_bundles cs)) then [] else map (fun o => (o, k)) os.
(** llvm_propeller_node_chain_builder.cc:401-411 *)
Fixpoint cuts_out (E : env) (st : state) (cs : chain) (es : list cedge) : outcome (list (merge_order * Z)) :=
  match es with
  | [] => Ok []
  | e :: es' =>
      if negb (e_visit E e) then cuts_out E st cs es'
      else match loc st (ce_sink e) with
           | None => UB
           | Some (b, _) =>
               let! r := cuts_out E st cs es' in
               Ok ((if (b_chain b =? c_id cs) && (hd 0 (b_nodes b) =? ce_sink e) then cut_at cs (b_index b) [kS1US2; kUS2S1] else []) ++ r)
           end
  end.
(** llvm_propeller_node_chain_builder.cc:415-425 *)
Fixpoint cuts_in (E : env) (st : state) (cs : chain) (es : list cedge) : outcome (list (merge_order * Z)) :=
  match es with
  | [] => Ok []
  | e :: es' =>
      if negb (e_visit E e) then cuts_in E st cs es'
      else match loc st (ce_src e) with
           | None => UB
           | Some (b, _) =>
               let! r := cuts_in E st cs es' in
               Ok ((if (b_chain b =? c_id cs) && (last (b_nodes b) 0 =? ce_src e) then cut_at cs (b_index b + 1) [kS1US2; kS2S1U] else []) ++ r)
           end
  end.
(** llvm_propeller_node_chain_builder.cc:348-435 UpdateNodeChainAssembly: the
    best assembly.  The candidates are collected before they are tried. *)
Definition best_assembly (E : env) (st : state) (cs cu : chain) : outcome (option assembly) :=
  let! b0 := BuildNodeChainAssembly E (loc st) cs cu kSU None true in
  if negb (e_split E) then Ok b0
  else if zlen (c_bundles cs) <=? e_threshold E then try_all E st cs cu (every_cut cs) b0
  else
    let! l1 := cuts_out E st cs (e_outs E (last_node cu)) in
    let! l2 := cuts_in E st cs (e_ins E (first_node cu)) in
    try_all E st cs cu (l1 ++ l2) b0.
Definition UpdateNodeChainAssembly (E : env) (st : state) (q : queue) (s u : Z) : outcome queue :=
  match get_chain st s, get_chain st u with
  | Some cs, Some cu =>
      let! b := best_assembly E st cs cu in
      Ok (match b with Some a => aset pair_eqb (s, u) a q | None => aremove pair_eqb (s, u) q end)
  | _, _ => UB
  end.
(** llvm_propeller_node_chain.h:277-287 VisitEachCandidateChain *)
Definition candidates (c : chain) : list Z :=
  c_in c ++ filter (fun y => negb (existsb (Z.eqb y) (c_in c))) (akeys (c_out c)).
Fixpoint update_each (E : env) (st : state) (q : queue) (s : Z) (us : list Z) : outcome queue :=
  match us with
  | [] => Ok q
  | u :: us' => let! q1 := UpdateNodeChainAssembly E st q s u in update_each E st q1 s us'
  end.
Fixpoint init_assemblies (P : prog) (E : env) (st : state) (q : queue) (ids : list Z) : outcome queue :=
  match ids with
  | [] => Ok q
  | id :: ids' =>
      match get_chain st id with
      | None => UB
      | Some c => let! q1 := update_each E st q id (p_ord P (candidates c)) in init_assemblies P E st q1 ids'
      end
  end.
(** llvm_propeller_node_chain_builder.cc:438-447 InitChainAssemblies *)
Definition InitChainAssemblies (P : prog) (E : env) (st : state) : outcome queue :=
  init_assemblies P E st [] (p_ord P (map c_id (s_chains st))).

(** llvm_propeller_node_chain_builder.cc:511-515 *)
Definition remove_pairs (q : queue) (d : Z) (cands : list Z) : queue :=
  fold_left (fun q y => aremove pair_eqb (y, d) (aremove pair_eqb (d, y) q)) cands q.
(** llvm_propeller_node_chain_builder.cc:522-525 *)
Fixpoint update_both (E : env) (st : state) (q : queue) (s : Z) (us : list Z) : outcome queue :=
  match us with
  | [] => Ok q
  | u :: us' =>
      let! q1 := UpdateNodeChainAssembly E st q s u in
      let! q2 := UpdateNodeChainAssembly E st q1 u s in update_both E st q2 s us'
  end.
(** llvm_propeller_node_chain_builder.cc:460-468 MergeChains(assembly) and
    508-526 UpdateAssembliesAfterMerge.  The candidates of the defunct chain are
    read before the merge, which does not change them. *)
Definition MergeChains (P : prog) (E : env) (st : state) (q : queue) (a : assembly) : outcome (state * queue) :=
  if a_gain a <? 0 then Abort
  else
    match get_chain st (a_unsplit a) with
    | None => UB
    | Some cu =>
        let! st1 := MergeWith E st a in
        let q1 := remove_pairs q (a_unsplit a) (p_ord P (candidates cu)) in
        match get_chain st1 (a_split a) with
        | None => UB
        | Some c => let! q2 := update_both E st1 q1 (a_split a) (p_ord P (candidates c)) in Ok (st1, q2)
        end
    end.
(** llvm_propeller_node_chain_builder.cc:333-336: merging while there is an
    assembly; [UB] when the fuel is used up. *)
Fixpoint merge_loop (P : prog) (E : env) (fuel : nat) (st : state) (q : queue) : outcome (state * queue) :=
  match best_of q with
  | None => Ok (st, q)
  | Some a =>
      match fuel with
      | O => UB
      | S fuel' => let! '(st1, q1) := MergeChains P E st q a in merge_loop P E fuel' st1 q1
      end
  end.

(** * CoalesceChains *)

(** llvm_propeller_node_chain.h:225-227 exec_density, compared exactly instead
    of as double: whether that of [c1] is greater. *)
Definition denser (c1 c2 : chain) : bool := c_freq c2 * Z.max (c_size c1) 1 <? c_freq c1 * Z.max (c_size c2) 1.
(** llvm_propeller_node_chain_builder.cc:547-554: the comparison. *)
Definition coalesce_ltb (E : env) (c1 c2 : chain) : bool :=
  if e_entry E (first_node c2) then false
  else if e_entry E (first_node c1) then true
  else denser c1 c2 || (negb (denser c2 c1) && (c_id c1 <? c_id c2)).
(** llvm_propeller_node_chain_builder.cc:449-458 MergeChains(left, right) *)
Definition MergeTwo (P : prog) (E : env) (st : state) (q : queue) (l r : Z) : outcome (state * queue) :=
  match get_chain st l, get_chain st r with
  | Some cl, Some cr =>
      let! a := BuildNodeChainAssembly E (loc st) cl cr kSU None false in
      match a with
      | None => Abort
      | Some a => MergeChains P E st q a
      end
  | _, _ => UB
  end.
Fixpoint merge_rest (P : prog) (E : env) (st : state) (q : queue) (front : Z) (ids : list Z) : outcome (state * queue) :=
  match ids with
  | [] => Ok (st, q)
  | r :: ids' =>
      if r =? front then merge_rest P E st q front ids'
      else let! '(st1, q1) := MergeTwo P E st q front r in merge_rest P E st1 q1 front ids'
  end.
(** llvm_propeller_node_chain_builder.cc:532-562 CoalesceChains; std::sort is
    modelled by an insertion sort. *)
Definition CoalesceChains (P : prog) (E : env) (st : state) (q : queue) : outcome (state * queue) :=
  match map c_id (isort (fun c1 c2 => negb (coalesce_ltb E c2 c1)) (s_chains st)) with
  | [] => Ok (st, q)
  | front :: ids => merge_rest P E st q front (front :: ids)
  end.

(** llvm_propeller_node_chain_builder.cc:328-346 BuildChains; the result is the
    set of chains in the final state. *)
Definition build_with (P : prog) (inner : bcfg -> outcome (list (list Z))) (gs : list bcfg) : outcome state :=
  let E := env_of P (zlen gs) in
  let! st0 := InitNodeChains P inner gs in
  let! st1 := InitChainEdges P E st0 in
  let! q1 := InitChainAssemblies P E st1 in
  let! '(st2, q2) := merge_loop P E (length (s_chains st1)) st1 q1 in
  if zlen gs =? 1 then let! '(st3, _) := CoalesceChains P E st2 q2 in Ok st3 else Ok st2.
(** llvm_propeller_node_chain_builder.cc:248-261: the builder of one graph, and
    the blocks of its chains.  With one graph the branch at 244 is not taken. *)
Definition build_one (P : prog) (g : bcfg) : outcome (list (list Z)) :=
  let! st := build_with P (fun _ => UB) [g] in Ok (map chain_nodes (s_chains st)).
(** llvm_propeller_node_chain_builder.h:225-227 (the constructor) and
    llvm_propeller_node_chain_builder.cc:328-346 *)
Definition BuildChains (P : prog) (gs : list bcfg) : outcome state :=
  if negb (p_ifr P) && negb (zlen gs =? 1) then Abort else build_with P (build_one P) gs.
