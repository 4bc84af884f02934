(** Model of the Propeller run after aggregation: the counters and the address
    map of the binary become the cluster file and the symbol ordering file
    (llvm_propeller_profile_computer.cc, llvm_propeller_program_cfg_builder.cc,
    llvm_propeller_program_cfg.cc, llvm_propeller_code_layout.cc,
    llvm_propeller_profile_writer.cc), put together from MapperModel,
    CfgBuildModel, LayoutModel and WriterModel.  Path cloning, initial chains
    and reading the binary and the profile are not part of it. *)
From Verif Require Import Base ISort SymbolModel MapperModel CfgFreqModel CfgBuildModel.
From Verif Require ForcedModel ChainModel.
From Verif Require Import ForcedModel ChainModel ChainBuildModel ClusterModel LayoutModel WriterModel.

(** What is known of the binary besides the addresses (MapperModel.func_map):
    BBEntry::ID, BBEntry::isEHPad, the symbol information, the module name of a
    function (none if it is not asked for or not found), and the section names
    in the order of absl::btree_map (which only matters for the order in which
    the sections are written). *)
Record binary := Binary {
  x_funcs : list func_map; x_bb : bb_handle -> Z; x_lp : bb_handle -> bool;
  x_info : info_map; x_module : nat -> option text }.
(** The options: PropellerCodeLayoutParameters and filter_non_text_functions,
    and the iteration orders of hash containers ([s_names]: name to function
    index, [s_falls]: fall-through counters, [s_cfgs]: the control flow graphs
    of one section, [s_ord]: see ChainBuildModel), [s_addr]: the addresses of
    the branches and fall-throughs. *)
Record settings := Settings {
  s_text_only : bool; s_score : cedge -> Z -> Z; s_ifr : bool; s_chain_split : bool; s_threshold : Z;
  s_split_functions : bool; s_reorder : bool; s_thr : Z; s_clustering : bool; s_dens : Z -> Z -> Z; s_min : Z;
  s_reject : Z -> Z -> Z -> Z -> bool;
  s_ord : list Z -> list Z; s_names : list (name * list nat) -> list (name * list nat);
  s_falls : list ((nat * nat) * Z) -> list ((nat * nat) * Z); s_cfgs : list nat -> list nat; s_addr : list Z -> list Z }.

(** branch_aggregation.cc:8-20 BranchAggregation::GetUniqueAddresses and
    lbr_branch_aggregator.cc:36-48 GetBranchEndpointAddresses: a set of
    addresses, as a list without repetitions in the order they are put in. *)
Definition add_address (s : list Z) (a : Z) : list Z := if existsb (Z.eqb a) s then s else s ++ [a].
Definition add_ends (s : list Z) (c : counter) : list Z := add_address (add_address s (fst (fst c))) (snd (fst c)).
Definition GetUniqueAddresses (branches falls : list counter) : list Z := fold_left add_ends falls (fold_left add_ends branches []).

(** A CFGNode is its position in bb_handles_ (CreateCfgNodes,
    llvm_propeller_program_cfg_builder.cc:30-43, makes one for each block). *)
Fixpoint index_of (h : bb_handle) (l : list bb_handle) : nat :=
  match l with [] => 0 | x :: l' => if handle_eqb x h then 0 else S (index_of h l') end.
Definition node_of (mp : mapper) (h : bb_handle) : Z := Z.of_nat (index_of h (mp_handles mp)).
Definition handle_of (mp : mapper) (n : Z) : bb_handle := nth (Z.to_nat n) (mp_handles mp) no_handle.
Definition func_of (mp : mapper) (n : Z) : Z := Z.of_nat (bh_func (handle_of mp n)).
Definition all_nodes (mp : mapper) : list Z := map Z.of_nat (seq 0 (length (mp_handles mp))).
Definition section_of (B : binary) (f : Z) : name := match info_of (x_info B) (Z.to_nat f) with Some s => si_section s | None => [] end.

Definition kind_of_edge (k : CfgFreqModel.edge_kind) : ForcedModel.edge_kind :=
  match k with KBranchOrFallthrough => EBranch | KCall => ECall | KRet => EReturn end.
(** All edges in the order they were created. *)
Definition all_edges (mp : mapper) (st : CfgBuildModel.cstate) : list cedge :=
  map (fun e => CEdge (node_of mp (fst (fst e))) (node_of mp (snd (fst e))) (fst (snd e)) (kind_of_edge (snd (snd e)))) (cs_edges st).
Definition stays (mp : mapper) (e : cedge) : bool := func_of mp (ce_src e) =? func_of mp (ce_sink e).

(** The nodes and edges as the layout sees them.  llvm_propeller_cfg.cc:43-71
    CreateEdge puts an edge into intra_outs_ and intra_ins_ if it stays in the
    function and into inter_outs_ and inter_ins_ otherwise; inter_section is
    llvm_propeller_program_cfg_builder.cc:181-185. *)
Definition program (B : binary) (S : settings) (mp : mapper) (st : CfgBuildModel.cstate) : prog :=
  let es := all_edges mp st in
  Prog (fun n => be_size (GetBBEntry (mp_funcs mp) (handle_of mp n))) (func_of mp)
    (fun n => (bh_bb (handle_of mp n) =? 0)%nat) (fun n => x_lp B (handle_of mp n))
    (fun n => filter (fun e => (ce_src e =? n) && stays mp e) es ++ filter (fun e => (ce_src e =? n) && negb (stays mp e)) es)
    (fun n => filter (fun e => (ce_sink e =? n) && stays mp e) es ++ filter (fun e => (ce_sink e =? n) && negb (stays mp e)) es)
    (fun e => negb (name_eqb (section_of B (func_of mp (ce_src e))) (section_of B (func_of mp (ce_sink e)))))
    (s_score S) (s_ifr S) (s_chain_split S) (s_threshold S) (s_split_functions S) (s_reorder S) (s_ord S).
(** The ControlFlowGraph of function [f]: its nodes, intra_edges_ and
    inter_edges_ (owned by the graph of the source). *)
Definition nodes_of_func (mp : mapper) (f : nat) : list Z := filter (fun n => func_of mp n =? Z.of_nat f) (all_nodes mp).
Definition graph (mp : mapper) (st : CfgBuildModel.cstate) (f : nat) : bcfg :=
  BCfg (nodes_of_func mp f) (filter (fun e => (func_of mp (ce_src e) =? Z.of_nat f) && stays mp e) (all_edges mp st))
    (fun n => Z.of_nat (bh_bb (handle_of mp n))) [].
Definition inter_edges (mp : mapper) (st : CfgBuildModel.cstate) (f : Z) : list cedge :=
  filter (fun e => (func_of mp (ce_src e) =? f) && negb (stays mp e)) (all_edges mp st).
(** llvm_propeller_program_cfg_builder.cc:90-102: functions without a block
    that was executed are dropped. *)
Definition kept (B : binary) (S : settings) (mp : mapper) (st : CfgBuildModel.cstate) : list nat :=
  filter (fun f => existsb (fun n => negb (frequency (program B S mp st) n =? 0)) (nodes_of_func mp f)) (mp_selected mp).

(** llvm_propeller_program_cfg.cc:25-33 GetCfgsBySectionName, and
    llvm_propeller_code_layout.cc:24-39: the keys of the btree_map. *)
Fixpoint name_leb (a b : name) : bool :=
  match a, b with
  | [], _ => true
  | _ :: _, [] => false
  | x :: a', y :: b' => (x <? y) || ((x =? y) && name_leb a' b')
  end.
Definition add_name (s : list name) (n : name) : list name := if existsb (name_eqb n) s then s else s ++ [n].
Definition section_names (B : binary) (fs : list nat) : list name :=
  isort name_leb (fold_left add_name (map (fun f => section_of B (Z.of_nat f)) fs) []).
Definition in_section (B : binary) (n : name) (f : nat) : bool := name_eqb (section_of B (Z.of_nat f)) n.
Definition layout_params (B : binary) (S : settings) (mp : mapper) (st : CfgBuildModel.cstate) : lparams :=
  LParams (CParams (program B S mp st) (s_thr S) (s_clustering S) (s_dens S) (s_min S))
    (fun g => func_of mp (hd 0 (g_nodes g))) (fun n => x_bb B (handle_of mp n))
    (fun n => GetAddress (mp_funcs mp) (handle_of mp n)) (fun g => inter_edges mp st (func_of mp (hd 0 (g_nodes g)))).
(** llvm_propeller_code_layout.cc:24-39 GenerateLayoutBySection *)
Fixpoint layout_sections (B : binary) (S : settings) (mp : mapper) (st : CfgBuildModel.cstate) (ns : list name) : outcome (list (name * list finfo)) :=
  match ns with
  | [] => Ok []
  | n :: ns' =>
      let! zs := OrderAll (layout_params B S mp st) (map (graph mp st) (s_cfgs S (filter (in_section B n) (kept B S mp st)))) in
      let! r := layout_sections B S mp st ns' in
      Ok ((n, zs) :: r)
  end.

(** What the writer asks of the graphs: llvm_propeller_program_cfg.h
    GetCfgByIndex. *)
Definition block_id (B : binary) (mp : mapper) (n : Z) : bbid :=
  BBId (x_bb B (handle_of mp n)) (Z.of_nat (bh_bb (handle_of mp n))) 0.
Definition written_cfg (B : binary) (S : settings) (mp : mapper) (st : CfgBuildModel.cstate) (f : Z) : option wcfg :=
  if existsb (fun g => Z.of_nat g =? f) (kept B S mp st) then
    let P := program B S mp st in
    Some (WCfg (aliases_of (x_info B) (Z.to_nat f)) (x_module B (Z.to_nat f)) []
      (map (fun n => WNode (block_id B mp n) (frequency P n)
              (map (fun e => (match ce_kind e with EBranch => true | _ => false end, x_bb B (handle_of mp (ce_sink e)), ce_weight e)) (p_outs P n)))
         (nodes_of_func mp (Z.to_nat f))))
  else None.

(** llvm_propeller_profile_computer.cc:63-81 and 121-163 ComputeProfile and
    GetProgramCfg, and the writing of the result; [None]: an error status of
    CreateEdges.  [addresses] and [aggregate] are what the branch aggregator
    answers (GetBranchEndpointAddresses and Aggregate, the branches and the
    fall-throughs); [scores] is the text of the four scores of a function. *)
Definition ComputeProfile (dbg verbose : bool) (v : version) (scores : finfo -> text) (B : binary) (S : settings)
    (addresses : list Z) (aggregate : mapper -> outcome (list counter * list counter)) : outcome (option (text * text)) :=
  let! mp := BuildMapper (s_names S) (s_text_only S) (x_funcs B) (x_info B) (Some (s_addr S addresses)) in
  let! ag := aggregate mp in
  let has h := existsb (handle_eqb h) (mp_handles mp) in
  let! r := CreateEdges dbg [] has mp (s_falls S) (s_reject S) (fst ag) (snd ag) in
  match r with
  | None => Ok None
  | Some st =>
      let! secs := layout_sections B S mp st (section_names B (kept B S mp st)) in
      let! out := Write verbose v (written_cfg B S mp st)
                    (map (fun s => (fst s, map (fun z => WInfo (z_func z) (map (fun y => WCluster (y_index y) (map (block_id B mp) (y_blocks y))) (z_clusters z)) (scores z) (z_cold z)) (snd s))) secs) in
      Ok (Some out)
  end.
(** The run with the counters of lbr_branch_aggregator.cc:36-60. *)
Definition Propeller (dbg verbose : bool) (v : version) (scores : finfo -> text) (B : binary) (S : settings) (branches falls : list counter)
    : outcome (option (text * text)) :=
  ComputeProfile dbg verbose v scores B S (GetUniqueAddresses branches falls) (fun _ => Ok (branches, falls)).
