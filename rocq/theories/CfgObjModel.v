(** Model of the ControlFlowGraph objects of a program, as pointers and all:
    llvm_propeller_cfg.{h,cc} (nodes, clones, edges, CloneCfg, hot join nodes,
    frequency statistics) and llvm_propeller_program_cfg.cc (GetHotJoinNodes,
    GetCfgs).

    Pointers: a CFGNode* is the pair of the function it belongs to and its
    position in that function's [nodes_] (nodes are never removed or moved);
    a CFGEdge* is the position of the edge in the list of all edges in order of
    creation (edges are never removed).  Simplifications: basic block indices
    and clone numbers are natural numbers (a negative one fails the same range
    checks); the number of blocks stays below 2^31; names are lists of
    character codes; of BBAddrMap metadata only IsEHPad is interpreted, the
    other bits are one opaque number. *)
From Verif Require Import Base CfgFreqModel.

Notation nref := (Z * nat)%type.
(** llvm_propeller_cfg.h:99-103 IntraCfgId. *)
Notation intra_id := (nat * nat)%type.
(** llvm_propeller_cfg.h:130-132 FullIntraCfgId: bb_id, intra_cfg_id. *)
Notation full_id := (Z * (nat * nat))%type.

(** llvm_propeller_cfg.h:87-92 CFGEdge. *)
Record cedge := CEdge {
  e_src : nref; e_sink : nref; e_weight : Z; e_kind : edge_kind; e_isec : bool }.

(** llvm_propeller_cfg.h:266-283 CFGNode. *)
Record cnode := CNode {
  n_func : Z; n_bb : nat; n_clone : nat; n_bbid : Z; n_index : Z; n_addr : Z; n_size : Z;
  n_pad : bool; n_flags : Z; n_freq : Z;
  n_intra_outs : list nat; n_intra_ins : list nat; n_inter_outs : list nat; n_inter_ins : list nat }.

(** llvm_propeller_cfg.h:483-523 ControlFlowGraph. *)
Record cfg := Cfg {
  g_section : list Z; g_index : Z; g_module : option (list Z); g_names : list (list Z);
  g_nodes : list cnode; g_pads : Z; g_clones : list (nat * list nat);
  g_paths : list (list full_id); g_intra : list nat; g_inter : list nat }.

(** The cfgs of a program (llvm_propeller_program_cfg.h:100 [cfgs_]) and the
    edges allocated so far. *)
Record state := State { s_cfgs : list (Z * cfg); s_edges : list cedge }.

(** Conversion of a uint64_t to int, and back (llvm_propeller_cfg.h:276: the
    member [addr_] is an int, the constructor and addr() use uint64_t). *)
Definition addr_to_int (a : Z) : Z :=
  let x := a mod w32 in if x <? 2147483648 then x else x - w32.
Definition addr (n : cnode) : Z := n_addr n mod w64.

(** llvm_propeller_cfg.h:167-178 the constructor of CFGNode. *)
Definition new_node (a : Z) (bb : nat) (bbid size : Z) (pad : bool) (flags f freq : Z)
    (clone : nat) (node_index : Z) : cnode :=
  CNode f bb clone bbid (if (clone =? 0)%nat then Z.of_nat bb else node_index) (addr_to_int a) size
        pad flags freq [] [] [] [].

(** llvm_propeller_cfg.h:182-186 CFGNode::Clone. *)
Definition Clone (n : cnode) (clone : nat) (node_index : Z) : cnode :=
  new_node (addr n) (n_bb n) (n_bbid n) (n_size n) (n_pad n) (n_flags n) (n_func n) 0 clone node_index.

(** llvm_propeller_cfg.h:190-194. *)
Definition intra_cfg_id (n : cnode) : intra_id := (n_bb n, n_clone n).
Definition full_intra_cfg_id (n : cnode) : full_id := (n_bbid n, intra_cfg_id n).
(** llvm_propeller_cfg.h:228. *)
Definition is_entry (n : cnode) : bool := (n_bb n =? 0)%nat.

(** clones_by_bb_index_[bb]. *)
Definition clones_at (bb : nat) (m : list (nat * list nat)) : list nat :=
  match aget Nat.eqb bb m with Some l => l | None => [] end.

(** llvm_propeller_cfg.h:316-327: the loop of the constructor. *)
Fixpoint ctor_loop (f : Z) (bb_index pos : nat) (nodes : list cnode)
    (clones : list (nat * list nat)) (pads : Z) : outcome (list (nat * list nat) * Z) :=
  match nodes with
  | [] => Ok (clones, pads)
  | n :: rest =>
      if negb (n_func n =? f) then Abort else
      let pads' := if n_pad n then pads + 1 else pads in
      if (n_clone n =? 0)%nat then
        if negb (n_bb n =? bb_index)%nat then Abort
        else ctor_loop f (S bb_index) (S pos) rest clones pads'
      else
        let l := clones_at (n_bb n) clones ++ [pos] in
        if negb (n_clone n =? length l)%nat then Abort
        else ctor_loop f bb_index (S pos) rest (aset Nat.eqb (n_bb n) l clones) pads'
  end.

(** llvm_propeller_cfg.h:307-328. *)
Definition new_cfg (section : list Z) (f : Z) (module : option (list Z)) (names : list (list Z))
    (nodes : list cnode) : outcome cfg :=
  let! '(clones, pads) := ctor_loop f 0 0 nodes [] 0 in
  Ok (Cfg section f module names nodes pads clones [] [] []).

(** llvm_propeller_cfg.h:388-401 GetNodeById (the pointer is the position). *)
Definition GetNodeById (g : cfg) (id : intra_id) : outcome nat :=
  let '(bb, clone) := id in
  if (clone =? 0)%nat then
    if negb (bb <=? length (g_nodes g))%nat then Abort else
    match nth_error (g_nodes g) bb with
    | None => Abort  (* vector::at throws *)
    | Some n => if (n_bb n =? bb)%nat then Ok bb else Abort
    end
  else
    match aget Nat.eqb bb (g_clones g) with
    | None => Abort
    | Some l =>
        if negb (clone - 1 <? length l)%nat then Abort else
        match nth_error l (clone - 1) with Some p => Ok p | None => Abort end
    end.

(** llvm_propeller_cfg.h:425-433 GetAllClonesForBbIndex. *)
Definition GetAllClonesForBbIndex (g : cfg) (bb : nat) : outcome (list nat) :=
  let! p := GetNodeById g (bb, 0%nat) in
  Ok (p :: clones_at bb (g_clones g)).

(** llvm_propeller_cfg.h:455-466: the loop of ClonePath. *)
Fixpoint clone_loop (g : cfg) (path : list nat) (acc : list full_id) : outcome (cfg * list full_id) :=
  match path with
  | [] => Ok (g, acc)
  | bb :: rest =>
      match nth_error (g_nodes g) bb with
      | None => Abort  (* vector::at throws *)
      | Some n =>
          let clones := clones_at bb (g_clones g) in
          let c := Clone n (length clones + 1) (Z.of_nat (length (g_nodes g))) in
          let pos := length (g_nodes g) in
          clone_loop
            (Cfg (g_section g) (g_index g) (g_module g) (g_names g) (g_nodes g ++ [c])
                 (if n_pad c then g_pads g + 1 else g_pads g)
                 (aset Nat.eqb bb (clones ++ [pos]) (g_clones g)) (g_paths g) (g_intra g) (g_inter g))
            rest (acc ++ [full_intra_cfg_id c])
      end
  end.

(** llvm_propeller_cfg.h:447-469 ClonePath. *)
Definition ClonePath (g : cfg) (pred : nat) (path : list nat) : outcome cfg :=
  let! p := GetNodeById g (pred, 0%nat) in
  match nth_error (g_nodes g) p with
  | None => UB
  | Some n =>
      let! '(g', ids) := clone_loop g path [full_intra_cfg_id n] in
      Ok (Cfg (g_section g') (g_index g') (g_module g') (g_names g') (g_nodes g') (g_pads g')
              (g_clones g') (g_paths g' ++ [ids]) (g_intra g') (g_inter g'))
  end.

(* ---------------- edges ---------------- *)

Definition kind_eqb (a b : edge_kind) : bool :=
  match a, b with
  | KBranchOrFallthrough, KBranchOrFallthrough | KCall, KCall | KRet, KRet => true
  | _, _ => false
  end.
Definition nref_eqb (a b : nref) : bool := (fst a =? fst b) && (snd a =? snd b)%nat.

(** Following pointers. *)
Definition cfg_at (st : state) (f : Z) : option cfg := aget Z.eqb f (s_cfgs st).
Definition node_at (st : state) (r : nref) : option cnode :=
  match cfg_at st (fst r) with Some g => nth_error (g_nodes g) (snd r) | None => None end.

(** Replacing the p-th element. *)
Fixpoint upd {A} (l : list A) (p : nat) (f : A -> A) : list A :=
  match l, p with
  | [], _ => []
  | x :: l', O => f x :: l'
  | x :: l', S p' => x :: upd l' p' f
  end.

Definition upd_node (st : state) (r : nref) (h : cnode -> cnode) : state :=
  match cfg_at st (fst r) with
  | None => st
  | Some g =>
      State (aset Z.eqb (fst r)
               (Cfg (g_section g) (g_index g) (g_module g) (g_names g) (upd (g_nodes g) (snd r) h)
                    (g_pads g) (g_clones g) (g_paths g) (g_intra g) (g_inter g)) (s_cfgs st))
            (s_edges st)
  end.

Definition push_intra_out e n := CNode (n_func n) (n_bb n) (n_clone n) (n_bbid n) (n_index n) (n_addr n)
  (n_size n) (n_pad n) (n_flags n) (n_freq n) (n_intra_outs n ++ [e]) (n_intra_ins n) (n_inter_outs n) (n_inter_ins n).
Definition push_intra_in e n := CNode (n_func n) (n_bb n) (n_clone n) (n_bbid n) (n_index n) (n_addr n)
  (n_size n) (n_pad n) (n_flags n) (n_freq n) (n_intra_outs n) (n_intra_ins n ++ [e]) (n_inter_outs n) (n_inter_ins n).
Definition push_inter_out e n := CNode (n_func n) (n_bb n) (n_clone n) (n_bbid n) (n_index n) (n_addr n)
  (n_size n) (n_pad n) (n_flags n) (n_freq n) (n_intra_outs n) (n_intra_ins n) (n_inter_outs n ++ [e]) (n_inter_ins n).
Definition push_inter_in e n := CNode (n_func n) (n_bb n) (n_clone n) (n_bbid n) (n_index n) (n_addr n)
  (n_size n) (n_pad n) (n_flags n) (n_freq n) (n_intra_outs n) (n_intra_ins n) (n_inter_outs n) (n_inter_ins n ++ [e]).

(** this->intra_edges_.push_back, this->inter_edges_.push_back. *)
Definition push_edge (intra : bool) (e : nat) (f : Z) (st : state) : state :=
  match cfg_at st f with
  | None => st
  | Some g =>
      State (aset Z.eqb f
               (Cfg (g_section g) (g_index g) (g_module g) (g_names g) (g_nodes g)
                    (g_pads g) (g_clones g) (g_paths g)
                    (if intra then g_intra g ++ [e] else g_intra g)
                    (if intra then g_inter g else g_inter g ++ [e])) (s_cfgs st))
            (s_edges st)
  end.

(** llvm_propeller_cfg.cc:50-55 has_duplicates. *)
Definition has_duplicates (st : state) (from to : nref) (edges : list nat) : bool :=
  existsb (fun e => match nth_error (s_edges st) e with
                    | Some d => nref_eqb (e_src d) from && nref_eqb (e_sink d) to
                    | None => false
                    end) edges.

(** llvm_propeller_cfg.cc:42-71 CreateEdge on the cfg of [f]; [dbg] says
    whether DCHECK is compiled in. *)
Definition CreateEdge (dbg : bool) (f : Z) (from to : nref) (w : Z) (k : edge_kind) (isec : bool)
    (st : state) : outcome state :=
  match cfg_at st f, node_at st from, node_at st to with
  | Some g, Some nf, Some nt =>
      if isec && (n_func nf =? n_func nt) then Abort else
      let e := length (s_edges st) in
      let st1 := State (s_cfgs st) (s_edges st ++ [CEdge from to w k isec]) in
      if n_func nf =? n_func nt then
        if has_duplicates st from to (g_intra g) then Abort
        else Ok (push_edge true e f (upd_node (upd_node st1 from (push_intra_out e)) to (push_intra_in e)))
      else
        if dbg && has_duplicates st from to (g_inter g) then Abort
        else Ok (push_edge false e f (upd_node (upd_node st1 from (push_inter_out e)) to (push_inter_in e)))
  | _, _, _ => UB
  end.

(** llvm_propeller_cfg.cc:24-31 GetEdgeTo. *)
Definition GetEdgeTo (st : state) (n : cnode) (to : nref) (k : edge_kind) : option nat :=
  find (fun e => match nth_error (s_edges st) e with
                 | Some d => kind_eqb (e_kind d) k && nref_eqb (e_sink d) to
                 | None => false
                 end) (n_intra_outs n ++ n_inter_outs n).

(** llvm_propeller_cfg.cc:33-40 CreateOrUpdateEdge; llvm_propeller_cfg.h:62
    IncrementWeight. *)
Definition CreateOrUpdateEdge (dbg : bool) (f : Z) (from to : nref) (w : Z) (k : edge_kind)
    (isec : bool) (st : state) : outcome state :=
  match node_at st from with
  | None => UB
  | Some nf =>
      match GetEdgeTo st nf to k with
      | None => CreateEdge dbg f from to w k isec st
      | Some e =>
          match nth_error (s_edges st) e with
          | None => UB
          | Some d =>
              let! w' := int_add (e_weight d) w in
              Ok (State (s_cfgs st)
                    (upd (s_edges st) e (fun d => CEdge (e_src d) (e_sink d) w' (e_kind d) (e_isec d))))
          end
      end
  end.

(* ---------------- histories ---------------- *)

(** The calls a client makes; nodes are obtained by GetNodeById on the cfg of
    their function, and an edge is created on the cfg of its source
    (llvm_propeller_cfg.h:517-521). *)
Inductive op :=
| OCreate (from to : Z * intra_id) (w : Z) (k : edge_kind) (isec : bool)
| OUpdate (from to : Z * intra_id) (w : Z) (k : edge_kind) (isec : bool)
| OClone (f : Z) (pred : nat) (path : list nat).

(** llvm_propeller_program_cfg.h:64-68 GetCfgByIndex then GetNodeById (a null
    cfg is dereferenced). *)
Definition lookup (st : state) (x : Z * intra_id) : outcome nref :=
  match cfg_at st (fst x) with
  | None => UB
  | Some g => let! p := GetNodeById g (snd x) in Ok (fst x, p)
  end.

Definition step (dbg : bool) (st : state) (o : op) : outcome state :=
  match o with
  | OCreate from to w k isec =>
      let! a := lookup st from in
      let! b := lookup st to in
      CreateEdge dbg (fst from) a b w k isec st
  | OUpdate from to w k isec =>
      let! a := lookup st from in
      let! b := lookup st to in
      CreateOrUpdateEdge dbg (fst from) a b w k isec st
  | OClone f pred path =>
      match cfg_at st f with
      | None => UB
      | Some g => let! g' := ClonePath g pred path in
                  Ok (State (aset Z.eqb f g' (s_cfgs st)) (s_edges st))
      end
  end.

Fixpoint run (dbg : bool) (st : state) (h : list op) : outcome state :=
  match h with
  | [] => Ok st
  | o :: h' => let! st' := step dbg st o in run dbg st' h'
  end.

(* ---------------- queries ---------------- *)

(** The edge behind each pointer of a list. *)
Definition deref (st : state) (l : list nat) : list cedge :=
  flat_map (fun e => match nth_error (s_edges st) e with Some d => [d] | None => [] end) l.
Definition wedges (l : list cedge) : list wedge := map (fun d => WEdge (e_weight d) (e_kind d)) l.

(** llvm_propeller_cfg.cc:117-158, through the node's pointers. *)
Definition node_frequency (st : state) (n : cnode) : outcome Z :=
  CalculateFrequency (wedges (deref st (n_inter_outs n))) (wedges (deref st (n_intra_outs n)))
                     (wedges (deref st (n_inter_ins n))) (wedges (deref st (n_intra_ins n))).

(** llvm_propeller_cfg.cc:106-111: a hot branch into the node. *)
Definition hot_branch (edge_threshold : Z) (d : cedge) : bool :=
  negb (nref_eqb (e_src d) (e_sink d)) && negb (kind_eqb (e_kind d) KCall)
  && negb (kind_eqb (e_kind d) KRet) && (edge_threshold <=? e_weight d).

(** llvm_propeller_cfg.cc:98-115 ControlFlowGraph::GetHotJoinNodes. *)
Fixpoint hot_join_loop (st : state) (nt et : Z) (nodes : list cnode) : outcome (list nat) :=
  match nodes with
  | [] => Ok []
  | n :: rest =>
      if is_entry n then hot_join_loop st nt et rest else
      let! fr := node_frequency st n in
      if fr <? nt then hot_join_loop st nt et rest else
      if (length (filter (hot_branch et) (deref st (n_intra_ins n))) <=? 1)%nat
      then hot_join_loop st nt et rest
      else let! l := hot_join_loop st nt et rest in Ok (n_bb n :: l)
  end.
Definition GetHotJoinNodes (st : state) (g : cfg) (nt et : Z) : outcome (list nat) :=
  hot_join_loop st nt et (g_nodes g).

(** llvm_propeller_program_cfg.cc:73-88 ProgramCfg::GetHotJoinNodes; the
    btree_set is given as the vector it is built from. *)
Fixpoint program_hot_join (st : state) (nt et : Z) (cfgs : list (Z * cfg)) : outcome (list (Z * list nat)) :=
  match cfgs with
  | [] => Ok []
  | (f, g) :: rest =>
      let! l := GetHotJoinNodes st g nt et in
      let! m := program_hot_join st nt et rest in
      Ok (match l with [] => m | _ => (f, l) :: m end)
  end.

(** llvm_propeller_cfg.cc:197-207 GetNodeFrequencyStats: hot blocks, hot empty
    blocks, hot landing pads. *)
Fixpoint stats_loop (st : state) (nodes : list cnode) (acc : Z * Z * Z) : outcome (Z * Z * Z) :=
  match nodes with
  | [] => Ok acc
  | n :: rest =>
      let! fr := node_frequency st n in
      let '(a, b, c) := acc in
      if fr =? 0 then stats_loop st rest acc
      else stats_loop st rest (a + 1, (if n_size n =? 0 then b + 1 else b), (if n_pad n then c + 1 else c))
  end.
Definition GetNodeFrequencyStats (st : state) (g : cfg) : outcome (Z * Z * Z) :=
  stats_loop st (g_nodes g) (0, 0, 0).

(** llvm_propeller_cfg.h:337-344 has_hot_landing_pads. *)
Fixpoint hot_pads_loop (st : state) (nodes : list cnode) : outcome bool :=
  match nodes with
  | [] => Ok false
  | n :: rest =>
      if negb (n_pad n) then hot_pads_loop st rest else
      let! fr := node_frequency st n in
      if fr =? 0 then hot_pads_loop st rest else Ok true
  end.
Definition has_hot_landing_pads (st : state) (g : cfg) : outcome bool :=
  if g_pads g =? 0 then Ok false else hot_pads_loop st (g_nodes g).

(** llvm_propeller_cfg.h:348-352 is_hot. *)
Definition is_nil {A} (l : list A) : bool := match l with [] => true | _ => false end.
Definition is_hot (g : cfg) : bool :=
  negb (is_nil (g_inter g)) || negb (is_nil (g_intra g))
  || existsb (fun n => negb (is_nil (n_inter_ins n))) (g_nodes g).

(** llvm_propeller_cfg.cc:179-182: the nodes of the copy. *)
Fixpoint clone_nodes (pos : nat) (nodes : list cnode) : list cnode :=
  match nodes with
  | [] => []
  | n :: rest => Clone n (n_clone n) (Z.of_nat pos) :: clone_nodes (S pos) rest
  end.

(** llvm_propeller_cfg.cc:187-192: the edges of the copy; [st] is where the
    original lives, [cp] where the copy lives. *)
Fixpoint clone_edges (dbg : bool) (st : state) (f : Z) (edges : list nat) (cp : state) : outcome state :=
  match edges with
  | [] => Ok cp
  | e :: rest =>
      match nth_error (s_edges st) e with
      | None => UB
      | Some d =>
          match node_at st (e_src d), node_at st (e_sink d), cfg_at cp f with
          | Some a, Some b, Some g =>
              if negb (n_func a =? n_func b) then Abort else
              let! p := GetNodeById g (intra_cfg_id a) in
              let! q := GetNodeById g (intra_cfg_id b) in
              let! cp' := CreateEdge dbg f (f, p) (f, q) (e_weight d) (e_kind d) (e_isec d) cp in
              clone_edges dbg st f rest cp'
          | _, _, _ => UB
          end
      end
  end.

(** llvm_propeller_cfg.cc:177-195 CloneCfg.  The copy is not part of the
    program; its only cfg and its edges are given as a state of their own. *)
Definition CloneCfg (dbg : bool) (st : state) (g : cfg) : outcome state :=
  let! g' := new_cfg (g_section g) (g_index g) (g_module g) (g_names g) (clone_nodes 0 (g_nodes g)) in
  clone_edges dbg st (g_index g) (g_intra g) (State [(g_index g, g')] []).

(* ---------------- construction ---------------- *)

(** What the BB address map says about a block, and a function with its blocks
    (llvm_propeller_program_cfg_builder.cc:72-101 CreateNodes). *)
Record block := Block { b_addr : Z; b_id : Z; b_size : Z; b_pad : bool; b_flags : Z }.
Record func := Func { f_index : Z; f_section : list Z; f_module : option (list Z);
                      f_names : list (list Z); f_blocks : list block }.

Fixpoint original_nodes (f : Z) (bb : nat) (bs : list block) : list cnode :=
  match bs with
  | [] => []
  | b :: rest =>
      new_node (b_addr b) bb (b_id b) (b_size b) (b_pad b) (b_flags b) f 0 0 (-1)
      :: original_nodes f (S bb) rest
  end.

(** The cfgs of a program before any edge or clone. *)
Fixpoint init_cfgs (P : list func) : outcome (list (Z * cfg)) :=
  match P with
  | [] => Ok []
  | F :: rest =>
      let! g := new_cfg (f_section F) (f_index F) (f_module F) (f_names F)
                        (original_nodes (f_index F) 0 (f_blocks F)) in
      let! r := init_cfgs rest in Ok ((f_index F, g) :: r)
  end.
Definition init (P : list func) : outcome state :=
  let! cs := init_cfgs P in Ok (State cs []).

(** A program, then a history of calls. *)
Definition session (dbg : bool) (P : list func) (h : list op) : outcome state :=
  let! st := init P in run dbg st h.
