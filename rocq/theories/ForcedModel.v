(** Model of GetForcedEdges, BreakCycles and GetForcedPaths of
    llvm_propeller_node_chain_builder.cc.  Nodes of one control flow graph are
    integers in the order of CFGNodePtrComparator (llvm_propeller_cfg.h), the
    intra-function edges a list. *)
From Verif Require Import Base ZMap.

(** llvm_propeller_cfg.h CFGEdge: kinds, with kBranchOrFallthough in one. *)
Inductive edge_kind := EBranch | ECall | EReturn.
Record cedge := CEdge { ce_src : Z; ce_sink : Z; ce_weight : Z; ce_kind : edge_kind }.
Record fcfg := Fcfg { fc_edges : list cedge; fc_bb : Z -> Z }.

(** llvm_propeller_node_chain_builder.cc:105: edges skipped by GetForcedEdges. *)
Definition skipped (e : cedge) : bool :=
  (ce_weight e =? 0) || match ce_kind e with EBranch => false | _ => true end.
(** hot_in_degree (an absl::flat_hash_map<const CFGNode*, int>; absent is 0). *)
Definition degree (deg : list (Z * Z)) (x : Z) : Z := match zfind x deg with Some n => n | None => 0 end.
(** llvm_propeller_node_chain_builder.cc:104-111: the loop over the edges; a
    null sink is [None].  The degrees are not bounded by int. *)
Fixpoint collect_edges (es : list cedge) (fe : list (Z * option Z)) (deg : list (Z * Z))
    : list (Z * option Z) * list (Z * Z) :=
  match es with
  | [] => (fe, deg)
  | e :: es' =>
      if skipped e then collect_edges es' fe deg
      else
        let fe' := match zfind (ce_src e) fe with
                   | None => zset (ce_src e) (Some (ce_sink e)) fe
                   | Some _ => zset (ce_src e) None fe
                   end in
        collect_edges es' fe' (zset (ce_sink e) (degree deg (ce_sink e) + 1) deg)
  end.
(** llvm_propeller_node_chain_builder.cc:115-120: the erasing loop. *)
Fixpoint keep_forced (deg : list (Z * Z)) (fe : list (Z * option Z)) : list (Z * Z) :=
  match fe with
  | [] => []
  | (a, Some b) :: fe' => if degree deg b >? 1 then keep_forced deg fe' else (a, b) :: keep_forced deg fe'
  | (_, None) :: fe' => keep_forced deg fe'
  end.
(** llvm_propeller_node_chain_builder.cc:87-121 GetForcedEdges *)
Definition GetForcedEdges (g : fcfg) : list (Z * Z) :=
  let '(fe, deg) := collect_edges (fc_edges g) [] [] in keep_forced deg fe.

(** llvm_propeller_node_chain_builder.cc:136-156: following one path, from
    [cur]; the result is the extended node_to_path_id and the node to cut, if a
    cycle is found.  [None]: out of fuel. *)
Fixpoint bc_visit (fuel : nat) (pn : list (Z * Z)) (bb : Z -> Z) (id cur : Z) (victim : option Z) (vis : list (Z * Z))
    : option (list (Z * Z) * option Z) :=
  match fuel with
  | O => None
  | S fuel' =>
      match zfind cur pn with
      | None => Some (vis, None)
      | Some nx =>
          match zfind cur vis with
          | Some id' => Some (vis, if id' =? id then victim else None)
          | None =>
              let victim' :=
                match victim with
                | None => Some cur
                | Some v => if bb nx <? bb (match zfind v pn with Some s => s | None => v end)
                            then Some cur else Some v
                end in
              bc_visit fuel' pn bb id nx victim' ((cur, id) :: vis)
          end
      end
  end.
(** llvm_propeller_node_chain_builder.cc:130-157: the loop over path_next. *)
Fixpoint bc_loop (pn : list (Z * Z)) (bb : Z -> Z) (todo : list (Z * Z)) (id : Z) (vis : list (Z * Z)) (cuts : list Z)
    : option (list Z) :=
  match todo with
  | [] => Some cuts
  | (a, _) :: todo' =>
      match zfind a vis with
      | Some _ => bc_loop pn bb todo' id vis cuts
      | None =>
          match bc_visit (S (S (length pn))) pn bb (id + 1) a None vis with
          | None => None
          | Some (vis', cut) => bc_loop pn bb todo' (id + 1) vis' (match cut with Some v => cuts ++ [v] | None => cuts end)
          end
      end
  end.
(** llvm_propeller_node_chain_builder.cc:123-161 BreakCycles *)
Definition BreakCycles (pn : list (Z * Z)) (bb : Z -> Z) : option (list (Z * Z)) :=
  match bc_loop pn bb pn 0 [] [] with
  | None => None
  | Some cuts => Some (filter (fun e => negb (existsb (Z.eqb (fst e)) cuts)) pn)
  end.

(** llvm_propeller_node_chain_builder.cc:180-184: following a path. *)
Fixpoint follow (fuel : nat) (pn : list (Z * Z)) (cur : Z) : option (list Z) :=
  match fuel with
  | O => None
  | S fuel' =>
      match zfind cur pn with
      | None => Some [cur]
      | Some nx => match follow fuel' pn nx with Some l => Some (cur :: l) | None => None end
      end
  end.
(** llvm_propeller_node_chain_builder.cc:177-187: the loop over the first
    nodes. *)
Fixpoint build_paths (pn : list (Z * Z)) (begins : list Z) : outcome (list (list Z)) :=
  match begins with
  | [] => Ok []
  | b :: bs =>
      match follow (S (S (length pn))) pn b with
      | None => UB
      | Some p =>
          if (length p <=? 1)%nat then Abort
          else let! ps := build_paths pn bs in Ok (p :: ps)
      end
  end.
(** llvm_propeller_node_chain_builder.cc:172-175: the first nodes of the paths. *)
Definition path_begins (pn : list (Z * Z)) : list Z :=
  filter (fun a => negb (existsb (Z.eqb a) (map snd pn))) (map fst pn).
(** llvm_propeller_node_chain_builder.cc:163-189 GetForcedPaths; [UB] only
    means that the model ran out of fuel. *)
Definition GetForcedPaths (g : fcfg) : outcome (list (list Z)) :=
  match BreakCycles (GetForcedEdges g) (fc_bb g) with
  | None => UB
  | Some pn => build_paths pn (path_begins pn)
  end.
