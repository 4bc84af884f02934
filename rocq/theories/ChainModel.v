(** Model of the node chains and chain assemblies of the propeller code layout:
    llvm_propeller_node_chain.{h,cc} and llvm_propeller_node_chain_assembly.{h,cc}.
    A basic block is an integer, in the order of its inter_cfg_id.  Sizes,
    offsets and frequencies are unbounded integers instead of int.  The scores
    are integers added exactly: the rounding of double is not modelled, but the
    scoring function of an edge is arbitrary. *)
From Verif Require Import Base ForcedModel ISort.

(** The program and the layout parameters (llvm_propeller_cfg.h CFGNode,
    llvm_propeller_options.proto PropellerCodeLayoutParameters,
    llvm_propeller_code_layout_scorer.cc:28-52 GetEdgeScore). *)
Record env := Env {
  e_size : Z -> Z;              (* CFGNode::size() *)
  e_freq : Z -> Z;              (* CFGNode::CalculateFrequency() *)
  e_func : Z -> Z;              (* CFGNode::function_index() *)
  e_entry : Z -> bool;          (* CFGNode::is_entry() *)
  e_ifr : bool;                 (* inter_function_reordering() *)
  e_split : bool;               (* chain_split() *)
  e_threshold : Z;              (* chain_split_threshold() *)
  e_score : cedge -> Z -> Z;    (* GetEdgeScore(edge, distance) *)
  e_outs : Z -> list cedge;     (* the edges of ForEachOutEdgeRef, in order *)
  e_ins : Z -> list cedge;      (* the edges of ForEachInEdgeRef, in order *)
  e_visit : cedge -> bool       (* NodeChainBuilder::ShouldVisitEdge(edge) *)
}.

(** llvm_propeller_node_chain.h CFGNodeBundle: [b_id] stands for its address (it
    is the first block the bundle was built with); chain_mapping_ is the three
    fields [b_chain] (the id of the chain), [b_index] and [b_offset]. *)
Record bundle := Bundle {
  b_id : Z; b_nodes : list Z; b_chain : Z; b_index : Z; b_offset : Z;
  b_size : Z; b_freq : Z; b_edges : list cedge }.
(** llvm_propeller_node_chain.h NodeChain: [c_id] is id_ and stands for the
    address as well; inter_chain_out_edges_ and inter_chain_in_edges_ are hash
    containers, here in one of the possible iteration orders. *)
Record chain := Chain {
  c_id : Z; c_func : option Z; c_bundles : list bundle;
  c_size : Z; c_freq : Z; c_score : Z;
  c_out : list (Z * list cedge); c_in : list Z }.
(** The live chains (NodeChainBuilder::chains_) and the NodeToBundleMapper: for
    a block the bundle and the offset in it ([None]: bundle == nullptr). *)
Record state := State { s_chains : list chain; s_map : Z -> option (Z * Z) }.

Definition chain_nodes (c : chain) : list Z := flat_map b_nodes (c_bundles c).
Definition sumz (l : list Z) : Z := fold_right Z.add 0 l.

(** Field updates. *)
Definition set_in (c : chain) (l : list Z) : chain :=
  Chain (c_id c) (c_func c) (c_bundles c) (c_size c) (c_freq c) (c_score c) (c_out c) l.
Definition set_out (c : chain) (m : list (Z * list cedge)) : chain :=
  Chain (c_id c) (c_func c) (c_bundles c) (c_size c) (c_freq c) (c_score c) m (c_in c).
Definition set_bundles (c : chain) (bs : list bundle) : chain :=
  Chain (c_id c) (c_func c) bs (c_size c) (c_freq c) (c_score c) (c_out c) (c_in c).
Definition set_score (c : chain) (s : Z) : chain :=
  Chain (c_id c) (c_func c) (c_bundles c) (c_size c) (c_freq c) s (c_out c) (c_in c).
Definition set_edges (b : bundle) (es : list cedge) : bundle :=
  Bundle (b_id b) (b_nodes b) (b_chain b) (b_index b) (b_offset b) (b_size b) (b_freq b) es.

(** Dereferencing a NodeChain pointer, and writing through it. *)
Definition get_chain (st : state) (id : Z) : option chain := find (fun c => c_id c =? id) (s_chains st).
Definition upd_chain (st : state) (id : Z) (f : chain -> chain) : state :=
  State (map (fun c => if c_id c =? id then f c else c) (s_chains st)) (s_map st).
(** llvm_propeller_node_chain.h:345-351 GetBundleMappingEntry, with the bundle
    dereferenced. *)
Definition loc (st : state) (n : Z) : option (bundle * Z) :=
  match s_map st n with
  | None => None
  | Some (bid, off) =>
      match find (fun b => b_id b =? bid) (flat_map c_bundles (s_chains st)) with
      | None => None
      | Some b => Some (b, off)
      end
  end.
(** llvm_propeller_node_chain.h:323-325 GetNodeOffset *)
Definition node_offset (l : bundle * Z) : Z := b_offset (fst l) + snd l.

(** llvm_propeller_node_chain.h:63-81: a bundle from a list of blocks. *)
Definition new_bundle (E : env) (ns : list Z) (cid idx off : Z) : bundle :=
  Bundle (hd 0 ns) ns cid idx off (sumz (map (e_size E) ns)) (sumz (map (e_freq E) ns)) [].
(** llvm_propeller_node_chain.h:176-186: one bundle per block. *)
Fixpoint single_bundles (E : env) (ns : list Z) (cid idx off : Z) : list bundle :=
  match ns with
  | [] => []
  | n :: ns' => new_bundle E [n] cid idx off :: single_bundles E ns' cid (idx + 1) (off + e_size E n)
  end.
(** llvm_propeller_node_chain.h:163-189 the NodeChain constructor;
    [together] is kBundleAllNodesTogether.  [ns] is not empty. *)
Definition new_chain (E : env) (ns : list Z) (together : bool) : chain :=
  let id := hd 0 ns in
  let bs := if together then [new_bundle E ns id 0 0] else single_bundles E ns id 0 0 in
  Chain id (Some (e_func E id)) bs (sumz (map (e_size E) ns)) (sumz (map (e_freq E) ns)) 0 [] [].

(** * Assemblies *)

(** llvm_propeller_chain_merge_order.h, in the order of the enumerators. *)
Inductive merge_order := kSU | kS2S1U | kS1US2 | kUS2S1 | kS2US1.
Definition order_rank (o : merge_order) : Z :=
  match o with kSU => 0 | kS2S1U => 1 | kS1US2 => 2 | kUS2S1 => 3 | kS2US1 => 4 end.
(** llvm_propeller_node_chain_assembly.h NodeChainSlice: which of the two chains
    of the assembly ([true]: the split chain), begin_index_ and end_index_. *)
Record slice := Slice { sl_split : bool; sl_begin : nat; sl_end : nat }.
(** llvm_propeller_node_chain_assembly.h NodeChainAssembly *)
Record assembly := Assembly {
  a_split : Z; a_unsplit : Z; a_order : merge_order; a_pos : option Z;
  a_slices : list slice; a_gain : Z }.

Section Assemble.
  Context (E : env) (lc : Z -> option (bundle * Z)) (cs cu : chain).

  Definition sl_chain (s : slice) : chain := if sl_split s then cs else cu.
  Definition sl_bundles (s : slice) : list bundle :=
    firstn (sl_end s - sl_begin s) (skipn (sl_begin s) (c_bundles (sl_chain s))).
  (** llvm_propeller_node_chain_assembly.h:77-84; the model reads offset 0 of a
      bundle past the end, no slice of an assembly is empty. *)
  Definition begin_offset (s : slice) : Z :=
    match nth_error (c_bundles (sl_chain s)) (sl_begin s) with Some b => b_offset b | None => 0 end.
  Definition end_offset (s : slice) : Z :=
    match nth_error (c_bundles (sl_chain s)) (sl_end s) with Some b => b_offset b | None => c_size (sl_chain s) end.
  (** llvm_propeller_node_chain_assembly.h:87 *)
  Definition slice_size (s : slice) : Z := end_offset s - begin_offset s.

  (** llvm_propeller_node_chain_assembly.cc:72-93 ConstructSlices *)
  Definition ConstructSlices (o : merge_order) (pos : option Z) : list slice :=
    let p := match pos with Some p => Z.to_nat p | None => O end in
    let nS := length (c_bundles cs) in
    let u := Slice false 0 (length (c_bundles cu)) in
    let s1 := Slice true 0 p in
    let s2 := Slice true p nS in
    match o with
    | kSU => [Slice true 0 nS; u]
    | kS2S1U => [s2; s1; u]
    | kS1US2 => [s1; u; s2]
    | kUS2S1 => [u; s2; s1]
    | kS2US1 => [s2; u; s1]
    end.

  (** llvm_propeller_node_chain_assembly.h:200-228: the positions of the slices
      in slices_. *)
  Definition unsplit_index (o : merge_order) : nat :=
    match o with kSU => 1 | kS2S1U => 2 | kS1US2 => 1 | kUS2S1 => 0 | kS2US1 => 1 end%nat.
  Definition split_indexes (o : merge_order) : list nat :=
    match o with kSU => [0] | kS2S1U => [1; 0] | kS1US2 => [0; 2] | kUS2S1 => [2; 1] | kS2US1 => [0; 2] end%nat.

  (** llvm_propeller_node_chain_assembly.cc:121-127: the nodes of a bundle, from
      the back; the break leaves this loop only. *)
  Fixpoint scan_back_nodes (n : Z) (ns : list Z) : bool :=
    match ns with
    | [] => false
    | m :: ns' => if negb (e_size E m =? 0) then false else if m =? n then true else scan_back_nodes n ns'
    end.
  (** llvm_propeller_node_chain_assembly.cc:116-128 *)
  Definition scan_back (n : Z) (bs : list bundle) : bool :=
    existsb (fun b => scan_back_nodes n (rev (b_nodes b))) (rev bs).
  (** llvm_propeller_node_chain_assembly.cc:136-142 *)
  Fixpoint scan_front_nodes (n : Z) (ns : list Z) : bool :=
    match ns with
    | [] => false
    | m :: ns' => if m =? n then true else if negb (e_size E m =? 0) then false else scan_front_nodes n ns'
    end.
  (** llvm_propeller_node_chain_assembly.cc:134-143 *)
  Definition scan_front (n : Z) (bs : list bundle) : bool :=
    existsb (fun b => scan_front_nodes n (b_nodes b)) bs.
  (** llvm_propeller_node_chain_assembly.cc:104-144: the tests for one slice. *)
  Definition in_slice (n off : Z) (s : slice) : bool :=
    ((off <? end_offset s) && (off >? begin_offset s)) ||
    ((off =? end_offset s) && scan_back n (sl_bundles s)) ||
    ((off =? begin_offset s) && scan_front n (sl_bundles s)).
  (** llvm_propeller_node_chain_assembly.cc:95-147 FindSliceIndex *)
  Definition FindSliceIndex (o : merge_order) (sls : list slice) (n : Z) (l : bundle * Z) : option nat :=
    let cid := b_chain (fst l) in
    if cid =? c_id cu then Some (unsplit_index o)
    else if negb (cid =? c_id cs) then None
    else match o with
         | kSU => Some O
         | _ => find (fun i => match nth_error sls i with
                               | Some s => in_slice n (node_offset l) s
                               | None => false
                               end) (split_indexes o)
         end.
  (** llvm_propeller_node_chain_assembly.cc:150-186 ComputeEdgeScore; [UB]: the
      null bundle of a block outside the chains, or value() of nullopt. *)
  Definition ComputeEdgeScore (o : merge_order) (sls : list slice) (e : cedge) : outcome Z :=
    match lc (ce_src e), lc (ce_sink e) with
    | Some l1, Some l2 =>
        match FindSliceIndex o sls (ce_src e) l1, FindSliceIndex o sls (ce_sink e) l2 with
        | Some i1, Some i2 =>
            let o1 := node_offset l1 in
            let o2 := node_offset l2 in
            if (i1 =? i2)%nat then Ok (e_score E e (o2 - o1 - e_size E (ce_src e)))
            else
              match nth_error sls i1, nth_error sls i2 with
              | Some s1, Some s2 =>
                  let d := if (i1 <? i2)%nat
                           then end_offset s1 - o1 - e_size E (ce_src e) + o2 - begin_offset s2
                           else begin_offset s1 - o1 - e_size E (ce_src e) + o2 - end_offset s2 in
                  let mid := match nth_error sls 1 with Some s => slice_size s | None => 0 end in
                  let d' := if ((i1 =? 0) && (i2 =? 2))%nat then d + mid
                            else if ((i1 =? 2) && (i2 =? 0))%nat then d - mid else d in
                  Ok (e_score E e d')
              | _, _ => UB
              end
        | _, _ => UB
        end
    | _, _ => UB
    end.
  (** The loops that add up scores. *)
  Fixpoint sum_scores (f : cedge -> outcome Z) (es : list cedge) : outcome Z :=
    match es with
    | [] => Ok 0
    | e :: es' => let! x := f e in let! y := sum_scores f es' in Ok (x + y)
    end.
  (** llvm_propeller_node_chain_assembly.cc:188-199 ComputeInterChainScore *)
  Definition ComputeInterChainScore (o : merge_order) (sls : list slice) (from to : chain) : outcome Z :=
    match aget Z.eqb (c_id to) (c_out from) with
    | None => Ok 0
    | Some es => sum_scores (ComputeEdgeScore o sls) es
    end.
  (** llvm_propeller_node_chain_assembly.cc:211-217 get_score_gain *)
  Definition edge_gain (o : merge_order) (sls : list slice) (e : cedge) : outcome Z :=
    let! x := ComputeEdgeScore o sls e in
    match lc (ce_src e), lc (ce_sink e) with
    | Some l1, Some l2 => Ok (x - e_score E e (node_offset l2 - node_offset l1 - e_size E (ce_src e)))
    | _, _ => UB
    end.
  (** llvm_propeller_node_chain_assembly.cc:221-228 and 234-241: the edges of a
      bundle as long as the bundle of the sink is on the other side. *)
  Fixpoint gain_while (p : Z -> bool) (o : merge_order) (sls : list slice) (es : list cedge) : outcome Z :=
    match es with
    | [] => Ok 0
    | e :: es' =>
        match lc (ce_sink e) with
        | None => UB
        | Some l =>
            if p (b_index (fst l))
            then let! x := edge_gain o sls e in let! y := gain_while p o sls es' in Ok (x + y)
            else Ok 0
        end
    end.
  Fixpoint gain_bundles (f : bundle -> outcome Z) (bs : list bundle) : outcome Z :=
    match bs with
    | [] => Ok 0
    | b :: bs' => let! x := f b in let! y := gain_bundles f bs' in Ok (x + y)
    end.
  (** llvm_propeller_node_chain_assembly.cc:205-243 ComputeSplitChainScoreGain *)
  Definition ComputeSplitChainScoreGain (o : merge_order) (pos : option Z) (sls : list slice) : outcome Z :=
    match o, pos with
    | kSU, _ => Ok 0
    | _, None => UB
    | _, Some p =>
        let! x := gain_bundles (fun b => gain_while (fun i => p <=? i) o sls (rev (b_edges b)))
                               (firstn (Z.to_nat p) (c_bundles cs)) in
        let! y := gain_bundles (fun b => gain_while (fun i => i <? p) o sls (b_edges b))
                               (skipn (Z.to_nat p) (c_bundles cs)) in
        Ok (x + y)
    end.
  (** llvm_propeller_node_chain_assembly.cc:57-70 ComputeScoreGain *)
  Definition ComputeScoreGain (o : merge_order) (pos : option Z) (sls : list slice) : outcome Z :=
    let! x := ComputeInterChainScore o sls cs cu in
    let! y := ComputeInterChainScore o sls cu cs in
    if x + y =? 0 then Ok 0
    else let! z := ComputeSplitChainScoreGain o pos sls in Ok (x + y + z).

  (** llvm_propeller_node_chain.h:228-230 GetFirstNode *)
  Definition first_node (c : chain) : Z := hd 0 (match c_bundles c with b :: _ => b_nodes b | [] => [] end).
  (** llvm_propeller_node_chain.h:224-226 GetLastNode *)
  Definition last_node (c : chain) : Z := last (match rev (c_bundles c) with b :: _ => b_nodes b | [] => [] end) 0.
  (** llvm_propeller_node_chain_assembly.h:184-186 GetFirstNode *)
  Definition asm_first_node (sls : list slice) : Z :=
    hd 0 (match sls with s :: _ => match sl_bundles s with b :: _ => b_nodes b | [] => [] end | [] => [] end).

  (** llvm_propeller_node_chain_assembly.cc:17-55 BuildNodeChainAssembly;
      [Ok None] is a status other than OK. *)
  Definition BuildNodeChainAssembly (o : merge_order) (pos : option Z) (error_on_zero : bool) : outcome (option assembly) :=
    if c_id cs =? c_id cu then Abort
    else if match o, pos with
            | kSU, None => false
            | kSU, Some _ => true
            | _, None => true
            | _, Some p => negb ((p <? zlen (c_bundles cs)) && (p >? 0))
            end then Abort
    else
      let sls := ConstructSlices o pos in
      let! g := ComputeScoreGain o pos sls in
      if negb (e_ifr E) && (e_entry E (first_node cs) || e_entry E (first_node cu))
         && negb (e_entry E (asm_first_node sls)) then Ok None
      else if g <? 0 then Ok None
      else if (g =? 0) && error_on_zero then Ok None
      else Ok (Some (Assembly (c_id cs) (c_id cu) o pos sls g)).
End Assemble.

(** * Merging *)

(** llvm_propeller_node_chain.cc:90-95 and the same code in
    llvm_propeller_node_chain_builder.cc:490: push_back on the bundle of the
    source of the edge. *)
Definition push_edge (st : state) (e : cedge) : outcome state :=
  match loc st (ce_src e) with
  | None => UB
  | Some (b, _) =>
      Ok (State (map (fun c => set_bundles c
                   (map (fun b' => if b_id b' =? b_id b then set_edges b' (b_edges b' ++ [e]) else b') (c_bundles c)))
                 (s_chains st)) (s_map st))
  end.
Fixpoint push_edges (st : state) (es : list cedge) : outcome state :=
  match es with
  | [] => Ok st
  | e :: es' => let! st' := push_edge st e in push_edges st' es'
  end.
(** insert and erase of the hash set inter_chain_in_edges_. *)
Definition in_insert (x : Z) (l : list Z) : list Z := if existsb (Z.eqb x) l then l else l ++ [x].
Definition in_erase (x : Z) (l : list Z) : list Z := filter (fun y => negb (y =? x)) l.
(** llvm_propeller_node_chain.cc:87-107 move_edges *)
Definition move_edges (st : state) (es : list cedge) (from to : Z) : outcome state :=
  if from =? to then push_edges st es
  else
    match get_chain st from with
    | None => UB
    | Some f =>
        match aget Z.eqb to (c_out f) with
        | None =>
            Ok (upd_chain (upd_chain st from (fun c => set_out c (aset Z.eqb to es (c_out c))))
                          to (fun c => set_in c (in_insert from (c_in c))))
        | Some es0 => Ok (upd_chain st from (fun c => set_out c (aset Z.eqb to (es0 ++ es) (c_out c))))
        end
    end.
(** llvm_propeller_node_chain.cc:111-116: the loop over the out-edges of other. *)
Fixpoint merge_outs (st : state) (this other : Z) (outs : list (Z * list cedge)) : outcome state :=
  match outs with
  | [] => Ok st
  | (ch, es) :: outs' =>
      if ch =? other then Abort
      else
        let! st1 := move_edges st es this ch in
        merge_outs (upd_chain st1 ch (fun c => set_in c (in_erase other (c_in c)))) this other outs'
  end.
(** llvm_propeller_node_chain.cc:119-129: the loop over the in-edges of other. *)
Fixpoint merge_ins (st : state) (this other : Z) (ins : list Z) : outcome state :=
  match ins with
  | [] => Ok st
  | ch :: ins' =>
      if ch =? other then Abort
      else
        match get_chain st ch with
        | None => UB
        | Some c =>
            match aget Z.eqb other (c_out c) with
            | None => Abort
            | Some es =>
                let! st1 := move_edges st es ch this in
                merge_ins (upd_chain st1 ch (fun c => set_out c (aremove Z.eqb other (c_out c)))) this other ins'
            end
        end
  end.
(** llvm_propeller_node_chain.cc:80-130 MergeChainEdges *)
Definition MergeChainEdges (st : state) (this other : Z) : outcome state :=
  match get_chain st other with
  | None => UB
  | Some o => let! st1 := merge_outs st this other (c_out o) in merge_ins st1 this other (c_in o)
  end.

(** llvm_propeller_node_chain.cc:19-31 ShouldRebundle *)
Definition func_eqb (a b : option Z) : bool :=
  match a, b with Some x, Some y => x =? y | None, None => true | _, _ => false end.
Definition ShouldRebundle (E : env) (cs cu : chain) : bool :=
  (match c_func cs with None => true | Some _ => negb (func_eqb (c_func cs) (c_func cu)) end)
  && e_split E && (zlen (c_bundles cs) + zlen (c_bundles cu) >? e_threshold E).

(** llvm_propeller_node_chain.cc:207-238: the callback, for the bundles in the
    order of the assembly; [ms] is merged_node_bundles, whose last element is
    *prev_bundle. *)
Definition set_mapping (b : bundle) (cid idx off : Z) : bundle :=
  Bundle (b_id b) (b_nodes b) cid idx off (b_size b) (b_freq b) (b_edges b).
(** llvm_propeller_node_chain.h:122-129 CFGNodeBundle::MergeWith *)
Definition bundle_merge (b o : bundle) : bundle :=
  Bundle (b_id b) (b_nodes b ++ b_nodes o) (b_chain b) (b_index b) (b_offset b)
         (b_size b + b_size o) (b_freq b + b_freq o) (b_edges b ++ b_edges o).
Fixpoint consume (E : env) (rebundle : bool) (cid : Z) (bs ms : list bundle) (off idx : Z) (mp : Z -> option (Z * Z))
    : list bundle * (Z -> option (Z * Z)) :=
  match bs with
  | [] => (ms, mp)
  | b :: bs' =>
      match (if rebundle then match rev ms with
                              | p :: _ => if e_func E (hd 0 (b_nodes p)) =? e_func E (hd 0 (b_nodes b)) then Some p else None
                              | [] => None
                              end else None) with
      | Some p =>
          let mp' := fun n => if existsb (Z.eqb n) (b_nodes b)
                              then match mp n with Some (_, o) => Some (b_id p, o + b_size p) | None => Some (b_id p, b_size p) end
                              else mp n in
          consume E rebundle cid bs' (removelast ms ++ [bundle_merge p b]) (off + b_size b) idx mp'
      | None =>
          consume E rebundle cid bs' (ms ++ [set_mapping b cid idx off]) (off + b_size b) (idx + 1) mp
      end
  end.

(** llvm_propeller_node_chain.cc:132-158 RemoveIntraBundleEdges, for the edges
    of one bundle: those kept, and the score of those removed. *)
Fixpoint remove_intra (E : env) (mp : Z -> option (Z * Z)) (es : list cedge) : outcome (list cedge * Z) :=
  match es with
  | [] => Ok ([], 0)
  | e :: es' =>
      match mp (ce_src e), mp (ce_sink e) with
      | Some (b1, o1), Some (b2, o2) =>
          let! '(ks, sc) := remove_intra E mp es' in
          if b1 =? b2 then Ok (ks, sc + e_score E e (o2 - o1 - e_size E (ce_src e))) else Ok (e :: ks, sc)
      | _, _ => UB
      end
  end.
Fixpoint remove_intra_bundles (E : env) (mp : Z -> option (Z * Z)) (bs : list bundle) : outcome (list bundle * Z) :=
  match bs with
  | [] => Ok ([], 0)
  | b :: bs' =>
      let! '(ks, sc) := remove_intra E mp (b_edges b) in
      let! '(bs'', sc') := remove_intra_bundles E mp bs' in
      Ok (set_edges b ks :: bs'', sc + sc')
  end.
(** llvm_propeller_node_chain.cc:160-182 SortIntraChainEdges: sorted by the
    index of the bundle of the sink and the source of the edge ([idx] gives the
    index; std::sort is modelled by a stable sort). *)
Definition edge_ltb (idx : Z -> Z) (e1 e2 : cedge) : bool :=
  let i1 := idx (ce_sink e1) in let i2 := idx (ce_sink e2) in
  (i1 <? i2) || ((i1 =? i2) && (ce_src e1 <? ce_src e2)).
Definition sink_index (bs : list bundle) (mp : Z -> option (Z * Z)) (n : Z) : Z :=
  match mp n with
  | None => 0
  | Some (bid, _) => match find (fun b => b_id b =? bid) bs with Some b => b_index b | None => 0 end
  end.
Definition sort_edges (idx : Z -> Z) (b : bundle) : bundle :=
  set_edges b (isort (fun e1 e2 => negb (edge_ltb idx e2 e1)) (b_edges b)).

(** llvm_propeller_node_chain.cc:184-250 NodeChain::MergeWith(assembly); the
    unsplit chain, whose bundles are moved away, is dropped from the state here
    (its erasure from chains_ is at llvm_propeller_node_chain_builder.cc:518). *)
Definition asm_bundles (cs cu : chain) (sls : list slice) : list bundle := flat_map (sl_bundles cs cu) sls.
Definition MergeWith (E : env) (st : state) (a : assembly) : outcome state :=
  let! st1 := MergeChainEdges st (a_split a) (a_unsplit a) in
  match get_chain st1 (a_split a), get_chain st1 (a_unsplit a) with
  | Some cs, Some cu =>
      let '(bs, mp) := consume E (ShouldRebundle E cs cu) (c_id cs) (asm_bundles cs cu (a_slices a)) [] 0 0 (s_map st1) in
      let! '(bs', removed) :=
        if negb (zlen (c_bundles cs) + zlen (c_bundles cu) =? zlen bs) then remove_intra_bundles E mp bs else Ok (bs, 0) in
      let others := filter (fun c => negb (c_id c =? a_split a) && negb (c_id c =? a_unsplit a)) (s_chains st1) in
      let idx := sink_index bs' mp in
      let cs' := Chain (c_id cs) (if func_eqb (c_func cs) (c_func cu) then c_func cs else None)
                       (map (sort_edges idx) bs')
                       (c_size cs + c_size cu) (c_freq cs + c_freq cu)
                       (c_score cs + (c_score cu + a_gain a) - removed) (c_out cs) (c_in cs) in
      Ok (State (others ++ [cs']) mp)
  | _, _ => UB
  end.
