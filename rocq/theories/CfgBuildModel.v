(** Model of llvm_propeller_program_cfg_builder.cc: turning branch and
    fall-through counts into weighted CFG edges. *)
From Verif Require Import Base CfgFreqModel SymbolModel MapperModel.
From Coq Require Import Permutation.

(** Conversion of an integer to int (modulo 2^32, as gcc and clang do and as
    C++20 requires). *)
Definition to_int (x : Z) : Z := let y := u32 x in if y <? 2147483648 then y else y - w32.

(** branch_aggregation.h:36-40: a counter, ((from, to), count). *)
Notation counter := ((Z * Z) * Z)%type.

(** The pair of nodes an edge connects (InterCfgIds, clone number 0). *)
Notation ekey := (bb_handle * bb_handle)%type.
Definition handle_eqb (a b : bb_handle) : bool := (bh_func a =? bh_func b)%nat && (bh_bb a =? bh_bb b)%nat.
Definition ekey_eqb (a b : ekey) : bool := handle_eqb (fst a) (fst b) && handle_eqb (snd a) (snd b).
Definition pair_eqb (a b : nat * nat) : bool := (fst a =? fst b)%nat && (snd a =? snd b)%nat.

Definition kind_eqb (a b : edge_kind) : bool :=
  match a, b with
  | KBranchOrFallthrough, KBranchOrFallthrough | KCall, KCall | KRet, KRet => true
  | _, _ => false
  end.

(** The edges made so far (tmp_edge_map together with the edge it points to:
    weight and kind) and the statistics of llvm_propeller_statistics.h:99-107
    (64-bit counters, treated as unbounded). *)
Record cstate := CState {
  cs_edges : list (ekey * (Z * edge_kind));
  cs_created : list (edge_kind * Z);      (* edges_created_by_kind *)
  cs_weight : list (edge_kind * Z);       (* total_edge_weight_by_kind *)
  cs_mismatch : Z                         (* edges_with_same_src_sink_but_different_type *)
}.
Definition empty_cstate : cstate := CState [] [] [] 0.

Definition kadd (k : edge_kind) (x : Z) (m : list (edge_kind * Z)) : list (edge_kind * Z) :=
  aset kind_eqb k ((match aget kind_eqb k m with Some v => v | None => 0 end) + x) m.
(** llvm_propeller_statistics.h:109-124 total_edges_created,
    total_edge_weight_created. *)
Definition ktotal (m : list (edge_kind * Z)) : Z := fold_left (fun s e => s + snd e) m 0.

(** llvm_propeller_cfg.cc:43-71 ControlFlowGraph::CreateEdge: the CHECK (DCHECK
    for edges between functions) that no edge with these ends exists.  [pre]
    are the edges the CFGs had before this Build.  (Line 46's CHECK that an
    intra-function edge does not cross sections cannot fail: both ends have the
    same CFG.) *)
Definition create_check (dbg : bool) (pre : list ekey) (st : cstate) (k : ekey) : bool :=
  let dup := existsb (ekey_eqb k) (pre ++ akeys (cs_edges st)) in
  if (bh_func (fst k) =? bh_func (snd k))%nat then negb dup else negb (dbg && dup).

(** llvm_propeller_program_cfg_builder.cc:150-195 InternalCreateEdge; the
    boolean tells whether an edge (not nullptr) is returned.  [has] is
    tmp_node_map's domain. *)
Definition InternalCreateEdge (dbg : bool) (pre : list ekey) (has : bb_handle -> bool) (mp : mapper)
    (from to : nat) (weight : Z) (kind : edge_kind) (st : cstate) : outcome (bool * cstate) :=
  let a := nth from (mp_handles mp) no_handle in
  let b := nth to (mp_handles mp) no_handle in
  match aget ekey_eqb (a, b) (cs_edges st) with
  | Some (w, kd) =>
      let! w' := int_add w weight in
      Ok (true, CState (aset ekey_eqb (a, b) (w', kd) (cs_edges st)) (cs_created st)
                  (kadd kind weight (cs_weight st))
                  (if kind_eqb kd kind then cs_mismatch st else cs_mismatch st + 1))
  | None =>
      if has a && has b then
        if create_check dbg pre st (a, b) then
          Ok (true, CState (aset ekey_eqb (a, b) (weight, kind) (cs_edges st))
                      (kadd kind 1 (cs_created st)) (kadd kind weight (cs_weight st)) (cs_mismatch st))
        else Abort
      else Ok (false, st)
  end.

(** flat_hash_map<pair<int, int>, int>: m[p] += w. *)
Definition ft_add (p : nat * nat) (w : Z) (m : list ((nat * nat) * Z)) : list ((nat * nat) * Z) :=
  aset pair_eqb p (to_int ((match aget pair_eqb p m with Some v => v | None => 0 end) + w)) m.

(** llvm_propeller_program_cfg_builder.cc:216-270: one branch counter. The
    state: edges, fall-through counters, weight_on_dubious_edges. *)
Definition branch_step (dbg : bool) (pre : list ekey) (has : bb_handle -> bool) (mp : mapper)
    (c : counter) (s : cstate * list ((nat * nat) * Z) * Z)
    : outcome (cstate * list ((nat * nat) * Z) * Z) :=
  let '((bfrom, bto), weight) := c in
  let '(st, ft, dub) := s in
  let fs := mp_funcs mp in
  let hs := mp_handles mp in
  let! from := FindBb dbg mp bfrom DFrom in
  let! to := FindBb dbg mp bto DTo in
  match to with
  | None => Ok s
  | Some j =>
      let tb := nth j hs no_handle in
      let return_like :=
        match from with
        | None => true
        | Some i => let fb := nth i hs no_handle in
                    be_return (GetBBEntry fs fb) || negb (bh_func tb =? bh_func fb)%nat
        end in
      let adjust := return_like
        && negb (fm_addr (GetFunctionEntry fs tb) =? bto)
        && (bto =? GetAddress fs tb)
        && negb (bh_bb tb =? 0)%nat in
      let ft' := if adjust then ft_add ((j - 1)%nat, j) weight ft else ft in
      let j' := if adjust then (j - 1)%nat else j in
      let tb' := nth j' hs no_handle in
      match from with
      | None => Ok (st, ft', dub)
      | Some i =>
          let fb := nth i hs no_handle in
          let ret := be_return (GetBBEntry fs fb) in
          let dub' := if negb ret && negb (GetAddress fs tb' =? bto) then to_int (dub + weight) else dub in
          let kind :=
            if fm_addr (GetFunctionEntry fs tb') =? bto then KCall
            else if negb (bto =? GetAddress fs tb') || ret then KRet
            else KBranchOrFallthrough in
          let! '(_, st') := InternalCreateEdge dbg pre has mp i j' (to_int weight) kind st in
          Ok (st', ft', dub')
      end
  end.
Fixpoint branch_loop dbg pre has mp (cs : list counter) s :=
  match cs with
  | [] => Ok s
  | c :: cs' => let! s' := branch_step dbg pre has mp c s in branch_loop dbg pre has mp cs' s'
  end.

(** llvm_propeller_program_cfg_builder.cc:122-135: mapping the fall-through
    counters to blocks. *)
Definition ft_step (dbg : bool) (mp : mapper) (c : counter) (ft : list ((nat * nat) * Z))
    : outcome (list ((nat * nat) * Z)) :=
  let '((ffrom, fto), cnt) := c in
  let! from := FindBb dbg mp ffrom DTo in
  let! to := FindBb dbg mp fto DFrom in
  match from, to with
  | Some i, Some j => Ok (ft_add (i, j) cnt ft)
  | _, _ => Ok ft
  end.
Fixpoint ft_map_loop dbg mp (cs : list counter) ft :=
  match cs with
  | [] => Ok ft
  | c :: cs' => let! ft' := ft_step dbg mp c ft in ft_map_loop dbg mp cs' ft'
  end.

(** llvm_propeller_program_cfg_builder.cc:144-150: the edges along one path,
    [n] of them from block [sym] on. *)
Fixpoint path_loop dbg pre has mp (weight : Z) (sym n : nat) (st : cstate) : outcome cstate :=
  match n with
  | O => Ok st
  | S n' =>
      let! '(created, st') := InternalCreateEdge dbg pre has mp sym (S sym) weight KBranchOrFallthrough st in
      if created then path_loop dbg pre has mp weight (S sym) n' st' else Ok st'
  end.
(** llvm_propeller_program_cfg_builder.cc:137-152: one mapped fall-through. *)
Definition path_step dbg pre has mp (e : (nat * nat) * Z) (st : cstate) : outcome cstate :=
  let '((f, t), w) := e in
  if (f =? t)%nat || negb (CanFallThrough mp f t) then Ok st
  else path_loop dbg pre has mp w f (t - f) st.
Fixpoint paths_loop dbg pre has mp (l : list ((nat * nat) * Z)) (st : cstate) : outcome cstate :=
  match l with
  | [] => Ok st
  | e :: l' => let! st' := path_step dbg pre has mp e st in paths_loop dbg pre has mp l' st'
  end.

(** llvm_propeller_program_cfg_builder.cc:203-300 CreateEdges with 116-152
    CreateFallthroughs.  [branches] and [falls] are the two counter maps in the
    order they are iterated, [order] the iteration order of
    tmp_bb_fallthrough_counters.  [reject dubious weight created recorded]
    stands for the two floating-point plausibility tests at 272-295; when it
    holds an error status is returned ([None]). *)
Definition CreateEdges (dbg : bool) (pre : list ekey) (has : bb_handle -> bool) (mp : mapper)
    (order : list ((nat * nat) * Z) -> list ((nat * nat) * Z))
    (reject : Z -> Z -> Z -> Z -> bool)
    (branches falls : list counter) : outcome (option cstate) :=
  let! '(st, ft, dub) := branch_loop dbg pre has mp branches (empty_cstate, [], 0) in
  if reject dub (ktotal (cs_weight st)) (ktotal (cs_created st)) (to_int (zlen branches)) then Ok None
  else
    let! ft' := ft_map_loop dbg mp falls ft in
    let! st' := paths_loop dbg pre has mp (order ft') st in
    Ok (Some st').
