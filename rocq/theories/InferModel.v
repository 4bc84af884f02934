(** Model of frequencies_branch_aggregator.{h,cc}: inferring fall-through
    counts from taken and not-taken branch counts.  Counters are int64_t in the
    code and unbounded here. *)
From Verif Require Import Base CfgFreqModel SymbolModel MapperModel CfgBuildModel.

(** frequencies_branch_aggregator.h:73-77 SampledWeights. *)
Record sw := SW { sw_in : Z; sw_out : Z; sw_actual : option Z }.
Definition sw0 : sw := SW 0 0 None.

(** frequencies_branch_aggregator.h:80 WeightsMap: absl::btree_map<int, ..> as
    its list of entries by ascending key; [wupd i f] is f(m[i]). *)
Notation wmap := (list (nat * sw)).
Fixpoint wupd (i : nat) (f : sw -> sw) (m : wmap) : wmap :=
  match m with
  | [] => [(i, f sw0)]
  | (k, v) :: m' =>
      if (i <? k)%nat then (i, f sw0) :: m
      else if (i =? k)%nat then (k, f v) :: m'
      else (k, v) :: wupd i f m'
  end.

Fixpoint ofold {A S} (step : A -> S -> outcome S) (l : list A) (s : S) : outcome S :=
  match l with [] => Ok s | x :: l' => let! s' := step x s in ofold step l' s' end.

(** frequencies_branch_aggregator.cc:119-137 set_outgoing_weight. *)
Definition set_outgoing_weight (dbg : bool) (isz : Z) (mp : mapper) (address weight : Z) (m : wmap) : outcome wmap :=
  let! h := FindBb dbg mp address DFrom in
  match h with
  | None => Ok m
  | Some i =>
      let b := nth i (mp_handles mp) no_handle in
      let last := u64 (u64 (GetAddress (mp_funcs mp) b + be_size (GetBBEntry (mp_funcs mp) b)) - isz) in
      if address =? last then Ok (wupd i (fun v => SW (sw_in v) (sw_out v) (Some weight)) m) else Ok m
  end.
(** frequencies_branch_aggregator.cc:109-150 AccumulateActualOutgoingWeights. *)
Definition AccumulateActualOutgoingWeights (dbg : bool) (isz : option Z) (mp : mapper)
    (taken : list counter) (not_taken : list (Z * Z)) (m : wmap) : outcome wmap :=
  match isz with
  | None => Ok m
  | Some n =>
      let! m1 := ofold (fun c m => set_outgoing_weight dbg n mp (fst (fst c)) 0 m) taken m in
      ofold (fun c m => set_outgoing_weight dbg n mp (fst c) (snd c) m) not_taken m1
  end.
(** frequencies_branch_aggregator.cc:152-170 AccumulateBranchWeights. *)
Definition branch_weight_step (dbg : bool) (mp : mapper) (c : counter) (m : wmap) : outcome wmap :=
  let '((from, to), count) := c in
  let! f := FindBb dbg mp from DFrom in
  let m1 := match f with Some i => wupd i (fun v => SW (sw_in v) (sw_out v + count) (sw_actual v)) m | None => m end in
  let! t := FindBb dbg mp to DTo in
  Ok (match t with Some j => wupd j (fun v => SW (sw_in v + count) (sw_out v) (sw_actual v)) m1 | None => m1 end).
Definition AccumulateBranchWeights (dbg : bool) (mp : mapper) (taken : list counter) (m : wmap) : outcome wmap :=
  ofold (branch_weight_step dbg mp) taken m.
(** frequencies_branch_aggregator.cc:97-107 ComputeBlockWeights. *)
Definition ComputeBlockWeights (dbg : bool) (isz : option Z) (mp : mapper)
    (taken : list counter) (not_taken : list (Z * Z)) : outcome wmap :=
  let! m := AccumulateActualOutgoingWeights dbg isz mp taken not_taken [] in
  AccumulateBranchWeights dbg mp taken m.

(** frequencies_branch_aggregator.cc:172-181 InferFallthroughWeight. *)
Definition InferFallthroughWeight (v : sw) : Z :=
  match sw_actual v with Some w => w | None => sw_in v - sw_out v end.

(** frequencies_branch_aggregator.cc:183-214 FindFallthroughEndBlock. *)
Definition FindFallthroughEndBlock (mp : mapper) (from to : nat) : option nat :=
  if (to <=? from)%nat || (length (mp_handles mp) <=? to)%nat then None
  else if CanFallThrough mp from to then Some to
  else if (S from <? length (mp_handles mp))%nat && CanFallThrough mp from (S from) then Some (S from)
  else None.

Definition zpair_eqb (a b : Z * Z) : bool := (fst a =? fst b) && (snd a =? snd b).
(** frequencies_branch_aggregator.cc:216-234 HandleFallthrough. *)
Definition HandleFallthrough (mp : mapper) (from to : nat) (weight : Z) (m : list counter) : list counter :=
  match FindFallthroughEndBlock mp from to with
  | None => m
  | Some e =>
      let k := (GetAddress (mp_funcs mp) (nth from (mp_handles mp) no_handle),
                GetAddress (mp_funcs mp) (nth e (mp_handles mp) no_handle)) in
      aset zpair_eqb k ((match aget zpair_eqb k m with Some v => v | None => 0 end) + weight) m
  end.

(** frequencies_branch_aggregator.cc:244-275: the loop over the weights and
    the final step; [pend] is fallthrough_from. *)
Fixpoint infer_loop (mp : mapper) (pend : option (nat * Z)) (m : wmap) (acc : list counter) : list counter :=
  match m with
  | [] => match pend with
          | Some (f, w) => HandleFallthrough mp f (S f) w acc
          | None => acc
          end
  | (i, v) :: m' =>
      let '(v', acc') :=
        match pend with
        | Some (f, w) =>
            (if CanFallThrough mp f i then SW (sw_in v + w) (sw_out v) (sw_actual v) else v,
             HandleFallthrough mp f i w acc)
        | None => (v, acc)
        end in
      let fw := InferFallthroughWeight v' in
      infer_loop mp (if 0 <? fw then Some (i, fw) else None) m' acc'
  end.
(** frequencies_branch_aggregator.cc:236-276 InferFallthroughs; the order of
    [taken] and [not_taken] is that of the hash maps. *)
Definition InferFallthroughs (dbg : bool) (isz : option Z) (mp : mapper)
    (taken : list counter) (not_taken : list (Z * Z)) : outcome (list counter) :=
  let! m := ComputeBlockWeights dbg isz mp taken not_taken in
  Ok (infer_loop mp None m []).

(** frequencies_branch_aggregator.cc:60-74 GetBranchEndpointAddresses (a set,
    here a list with possible repetitions). *)
Definition GetBranchEndpointAddresses (taken : list counter) (not_taken : list (Z * Z)) : list Z :=
  flat_map (fun c => [fst (fst c); snd (fst c)]) taken ++ map fst not_taken.
