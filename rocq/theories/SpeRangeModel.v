(** Model of branch_frequencies_autofdo_sample.cc: turning taken / not-taken
    branch counts (SPE) into branch and range counts of a sample profile.

    Simplifications: counters are int64_t in the code and unbounded here, and so
    is the addition of the size to an address; hash maps are association lists in
    their iteration order; a callback that returns an error is one that returns
    true (line 49 value_or(true)); the fixed instruction size is positive (with
    another one the loops below need not end). *)
From Verif Require Import Base ByteModel.

(** binary_address_branch.h:74 *)
Definition kInvalidBinaryAddress : Z := 2 ^ 64 - 1.

(** map[k] += v on an absl::btree_map<int64_t, int64_t>: the entries by key *)
Fixpoint bt_add (k v : Z) (m : list (Z * Z)) : list (Z * Z) :=
  match m with
  | [] => [(k, v)]
  | (k', v') :: m' => if k <? k' then (k, v) :: m else if k =? k' then (k', v' + v) :: m' else (k', v') :: bt_add k v m'
  end.
Definition pair_eqb (a b : Z * Z) : bool := (fst a =? fst b) && (snd a =? snd b).
(** map[k] += v on an unordered map with pairs as keys (BranchCountMap,
    RangeCountMap) *)
Definition pm_add (k : Z * Z) (v : Z) (m : list ((Z * Z) * Z)) : list ((Z * Z) * Z) :=
  aset pair_eqb k (match aget pair_eqb k m with Some x => x | None => 0 end + v) m.

(** branch_frequencies_autofdo_sample.cc:25-36 GetIncomingBranchWeights; the key
    is the uint64_t address as an int64_t *)
Definition GetIncomingBranchWeights (taken : list ((Z * Z) * Z)) : list (Z * Z) :=
  fold_left (fun m e => let '((_, to), count) := e in
                        if to =? kInvalidBinaryAddress then m else bt_add (s64 to) count m) taken [].

Section Convert.
Context (may_affect_control_flow : Z -> bool) (binary_address_to_symbol_offset : Z -> Z) (instruction_size : Z).
Notation cf := may_affect_control_flow.
Notation off := binary_address_to_symbol_offset.

(** 40-54 FirstControlFlowInstruction; [fuel] steps are enough when it is at
    least end - start *)
Fixpoint first_cf (fuel : nat) (address end_ : Z) : option Z :=
  match fuel with
  | O => None
  | S k => if address <? end_
           then if cf address then Some address else first_cf k (address + instruction_size) end_
           else None
  end.
Definition FirstControlFlowInstruction (start end_ : Z) : option Z := first_cf (Z.to_nat (end_ - start)) start end_.

(** 68-84 ToBranchCountMap *)
Definition ToBranchCountMap (taken : list ((Z * Z) * Z)) : list ((Z * Z) * Z) :=
  fold_left (fun m e => let '((from, to), count) := e in
               if (from =? kInvalidBinaryAddress) || (to =? kInvalidBinaryAddress) then m
               else pm_add (off (s64 from), off (s64 to)) count m) taken [].

(** 121-143: the while loop; [fuel] as above *)
Fixpoint scan_ranges (nt : list (Z * Z)) (fuel : nat) (range_start scan_end range_weight : Z) (rc : list ((Z * Z) * Z))
  : Z * list ((Z * Z) * Z) :=
  match fuel with
  | O => (range_weight, rc)
  | S k =>
      if (0 <? range_weight) && (range_start <? scan_end)
      then let next_branch := FirstControlFlowInstruction range_start scan_end in
           let last_in_range := match next_branch with Some b => b | None => scan_end - instruction_size end in
           let rc := pm_add (off range_start, off last_in_range) range_weight rc in
           let range_weight := match next_branch with
                               | Some b => match aget Z.eqb (u64 b) nt with Some c => c | None => 0 end
                               | None => range_weight
                               end in
           scan_ranges nt k (last_in_range + instruction_size) scan_end range_weight rc
      else (range_weight, rc)
  end.
(** 90-147 ToRangeCountMap: the loop over the incoming weights *)
Fixpoint range_loop (nt : list (Z * Z)) (weights : list (Z * Z)) (range_weight : Z) (rc : list ((Z * Z) * Z)) : list ((Z * Z) * Z) :=
  match weights with
  | [] => rc
  | (range_start, weight) :: rest =>
      let range_weight := range_weight + weight in
      let scan_end := match rest with [] => range_start + 4096 | (next, _) :: _ => next end in
      let '(w, rc) := scan_ranges nt (Z.to_nat (scan_end - range_start)) range_start scan_end range_weight rc in
      range_loop nt rest w rc
  end.
Definition ToRangeCountMap (weights nt : list (Z * Z)) : list ((Z * Z) * Z) := range_loop nt weights 0 [].

(** 150-190 ConvertBranchFrequenciesToAutofdoRangeSample: branch counts and
    range counts *)
Definition ConvertBranchFrequencies (taken : list ((Z * Z) * Z)) (nt : list (Z * Z)) : list ((Z * Z) * Z) * list ((Z * Z) * Z) :=
  (ToBranchCountMap taken, ToRangeCountMap (GetIncomingBranchWeights taken) nt).
End Convert.
