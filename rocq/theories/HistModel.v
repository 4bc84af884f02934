(** Model of the two histogram computations: the gcov working set
    (symbol_map.cc 1105-1163) and the detailed profile summary
    (profile_writer.cc 288-350). *)
From Verif Require Import Base SymbolModel ZMap.

(** uint64_t arithmetic *)
Definition uadd (a b : Z) : Z := u64 (a + b).
Definition usub (a b : Z) : Z := u64 (a - b).
Definition umul (a b : Z) : Z := u64 (a * b).

(** ** Working set *)

(** symbol_map.cc 1107-1118: one position added to the histogram
    (histogram: count -> number of instructions) and to the total *)
Definition hist_pos (ht : list (Z * Z) * Z) (p : Z * pinfo) : list (Z * Z) * Z :=
  let (h, t) := ht in
  let c := p_count (snd p) in
  let n := p_ninst (snd p) in
  let h1 := zinsert c 0 h in
  let old := match zfind c h1 with Some o => o | None => 0 end in
  (zset c (uadd old n) h1, uadd t (umul c n)).

(** symbol_map.cc 1107-1125 AddSymbolProfileToHistogram *)
Fixpoint AddSymbolProfileToHistogram (s : symbol) (h : list (Z * Z)) {struct s}
  : list (Z * Z) * Z :=
  match s with
  | Sym _ _ _ pos calls =>
      fold_left (fun ht (cs : callsite * symbol) =>
                   let (h', t') := AddSymbolProfileToHistogram (snd cs) (fst ht) in
                   (h', uadd (snd ht) t'))
                calls (fold_left hist_pos pos (h, 0))
  end.

(** symbol_map.cc 1131-1137, step 1 of ComputeWorkingSets over unique_symbols_ *)
Definition ws_histogram (syms : list symbol) : list (Z * Z) * Z :=
  fold_left (fun ht s =>
               if s_total s =? 0 then ht
               else let (h', t') := AddSymbolProfileToHistogram s (fst ht) in
                    (h', uadd (snd ht) t'))
            syms ([], 0).

Definition NUM_WS : nat := 128.

(** the inner while loop, symbol_map.cc 1147-1158; [left] is
    NUM_GCOV_WORKING_SETS - bucket_num; the result is the new (left, num_inst,
    accumulated_inst, accumulated_count, working_set_). *)
Fixpoint ws_inner (left : nat) (one_bucket count num_inst acc_inst acc_count : Z)
  (ws : list (Z * Z)) : outcome (nat * Z * Z * Z * list (Z * Z)) :=
  match left with
  | O => Ok (O, num_inst, acc_inst, acc_count, ws)
  | S left' =>
      let bucket := (NUM_WS - left)%nat in
      let target := umul one_bucket (Z.of_nat bucket + 1) in
      if target <? uadd (umul count num_inst) acc_count then
        if count =? 0 then UB   (* division by zero *)
        else
          let offset := usub target acc_count / count in
          let acc_inst := uadd acc_inst offset in
          let acc_count := uadd acc_count (umul offset count) in
          let num_inst := usub num_inst offset in
          ws_inner left' one_bucket count num_inst acc_inst acc_count
            (set_nth bucket (u32 acc_inst, count) ws)
      else Ok (left, num_inst, acc_inst, acc_count, ws)
  end.

(** the outer loop over the histogram in descending order of counts,
    symbol_map.cc 1144-1162 *)
Fixpoint ws_outer (hist : list (Z * Z)) (left : nat) (one_bucket acc_inst acc_count : Z)
  (ws : list (Z * Z)) : outcome (list (Z * Z)) :=
  match hist with
  | [] => Ok ws
  | (count, num_inst) :: hist' =>
      match left with
      | O => Ok ws
      | _ =>
          let! '(left, num_inst, acc_inst, acc_count, ws) :=
            ws_inner left one_bucket count num_inst acc_inst acc_count ws in
          ws_outer hist' left one_bucket (uadd acc_inst num_inst)
            (uadd acc_count (umul num_inst count)) ws
      end
  end.

(** symbol_map.cc 1127-1163 ComputeWorkingSets; [ws] is working_set_ *)
Definition ComputeWorkingSets (syms : list symbol) (ws : list (Z * Z)) : outcome (list (Z * Z)) :=
  let (h, total) := ws_histogram syms in
  ws_outer (rev h) NUM_WS (total / (Z.of_nat NUM_WS + 1)) 0 0 ws.

(** symbol_map.h 391-402 UpdateWorkingSet on entry [i] *)
Definition UpdateWorkingSet (ws : list (Z * Z)) (i : nat) (num_counters min_counter : Z)
  : list (Z * Z) :=
  match nth_error ws i with
  | None => ws
  | Some (n, m) =>
      set_nth i ((if n =? 0 then u32 num_counters else u32 (n + num_counters) / 2),
                 uadd m min_counter) ws
  end.

(** ** Detailed summary *)
Record summary := {
  sm_total : Z; sm_max : Z; sm_max_function : Z; sm_num_counts : Z; sm_num_functions : Z;
  sm_freq : list (Z * Z)           (* count_frequencies_, ascending *) }.
Definition summary0 : summary := {| sm_total := 0; sm_max := 0; sm_max_function := 0;
  sm_num_counts := 0; sm_num_functions := 0; sm_freq := [] |}.

(** profile_writer.cc 311-317, one iteration of Visit *)
Definition sm_pos (i : summary) (p : Z * pinfo) : summary :=
  let count := p_count (snd p) in
  let old := match zfind count (sm_freq i) with Some o => o | None => 0 end in
  {| sm_total := uadd (sm_total i) count; sm_max := Z.max (sm_max i) count;
     sm_max_function := sm_max_function i; sm_num_counts := uadd (sm_num_counts i) 1;
     sm_num_functions := sm_num_functions i;
     sm_freq := zset count (u32 (old + 1)) (sm_freq i) |}.

(** profile_writer.h 137-145 Traverse with ProfileSummaryComputer::Visit
    (profile_writer.cc 304-319) *)
Fixpoint sm_traverse (s : symbol) (i : summary) {struct s} : summary :=
  match s with
  | Sym _ _ _ pos calls =>
      fold_left (fun i (cs : callsite * symbol) => sm_traverse (snd cs) i)
                calls (fold_left sm_pos pos i)
  end.

(** profile_writer.h 123-131 Start with VisitTopSymbol (profile_writer.cc
    297-302), over the (name, symbol) entries of the map; [emit] is
    SymbolMap::ShouldEmit. *)
Definition sm_top (emit : Z -> bool) (i : summary) (s : symbol) : summary :=
  if emit (s_total s) then
    sm_traverse s {| sm_total := sm_total i; sm_max := sm_max i;
                     sm_max_function := Z.max (sm_max_function i) (s_head s);
                     sm_num_counts := sm_num_counts i;
                     sm_num_functions := uadd (sm_num_functions i) 1;
                     sm_freq := sm_freq i |}
  else i.

(** profile_writer.cc 340-346, the while loop of ComputeDetailedSummary *)
Fixpoint ds_advance (groups : list (Z * Z)) (desired seen sum count : Z)
  : list (Z * Z) * Z * Z * Z :=
  match groups with
  | [] => ([], seen, sum, count)
  | (c, f) :: g' =>
      if sum <? desired
      then ds_advance g' desired (u32 (seen + f)) (uadd sum (umul c f)) c
      else (groups, seen, sum, count)
  end.

(** profile_writer.cc 329-355, the loop over the cutoffs; asserts abort. *)
Fixpoint ds_loop (cutoffs : list Z) (total : Z) (groups : list (Z * Z)) (seen sum count : Z)
  : outcome (list (Z * Z * Z)) :=
  match cutoffs with
  | [] => Ok []
  | cutoff :: rest =>
      if cutoff <=? 999999 then
        let desired := total * cutoff / 1000000 in
        if desired <=? total then
          let '(groups, seen, sum, count) := ds_advance groups desired seen sum count in
          if desired <=? sum then
            let! r := ds_loop rest total groups seen sum count in
            Ok ((cutoff, count, seen) :: r)
          else Abort
        else Abort
      else Abort
  end.

(** profile_writer.cc 321-356 and profile_writer.h 289-295 Compute: the
    summary and the (cutoff, min_count, num_counts) list *)
Definition ComputeSummary (emit : Z -> bool) (syms : list symbol) (cutoffs : list Z)
  : outcome (summary * list (Z * Z * Z)) :=
  let i := fold_left (sm_top emit) syms summary0 in
  let! ds := ds_loop cutoffs (sm_total i) (rev (sm_freq i)) 0 0 0 in
  Ok (i, ds).
