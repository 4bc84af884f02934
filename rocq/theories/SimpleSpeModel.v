(** Model of the ARM SPE reader of create_gcov: simple_spe_sample_reader.cc.

    The quipper library (PerfReader, ArmSpeDecoder) is not modelled: a perf.data
    file that ReadFile accepts is the list of its events, a trace is the list of
    the records the decoder returns. A reader is used for one Read on fresh maps
    (profile_creator.cc 196, 208; simple_spe_sample_reader.cc 121). Log messages
    are left out. *)
From Verif Require Import Base SampleModel ISort.

(** the fields of quipper::ArmSpeDecoder::Record that lines 184-209 look at *)
Record spe_record := {
  r_retired : bool;        (* event.retired *)
  r_branch : bool;         (* op.is_br_eret *)
  r_ip : Z;                (* ip.addr *)
  r_cond : bool;           (* op.br_eret.br_cond *)
  r_not_taken : bool;      (* event.cond_not_taken *)
  r_target : Z }.          (* tgt_br_ip.addr *)

(** the events of a perf.data file, with the fields that are read *)
Inductive event :=
| Mmap (start len pgoff : Z) (filename : list Z)
| Auxtrace (records : list spe_record)
| OtherEvent.

(** std::filesystem::path::filename (lines 40, 46): what stands behind the last
    '/' *)
Fixpoint base_name (p : list Z) : list Z :=
  match p with
  | [] => []
  | c :: p' => if existsb (Z.eqb 47) p' then base_name p'
               else if c =? 47 then p' else p
  end.

Fixpoint bytes_eqb (a b : list Z) : bool :=
  match a, b with
  | [], [] => true
  | x :: a', y :: b' => (x =? y) && bytes_eqb a' b'
  | _, _ => false
  end.

(** lines 17-32: MMapInfo (the file name is only logged) *)
Record mmap_info := { load_addr : Z; load_size : Z; page_offset : Z }.
(** lines 24-26 *)
Definition Contains (m : mmap_info) (addr : Z) : bool :=
  (load_addr m <=? addr) && (addr <? u64 (load_addr m + load_size m)).
(** lines 29-32 *)
Definition VaToBinaryOffset (m : mmap_info) (va : Z) : Z :=
  if Contains m va then u64 (u64 (va - load_addr m) + page_offset m) else 0.

(** lines 36-60 FindBinaryMMap: the first mmap event whose file has the base
    name of the binary *)
Fixpoint FindBinaryMMap (events : list event) (binary : list Z) : option mmap_info :=
  match events with
  | [] => None
  | Mmap start len pgoff file :: es =>
      if bytes_eqb (base_name file) (base_name binary)
      then Some {| load_addr := start; load_size := len; page_offset := pgoff |}
      else FindBinaryMMap es binary
  | _ :: es => FindBinaryMMap es binary
  end.

(** what the loop of lines 171-211 changes *)
Record rstate := { st_addr : list (Z * Z); st_branch : list ((Z * Z) * Z); st_total : Z;
                   st_spe_events : Z; st_branch_records : Z }.

(** lines 183-210: one record *)
Definition step (m : mmap_info) (s : rstate) (r : spe_record) : rstate :=
  if negb (r_retired r) || negb (r_branch r) then s
  else
    let s1 := {| st_addr := st_addr s; st_branch := st_branch s; st_total := st_total s;
                 st_spe_events := st_spe_events s;
                 st_branch_records := u64 (st_branch_records s + 1) |} in
    if r_ip r =? 0 then s1
    else
      let off := VaToBinaryOffset m (r_ip r) in
      if off =? 0 then s1
      else if r_cond r && r_not_taken r then
        {| st_addr := madd Z.eqb (st_addr s1) (off, 1); st_branch := st_branch s1;
           st_total := u64 (st_total s1 + 1); st_spe_events := st_spe_events s1;
           st_branch_records := st_branch_records s1 |}
      else if r_target r =? 0 then s1
      else
        let tgt := VaToBinaryOffset m (r_target r) in
        if tgt =? 0 then s1
        else
          {| st_addr := st_addr s1; st_branch := madd pair_eqb (st_branch s1) ((off, tgt), 1);
             st_total := u64 (st_total s1 + 1); st_spe_events := st_spe_events s1;
             st_branch_records := st_branch_records s1 |}.

(** lines 171-211: one event *)
Definition step_event (m : mmap_info) (s : rstate) (e : event) : rstate :=
  match e with
  | Auxtrace recs =>
      fold_left (step m) recs
        {| st_addr := st_addr s; st_branch := st_branch s; st_total := st_total s;
           st_spe_events := u64 (st_spe_events s + 1); st_branch_records := st_branch_records s |}
  | _ => s
  end.

Definition rstate0 : rstate :=
  {| st_addr := []; st_branch := []; st_total := 0; st_spe_events := 0; st_branch_records := 0 |}.

(** ** Lines 71-117: SynthesizeRanges *)
Definition kArmInstructionSize : Z := 4.
Definition kMaxRangeSize : Z := 0x1000.

(** std::set::lower_bound on the sorted branch addresses *)
Definition lower_bound (bs : list Z) (s : Z) : option Z := find (fun b => s <=? b) bs.

(** lines 95-114, the while loop of one target: the increments of
    range_count_map_ in order. [bs] the sorted branch addresses, [nt] the counts
    of not-taken branches. When an address wraps around at 2^64 the loop can run
    for ever; it passes each branch at most once between two wraps, so that it
    has no more than [2 * length bs + 2] iterations unless it does: [UB] *)
Fixpoint scan (fuel : nat) (bs : list Z) (nt : list (Z * Z)) (scan_end start weight : Z)
  : outcome (list ((Z * Z) * Z)) :=
  match fuel with
  | O => UB
  | S f =>
      if (0 <? weight) && (start <? scan_end) then
        let next := lower_bound bs start in
        let here := match next with Some b => if b <? scan_end then Some b else None | None => None end in
        let range_end := match here with Some b => b | None => u64 (scan_end - kArmInstructionSize) end in
        let incs := if start <=? range_end then [((start, range_end), weight)] else [] in
        match here with
        | Some b =>
            obind (scan f bs nt scan_end (u64 (b + kArmInstructionSize))
                     (match aget Z.eqb b nt with Some c => c | None => 0 end))
                  (fun rest => Ok (incs ++ rest))
        | None => Ok incs
        end
      else Ok []
  end.

(** lines 89-115: the loop over the targets, in the order of their addresses *)
Fixpoint scan_targets (bs : list Z) (nt inc : list (Z * Z)) (targets : list Z)
  : outcome (list ((Z * Z) * Z)) :=
  match targets with
  | [] => Ok []
  | t :: ts =>
      let scan_end := match ts with t' :: _ => t' | [] => u64 (t + kMaxRangeSize) end in
      obind (scan (2 * length bs + 3) bs nt scan_end t
               (match aget Z.eqb t inc with Some c => c | None => 0 end))
            (fun l => obind (scan_targets bs nt inc ts) (fun rest => Ok (l ++ rest)))
  end.

(** lines 71-117; the increments are added up in range_count_map_, which the
    loops do not read. Duplicates in the list of branch addresses stand for one
    element of the set *)
Definition SynthesizeRanges (addr : list (Z * Z)) (branch : list ((Z * Z) * Z))
  : outcome (list ((Z * Z) * Z)) :=
  let inc := madd_all Z.eqb (map (fun e => (snd (fst e), snd e)) branch) [] in
  let bs := isort Z.leb (map (fun e => fst (fst e)) branch ++ map fst addr) in
  obind (scan_targets bs addr inc (isort Z.leb (map fst inc)))
        (fun incs => Ok (madd_all pair_eqb incs [])).

(** lines 153-230: Read of a fresh reader; [None] is the result false. The
    second component is total_count_ *)
Definition Read (events : list event) (binary : list Z) : outcome (option (samples * Z)) :=
  match FindBinaryMMap events binary with
  | None => Ok None
  | Some m =>
      let s := fold_left (step_event m) events rstate0 in
      if st_spe_events s =? 0 then Ok None
      else if (st_branch_records s =? 0) || (st_total s =? 0) then Ok None
      else obind (SynthesizeRanges (st_addr s) (st_branch s)) (fun ranges =>
             Ok (Some ({| sa_range := ranges; sa_addr := st_addr s; sa_branch := st_branch s |},
                       st_total s)))
  end.

(** sample_reader.cc 142-157: ReadAndSetTotalCount adds to the total_count_ that
    Read left *)
Definition ReadAndSetTotalCount (events : list event) (binary : list Z)
  : outcome (option (samples * Z)) :=
  obind (Read events binary) (fun r =>
    Ok (match r with
        | None => None
        | Some (s, total) => Some (s, u64 (total + TotalCount s))
        end)).

(** lines 119-151: Append of another file; the own maps and total first *)
Definition Append (own : samples * Z) (events : list event) (binary : list Z)
  : outcome (option (samples * Z)) :=
  obind (Read events binary) (fun r =>
    Ok (match r with
        | None => None
        | Some (t, total) =>
            Some ({| sa_range := madd_all pair_eqb (sa_range t) (sa_range (fst own));
                     sa_addr := madd_all Z.eqb (sa_addr t) (sa_addr (fst own));
                     sa_branch := madd_all pair_eqb (sa_branch t) (sa_branch (fst own)) |},
                  u64 (snd own + total))
        end)).
