(** Model of the aggregation of perf samples with branch stacks,
    PerfDataSampleReader::Append, sample_reader.cc 292-358, and of the binary
    matching cache, sample_reader.cc 44-69. The parsed perf.data file is the
    list of its events (quipper's parser is not modelled). *)
From Verif Require Import Base SampleModel.

(** one entry of event.branch_stack *)
Record branch_entry := {
  b_from : Z;        (* from.offset() *)
  b_to : Z;          (* to.offset() *)
  b_from_dso : Z;    (* from.dso_info_ *)
  b_to_dso : Z;      (* to.dso_info_ *)
  b_wrong : bool }.  (* spec == PERF_BR_SPEC_WRONG_PATH *)

(** a PERF_RECORD_SAMPLE event; events of other kinds are skipped at line 314 *)
Record sample_event := { ev_dso : Z; ev_offset : Z; ev_stack : list branch_entry }.

(** sample_reader.cc 324-329: the index of the first entry that is not
    wrong-path *)
Fixpoint start_index (st : list branch_entry) : nat :=
  match st with
  | e :: st' => if b_wrong e then S (start_index st') else O
  | [] => O
  end.

Section Loop.
  Variable matches : Z -> bool.   (* MatchBinary *)
  Variable limit : Z.             (* FLAGS_strip_dup_backedge_stride_limit *)
  Variable st : list branch_entry.

  (** sample_reader.cc 352-361: the duplicated-top-entry heuristic *)
  Definition dup_top (i : nat) : bool :=
    match i, st with
    | 1%nat, e0 :: e1 :: _ =>
        (b_from e0 =? b_from e1) && (b_to e0 =? b_to e1) && (limit <? u64 (b_from e0 - b_to e0))
    | _, _ => false
    end.

  (** sample_reader.cc 337-380, the loop over the rest of the stack; [prev] is
      branch_stack[i - 1] *)
  Fixpoint lbr_loop (i : nat) (prev : branch_entry) (rest : list branch_entry)
    (rm bm : list ((Z * Z) * Z)) : list ((Z * Z) * Z) * list ((Z * Z) * Z) :=
    match rest with
    | [] => (rm, bm)
    | e :: rest' =>
        if b_wrong e then lbr_loop (S i) e rest' rm bm
        else if negb (matches (b_to_dso e)) then lbr_loop (S i) e rest' rm bm
        else if dup_top i then lbr_loop (S i) e rest' rm bm
        else
          let begin_ := b_to e in
          let end_ := b_from prev in
          if (end_ <? begin_) || (1048576 <? u64 (end_ - begin_))
          then lbr_loop (S i) e rest' rm bm
          else
            let rm := madd pair_eqb rm ((begin_, end_), 1) in
            let bm := if matches (b_from_dso e)
                      then madd pair_eqb bm ((b_from e, b_to e), 1) else bm in
            lbr_loop (S i) e rest' rm bm
    end.
End Loop.

(** sample_reader.cc 313-381, the treatment of one sample *)
Definition append_event (matches : Z -> bool) (limit : Z) (s : samples) (ev : sample_event) : samples :=
  let am := if matches (ev_dso ev) then madd Z.eqb (sa_addr s) (ev_offset ev, 1) else sa_addr s in
  let st := ev_stack ev in
  let si := start_index st in
  match skipn si st with
  | [] => {| sa_range := sa_range s; sa_addr := am; sa_branch := sa_branch s |}
  | e :: rest =>
      let bm := if matches (b_to_dso e) && matches (b_from_dso e)
                then madd pair_eqb (sa_branch s) ((b_from e, b_to e), 1) else sa_branch s in
      let (rm, bm) := lbr_loop matches limit st (S si) e rest (sa_range s) bm in
      {| sa_range := rm; sa_addr := am; sa_branch := bm |}
  end.

(** sample_reader.cc 292-358 Append *)
Definition AppendPerf (matches : Z -> bool) (limit : Z) (evs : list sample_event) (s : samples)
  : samples :=
  fold_left (append_event matches limit) evs s.

(** ** MatchBinary with its cache, sample_reader.cc 44-69: the cache maps DSO
    pointers to answers; [answer name] is the uncached test. *)
Definition MatchBinary (answer : Z -> bool) (cache : list (Z * bool)) (ptr name : Z)
  : bool * list (Z * bool) :=
  match aget Z.eqb ptr cache with
  | Some b => (b, cache)
  | None => (answer name, aset Z.eqb ptr (answer name) cache)
  end.
