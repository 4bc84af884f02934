(** Model of sample_merger: profile_creator.cc 159-213 ReadSample and 269-301
    MergeSample, sample_reader.cc 142-158, 260-268.

    A file system is a function from paths to contents. Opening a file for
    writing succeeds. The perf readers are not modelled here: [perf] stands for
    what they return for a file. *)
From Verif Require Import Base SampleModel.

Definition files := list Z -> option (list Z).
Fixpoint path_eqb (a b : list Z) : bool :=
  match a, b with
  | [], [] => true
  | x :: a', y :: b' => (x =? y) && path_eqb a' b'
  | _, _ => false
  end.
Definition write_file (fs : files) (p c : list Z) : files :=
  fun q => if path_eqb q p then Some c else fs q.

(** --profiler *)
Inductive profiler := Perf | PerfSpe | Text | OtherProfiler.

(** sample_reader.cc 160-165 with the file system: a missing file fails *)
Definition AppendFile (fs : files) (p : list Z) (s : samples) : outcome (samples * bool) :=
  match fs p with
  | None => Ok (s, false)
  | Some c => Append c s
  end.

(** profile_creator.cc 159-213 ReadSample: the reader that was filled; None for
    the result false *)
Definition ReadSample (fs : files) (perf : list Z -> outcome (option samples)) (pr : profiler)
    (p : list Z) : outcome (option samples) :=
  match pr with
  | Perf | PerfSpe => perf p
  | Text => obind (AppendFile fs p samples0) (fun r => Ok (if snd r then Some (fst r) else None))
  | OtherProfiler => Ok None
  end.

(** profile_creator.cc 284-293: the loop over the inputs *)
Fixpoint merge_inputs (fs : files) (perf : list Z -> outcome (option samples)) (pr : profiler)
    (inputs : list (list Z)) (w : samples) : outcome (option samples) :=
  match inputs with
  | [] => Ok (Some w)
  | [] :: ins => merge_inputs fs perf pr ins w
  | p :: ins =>
      obind (ReadSample fs perf pr p) (fun r =>
        match r with
        | None => Ok None
        | Some s => merge_inputs fs perf pr ins (Merge w s)
        end)
  end.

(** profile_creator.cc 269-301 MergeSample: the files afterwards and the result *)
Definition MergeSample (fs : files) (perf : list Z -> outcome (option samples)) (pr : profiler)
    (inputs : list (list Z)) (output : list Z) : outcome (files * bool) :=
  let go w :=
    obind (merge_inputs fs perf pr inputs w) (fun r =>
      match r with
      | None => Ok (fs, false)
      | Some s => Ok (write_file fs output (Write s []), true)
      end) in
  match fs output with
  | Some _ =>
      obind (AppendFile fs output samples0) (fun r => if snd r then go (fst r) else Ok (fs, false))
  | None => go samples0
  end.
