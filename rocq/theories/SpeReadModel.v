(** Model of PerfSpeDataSampleReader (spe_sample_reader.cc): from perf.data
    files with ARM SPE records and a binary to the branch and range counts of
    create_gcov and create_llvm_prof, put together from MMapModel, BinaryIdModel,
    GenModel (what quipper reads), SpeRangeModel and AddrModel.  Error messages
    are left out. *)
From Verif Require Import Base SymbolModel MMapModel BinaryIdModel GenModel SpeRangeModel AddrModel SampleModel.

(** spe_sample_reader.h:18-27 BranchIdStrategy *)
Inductive strategy := kDisassembly | kSampling.

(** What GetBinaryContent and the symbol map read from the binary: its
    architecture, build id (hexadecimal), segments, program headers, and the
    disassembler for it ([None]: MiniDisassembler::Create fails; for an address
    [None]: no instruction there). *)
Record spe_binary := SpeBinary {
  sb_aarch64 : bool; sb_build_id : name; sb_segments : MMapModel.binary; sb_headers : list phdr;
  sb_disassembler : option (Z -> option bool) }.

(** The members of the reader: branch_id_strategy_, mmap_regex_ (regex_search as
    a function) and the content of binary_file_ ([None]: it cannot be read). *)
Record spe_reader := SpeReader { re_strategy : strategy; re_regex : name -> bool; re_binary : option spe_binary }.

(** quipper PerfReader::GetFilenamesAsSet: the names in the map events *)
Definition filenames (evs : list mmap_event) : list name :=
  fold_left (fun s ev => match ev_file ev with Some f => ninsert f s | None => s end) evs [].

(** spe_sample_reader.cc:157-190 CreatePerfDataReader with perfdata_reader.cc
    164-279 SelectMMaps: the maps, [None] for an error.  [c] is the content of
    the profile; the chosen names go through a hash set. *)
Definition CreatePerfDataReader (W : world) (R : spe_reader) (bid : name) (c : option profile) : option mmaps :=
  match c with
  | None => None
  | Some d =>
      let match_mmap_names := match bid with [] => filter (re_regex R) (filenames (pf_events d)) | _ => [] end in
      let names := match match_mmap_names with
                   | [] => match bid with [] => None | _ => GetBuildIdNames (pf_build_ids d) bid end
                   | _ => Some match_mmap_names
                   end in
      match names with
      | None => None
      | Some ns =>
          match SelectMMaps (MMapSelector (w_absolute W) (w_filename W) (w_names W ns)) (pf_events d) with
          | inl m => Some m
          | inr _ => None
          end
      end
  end.

(** spe_sample_reader.cc:40-124: the branch identifiers; an error of the
    disassembler counts as a branch (branch_frequencies_autofdo_sample.cc:49) *)
Definition CreateBranchIdentifier (s : strategy) (B : spe_binary) (tk : list ((Z * Z) * Z)) (nt : list (Z * Z)) : option (Z -> bool) :=
  match s with
  | kDisassembly =>
      match sb_disassembler B with
      | None => None
      | Some dis => Some (fun a => match dis (u64 a) with Some b => b | None => true end)
      end
  | kSampling => Some (fun a => existsb (Z.eqb (u64 a)) (map (fun e => fst (fst e)) tk ++ map fst nt))
  end.

(** branch_frequencies_autofdo_sample.cc:150-190 with a translation of addresses
    that may abort (spe_sample_reader.cc:229-231).  With the identity as
    translation the keys of the two maps are the addresses that are translated,
    so the run aborts if the translation aborts for one of them. *)
Definition translated (c : list ((Z * Z) * Z) * list ((Z * Z) * Z)) : list Z :=
  flat_map (fun e => [fst (fst e); snd (fst e)]) (fst c ++ snd c).
Definition Convert (cf : Z -> bool) (offset : Z -> outcome Z) (size : Z) (tk : list ((Z * Z) * Z)) (nt : list (Z * Z))
    : outcome (list ((Z * Z) * Z) * list ((Z * Z) * Z)) :=
  if forallb (fun a => match offset a with Ok _ => true | _ => false end) (translated (ConvertBranchFrequencies cf (fun a => a) size tk nt))
  then Ok (ConvertBranchFrequencies cf (fun a => match offset a with Ok x => x | _ => 0 end) size tk nt)
  else Abort.

(** spe_sample_reader.cc:204-233 GenerateAutofdoProfile, [None] for an error;
    the profile is read with llvm_propeller_file_perf_data_provider.cc:18-30.
    The counters are iterated in the order of their hash maps. *)
Definition GenerateAutofdoProfile (W : world) (R : spe_reader) (profile_file : name)
    : outcome (option (list ((Z * Z) * Z) * list ((Z * Z) * Z))) :=
  match re_binary R with
  | None => Ok None
  | Some B =>
      if negb (sb_aarch64 B) then Ok None
      else match GetNext W [profile_file] with
      | (NSome c, _) =>
          match CreatePerfDataReader W R (sb_build_id B) c, c with
          | Some m, Some d =>
              let '(tk, nt) := AggregateSpe m (sb_segments B) (pf_spe d) ([], []) in
              let segs := ReadLoadableExecSegmentInfo (IsKernelMode m) (sb_headers B) in
              match CreateBranchIdentifier (re_strategy R) B tk nt with
              | None => Ok None
              | Some cf =>
                  let! s := Convert cf (fun a => GetFileOffsetFromStaticVaddr segs (u64 a)) 4 (w_counters W tk) (w_by_address W nt) in
                  Ok (Some s)
              end
          | _, _ => Ok None
          end
      | _ => Ok None
      end
  end.

(** spe_sample_reader.cc:192-202 Append and 235-243 AddBranchesAndRanges: the
    counts afterwards and the result *)
Definition AddBranchesAndRanges (s : samples) (c : list ((Z * Z) * Z) * list ((Z * Z) * Z)) : samples :=
  {| sa_range := madd_all SampleModel.pair_eqb (snd c) (sa_range s); sa_addr := sa_addr s;
     sa_branch := madd_all SampleModel.pair_eqb (fst c) (sa_branch s) |}.
Definition Append (W : world) (R : spe_reader) (s : samples) (profile_file : name) : outcome (samples * bool) :=
  let! r := GenerateAutofdoProfile W R profile_file in
  Ok (match r with None => (s, false) | Some c => (AddBranchesAndRanges s c, true) end).
(** sample_reader.cc:159 FileSampleReader::Read appends the file of the reader
    to empty counts; here any number of files one after the other, stopping at
    the first failure. *)
Fixpoint Appends (W : world) (R : spe_reader) (s : samples) (files : list name) : outcome (samples * bool) :=
  match files with
  | [] => Ok (s, true)
  | f :: files' =>
      let! r := Append W R s f in
      if snd r then Appends W R (fst r) files' else Ok r
  end.
