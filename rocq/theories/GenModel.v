(** Model of a Propeller run over perf profiles: the options choose the kind of
    profile and how the maps of the binary are recognised, the files are read
    one after the other and counted, and the counters become the cluster file
    and the symbol ordering file (llvm_propeller_profile_generator.cc,
    llvm_propeller_file_perf_data_provider.cc, perfdata_reader.cc,
    llvm_propeller_perf_lbr_aggregator.cc,
    llvm_propeller_perf_branch_frequencies_aggregator.cc,
    lbr_branch_aggregator.cc, frequencies_branch_aggregator.cc), put together
    from MMapModel, BinaryIdModel, InferModel and PropEndModel.  Reading the
    binary (GetBinaryContent), the status page, telemetry and the error for a
    missing DWARF context are not part of it; error messages are left out. *)
From Verif Require Import Base SymbolModel MMapModel BinaryIdModel CfgFreqModel MapperModel CfgBuildModel InferModel.
From Verif Require Import LayoutModel WriterModel PropEndModel.

(** What quipper gets out of a perf.data file: its map events, build-id records,
    samples, and SPE records with a known process, each in file order. *)
Record profile := Profile {
  pf_events : list mmap_event; pf_build_ids : list (option name * option (list Z));
  pf_samples : list sample; pf_spe : list spe_record }.
(** The content of a file; [None]: quipper cannot read or parse it.  (The
    samples are parsed in a second pass over the same bytes.) *)
Notation content := (option profile).

(** propeller_options.proto: binary_name, profiled_binary_name,
    ignore_build_id, profile_names, input_profiles (name and type). *)
Record options := Options {
  o_binary : name; o_profiled : option name; o_ignore_build_id : bool;
  o_profile_names : list name; o_inputs : list (name * Z) }.
(** The machine: llvm::sys::path::is_absolute and filename, the order of hash
    sets of file names and of the counters (keyed by a pair of addresses or by
    one), the files ([None]: the file reader
    returns an error status), and the disassembler for the binary ([None]: it
    cannot be created; otherwise for an address [None], not an instruction, or
    whether the instruction may affect control flow). *)
Record world := World {
  w_absolute : name -> bool; w_filename : name -> name; w_names : list name -> list name;
  w_counters : list ((Z * Z) * Z) -> list ((Z * Z) * Z); w_by_address : list (Z * Z) -> list (Z * Z);
  w_file : name -> option content; w_disassemble : option (Z -> option bool) }.

Inductive reader_error := Unparsable | NoBuildId | BuildIdNotListed | Select (e : select_error).
(** perfdata_reader.cc:457-468 BuildPerfDataReader and 164-211 SelectMMaps with
    129-154 FindFileNameInPerfDataWithFileBuildId; [bid] is the build id of the
    binary in hexadecimal, empty if it has none. *)
Definition BuildPerfDataReader (W : world) (bid : name) (c : content) (match_mmap_name : name) : mmaps + reader_error :=
  match c with
  | None => inr Unparsable
  | Some d =>
      let names := match match_mmap_name with
                   | [] => match bid with [] => None | _ => GetBuildIdNames (pf_build_ids d) bid end
                   | _ => Some [match_mmap_name]
                   end in
      match names with
      | None => inr (match bid with [] => NoBuildId | _ => BuildIdNotListed end)
      | Some ns =>
          match SelectMMaps (MMapSelector (w_absolute W) (w_filename W) (w_names W ns)) (pf_events d) with
          | inl m => inl m
          | inr e => inr (Select e)
          end
      end
  end.

(** llvm_propeller_perf_lbr_aggregator.cc:31-42 and
    llvm_propeller_perf_branch_frequencies_aggregator.cc:23-36 ResolveMmapName
    (the same text twice). *)
Definition ResolveMmapName (o : options) : name :=
  match o_profiled o with
  | Some n => n
  | None => if negb (o_ignore_build_id o) then [] else o_binary o
  end.

(** llvm_propeller_file_perf_data_provider.cc:18-30 GetNext: [left] are the
    names from index_ on; an error does not advance. *)
Inductive next := NError | NNone | NSome (c : content).
Definition GetNext (W : world) (left : list name) : next * list name :=
  match left with
  | [] => (NNone, left)
  | f :: left' => match w_file W f with None => (NError, left) | Some c => (NSome c, left') end
  end.

(** llvm_propeller_statistics.h:84-96 ProfileStats: binary_mmap_num,
    perf_file_parsed, br_counters_accumulated. *)
Record pstats := PStats { ps_mmaps : Z; ps_parsed : Z; ps_counters : Z }.
Inductive gen_error := EDeprecated | ENoInput | EMixed | EUnsupported | ERead | ENoProfile | ENoDisassembler | EEdges.

Section Loop.
  Context {A : Type} (W : world) (bid match_name : name) (aggregate : mmaps -> profile -> A -> A).
  (** llvm_propeller_perf_lbr_aggregator.cc:45-65 and
      llvm_propeller_perf_branch_frequencies_aggregator.cc:48-66: the loop over
      the profiles; [fuel] is one more than the number of files. *)
  Fixpoint profile_loop (fuel : nat) (left : list name) (stats : pstats) (r : A) : (pstats * A) + gen_error :=
    match fuel with
    | O => inl (stats, r)
    | S fuel' =>
        match GetNext W left with
        | (NError, _) => inr ERead
        | (NNone, _) => inl (stats, r)
        | (NSome c, left') =>
            match BuildPerfDataReader W bid c match_name, c with
            | inl m, Some d =>
                profile_loop fuel' left' (PStats (ps_mmaps stats + zlen m) (ps_parsed stats + 1) (ps_counters stats)) (aggregate m d r)
            | _, _ => profile_loop fuel' left' stats r
            end
        end
    end.
End Loop.

(** lbr_aggregation.h:22-26 GetNumberOfBranchCounters and branch_frequencies.h
    17-23 GetNumberOfTakenBranchCounters: the accumulator of absl::c_accumulate
    has the type of the literal 0, int, to which each sum is converted. *)
Definition conv_int (z : Z) : Z := (z + 2 ^ 31) mod 2 ^ 32 - 2 ^ 31.
Definition number_of_counters (cs : list ((Z * Z) * Z)) : Z := fold_left (fun cnt v => conv_int (cnt + snd v)) cs 0.

(** llvm_propeller_statistics.h:47-82 DisassemblyStats. *)
Record stat := Stat { st_absolute : Z; st_weighted : Z }.
Definition Increment (s : stat) (weight : Z) : stat := Stat (st_absolute s + 1) (st_weighted s + weight).
Record dstats := DStats { ds_could_not : stat; ds_may : stat; ds_cant : stat }.
Definition stat0 : stat := Stat 0 0.
Definition dstats0 : dstats := DStats stat0 stat0 stat0.
(** llvm_propeller_perf_lbr_aggregator.cc:86-90: counter_sum_by_source_address. *)
Definition by_source (cs : list ((Z * Z) * Z)) : list (Z * Z) :=
  fold_left (fun m c => if fst (fst c) =? kInvalid then m else aset Z.eqb (fst (fst c)) (cget Z.eqb (fst (fst c)) m + snd c) m) cs [].
(** llvm_propeller_perf_lbr_aggregator.cc:77-116 CheckLbrAddress. *)
Definition check_one (dis : Z -> option bool) (r : dstats) (p : Z * Z) : dstats :=
  match dis (fst p) with
  | None => DStats (Increment (ds_could_not r) (snd p)) (ds_may r) (ds_cant r)
  | Some false => DStats (ds_could_not r) (ds_may r) (Increment (ds_cant r) (snd p))
  | Some true => DStats (ds_could_not r) (Increment (ds_may r) (snd p)) (ds_cant r)
  end.
Definition CheckLbrAddress (W : world) (cs : list ((Z * Z) * Z)) : dstats + gen_error :=
  match w_disassemble W with
  | None => inr ENoDisassembler
  | Some dis => inl (fold_left (check_one dis) (w_by_address W (by_source cs)) dstats0)
  end.

Definition pstats0 : pstats := PStats 0 0 0.
(** llvm_propeller_perf_lbr_aggregator.cc:27-75 AggregateLbrData;
    [ps_counters] is a uint64_t. *)
Definition AggregateLbrData (W : world) (o : options) (bid : name) (bn : MMapModel.binary) (files : list name)
    : (lbr_agg * pstats * dstats) + gen_error :=
  match profile_loop W bid (ResolveMmapName o) (fun m d => AggregateLBR m bn (pf_samples d)) (S (length files)) files pstats0 ([], []) with
  | inr e => inr e
  | inl (stats, (br, ft)) =>
      let stats' := PStats (ps_mmaps stats) (ps_parsed stats) (u64 (ps_counters stats + number_of_counters (w_counters W br))) in
      if ps_parsed stats' =? 0 then inr ENoProfile
      else match CheckLbrAddress W (w_counters W br) with
           | inr e => inr e
           | inl ds => inl ((br, ft), stats', ds)
           end
  end.
(** llvm_propeller_perf_branch_frequencies_aggregator.cc:39-80
    AggregateBranchFrequencies. *)
Definition AggregateBranchFrequencies (W : world) (o : options) (bid : name) (bn : MMapModel.binary) (files : list name)
    : (spe_agg * pstats) + gen_error :=
  match profile_loop W bid (ResolveMmapName o) (fun m d => AggregateSpe m bn (pf_spe d)) (S (length files)) files pstats0 ([], []) with
  | inr e => inr e
  | inl (stats, (tk, nt)) =>
      let stats' := PStats (ps_mmaps stats) (ps_parsed stats) (u64 (ps_counters stats + number_of_counters (w_counters W tk))) in
      if ps_parsed stats' =? 0 then inr ENoProfile else inl ((tk, nt), stats')
  end.

(** propeller_options.proto ProfileType: 0 unspecified, 1 PERF_LBR, 2 PERF_SPE. *)
Definition dedup (l : list Z) : list Z := fold_left (fun s t => if existsb (Z.eqb t) s then s else s ++ [t]) l [].
(** llvm_propeller_profile_generator.cc:104-127 GetProfileType. *)
Definition GetProfileType (o : options) : Z + gen_error :=
  match o_inputs o with
  | [] => inr ENoInput
  | _ =>
      let types := dedup (map (fun p => if snd p =? 0 then 1 else snd p) (o_inputs o)) in
      if (1 <? length types)%nat then inr EMixed else inl (hd 0 types)
  end.

(** The binary as a whole: segments, build id, size of an instruction if it is
    fixed (frequencies_branch_aggregator.cc:26-38 GetInstructionSize), and what
    the layout reads. *)
Record image := Image { im_segments : MMapModel.binary; im_build_id : name; im_isize : option Z; im_binary : PropEndModel.binary }.

(** llvm_propeller_profile_generator.cc:129-250 GeneratePropellerProfiles with
    lbr_branch_aggregator.cc:36-68 and frequencies_branch_aggregator.cc:60-95
    (the lazily evaluated aggregators run once); the counters are iterated in
    the order of their hash maps.  The result is the content of the two
    files. *)
Definition GeneratePropellerProfiles (dbg verbose : bool) (v : version) (scores : finfo -> text) (W : world) (o : options) (I : image) (S : settings)
    : outcome ((text * text) + gen_error) :=
  match o_profile_names o with
  | _ :: _ => Ok (inr EDeprecated)
  | [] =>
      match GetProfileType o with
      | inr e => Ok (inr e)
      | inl ty =>
          let files := map fst (o_inputs o) in
          let compute addrs agg :=
            let! r := ComputeProfile dbg verbose v scores (im_binary I) S addrs agg in
            Ok (match r with Some out => inl out | None => inr EEdges end) in
          if ty =? 1 then
            match AggregateLbrData W o (im_build_id I) (im_segments I) files with
            | inr e => Ok (inr e)
            | inl ((br, ft), _, _) =>
                let br' := w_counters W br in let ft' := w_counters W ft in
                compute (GetUniqueAddresses br' ft') (fun _ => Ok (br', ft'))
            end
          else if ty =? 2 then
            match AggregateBranchFrequencies W o (im_build_id I) (im_segments I) files with
            | inr e => Ok (inr e)
            | inl ((tk, nt), _) =>
                let tk' := w_counters W tk in let nt' := w_by_address W nt in
                compute (GetBranchEndpointAddresses tk' nt')
                  (fun mp => let! ft := InferFallthroughs dbg (im_isize I) mp tk' nt' in Ok (tk', w_counters W ft))
            end
          else Ok (inr EUnsupported)
      end
  end.
