(** Model of merging LLVM sample profiles: llvm_profile_reader.cc and the
    LLVM branch of profile_merger.cc (main), up to the choice of the functions
    that are written.

    Simplifications: parsing the file into llvm::sampleprof::FunctionSamples is
    LLVM's, so a profile is the list of its functions in the order
    getProfiles() iterates them; the containers of FunctionSamples are lists in
    their iteration order, and the two-level map of callsite samples
    (location -> callee -> samples) is one list; the names object that interns
    strings is the identity; the optional passes of main after
    CalculateThreshold (flattening, regex stripping, throttling, trimming), all
    off by default, are modelled elsewhere or not here. *)
From Verif Require Import Base SrcOffsetModel SymbolModel ByteModel.

(** llvm/ProfileData/SampleProf.h FunctionSamples: name, head samples, total
    samples, body samples ((line offset, discriminator) -> samples and call
    targets), inlined callsites. *)
Inductive fsamples :=
  FS (fname : name) (head total : Z)
     (body : list ((Z * Z) * (Z * list (name * Z))))
     (calls : list ((Z * Z) * fsamples)).
Definition fs_name (f : fsamples) : name := match f with FS n _ _ _ _ => n end.

(** llvm_profile_reader.h:26-44 struct SpecialSyms without its skip_set, which
    is part of the state below. *)
Record special := Special { strip_all : list name; keep_sole : list name; keep_cold : list name }.

(** symbol_map.h:75 *)
Definition kMinSamples : Z := 10.

(** name.compare(0, pre.length(), pre) == 0 (llvm_profile_reader.cc:139, 148, 156) *)
Fixpoint starts_with (pre n : name) : bool :=
  match pre, n with
  | [], _ => true
  | x :: pre', y :: n' => (x =? y) && starts_with pre' n'
  | _ :: _, [] => false
  end.

Section Reader.
  Variables (base : Z -> Z) (orig : name -> name).

  (** llvm_profile_reader.cc:91-92, 105-106: SourceInfo(func_name, "", "", 0,
      LineOffset, Discriminator) *)
  Definition frame (n : name) (ld : Z * Z) : sinfo := SInfo n 0 (fst ld) (snd ld).

  (** 83-90: top_func_name *)
  Definition top_name (n : name) (stack : list sinfo) : name :=
    match rev stack with [] => n | i :: _ => si_func i end.

  (** 98-102 *)
  Fixpoint read_targets (top : name) (stack : list sinfo) (ts : list (name * Z)) (m : smap)
    : outcome smap :=
    match ts with
    | [] => Ok m
    | (t, c) :: ts' =>
        let! m := AddIndirectCallTarget base orig false top stack t c m in
        read_targets top stack ts' m
    end.
  (** 90-103 *)
  Fixpoint read_samples (n : name) (stack : list sinfo)
      (body : list ((Z * Z) * (Z * list (name * Z)))) (m : smap) : outcome smap :=
    match body with
    | [] => Ok m
    | (ld, (c, ts)) :: body' =>
        let new_stack := frame n ld :: stack in
        let! m := AddSourceCount base false (top_name n stack) new_stack c 1 m in
        let! m := read_targets (top_name n stack) new_stack ts m in
        read_samples n stack body' m
    end.

  (** 76-126 ReadFromFunctionSamples, without the question of line 80 (which is
      asked by [read_entry]: nested calls never ask it) *)
  Fixpoint read_function (stack : list sinfo) (f : fsamples) (m : smap) {struct f} : outcome smap :=
    match f with
    | FS n head total body calls =>
        let! m := match stack with
                  | [] => AddSymbolEntryCount n head 0 (AddSymbol [] n m)
                  | _ => Ok m
                  end in
        let! m := read_samples n stack body m in
        let! m := (fix go (l : list ((Z * Z) * fsamples)) (m : smap) : outcome smap :=
                     match l with
                     | [] => Ok m
                     | (ld, g) :: l' =>
                         let! m := read_function (frame n ld :: stack) g m in go l' m
                     end) calls m in
        match stack with
        | [] => match sm_find m n with
                | None => UB                                  (* map().at *)
                | Some s => if s_total s =? 0 then AddSymbolEntryCount n 0 total m else Ok m
                end
        | _ => Ok m
        end
    end.

  (** symbol_map.cc:1478-1485 RemoveSymbol: the loop over all map entries,
      acting on the one whose name matches *)
  Definition RemoveSymbol (n : name) (m : smap) : outcome smap :=
    match aget name_eqb n (sm_names m) with
    | None => Ok m
    | Some _ => sm_update n (fun s => match s with Sym _ _ ts p cs => Sym 0 0 ts p cs end) m
    end.

  (** skip_set and the symbol map *)
  Definition rstate := (list name * smap)%type.

  (** llvm_profile_reader.cc:131-168 shouldMergeProfileForSym *)
  Definition should_merge (sp : option special) (n : name) (st : rstate) : outcome (bool * rstate) :=
    match sp with
    | None => Ok (true, st)
    | Some sp =>
        let '(skip, m) := st in
        if existsb (name_eqb n) skip then Ok (false, st)
        else if existsb (fun pre => starts_with pre n) (strip_all sp) then Ok (false, st)
        else if existsb (fun pre => starts_with pre n) (keep_sole sp) then
          match sm_find m n with
          | None => Ok (true, st)
          | Some _ => let! m := RemoveSymbol n m in Ok (false, (n :: skip, m))
          end
        else if existsb (fun pre => starts_with pre n) (keep_cold sp) then
          match sm_find m n with
          | None =>
              let! m := AddSymbolEntryCount n 0 (kMinSamples + 1) (AddSymbol [] n m) in
              Ok (false, (n :: skip, m))
          | Some _ => Ok (false, st)
          end
        else Ok (true, st)
    end.

  (** 67-70 and 80: one function of a profile *)
  Definition read_entry (sp : option special) (f : fsamples) (st : rstate) : outcome rstate :=
    let! '(yes, st) := should_merge sp (fs_name f) st in
    if (yes : bool) then let! m := read_function [] f (snd st) in Ok (fst st, m) else Ok st.

  (** 67-70 the loop over getProfiles() *)
  Fixpoint read_profile (sp : option special) (fs : list fsamples) (st : rstate) : outcome rstate :=
    match fs with
    | [] => Ok st
    | f :: fs' => let! st := read_entry sp f st in read_profile sp fs' st
    end.

  (** profile_merger.cc:207-229 the loop over the input files; one SpecialSyms
      object serves all readers *)
  Fixpoint read_profiles (sp : option special) (ps : list (list fsamples)) (st : rstate)
    : outcome rstate :=
    match ps with
    | [] => Ok st
    | p :: ps' => let! st := read_profile sp p st in read_profiles sp ps' st
    end.

  (** symbol_map.cc:377-391 CalculateThreshold.  [scale] is the multiplication
      of the int64_t sum by the double --sample_threshold_frac, truncated to
      int64_t (the flag's default is 0.0: [scale] is then constantly 0).  The
      test for names seen before is left out: without aliases, which this tool
      never has, every name is met once. *)
  Definition CalculateThreshold (scale : Z -> Z) (m : smap) : Z :=
    let sum := fold_left (fun a kv => s64 (u64 (a + match nth_error (sm_heap m) (snd kv) with
                                                    | Some s => s_total s
                                                    | None => 0
                                                    end)))
                         (sm_names m) 0 in
    let t := scale sum in
    if t <? kMinSamples then kMinSamples else t.

  (** symbol_map.h:305 ShouldEmit (the uint64_t total becomes an int64_t) *)
  Definition ShouldEmit (threshold : Z) (count : Z) : bool := threshold <? s64 count.

  (** profile_writer.h:124-131 SymbolTraverser::Start: the functions visited *)
  Definition emitted (threshold : Z) (m : smap) : list (name * symbol) :=
    flat_map (fun kv => match nth_error (sm_heap m) (snd kv) with
                        | Some s => if ShouldEmit threshold (s_total s) then [(fst kv, s)] else []
                        | None => []
                        end) (sm_names m).

  (** profile_merger.cc:145-330 main, for LLVM profiles and default flags apart
      from --merge_special_syms ([sp] = None) and --sample_threshold_frac *)
  Definition merge_llvm (scale : Z -> Z) (sp : option special) (ps : list (list fsamples))
    : outcome (Z * list (name * symbol)) :=
    let! st := read_profiles sp ps ([], SMap [] []) in
    let thr := CalculateThreshold scale (snd st) in
    Ok (thr, emitted thr (snd st)).
End Reader.
