(** Model of create_gcov with --profiler=text: create_gcov.cc 35-51 and
    profile_creator.cc 108-153 CreateProfile, which run the parts modelled in
    SampleModel, AddrModel, ProfileModel and AfdoModel one after the other. *)
From Verif Require Import Base ByteModel ZMap SymbolModel ElideModel AddrModel SampleModel ProfileModel AfdoModel.

(** symbol_map.cc 494-511 BuildSymbolMap, for the symbols that pass the filter in
    the order of the ELF file (see AddrModel.AddElfSymbol) *)
Definition BuildSymbolMap (syms : list (name * Z * Z)) : symtab name :=
  fold_left (fun t '(n, a, s) => AddElfSymbol t n a s) syms symtab0.

(** symbol_map.h 588-592: name_addr_map_ from address_symbol_map_ *)
Definition UpdateNameAddrMap (m : list (Z * (name * Z))) : list (name * Z) :=
  fold_left (fun acc '(a, (n, _)) => aset name_eqb n a acc) m [].

(** symbol_map.cc 370-375; [frac] is the product of the count and the double
    --sample_threshold_frac, truncated; kMinSamples = 10 (symbol_map.h 75) *)
Definition CalculateThresholdFromTotalCount (frac : Z -> Z) (total : Z) : Z :=
  let t := frac (s64 total) in if t <? 10 then 10 else t.

Section Create.
  Variable base : Z -> Z.                    (* discriminator encoding *)
  Variable pol : policy.                     (* --suffix_elision_policy *)
  Variable stack_of : Z -> list sinfo.       (* Addr2line::GetInlineStack *)
  Variable dup : sinfo -> Z.                 (* SourceInfo::DuplicationFactor *)
  Variable use_lbr : bool.                   (* --use_lbr *)
  Variable frac : Z -> Z.                    (* --sample_threshold_frac *)
  Variable version : Z.                      (* --gcov_version *)
  Variable extras_of : smap -> extras.       (* file names, summary, working sets *)

  (** profile.cc 217-278 ComputeProfile with the aliases of symbol_map.cc 343-357 *)
  Definition compute (t : symtab name) (segs : list (Z * Z)) (s : samples) : outcome smap :=
    let orig := GetOriginalName pol in
    let threshold := CalculateThresholdFromTotalCount frac (TotalCount s) in
    let! ps := AggregatePerFunctionProfile (st_map t) segs s [] (UpdateNameAddrMap (st_map t)) [] in
    ComputeProfile base orig (st_map t) stack_of dup use_lbr (ProfileModel.ShouldEmit threshold)
      (fun n => map snd (filter (fun e => name_eqb (fst e) n) (st_alias t))) ps (SMap [] []).

  (** profile_creator.cc 108-153: None if the sample file cannot be read *)
  Definition create_gcov (syms : list (name * Z * Z)) (headers : list phdr) (is_kernel : bool)
    (file : list Z) : outcome (option (list Z)) :=
    let t := BuildSymbolMap syms in
    let! '(s, ok) := Append file samples0 in
    if negb ok then Ok None else
    let! m := compute t (ReadLoadableExecSegmentInfo is_kernel headers) s in
    let threshold := CalculateThresholdFromTotalCount frac (TotalCount s) in
    let! b := WriteToFile version threshold (extras_of m) (map_entries m) in
    Ok (Some b).
End Create.
