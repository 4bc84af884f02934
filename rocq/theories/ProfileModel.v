(** Model of profile.cc: aggregating samples per function and turning them into
    source counts. The disassembler check only logs and is not modelled. Hash
    map iteration orders are the order of the model's lists. *)
From Verif Require Import Base ZMap SymbolModel ElideModel AddrModel SampleModel.

(** profile.h 57-66 ProfileMaps *)
Record pmaps := {
  pm_start : Z; pm_end : Z; pm_ts : Z;
  pm_addr : list (Z * Z); pm_range : list ((Z * Z) * Z); pm_branch : list ((Z * Z) * Z) }.
Definition new_pmaps (s e : Z) : pmaps :=
  {| pm_start := s; pm_end := e; pm_ts := 0; pm_addr := []; pm_range := []; pm_branch := [] |}.

(** symbol_profile_maps_ *)
Definition profs := list (name * pmaps).

Section Aggregate.
  Variable symtab : list (Z * (name * Z)).   (* address_symbol_map_ *)
  Variable segs : list (Z * Z).              (* loadable executable segments *)

  (** profile.cc 36-51 GetProfileMaps: the maps of the function at [addr],
      created if need be; the caller then updates them with [f]. *)
  Definition with_profile_maps (addr : Z) (f : pmaps -> pmaps) (ps : profs) : profs :=
    match GetSymbolInfoByAddr symtab addr with
    | None => ps
    | Some (n, s, e) =>
        let m := match aget name_eqb n ps with Some m => m | None => new_pmaps s e end in
        aset name_eqb n (f m) ps
    end.

  (** profile.cc 54-61 *)
  Fixpoint agg_addr (l : list (Z * Z)) (ps : profs) : outcome profs :=
    match l with
    | [] => Ok ps
    | (a, c) :: l' =>
        let! v := get_static_vaddr segs a in
        agg_addr l' (with_profile_maps v (fun m =>
          {| pm_start := pm_start m; pm_end := pm_end m; pm_ts := pm_ts m;
             pm_addr := madd Z.eqb (pm_addr m) (v, c); pm_range := pm_range m;
             pm_branch := pm_branch m |}) ps)
    end.
  (** profile.cc 63-70 *)
  Fixpoint agg_ts (l : list (Z * Z)) (ps : profs) : outcome profs :=
    match l with
    | [] => Ok ps
    | (a, ts) :: l' =>
        let! v := get_static_vaddr segs a in
        agg_ts l' (with_profile_maps v (fun m =>
          {| pm_start := pm_start m; pm_end := pm_end m;
             pm_ts := if pm_ts m =? 0 then ts else pm_ts m;
             pm_addr := pm_addr m; pm_range := pm_range m; pm_branch := pm_branch m |}) ps)
    end.
  (** profile.cc 88-108 *)
  Fixpoint agg_range (l : list ((Z * Z) * Z)) (ps : profs) : outcome profs :=
    match l with
    | [] => Ok ps
    | ((b, e), c) :: l' =>
        let! bv := get_static_vaddr segs b in
        let! ev := get_static_vaddr segs e in
        agg_range l' (with_profile_maps bv (fun m =>
          {| pm_start := pm_start m; pm_end := pm_end m; pm_ts := pm_ts m;
             pm_addr := pm_addr m; pm_range := madd pair_eqb (pm_range m) ((bv, ev), c);
             pm_branch := pm_branch m |}) ps)
    end.
  (** profile.cc 109-129 *)
  Fixpoint agg_branch (l : list ((Z * Z) * Z)) (ps : profs) : outcome profs :=
    match l with
    | [] => Ok ps
    | ((f, t), c) :: l' =>
        let! fv := get_static_vaddr segs f in
        let! tv := get_static_vaddr segs t in
        agg_branch l' (with_profile_maps fv (fun m =>
          {| pm_start := pm_start m; pm_end := pm_end m; pm_ts := pm_ts m;
             pm_addr := pm_addr m; pm_range := pm_range m;
             pm_branch := madd pair_eqb (pm_branch m) ((fv, tv), c) |}) ps)
    end.
  (** profile.cc 131-135: an entry for each symbol; the CHECK fails when an
      address of the name map is in no symbol *)
  Fixpoint agg_names (l : list (name * Z)) (ps : profs) : outcome profs :=
    match l with
    | [] => Ok ps
    | (_, addr) :: l' =>
        match GetSymbolInfoByAddr symtab addr with
        | None => Abort
        | Some _ => agg_names l' (with_profile_maps addr (fun m => m) ps)
        end
    end.

  (** profile.cc 53-136 AggregatePerFunctionProfile *)
  Definition AggregatePerFunctionProfile (s : samples) (timestamps : list (Z * Z))
    (name_addr : list (name * Z)) (ps : profs) : outcome profs :=
    let! ps := agg_addr (sa_addr s) ps in
    let! ps := agg_ts timestamps ps in
    let! ps := agg_range (sa_range s) ps in
    let! ps := agg_branch (sa_branch s) ps in
    agg_names name_addr ps.
End Aggregate.

(** profile.cc 138-151 GetAggregatedCount *)
Definition GetAggregatedCount (m : pmaps) : Z :=
  match pm_range m with
  | [] => sum_u64 (map snd (pm_addr m))
  | _ => sum_u64 (map (fun e => u64 (snd e * (1 + snd (fst e) - fst (fst e)))) (pm_range m))
  end.

(** symbol_map.h 305 ShouldEmit: the parameter is int64_t, the counts passed
    are uint64_t, so counts from 2^63 on become negative *)
Definition ShouldEmit (threshold count : Z) : bool :=
  threshold <? (if count <? 2 ^ 63 then count else count - 2 ^ 64).

Section Process.
  Variable base : Z -> Z.                    (* discriminator encoding *)
  Variable orig : name -> name.              (* GetOriginalName *)
  Variable symtab : list (Z * (name * Z)).
  Variable stack_of : Z -> list sinfo.       (* Addr2line::GetInlineStack *)
  Variable dup : sinfo -> Z.                 (* SourceInfo::DuplicationFactor *)
  Variable use_lbr : bool.                   (* FLAGS_use_lbr *)

  (** profile.cc 171-176, the loop over the addresses of one range; [fuel]
      bounds the number of iterations by the size of the function *)
  Fixpoint add_range (fuel : nat) (im : Z * list (list sinfo)) (addr last count : Z)
    (m : list (Z * Z)) : list (Z * Z) :=
    match fuel with
    | O => m
    | S f =>
        match inst_info im addr with
        | Some _ => if addr <=? last
                    then add_range f im (u64 (addr + 1)) last count (madd Z.eqb m (addr, count))
                    else m
        | None => m
        end
    end.
  Definition range_counts (im : Z * list (list sinfo)) (rs : list ((Z * Z) * Z)) : list (Z * Z) :=
    fold_left (fun m e => add_range (S (length (snd im))) im (fst (fst e)) (snd (fst e)) (snd e) m)
              rs [].

  (** instruction_map.cc 30-38: AddSourceCount(name, stack, 0, 1, 1) for every
      address *)
  Fixpoint touch_insts (n : name) (stacks : list (list sinfo)) (m : smap) : outcome smap :=
    match stacks with
    | [] => Ok m
    | st :: rest =>
        let! m := match st with [] => Ok m | _ => AddSourceCount base true n st 0 1 m end in
        touch_insts n rest m
    end.

  (** profile.cc 182-195 *)
  Fixpoint add_counts_loop (n : name) (im : Z * list (list sinfo)) (l : list (Z * Z)) (m : smap)
    : outcome smap :=
    match l with
    | [] => Ok m
    | (a, c) :: l' =>
        let! m := match inst_info im a with
                  | Some ((leaf :: _) as st) => AddSourceCount base true n st (u64 (c * dup leaf)) 0 m
                  | _ => Ok m
                  end in
        add_counts_loop n im l' m
    end.

  (** profile.cc 197-213 *)
  Fixpoint add_branches (n : name) (im : Z * list (list sinfo)) (l : list ((Z * Z) * Z)) (m : smap)
    : outcome smap :=
    match l with
    | [] => Ok m
    | ((f, t), c) :: l' =>
        let! m := match inst_info im f, GetSymbolNameByStartAddr symtab t with
                  | Some st, Some callee =>
                      match sm_find m callee with
                      | Some _ =>
                          let! m := AddSymbolEntryCount callee c 0 m in
                          AddIndirectCallTarget base orig true n st callee c m
                      | None => Ok m
                      end
                  | _, _ => Ok m
                  end in
        add_branches n im l' m
    end.

  (** profile.cc 153-219 ProcessPerFunctionProfile (global_addr_count_map_ is
      write-only and left out) *)
  Definition ProcessPerFunctionProfile (n : name) (p : pmaps) (m : smap) : outcome smap :=
    let im := build_inst_map stack_of (pm_start p) (pm_end p) in
    let! m := touch_insts n (snd im) m in
    let! m := AddSymbolTimestamp n (pm_ts p) m in
    match use_lbr, pm_range p with
    | true, [] => Ok m
    | _, _ =>
        let counts := if use_lbr then range_counts im (pm_range p) else pm_addr p in
        let! m := add_counts_loop n im counts m in
        add_branches n im (pm_branch p) m
    end.

  (** profile.cc 251-256 symbol_counts *)
  Definition symbol_counts (ps : profs) : list (name * Z) :=
    fold_left (fun acc e => madd name_eqb acc (orig (fst e), GetAggregatedCount (snd e))) ps [].
  Definition part_count (ps : profs) (n : name) : Z :=
    match aget name_eqb (orig n) (symbol_counts ps) with Some c => c | None => 0 end.

  Variable emit : Z -> bool.                 (* SymbolMap::ShouldEmit *)
  Variable aliases : name -> list name.      (* name_alias_map_ *)

  (** profile.cc 258-268 *)
  Definition add_symbols (ps : profs) (m : smap) : smap :=
    fold_left (fun m e => if emit (part_count ps (fst e)) then AddSymbol (aliases (fst e)) (fst e) m else m)
              ps m.
  (** profile.cc 270-276 *)
  Fixpoint process_all (all ps : profs) (m : smap) : outcome smap :=
    match ps with
    | [] => Ok m
    | (n, p) :: rest =>
        let! m := if emit (part_count all n) then ProcessPerFunctionProfile n p m else Ok m in
        process_all all rest m
    end.

  (** profile.cc 246-278, ComputeProfile without --llc_misses and after
      AggregatePerFunctionProfile, up to (not including) ComputeWorkingSets *)
  Definition ComputeProfile (ps : profs) (m : smap) : outcome smap :=
    let! m := process_all ps ps (add_symbols ps m) in
    ElideSuffixesAndMerge orig m.
End Process.
