(** What the SPE sample reader promises, in terms of the files and the binary. *)
From Coq Require Import Permutation.
From Verif Require Import Base SymbolModel MMapModel MMapSpec BinaryIdModel GenModel GenSpec SpeRangeSpec AddrModel SampleModel SpeReadModel.

(** The names under which the binary is looked for: those the profile lists for
    its build id; without build id those names of maps that the regular
    expression matches. *)
Inductive names_for (R : spe_reader) (bid : name) (d : profile) : list name -> Prop :=
| nf_build_id ns : bid <> [] -> ns <> [] -> NoDup ns -> (forall n, In n ns <-> listed d bid n) -> names_for R bid d ns
| nf_regex ns : bid = [] -> ns <> [] -> NoDup ns ->
    (forall n, In n ns <-> re_regex R n = true /\ exists ev, In ev (pf_events d) /\ ev_file ev = Some n) -> names_for R bid d ns.
(** The file is a profile [d] in which the maps of the binary are [m]. *)
Definition found_in (W : world) (R : spe_reader) (bid f : name) (d : profile) (m : mmaps) : Prop :=
  w_file W f = Some (Some d) /\
  exists ns, names_for R bid d ns /\ SelectMMaps (MMapSelector (w_absolute W) (w_filename W) ns) (pf_events d) = inl m.

(** The environment: hash containers iterate in any order, build ids are bytes,
    the names looked for are all absolute or all relative (C51), sampled
    addresses are 64-bit words. *)
Record inputs_good (W : world) (R : spe_reader) (bid : name) (files : list name) : Prop := {
  ig_world : world_good W; ig_ids : ids_good W files; ig_samples : samples_good W files;
  ig_alike : forall f d ns n n', In f files -> w_file W f = Some (Some d) -> names_for R bid d ns -> In n ns -> In n' ns -> w_absolute W n = w_absolute W n' }.

(** Addresses of the binary: sources below 2^63, targets a page below that, and
    targets at multiples of four, as AArch64 instructions are.  (2^64 - 1 stands
    for an address outside of the binary.) *)
Definition addresses_good (bn : MMapModel.binary) (d : profile) (m : mmaps) : Prop :=
  forall s pid, In s (pf_spe d) -> spe_counts m s = Some pid ->
    let tr := RuntimeAddressToBinaryAddress m bn pid in
    (inside (tr (sr_ip s)) -> tr (sr_ip s) < 2 ^ 63) /\
    (inside (tr (sr_target s)) -> tr (sr_target s) < 2 ^ 63 - 4096 /\ (4 | tr (sr_target s))).

(** Counters for the records of a profile. *)
Definition counted (bn : MMapModel.binary) (u : profile * mmaps) (tk : list ((Z * Z) * Z)) (nt : list (Z * Z)) : Prop :=
  counts same tk (fun k => taken_samples bn k u) /\ counts Z.eqb nt (fun a => not_taken_samples bn a u).
(** Which instructions are branches. *)
Definition knows_branches (R : spe_reader) (B : spe_binary) (tk : list ((Z * Z) * Z)) (nt : list (Z * Z)) (cf : Z -> bool) : Prop :=
  forall a, 0 <= a < 2 ^ 63 ->
    match re_strategy R with
    | kDisassembly => exists dis, sb_disassembler B = Some dis /\ (cf a = true <-> dis a <> Some false)
    | kSampling => cf a = true <-> (exists to c, In ((a, to), c) tk) \/ (exists c, In (a, c) nt)
    end.
(** How often the instruction at [a] was executed according to the counters:
    see [executions] of SpeRangeSpec from the lowest target up to 4096 bytes
    behind the highest one. *)
Definition executed_times (tk : list ((Z * Z) * Z)) (nt : list (Z * Z)) (cf : Z -> bool) (a n : Z) : Prop :=
  ((forall t, is_target tk t -> ~ inside t) /\ n = 0) \/
  exists a0 last, lowest_target tk a0 /\ highest_target tk last /\
    ((a0 <= a < last + 4096 /\ n = executions tk nt cf 4 a0 (Z.to_nat ((a - a0) / 4))) \/ (~ a0 <= a < last + 4096 /\ n = 0)).
(** ... and according to a file. *)
Definition file_executes (W : world) (R : spe_reader) (B : spe_binary) (a : Z) (f : name) (n : Z) : Prop :=
  exists d m tk nt cf, found_in W R (sb_build_id B) f d m /\ counted (sb_segments B) (d, m) tk nt /\ knows_branches R B tk nt cf /\ executed_times tk nt cf a n.

(** The counts of all ranges that contain an offset. *)
Definition covering (s : samples) (o : Z) : Z := total (fun e => if (fst (fst e) <=? o) && (o <=? snd (fst e)) then snd e else 0) (sa_range s).
(** The count of a branch. *)
Definition branch_count (s : samples) (k : Z * Z) : Z := count_in same (sa_branch s) k.

(** The only loadable executable segment of the binary: file offset and
    address. *)
Definition one_segment (B : spe_binary) (kernel : bool) (so sv : Z) : Prop :=
  ReadLoadableExecSegmentInfo kernel (sb_headers B) = [(so, sv)] /\ 0 <= so < 2 ^ 63 /\ 0 <= sv < 2 ^ 63.
Definition records (u : profile * mmaps) : Z := zlen (pf_spe (fst u)).
