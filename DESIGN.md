# DESIGN: a Rocq model of google/autofdo

The code under /repo is read as text; nothing is built or run.  The model is a
set of total Gallina functions in rocq/theories.  For each component:

* `XModel.v`  - the functions of the code, every definition citing file:lines;
* `XSpec.v`   - (where needed) the small independent specification;
* `XProofs.v` (and other files named after the component) - lemmas;
* `XProps.v`  - the property theorems `Cnn_...`, each with `Print Assumptions`
  and with an `Example Cnn_nonvacuous` (or similar) showing that a concrete,
  non-trivial case meets the hypotheses.

Theorem names: `_refuted` = the stated thing is false of the code, with a
concrete counterexample; `_partial` = only part of the property is proved, the
full statement is in properties.jsonl and what is missing is in MANIFEST.json.
properties.jsonl states what a user would rely on; where the code does not
deliver it, the claim is `partial` (or proved with the exact domain in the
hypotheses) and a `_refuted` theorem shows why.

## Trusted base

* Coq 8.16.1's kernel (and `vm_compute`, used only for closed examples and
  counterexamples).
* The correspondence between the model and the C++ text: checked by reading
  only.  Every definition cites the lines it models and says what it leaves out.
* `Print Assumptions`: of 386 theorems all are "Closed under the global
  context" except those of C43 and C46, which use the real numbers (through
  Flocq's `round`): `C43_bad_ratio_aborts`, `C43_coverage`, `C43_ratio_one`, `C43_ratio_one_all_refuted`, `C43_ratio_zero`, `C43_threshold_accuracy`, `C43_upward_closed`, `C46_done_is_100`, `C46_progress_monotone`, `C46_progress_range`, `C46_set_done`, `C46_zero_weight_refuted`, `C74_disjoint`, `C74_disjoint_refuted`, `C74_list`, `C74_overlap_only_by_suffix`, `C77_accurate`, `C77_compare_function_refuted`, `C77_overlap`, `C77_range_refuted`, `C77_symmetric`, `C77_tool`, `C77_total_wraps_refuted`, `C77_zero`.  They depend on `ClassicalDedekindReals.sig_forall_dec`, `ClassicalDedekindReals.sig_not_dec`, `Classical_Prop.classic`, `FunctionalExtensionality.functional_extensionality_dep` - all of
  them axioms of Coq's standard library (Reals, classical logic, functional
  extensionality); Flocq adds none.  There are no other axioms, no `Admitted`,
  no functors, no module types, no sections with variables left open.
* The properties that quote behaviour of code outside the repository state it
  as a definition in the model or as a parameter: the C++ standard library
  (ordered maps as sorted association lists; hash maps as lists in an arbitrary
  order, the theorems quantify over the order; `std::sort`, `nth_element`,
  `lower_bound` by their contracts or as insertion sort / halving loops), LLVM's
  profile reader and writer (C54, C58: a record is what LLVM hands over or is
  given), perf protobufs (lists of decoded events), protobuf text format,
  gflags (flags are arguments).

Conventions of the model: `outcome A := Ok a | Abort | UB` - `Abort` is a failed
CHECK, LOG(FATAL) or uncaught exception, `UB` is undefined behaviour (signed
overflow, out-of-bounds access, null pointers, shifts by the width).  Unsigned
arithmetic is explicit modulo 2^32 or 2^64 (`u32`, `u64`) wherever the code can
wrap; where a comment says "unbounded", an int64 counter is an integer of
arbitrary size.  Loops without an obvious bound take fuel, and theorems either
show that enough fuel exists or speak about every amount of fuel; pointers are
indices into a list of objects where sharing matters (FlattenModel.v,
DwTreeModel.v) and values otherwise.  Logging is left out.  Memory exhaustion,
I/O errors and signals are not modelled.

## Properties: what is modelled and how it is proved

* **C01 gcov primitive codec round trip** (proved). Byte-level writer/reader functions with explicit 32-bit little-endian packing; round trip by induction on the value list. Over-long strings: `_refuted`.
  Theorems: `GcovProps.v`; definitions: `GcovModel.v`, `GcovSpec.v`.
  Proved for all strings whose encoded payload is below the reader's 16 KiB block; longer strings abort the reader (refuted theorem).
* **C02 gcov buffered reader is transparent** (proved). Buffered reader as a state machine (start, offset, length, buffer, remaining file); refinement to a plain byte stream by invariant over read sequences.
  Theorems: `GcovProps.v`; definitions: `GcovModel.v`, `GcovSpec.v`.
* **C03 AutoFDO source offset encoding** (partial). Bit-level encode/decode over Z; exact round-trip domain, collision witness outside it.
  Theorems: `SrcOffsetProps.v`; definitions: `SrcOffsetModel.v`.
  Holds exactly on line < 2^16 and discriminator < 2^16 (iff theorem); the unrestricted claim is false (refuted theorem: colliding locations).
* **C04 AutoFDO function profile round trip** (proved). Profile tree serialiser to words and recursive-descent reader; round trip by nested induction on trees.
  Theorems: `AfdoProps.v`; definitions: `AfdoModel.v`, `AfdoSpec.v`, `GcovModel.v`, `GcovSpec.v`, `ProfileSpec.v`, `SrcOffsetModel.v`, `SymbolModel.v`, `SymbolSpec.v`.
  Whole-file round trip (header, summary, name table, functions, modules, working set), any version, into any existing profile. Findings: targets are overwritten, not added, by a second read; callsites without any location vanish; totals are recomputed.
* **C05 Declared section length** (proved). Length computed by the Lengther traversal equals number of words; induction on trees.
  Theorems: `AfdoLayoutProps.v`; definitions: `AfdoModel.v`, `AfdoSpec.v`, `GcovModel.v`, `GcovSpec.v`, `SrcOffsetModel.v`, `SymbolModel.v`, `SymbolSpec.v`.
  Byte-level, every symbol map; holds for version < 3 and the exact shortfall is proved from version 3 on (refuted for the default version).
* **C06 String table indices are consistent** (proved). Sorted name table with dense indices; lookup lemmas.
  Theorems: `AfdoLayoutProps.v`; definitions: `AfdoModel.v`, `AfdoSpec.v`, `GcovModel.v`, `GcovSpec.v`, `SrcOffsetModel.v`, `SymbolModel.v`, `SymbolSpec.v`.
  Index/table consistency for every symbol map, writer succeeds iff all names non-empty, FileIndexMap. Finding: rewriting of C4Ev/D4Ev names can make two written names equal.
* **C07 Merging symbols adds counts pointwise** (proved). Trees + Merge; spec = function from (inline path, location, target) to count; induction.
  Theorems: `SymbolProps.v`; definitions: `SymbolModel.v`, `SymbolSpec.v`.
  Counters are 64-bit and wrap: sums are modulo 2^64.
* **C08 Sample attribution to source locations** (proved). TraverseInlineStack/AddSourceCount; spec as point update of the same observation function.
  Theorems: `SymbolProps.v`; definitions: `SymbolModel.v`, `SymbolSpec.v`.
  The selected node is the stack path cut at the first frame without line information; the refuted theorem shows the resulting misattribution.
* **C09 Flattening bounds nesting depth** (proved). An address-based heap of symbols (shared callsites), EstimateHeadCount, FlattenCallsite, the map iteration; termination measure and a ghost multiset of counts as invariant.
  Theorems: `FlattenHeadProps.v`, `FlattenProps.v`; definitions: `AfdoModel.v`, `FlattenModel.v`, `FlattenSpec.v`, `SymbolModel.v`, `SymbolSpec.v`.
  Flattening on address-based model of FlattenNestedInlineCallsites (EstimateHeadCount, FlattenCallsite, Merge, AddSymbolToMap, the std::map iteration with insertion). C09_flatten: succeeds, bound, functions kept, callees within the limit kept, removed callsites become call targets and outline functions; C09_merged: conservation of counts over all copies modulo 2^64. C09_totals_refuted / C09_number_refuted record that totals and the returned number are not what one would expect.
* **C10 Inline-instance throttling keeps the hottest** (proved). Per-location grouping, stable selection; spec with counting and domination.
  Theorems: `TrimProps.v`; definitions: `SymbolModel.v`, `SymbolSpec.v`, `TrimModel.v`.
* **C11 Call-target trimming keeps the top k** (proved). Top-k by total order.
  Theorems: `TrimProps.v`; definitions: `SymbolModel.v`, `SymbolSpec.v`, `TrimModel.v`.
* **C12 Suffix elision** (partial). String functions rfind/substr; maps merge.
  Theorems: `ElideProps.v`; definitions: `ElideModel.v`, `SymbolModel.v`, `SymbolSpec.v`.
  By-name merge proved for every naming rule that is idempotent on the map's names (always so for the policies all and none), conservation of samples for every policy and sharing. The 'carries no elidable suffix' part is false for the policy selected (two refuted theorems).
* **C13 Call-graph strongly connected components** (partial). Tarjan as coded (index passed by value); executable counterexample by vm_compute.
  Theorems: `SccProps.v`; definitions: `SccModel.v`, `SccSpec.v`.
  Termination, soundness of the grouping, and an exact dichotomy are proved for every graph: either every group comes once, callees first and mutually recursive functions share a group, or the computation aborts and two mutually recursive functions are in different groups. The claim that it never aborts is false: C13_no_abort_refuted (index passed by value in StrongConnect). Not modelled: the inclusive counts themselves.
* **C14 Working-set histogram** (proved). Two nested loops with explicit fuel shown sufficient; loop invariant.
  Theorems: `HistProps.v`; definitions: `HistModel.v`, `HistSpec.v`, `SymbolModel.v`, `SymbolSpec.v`.
  ComputeWorkingSets and AddSymbolProfileToHistogram are modelled with 64/32-bit arithmetic; holds for profiles whose total fits 64 bits and whose number of counters fits 32 bits.
* **C15 Detailed profile summary percentiles** (proved). Descending histogram walk; invariant.
  Theorems: `HistProps.v`; definitions: `HistModel.v`, `HistSpec.v`, `SymbolModel.v`, `SymbolSpec.v`.
  Profile summary (ProfileSummaryComputer) modelled with wrap-around arithmetic. A name whose symbol is aliased in the map is visited once per name, as in the code.
* **C16 File offset / virtual address translation** (proved). Segment list functions; arithmetic.
  Theorems: `AddrProps.v`; definitions: `AddrModel.v`.
* **C17 Address to symbol lookup** (proved). Upper_bound over sorted assoc list.
  Theorems: `AddrProps.v`; definitions: `AddrModel.v`.
* **C18 Text sample file round trip** (proved). Character level printer/parser for %x/%u lines; induction.
  Theorems: `SampleProps.v`; definitions: `SampleModel.v`, `SampleSpec.v`.
  Byte-level model of fprintf/fscanf formats; holds for maps with fewer than 2^31 entries (the reader's int loop variable); file system calls assumed to succeed.
* **C19 Sample merging is order independent** (proved). Counters as association maps; pointwise sums.
  Theorems: `SampleProps.v`; definitions: `SampleModel.v`, `SampleSpec.v`.
  Pointwise sums and order independence proved. The sum-of-totals clause holds when both inputs carry branch-stack ranges or neither does; C19_total_mixed_refuted shows the mixed case loses the address samples.
* **C20 Only valid branch records contribute samples** (partial). Loop over stack entries; invariant + refutation of the wrong-path claim.
  Theorems: `LbrProps.v`; definitions: `LbrModel.v`, `LbrSpec.v`, `SampleModel.v`.
  Exact range/branch counts proved for every event list. The clause that wrong-path entries contribute nothing is refuted for ranges: the end of a range is taken from the adjacent entry even if it is wrong-path (C20_wrong_path_range_refuted); it holds when wrong-path entries are only at the top of the stack (_partial). The DSO match cache is transparent within a file and refuted across files when a pointer is reused.
* **C21 Instruction counts are the number of covering ranges** (partial). Range expansion fold; counting spec.
  Theorems: `ProfileProps.v`; definitions: `AddrModel.v`, `ElideModel.v`, `ProfileModel.v`, `ProfileSpec.v`, `SampleModel.v`, `SymbolModel.v`, `SymbolSpec.v`.
  Aggregation, instruction counts, totals, instruction numbers and entry counts proved in full. The target clause ('sum of the branch samples') is false when several instructions of a location call the same function: proved as stated for one branch per target, C21_call_target_sum_refuted shows the failure; what the code does (last branch wins) is C21_call_targets.
* **C22 Range map insert/lookup** (partial). Sorted list of ranges; invariant over insert histories, refutation of the CHECK claim.
  Theorems: `RangeMapProps.v`; definitions: `RangeMapModel.v`.
  Disjointness, lookup, override, gap filling proved for every history; 'any partial overlap is rejected' holds exactly as characterised by C22_rejected_iff and is otherwise false (refuted theorem).
* **C23 LEB128 decoding** (proved). LEB128 decode loops with shifts; canonical and padded encodings.
  Theorems: `ByteProps.v`; definitions: `ByteModel.v`, `ByteSpec.v`.
  At most ten bytes; longer padding is undefined behaviour (refuted theorem).
* **C24 Fixed-width integer decoding** (proved). Fixed width readers.
  Theorems: `ByteProps.v`; definitions: `ByteModel.v`, `ByteSpec.v`.
* **C25 DWARF range lists** (partial). Entry decoder; spec denotation; refutation for startx_endx.
  Theorems: `DwarfRangesProps.v`; definitions: `ByteModel.v`, `ByteSpec.v`, `DwarfRangesModel.v`, `DwarfRangesSpec.v`.
  DWARF<=4 lists fully proved. DWARF 5: exact characterisation proved; it differs from DWARF for start-by-index/start-length entries under a non-zero base, and out-of-bounds reads are possible (refuted theorems).
* **C26 Forced fall-through paths** (partial). Edge selection, cycle breaking, path walk; graph invariants.
  Theorems: `ForcedProps.v`; definitions: `ForcedModel.v`, `ForcedSpec.v`.
  Proved for every CFG: no abort, simple vertex-disjoint paths of forced edges only, every forced edge used unless it closes a cycle (then cut at the smallest block index). The entry clause is false: C26_entry_first_refuted; proved when no hot branch goes to the entry block (C26_entry_first_partial).
* **C27 Chain assembly is a permutation** (proved). Slices and merge order; permutation proof.
  Theorems: `ChainProps.v`; definitions: `ChainBuildModel.v`, `ChainBuildSpec.v`, `ChainModel.v`, `ChainSpec.v`, `ForcedModel.v`, `ForcedSpec.v`.
  For every state of every history of merges. The entry block is first in the result of the builder if no forced edge and no initial chain puts a block before it (refuted theorem: a forced edge into the entry).
* **C28 Assembly score is the layout score** (proved). FindSliceIndex/edge distance against concatenated layout.
  Theorems: `ChainProps.v`; definitions: `ChainBuildModel.v`, `ChainBuildSpec.v`, `ChainModel.v`, `ChainSpec.v`, `ForcedModel.v`, `ForcedSpec.v`.
  Scores are exact integers, the scoring function is arbitrary. Edge distances are right for every assembly; the gain is exact for every assembly that is accepted, unless an initial chain of several blocks was given (refuted theorem: InitChainEdges leaves its edges unsorted); an assembly without score between the two chains counts as without gain (refuted theorem).
* **C29 Chain bookkeeping invariant** (proved). MergeWith bookkeeping invariant.
  Theorems: `ChainProps.v`; definitions: `ChainBuildModel.v`, `ChainBuildSpec.v`, `ChainModel.v`, `ChainSpec.v`, `ForcedModel.v`, `ForcedSpec.v`.
  Edges inside one bundle are dropped by design; every other edge the layout looks at is recorded exactly once.
* **C30 Chain building terminates and partitions the blocks** (proved). Merge loop with decreasing number of chains.
  Theorems: `ChainProps.v`; definitions: `ChainBuildModel.v`, `ChainBuildSpec.v`, `ChainModel.v`, `ChainSpec.v`, `ForcedModel.v`, `ForcedSpec.v`.
  Blocks with a frequency occur exactly once; further blocks (entry, landing pads, all blocks without function splitting) as laid_out says. Edges between functions that leave the given graphs are excluded by hypothesis.
* **C31 Cluster building partitions the chains** (proved). Cluster merge state machine.
  Theorems: `ClusterProps.v`; definitions: `ChainBuildModel.v`, `ChainBuildSpec.v`, `ChainModel.v`, `ChainSpec.v`, `ClusterModel.v`, `ClusterSpec.v`, `ForcedModel.v`.
  The whole of ChainClusterBuilder. The double freq/max(size,1) is an arbitrary function of both (no rounding assumption); overflow of int is undefined behaviour in the model, and the theorems assume total size and frequency below 2^31, ten times a weight below 2^31 and a limit of at most 2^27. Refuted without those: C31_overflow_refuted; and the CHECK that a chain starts with an entry can fail: C31_abort_refuted. int64_t sums of weights are unbounded.
* **C32 Layout output covers each block once** (proved). OrderAll loop as fold; invariant.
  Theorems: `LayoutProps.v`; definitions: `ChainBuildModel.v`, `ChainBuildSpec.v`, `ChainModel.v`, `ChainSpec.v`, `ClusterModel.v`, `ClusterSpec.v`, `ForcedModel.v`, `ForcedSpec.v`, `LayoutModel.v`, `LayoutSpec.v`.
  OrderAll is modelled from the control flow graphs of a section (chains, clusters, scores, walk, sorting). C32_layout gives existence and the full description of the result; the corollaries state the user-level facts. Hypotheses (section_ok): consistent graphs, hot edges of the section stay inside the given functions, int bounds.
* **C33 Propeller symbol order file** (proved). Slot array filling.
  Theorems: `WriterProps.v`; definitions: `ChainBuildModel.v`, `ChainBuildSpec.v`, `ClusterModel.v`, `ClusterSpec.v`, `LayoutModel.v`, `LayoutSpec.v`, `WriterModel.v`, `WriterSpec.v`.
  The whole symbol ordering file is described (C33_symbol_file); no symbol twice given distinct names that do not look like parts of each other (C33_no_symbol_twice; without that, C33_name_clash_refuted; with a clone of the entry block in the clusters, C33_entry_clone_refuted); the hypotheses follow from C32 for the output of the code layout (C33_from_layout).
* **C34 Address to basic block lookup** (proved). Upper_bound + walk back.
  Theorems: `MapperProps.v`; definitions: `ElideModel.v`, `MapperModel.v`, `MapperSpec.v`, `SymbolModel.v`.
  Full characterisation of the lookup for both directions on every address-ordered disjoint block list, and that Build produces such a list from a well-formed binary (binary_ok) and never aborts on it. Binary search modelled as the halving loop. C34_empty_source_refuted: a branch source at the end of a function whose last block is empty is mapped to that empty block (or aborts with DCHECKs).
* **C35 Fall-through validity** (proved). Loop over bb_index.
  Theorems: `MapperProps.v`; definitions: `ElideModel.v`, `MapperModel.v`, `MapperSpec.v`, `SymbolModel.v`.
  CanFallThrough is exactly the declarative fall-through path condition (blk indices inside the list; logging left out).
* **C36 CFG edge weights account for every branch sample** (proved). Edge map fold; order independence by permutation.
  Theorems: `CfgBuildProps.v`; definitions: `CfgBuildModel.v`, `CfgBuildSpec.v`, `CfgFreqModel.v`, `MapperModel.v`, `MapperSpec.v`, `SymbolModel.v`.
  Quantified over every iteration order of the three hash maps (branch counters, fall-through counters, mapped fall-throughs). Counts non-negative with total below 2^31 (weights are C++ ints). The two floating-point plausibility tests are an arbitrary predicate. C36_kind_order_refuted: the kind of an edge does depend on iteration order. C36_on_top_refuted: building on top of existing CFGs aborts on the first repeated intra-function edge.
* **C37 Block frequency dominates edges** (proved). Max/sum folds.
  Theorems: `CfgFreqProps.v`; definitions: `CfgFreqModel.v`.
  CalculateFrequency modelled with int overflow as UB; theorems assume non-negative weights with in/out totals in int range
* **C38 Fall-through inference from branch frequencies** (proved). Inference loops.
  Theorems: `InferProps.v`; definitions: `CfgBuildModel.v`, `CfgBuildSpec.v`, `CfgFreqModel.v`, `InferModel.v`, `InferSpec.v`, `MapperModel.v`, `MapperSpec.v`, `SymbolModel.v`.
  Flow equations (C38_flow), validity of every recorded range, totality of release builds, endpoint set. int64 counters are unbounded in the model. Finding: an empty end block makes the CFG builder count its fall-through edge twice (C38_empty_block_double_count_refuted).
* **C39 Runtime address translation** (proved). Selection fold + translation.
  Theorems: `MMapProps.v`; definitions: `MMapModel.v`, `MMapSpec.v`, `SymbolModel.v`.
  Selection succeeds/conflicts exactly as stated for every event history (C39_selected, C39_errors), maps never overlap, translation is exactly the specified relation (C39_translate), distances and injectivity. Finding: a map ending exactly at 2^64 is selected but never used (C39_map_at_end_refuted).
* **C40 LBR aggregation counts** (proved). LBR aggregation fold.
  Theorems: `MMapProps.v`; definitions: `MMapModel.v`, `MMapSpec.v`, `SymbolModel.v`.
  Exact counts for LBR (C40_lbr) and SPE (C40_spe) as functions of the samples; int64 counters unbounded. Finding: ranges to untranslatable sources are counted (C40_range_to_outside_refuted).
* **C41 Special symbols when merging profiles** (proved). State machine over list of profiles.
  Theorems: `LlvmReadProps.v`; definitions: `ByteModel.v`, `LlvmReadModel.v`, `LlvmReadSpec.v`, `SrcOffsetModel.v`, `SymbolModel.v`, `SymbolSpec.v`.
  Merging always succeeds; the output is characterised name by name for all four kinds. Finding: with --sample_threshold_frac large enough keep-cold symbols are dropped (C41_keep_cold_threshold_refuted). Not covered: --max_inline_callsite_nesting_level, which runs after the removal and can bring a removed symbol back.
* **C42 Thread to process resolution over time** (proved). Ordered map per thread.
  Theorems: `SpeProps.v`; definitions: `SpeModel.v`.
  events of a thread in chronological order; refuted without that order
* **C43 Profile symbol list coverage** (proved). Sort, prefix sums, lower_bound; doubles through Flocq's rounding operator.
  Theorems: `SymListProps.v`; definitions: `SymListModel.v`, `SymbolModel.v`.
  double arithmetic via Flocq rounding, total size below 2^53; refuted: with ratio 1 zero-size symbols are not listed
* **C44 Node frequency percentile threshold** (proved). Nth element of sorted list.
  Theorems: `CfgFreqProps.v`; definitions: `CfgFreqModel.v`.
  nth_element modelled by its contract; hash map order arbitrary
* **C45 Lazy evaluation happens once** (proved). State machine with invocation counter.
  Theorems: `LazyProps.v`; definitions: `LazyModel.v`.
  any number of evaluators, any history; adapters are arbitrary state-changing functions that do not re-enter the same evaluator
* **C46 Progress reporting** (proved). Tree of progress nodes; binary32 arithmetic through Flocq's rounding operator.
  Theorems: `StatusProps.v`; definitions: `StatusModel.v`.
  binary32 arithmetic via Flocq rounding; monotonicity for weight sums up to 167772 per node (exact float sums); refuted: all-zero weights report 100 before being done
* **C47 Unique function names after selection** (proved). Name filter.
  Theorems: `MapperProps.v`; definitions: `ElideModel.v`, `MapperModel.v`, `MapperSpec.v`, `SymbolModel.v`.
  Quantified over every hash iteration order. C47_self_alias_refuted and C47_exactly_one_refuted show the stronger reading (exactly one copy always kept / only conflicts between different functions drop a function) is false of the code.
* **C48 Split functions are emitted together** (partial). Aggregation by name and threshold test.
  Theorems: `PartsProps.v`; definitions: `AddrModel.v`, `ElideModel.v`, `ProfileModel.v`, `ProfileSpec.v`, `SampleModel.v`, `SymbolModel.v`, `SymbolSpec.v`.
  Proved for every naming rule idempotent on the collected names and no symbol aliases; false for aggregated counts of 2^63 and more (C48_huge_count_dropped_refuted).
* **C49 SPE time stamp conversion** (proved). See the Props file: model as a state machine over all histories, invariant.
  Theorems: `SpeProps.v`; definitions: `SpeModel.v`.
* **C50 Hot function selection** (proved). Address-ordered function list; lower/upper bounds; induction over the list.
  Theorems: `MapperProps.v`; definitions: `ElideModel.v`, `MapperModel.v`, `MapperSpec.v`, `SymbolModel.v`.
  Under binary_ok (functions address-ordered, disjoint, in 64 bits); total when every function has a block.
* **C51 Identifying the profiled binary** (proved). Matching of a perf event's file name and build id against the binary; path functions are parameters.
  Theorems: `BinaryIdProps.v`; definitions: `BinaryIdModel.v`, `SymbolModel.v`.
  LLVM path functions are arbitrary parameters. Findings: mixed absolute/relative names make the match depend on hash order; any GNU note, whatever its type, is taken for the build id.
* **C52 Kernel module information** (proved). Byte-level parser of the section and its writer; round trip and rejection of everything else.
  Theorems: `BinaryIdProps.v`; definitions: `BinaryIdModel.v`, `SymbolModel.v`.
  Parser accepts exactly the well-formed sections; round trip.
* **C53 Propeller cluster file reads back** (proved). The cluster file writer against a reader that is part of the specification (WriterSpec.v).
  Theorems: `WriterProps.v`; definitions: `ChainBuildModel.v`, `ChainBuildSpec.v`, `ClusterModel.v`, `ClusterSpec.v`, `LayoutModel.v`, `LayoutSpec.v`, `WriterModel.v`, `WriterSpec.v`.
  The reader is part of the specification (WriterSpec.v); it follows LLVM's BasicBlockSectionsProfileReader, which is not part of the repository.
* **C54 Merging LLVM profiles adds counts** (proved). LLVM profile records into the symbol map: fold over records, point-wise sums.
  Theorems: `LlvmReadProps.v`; definitions: `ByteModel.v`, `LlvmReadModel.v`, `LlvmReadSpec.v`, `SrcOffsetModel.v`, `SymbolModel.v`, `SymbolSpec.v`.
  Parsing the profile file is LLVM's. Findings: call targets are overwritten, not added (C54_targets_add_refuted); a total without samples counts or is lost depending on order (C54_total_order_refuted).
* **C55 Merge candidate queues agree** (proved). Both queues of merge candidates against the set left by a history of inserts and removals.
  Theorems: `AsmQueueProps.v`; definitions: `AsmQueueModel.v`, `AsmQueueSpec.v`, `ChainBuildModel.v`, `ChainModel.v`.
  both queue implementations against the set of candidates left by the history; gains are integers in the model (doubles in the code: no NaN), a pair of chain pointers is the pair of ids
* **C56 Flat profile** (proved). BuildFlatProfile on the address-based heap of FlattenModel.v.
  Theorems: `FlatProfMoreProps.v`, `FlatProfProps.v`; definitions: `AfdoModel.v`, `FlatProfSpec.v`, `FlattenModel.v`, `FlattenSpec.v`, `HybridModel.v`, `HybridSpec.v`, `SymbolModel.v`, `SymbolSpec.v`.
  C56_flat, C56_selective (exact), C56_selective_keeps_functions_refuted: selective mode drops samples of callees inlined in cold functions.
* **C57 Hybrid profile** (proved). BuildHybridProfile on the same heap.
  Theorems: `HybridMoreProps.v`, `HybridProps.v`; definitions: `AfdoModel.v`, `FlattenModel.v`, `FlattenSpec.v`, `HybridModel.v`, `HybridSpec.v`, `SymbolModel.v`, `SymbolSpec.v`.
  C57_hybrid, C57_counters, C57_inlined_hot; C57_source_kept_refuted: the const source is modified.
* **C58 LLVM profile that is written** (proved). Traversal of the symbol map by the LLVM writer, byte widths of locations; composed with the reader of C54.
  Theorems: `LlvmRoundProps.v`, `LlvmWriteProps.v`; definitions: `AfdoModel.v`, `ByteModel.v`, `HybridSpec.v`, `LlvmReadModel.v`, `LlvmReadSpec.v`, `LlvmWriteModel.v`, `LlvmWriteSpec.v`, `SrcOffsetModel.v`, `SymbolModel.v`, `SymbolSpec.v`.
  Exact description of the profile handed to LLVM's writer (its serialisation is LLVM's); C58_write_then_read composes it with the model of the LLVM reader (C54). C58_wide_lines_refuted: lines above 65535 are merged.
* **C59 SPE branch counts become instruction ranges** (proved). Counters to ranges; exact sums over all iteration orders.
  Theorems: `SpeRangeProps.v`; definitions: `ByteModel.v`, `SpeRangeModel.v`, `SpeRangeSpec.v`.
  Exact characterisation of the ranges and branches for aligned targets; misaligned targets give reversed ranges (theorem). The int64 additions are unbounded in the model.
* **C60 Line tables give every address its source position** (proved). Bytes of .debug_line: header, opcodes, state machine, handler, address map, lookup; DwLineSpec.v: rows of an abstract program and their encodings.
  Theorems: `DwLineProps.v`; definitions: `ByteModel.v`, `ByteSpec.v`, `DwLineModel.v`, `DwLineSpec.v`.
  Versions 2-4 in full generality (every encoding of every program); C60_any characterises the lookup for arbitrary overlapping rows; version 5, late ends and wrapping lengths are refuted by theorems. Not modelled: two-level (0xf006) tables, strx forms.
* **C61 The inline stack of an address is the one the debugging entries describe** (proved). The inline stack handler with its stacks, FindBadSubprograms (four rules), the range map, declarations; DwTreeSpec.v: forests of functions and calls. Walk by induction on the forest; map by an invariant on stored pieces.
  Theorems: `DwTreeProps.v`; definitions: `DwLineModel.v`, `DwTreeModel.v`, `DwTreeSpec.v`, `RangeMapModel.v`.
  C61_stack, C61_nowhere and C61_no_position for well formed entries (spec in DwTreeSpec.v, independent of the handler's state); C61_functions_disjoint and C61_merge for arbitrary input. Entries are decoded trees (bytes of .debug_info are not modelled here). The _refuted theorems show DWARF that is legal but mishandled: nested out-of-line functions, call file 0, implicit_const decl_line, calls spanning adjacent ranges, high_pc before low_pc, cyclic references.
* **C62 Reading debugging entries drives the handler as they were written** (proved). DieModel: the reader at byte level, polymorphic in the handler (a record of functions on an arbitrary state). DieSpec: relations between bytes and abbreviations, values, trees and units (any LEB128 padding, any form), and a walk of the trees calling the handler. Proof: each encoded piece is consumed exactly (induction on the encoding relations), mutual induction on trees with the explicit stack of the loop, then over units. Termination: each turn of each loop shortens the rest of the bytes, so more fuel changes nothing. Refutations by concrete sections.
  Theorems: `DieProps.v`; definitions: `ByteModel.v`, `ByteSpec.v`, `DieModel.v`, `DieSpec.v`.
  whole section, unit, skipping and termination proved for all encodings and handlers; the exceptions in the statement are _refuted theorems
* **C63 From the bytes of a binary to inline stacks** (proved). PrepModel: the handler of the inline stacks as a record of functions for C62's reader, reading line tables with C60's reader and .debug_ranges with C25's; Prepare and GetInlineStack on the contents of the sections. PrepSpec: what the written attributes say as entries of C61's specification. Proof: the handler simulates C61's walk on the decoded entries (induction on the entries), then C62, C60 and C61 compose. Range lists of version 5 and split DWARF are arbitrary functions, so the theorems hold whatever they do.
  Theorems: `PrepProps.v`; definitions: `ByteModel.v`, `ByteSpec.v`, `DieModel.v`, `DieSpec.v`, `DwLineModel.v`, `DwLineSpec.v`, `DwTreeModel.v`, `DwTreeSpec.v`, `DwarfRangesSpec.v`, `PrepModel.v`, `PrepSpec.v`, `RangeMapModel.v`.
  The bytes of the sections of a binary to inline stacks, composing C22, C24, C25, C60, C61 and C62. Version 5 range lists are an arbitrary function; C63_strx_refuted shows that indexed strings end the program.
* **C64 A text sample file becomes the gcov file GCC reads** (proved). CreateModel: create_gcov with --profiler=text as the composition of the models of C16-C18, C21, C48, C12 and C04. CreateSpec: functions, executions, hottest instruction, samples and entries directly from the sampled ranges, addresses and branches. Proof: an invariant of the aggregation (the collected profile of every function is a function of the samples), counts of all functions together through process_all and merging of parts, an invariant that all locations and names fit the format, then the round trips C18 and C04. Inline stacks, duplication factors, file names, summary and working sets are arbitrary (C63, C14 are about them).
  Theorems: `CreateProps.v`; definitions: `AddrModel.v`, `AfdoModel.v`, `AfdoSpec.v`, `ByteModel.v`, `CreateModel.v`, `CreateSpec.v`, `ElideModel.v`, `ProfileModel.v`, `ProfileSpec.v`, `SampleModel.v`, `SampleSpec.v`, `SrcOffsetModel.v`, `SymbolModel.v`, `SymbolSpec.v`.
  symbols may occur twice (.symtab and .dynsym); succeeds if functions have names
* **C65 ELF binaries are read as they were written** (proved). ElfModel: the reader of ELF files on the bytes of a file (headers, sections by name, type and index, segments, symbol tables, notes) and the symbol filter of BuildSymbolMap. ElfSpec: the gABI encoding of headers, section and program headers, symbols and notes for both classes, and what named sections, tables of symbols and notes are. Proof: reading a field of an encoding gives it back; tables by induction; the filter and the name match by case analysis.
  Theorems: `ElfProps.v`; definitions: `ByteSpec.v`, `DwarfRangesSpec.v`, `ElfModel.v`, `ElfSpec.v`, `SymbolModel.v`.
  for files whose sections are all named; the exceptions in brackets are the _refuted theorems
* **C66 create_gcov from the bytes of the binary** (proved). BinaryModel: create_gcov on the bytes of the binary and of the sample file: symbols and segments (C65), the debugging sections by name, Google3Addr2line (C63) for every byte of every function, then CreateModel (C64). BinarySpec: contents of sections by name, function symbols, executable segments, the inline stack an address has according to the forest of functions and the line sequences. Proof: composition of C65, C63, C64; the specification depends on stacks of bytes of functions only, so the computed stacks can be replaced by the described ones. Version 5 range lists, .dwo files, file names, summary and working sets are arbitrary; recursion through references needs enough fuel (exists fuel0).
  Theorems: `BinaryProps.v`; definitions: `AddrModel.v`, `AfdoModel.v`, `AfdoSpec.v`, `BinaryModel.v`, `BinarySpec.v`, `ByteModel.v`, `CreateModel.v`, `CreateSpec.v`, `DieModel.v`, `DieSpec.v`, `DwLineModel.v`, `DwLineSpec.v`, `DwTreeModel.v`, `DwTreeSpec.v`, `ElfModel.v`, `ElfSpec.v`, `ElideModel.v`, `PrepModel.v`, `PrepSpec.v`, `ProfileSpec.v`, `RangeMapModel.v`, `SampleModel.v`, `SampleSpec.v`, `SymbolModel.v`, `SymbolSpec.v`.
  from ELF bytes + text samples to the profile GCC reads, existence and contents; extras, v5 range lists, .dwo arbitrary
* **C67 Counts and ranges from ARM SPE records (create_gcov)** (proved). SimpleSpeModel: FindBinaryMMap, VaToBinaryOffset with wrap-around, Read, SynthesizeRanges (both loops), ReadAndSetTotalCount, Append; quipper's file reader and SPE decoder are not modelled (a file is the list of its events, a trace the list of its records). SimpleSpeSpec: counts as numbers of records, targets, branches, and the runs in closed form (no scan). Proof: invariant of the scan over the branches at or above the address, induction over the sorted targets. Assumed: addresses are multiples of four and do not wrap around.
  Theorems: `SimpleSpeProps.v`; definitions: `SampleModel.v`, `SampleSpec.v`, `SimpleSpeModel.v`, `SimpleSpeSpec.v`.
  closed form of the ranges; assumes four-byte aligned addresses below 2^64 - 4096. C67_executions_refuted: the count of a range at a target omits fall-throughs into it
* **C68 sample_merger writes the sum of its inputs** (proved). SampleMergeModel: MergeSample and ReadSample over a file system (paths to contents); opening for writing succeeds, perf readers are a parameter. SampleMergeSpec: sum of the counts of a list of sample sets. Proof: C18, C19 and that every sample file that is read has distinct 64-bit keys.
  Theorems: `SampleMergeProps.v`; definitions: `SampleMergeModel.v`, `SampleMergeSpec.v`, `SampleModel.v`, `SampleSpec.v`.
  the file that is written reads back as the sum if it has fewer than 2^31 entries per section (fits_file, as C18)
* **C69 Propeller: from samples and binary to the cluster file** (proved). PropEndModel: the whole run after aggregation, put together from MapperModel, CfgBuildModel, LayoutModel and WriterModel (no cloning, no initial chains). PropEndSpec: executed blocks, hot functions and the cluster file in terms of the binary and the samples, read with the reader of WriterSpec. Proof: the edges of C36 give graphs that satisfy section_ok of C32 (edges recorded at both ends, branches inside a function and never to its entry, sums in the bounds of int), then C32, C33 and C53 for each section.
  Theorems: `PropEndProps.v`; definitions: `CfgBuildModel.v`, `CfgBuildSpec.v`, `CfgFreqModel.v`, `ChainBuildModel.v`, `ChainBuildSpec.v`, `ChainModel.v`, `ChainSpec.v`, `ClusterModel.v`, `ClusterSpec.v`, `ForcedModel.v`, `ForcedSpec.v`, `LayoutModel.v`, `LayoutSpec.v`, `MapperModel.v`, `MapperSpec.v`, `PropEndModel.v`, `PropEndSpec.v`, `SymbolModel.v`, `WriterModel.v`, `WriterSpec.v`.
  Sum of transitions times ten must be below 2^31 (the run adds and multiplies in int); cloning and initial chains are not part of the run; the score function, the density comparison and the edge check are parameters.
* **C70 Propeller: from options, perf profiles and binary to the cluster file** (proved). GenModel: options, file provider (a world gives the content of each file), profile type, BuildPerfDataReader with the name resolution of the options, both aggregators, the disassembly check and the statistics, then ComputeProfile of PropEndModel. GenSpec: which profiles are usable and what their samples count, in terms of MMapSpec (C39, C40, C51). Proof: induction over the files with an invariant that ties the counters to the usable profiles seen so far; the run theorems compose with C69.
  Theorems: `GenProps.v`; definitions: `BinaryIdModel.v`, `CfgBuildModel.v`, `CfgBuildSpec.v`, `CfgFreqModel.v`, `GenModel.v`, `GenSpec.v`, `InferModel.v`, `InferSpec.v`, `LayoutModel.v`, `MMapModel.v`, `MMapSpec.v`, `MapperModel.v`, `MapperSpec.v`, `PropEndModel.v`, `PropEndSpec.v`, `SymbolModel.v`, `WriterModel.v`, `WriterSpec.v`.
  All of the run from options and files. Opaque: the content of the files (a world), the disassembler, the score functions. No cloning, no initial chains.
* **C71 Counts and ranges from ARM SPE profiles and an AArch64 binary (LLVM reader)** (proved). SpeReadModel: the reader put together from MMapModel (maps, AggregateSpe), SpeRangeModel (conversion, C59) and AddrModel (offsets, which may abort). SpeReadSpec: names looked for, executions of an instruction from the counters (executions of SpeRangeSpec), sums over the ranges that cover an offset. Proof: C59 for each file, translation of ranges into offsets for one executable segment, induction over the files with a bound on every count (number of records) so that the 64-bit counters do not overflow.
  Theorems: `SpeReadProps.v`; definitions: `AddrModel.v`, `BinaryIdModel.v`, `ByteModel.v`, `GenModel.v`, `GenSpec.v`, `MMapModel.v`, `MMapSpec.v`, `SampleModel.v`, `SpeRangeModel.v`, `SpeRangeSpec.v`, `SpeReadModel.v`, `SpeReadSpec.v`, `SymbolModel.v`.
  Counts at offsets are stated for binaries with one executable segment (C71_executions, C71_branches); result, maps and aborts for all. What quipper reads from a file, the disassembler and the regular expression are parameters.
* **C72 Control-flow graph objects after any history of edge creation and path cloning** (proved). CfgObjModel: graphs, nodes and edges as objects with pointers (function and position; index of the edge), every call as a state transformer that may stop the program. CfgObjSpec: node ids and edges from the history alone. Proof: one invariant (Inv) that ties every list of every node and graph to a filter of the list of edges of the history, kept by each call; queries by reading the lists back.
  Theorems: `CfgObjProps.v`; definitions: `CfgFreqModel.v`, `CfgObjModel.v`, `CfgObjSpec.v`.
  History of calls on the cfg objects; documented precondition of ClonePath (original blocks) is a hypothesis, and its necessity is C72_clone_of_clone_refuted. Queries assume weights whose totals fit an int.
* **C73 Prefetch hints become call-target annotations, one for one** (proved). PrefetchModel: fscanf of the hint file (numbers, white space, type, silent end at a bad line, overflow of the type buffer) and the loop of ConvertPrefetchHints with its uint8_t counters, then ElideSuffixesAndMerge (C12). PrefetchSpec: the grammar of the file; hints with the number of earlier hints for their address; where a hint is placed. Proof: induction on the lines; an invariant of the loop that describes every function of the map by the hints read so far (C08 for one call), then C12. Symbol aliases are left out; inline stacks are arbitrary.
  Theorems: `PrefetchProps.v`; definitions: `AddrModel.v`, `AfdoModel.v`, `ByteModel.v`, `ElideModel.v`, `PrefetchModel.v`, `PrefetchSpec.v`, `SampleModel.v`, `SymbolModel.v`, `SymbolSpec.v`.
  C73_profile, C73_hint_kept, C73_all_kept, C73_read, C73_written; symbol aliases left out; the refuted theorems are the limits of the promise
* **C74 The profile symbol list names functions outside the profile** (proved). ColdListModel: the two collecting functions (recursion over the function objects) in front of SymListModel (C43). ColdListSpec: what a profile mentions, by paths. Proof: induction on the function object; C43 for the sizes. The name stored in a function object is taken to be the key it is found under.
  Theorems: `ColdListProps.v`; definitions: `ColdListModel.v`, `ColdListSpec.v`, `ElideModel.v`, `SymListModel.v`, `SymbolModel.v`, `SymbolSpec.v`.
  C74_names_of_profile, C74_list, C74_disjoint, C74_overlap_only_by_suffix; C74_disjoint_refuted: not disjoint when suffixes are elided
* **C75 Names and sections of the functions of the address map** (proved). SymInfoModel: the loop over the symbols (LLVM's answers about a symbol are its fields) and the loop over the address map. SymInfoSpec: the symbols at an address by filters. Proof: invariant of the table, then induction over the addresses.
  Theorems: `SymInfoProps.v`; definitions: `SymInfoModel.v`, `SymInfoSpec.v`, `SymbolModel.v`.
  C75_symbol_info, C75_named_functions, C75_all_aliases; LLVM's answers about symbols are inputs
* **C76 The command line of create_llvm_prof** (proved). CmdModel: the flags, the list file line by line, and main up to the call that does the work, put together with GenModel for the run. CmdSpec: the refused combinations as a list of cases, the named files by splitting relations. Proof: case analysis, and determinism of the splitting relations.
  Theorems: `CmdProps.v`; definitions: `BinaryIdModel.v`, `CmdModel.v`, `CmdSpec.v`, `GenModel.v`, `GenSpec.v`, `LayoutModel.v`, `MMapModel.v`, `MMapSpec.v`, `PropEndModel.v`, `SymbolModel.v`, `WriterModel.v`, `WriterSpec.v`.
  Two flags do less than they say: C76_ignore_build_id_works_refuted, C76_profiler_works_refuted.
* **C77 What profile_diff prints** (proved). OverlapModel: the two passes that fill the table, the sum of minima with every float operation rounded (Flocq), the listing with its two tables of names by count, and main. OverlapSpec: shares and overlap as real numbers, hot by the largest count. Proof: forward error analysis of the sum; a representation invariant for the tables by count.
  Theorems: `OverlapProps.v`; definitions: `AfdoModel.v`, `OverlapModel.v`, `OverlapSpec.v`, `StatusModel.v`, `SymbolModel.v`.
  accuracy, symmetry, range and zero of the overlap; exact contents and order of the listing; refuted: printed range, 64-bit totals, cutoff 0, the flag on the command line
* **C78 What dump_gcov prints** (proved). DumpModel: the printing functions, giving lists of bytes, and the map from complemented counts to sets of names. DumpSpec: equality of profiles up to the order of tables, at every depth. Proof: the text of a symbol is the text of a sorted tree; the tree is read off the text from left to right, where the indentation ends a nested body (induction on trees); sorting by distinct keys is canonical.
  Theorems: `DumpProps.v`; definitions: `AfdoModel.v`, `DumpModel.v`, `DumpSpec.v`, `SymbolModel.v`, `WriterModel.v`.
  functions and their order; two profiles print the same text iff they are the same up to table order (both directions); refuted for names with a colon
* **C79 The entry count of a symbol** (proved). EntryModel: the two loops that keep the first smallest location. EntrySpec: an inductive relation with a case for a position, an inlined call and none. Proof: induction on symbols; uniqueness by determinism of the relation.
  Theorems: `EntryProps.v`; definitions: `EntryModel.v`, `EntrySpec.v`, `SrcOffsetModel.v`, `SymbolModel.v`.
  EntryCount satisfies the relation for every symbol, is the only such count with one callee at a location, and is then independent of table order; refuted without that
* **C80 The sampled functions of a binary** (proved). SampledModel: the loop over the addresses with its skipping, upper_bound as a search from the front, and the second loop over the table. SampledSpec: tables without overlaps, the last function at or before an address. Proof: invariant that the function that ends at or behind next_start_addr is in the result and begins before all addresses to come.
  Theorems: `SampledProps.v`; definitions: `AddrModel.v`, `SampledModel.v`, `SampledSpec.v`, `SymbolModel.v`.
  exact result for tables without overlaps and segments that keep the order of the addresses; refuted: addresses behind the end of a function, nested functions

## What of the code is modelled

| Part of /repo | Model |
|---|---|
| gcov.cc, profile_writer.cc, profile_reader.cc (GCC format) | GcovModel, SrcOffsetModel, AfdoModel (C01-C06) |
| symbol_map.cc: merging, attribution, flattening, throttling, trimming, suffixes, SCCs, working set, flat and hybrid profiles, address translation, symbol lookup | SymbolModel, FlattenModel, TrimModel, ElideModel, SccModel, HistModel, AddrModel, HybridModel (C07-C17, C56, C57) |
| sample_reader.cc, profile.cc, instruction_map.cc, create_gcov.cc, profile_creator.cc CreateProfile | SampleModel, LbrModel, ProfileModel, CreateModel (C18-C21, C48, C64) |
| util/symbolize: bytereader, nonoverlapping_range_map, dwarf3ranges, dwarf2reader (debugging entries, line programs), index_helper, functioninfo, addr2line_inlinestack; legacy_addr2line.cc Prepare, GetInlineStack | ByteModel, RangeMapModel, DwarfRangesModel, DwLineModel, DwTreeModel, DieModel, PrepModel (C22-C25, C60-C63) |
| Propeller: cfg, program_cfg, binary address mapper, binary content, perf data reader, branch frequencies, chain builder, chain assembly, cluster builder, code layout, profile writer, SPE readers | ForcedModel, ChainModel, ChainBuildModel, AsmQueueModel, ClusterModel, LayoutModel, WriterModel, MapperModel, BinaryIdModel, CfgBuildModel, CfgFreqModel, InferModel, MMapModel, SpeModel, SpeRangeModel (C26-C40, C42, C44, C47, C50-C53, C55, C59) |
| llvm_profile_reader.cc, llvm_profile_writer.cc, profile merging tool, profile symbol list | LlvmReadModel, LlvmWriteModel, SymListModel (C41, C43, C54, C58) |
| util/symbolize/elf_reader.cc (headers, sections, segments, symbols, build id; not the decompression of sections), symbol_map.cc BuildSymbolMap | ElfModel (C65) |
| create_gcov.cc, profile_creator.cc, legacy_addr2line.cc Prepare on the bytes of binary and samples | BinaryModel (C66) |
| branch_aggregation.cc GetUniqueAddresses, llvm_propeller_profile_computer.cc ComputeProfile, GetProgramCfg, code_layout.cc GenerateLayoutBySection: the Propeller run from counters and address map to the files | PropEndModel (C69) |
| llvm_propeller_profile_generator.cc, _file_perf_data_provider, _perf_lbr_aggregator, _perf_branch_frequencies_aggregator, lbr_branch_aggregator, llvm_propeller_statistics (profile and disassembly numbers), perfdata_reader.cc BuildPerfDataReader | GenModel (C70) |
| spe_sample_reader.cc (PerfSpeDataSampleReader with both branch identifiers) | SpeReadModel (C71) |
| llvm_propeller_cfg.{h,cc}: objects (constructor, GetNodeById, GetAllClonesForBbIndex, ClonePath, CreateEdge, CreateOrUpdateEdge, CloneCfg, GetHotJoinNodes, GetNodeFrequencyStats, has_hot_landing_pads, is_hot); llvm_propeller_program_cfg.cc GetHotJoinNodes | CfgObjModel | C72 | WriteDotFormat, GetName; the edge's replaced_by and dynamic tags |
| profile_creator.cc ReadPrefetchHints, ConvertPrefetchHints; symbol_map.cc EnsureEntryInFuncForSymbol | PrefetchModel (C73) |
| llvm_propeller_binary_address_mapper.cc ReadSymbolTable, GetSymbolInfoMap | SymInfoModel (C75) |
| symbol_map.cc Overlap, DumpFuncLevelProfileCompare; profile_diff.cc | OverlapModel (C77); printing and demangling are left out |
| symbol_map.cc Dump, DumpBody, PrintSourceLocation; dump_gcov.cc | DumpModel (C78); DumpForAnalysis, demangling and start lines other than 0 are left out |
| symbol_map.cc Symbol::EntryCount | EntryModel (C79) |
| symbol_map.cc GetSampledSymbolStartAddressSizeMap | SampledModel (C80) |
| create_llvm_prof.cc; llvm_propeller_options_builder.cc (the setters used) | CmdModel (C76); flags that tune the layout scores are left out |
| symbol_map.cc collectNamesForProfSymList, collectNamesInProfile; profile_creator.cc 136-155 | ColdListModel (C74) |
| simple_spe_sample_reader.cc; profile_creator.cc MergeSample, ReadSample, sample_merger.cc | SimpleSpeModel (C67), SampleMergeModel (C68) |
| lazy_evaluator.h, status_provider | LazyModel, StatusModel (C45, C46) |

Not modelled: LLVM (object files, DWARF through LLVM, disassembly, profile file
formats), the protobuf runtime, perf.data parsing (quipper), command line
handling, mini_disassembler, addr2cu.cc, llvm_propeller_statistics.cc,
the profile dumping and comparing tools,
split DWARF (.dwo/.dwp) and two-level line tables.

Simplifications worth knowing (each is also in the comment of its definition):

* Scores and gains of the layout are integers (the code uses doubles); the scoring
  function is a parameter, so no theorem depends on its rounding (C28, C30, C31,
  C55).
* Floating point is exact IEEE rounding through Flocq only in C43 and C46; the
  plausibility tests of C36 are an arbitrary predicate.
* C60: `max_ops_per_insn` is ignored as in the code; opcodes 13-15 skip their
  fixed operands whatever the header says, as in the code; the program starts
  behind the file table (the header length is not used), as in the code.
* C61: debugging entries come as trees with decoded attributes; C62 is about how any
  handler is given them from the bytes; C63 composes both with C22, C24, C25 and C60
  from the sections of a binary on.

## Findings

All are theorems named `_refuted` unless marked "(reading)".

* C01 strings of 16 KiB and more cannot be read back. C03 different source
  locations share an offset beyond 16 bits. C05 the declared length is short from
  version 3 on. C06 rewriting of C4Ev/D4Ev names can merge two names.
* C09 totals are counted twice through recursive inlining; the number returned
  counts only changed totals; the location 2^64-1 is a sentinel. C12 the policy
  "selected" leaves suffixes. C13 `index` is passed by value: "Found a Loop" abort.
* C19 totals of mixed inputs; C20 wrong-path entries end ranges; C21 the last branch
  overwrites a target; C22 partial overlaps are accepted next to a stored range,
  inverted ranges corrupt the map; C23 padded LEB128 beyond ten bytes is UB; C25
  startx_length under a base, reads beyond the section.
* C26 the entry block can be behind another block; C27 a forced edge into the
  entry; C28 unsorted edges of initial chains; C31 abort and int overflow; C33 entry
  clones and name clashes; C34 empty last blocks; C36 kind of an edge depends on hash
  order, abort when building on top; C38 empty blocks counted twice; C39 a map that
  ends at 2^64; C40 ranges to untranslatable sources.
* C41 keep-cold symbols dropped by a raised threshold; C42 unordered events; C43 ratio
  1 omits empty symbols; C46 zero weights report 100%; C47 self aliases and zero
  copies; C48 counts from 2^63 on; C51 mixed relative and absolute names, any note type;
  C54 targets overwritten, totals depend on order; C56 samples of inlined callees of
  cold functions dropped; C57 the const source is changed; C58 16-bit lines; C59
  misaligned targets give reversed ranges.
* C60 version 5 tables are numbered from 1, a late end of sequence hides a row, a
  wrapping extended opcode never ends. C61 nested out-of-line functions and calls that
  span two adjacent ranges are dropped; call file 0 is a null dereference;
  implicit_const declaration lines are lost; cyclic references never end. C62 address
  indices of more than one byte desynchronise the reader, DW_FORM_addrx2 always reads entry
  0, negative implicit constants become positive, DW_FORM_line_strp cannot be
  skipped, abbreviation codes have to be consecutive. C63 .debug_str_offsets is not loaded,
  so a string given by index (DW_FORM_strx) ends the program. C65 functions called
  "plt", "lt" or "t" that share the end of "…@plt" are dropped; an empty section at
  the start of a page ends the program; segments of a file without section headers are
  read through a null pointer. C67 fall-throughs into a target are not counted in the range there
  (C67_executions_refuted), and total_count_ is the number of records plus the counted bytes, two
  different units (C67_counts).
* perf_lbr_aggregator / perf_branch_frequencies_aggregator: a comment says the binary name is matched if
  the binary has no build id; every profile is skipped instead (C70_no_build_id_refuted).
* br_counters_accumulated is summed by c_accumulate with a literal int 0: 2^31 sampled branches are
  reported as 2^64 - 2^31 (C70_counter_stat_refuted). binary_mmap_num counts processes, not maps (C70_stats).
* spe_sample_reader.cc: a branch with an end below the first executable segment (for example in a
  non-executable mapping of a non-PIE binary) ends the program by a CHECK (C71_aborts).
* `CFGNode::addr_` is a `const int` although constructor and accessor use `uint64_t`: an address of 2^31 or more reads back as its low 32 bits, sign-extended (C72_observe, C72_address); the original-layout score and the addresses in the dumped cfg (llvm_propeller_profile_writer.cc:61) are those.
* `ClonePath` accepts a path that contains the position of a clone (only a comment forbids it) and then makes two nodes with the same id (C72_clone_of_clone_refuted).
* `CloneCfg` copies cloned nodes but not the recorded clone paths (C72_copy: the copy shows no paths).
* `CreateOrUpdateEdge` of a second kind between the same two blocks of one function stops the program (has_duplicates ignores the kind, GetEdgeTo does not) (C72_accepts).
* `GetHotJoinNodes` gives the block index also for clones: entries repeat and do not say which copy is hot (C72_queries: the list of first components).
* ReadPrefetchHints reads the type with %s into char[5]: a type of five or more characters overflows it
  (C73_long_type_overflows_refuted); a malformed line ends the file silently, and a missing file is an empty one
  (C73_malformed_rejected_refuted, C73_missing_file_reported_refuted);
* ConvertPrefetchHints: the first hint of a function decides whether it gets its bogus sample; if that hint has no
  source location, the writers drop the function with all its hints (C73_located_hints_written_refuted); the 257th hint
  for an instruction replaces the first (uint8_t counter, C73_each_hint_kept_refuted); hints of two instructions of one
  line replace each other, hints of f and f.cold on one line are added up (C73_deltas_separate_refuted);
* collectNamesForProfSymList compares the names of the binary with those of the profile after suffix elision, but lists
  original names: a sampled f.llvm.1 is f in the profile, f.llvm.1 is not found there, and f is listed as absent from
  the profile (C74_disjoint_refuted); profile_creator.cc:137-139 expects the list to have no name of the profile;
* ReadSymbolTable keeps only the symbols with the size of the first one at an address, so the names of a function depend
  on the order of the symbol table (C75_order_independent_refuted); GetSymbolInfoMap follows the section of an absolute
  function symbol, which has none (C75_absolute_symbol_refuted);
* create_llvm_prof --ignore_build_id has no effect (C76_ignore_build_id_works_refuted): the options always carry a
  profiled_binary_name, possibly empty, and ResolveMmapName prefers it to the name of the binary; --profiler only counts
  for profiles in a list file: `--format=propeller --profiler=perf_spe --profile=spe.data` is read as LBR
  (C76_profiler_works_refuted); a list file that cannot be opened is taken for an empty one (C76_missing_list);
  the flag --prefetch_hints is never read;
* (reading) `symbol_map.set_ignore_thresholds(true)` (profile_creator.cc:128) has no effect, as ignore_thresholds_ is never
  read: functions whose only content are prefetch hints survive by their bogus sample alone (C73);
* profile_diff counts the words of its command line with the flags, so `profile_diff --compare_function a b` aborts
  (C77_compare_function_refuted); the overlap of a profile with itself can be more than 1 (C77_range_refuted) and is 0 if
  its counts add up to 2^64 (C77_total_wraps_refuted); with --dump_cutoff_percent=0 a function with the count 0 in the
  first profile is not listed, however hot it is in the second one (C77_cutoff_zero_refuted);
* a name with a colon (Objective-C methods) makes the output of dump_gcov ambiguous (C78_colon_refuted);
* Symbol::EntryCount depends on the order of a hash table when two callees are inlined at the first location, as after a
  promoted indirect call (C79_order_independent_refuted);
* GetSampledSymbolStartAddressSizeMap takes a function as sampled for an address behind its end (C80_behind_end_refuted),
  and misses one that begins inside another (C80_nested_refuted);
* (reading) a section .zdebug_x answers to .debug_x but its compressed bytes are handed out as they
  are, and SHF_COMPRESSED is not looked at; elf_reader.cc ignores PN_XNUM unless e_shnum is 0, accepts a name at the very
  end of the string table (CHECK_GE) and allocates the section headers 64 times too big;
  HybridProfile's FlattenCallsite uses head counts that are 0 for inlined
  nodes; flattening after removal brings removed keep-sole symbols back; the layout
  indexes the nodes of an inter-function kBranchOrFallthrough edge as if they were its own function's
  (such an edge needs a function whose first block has an offset: C69_jumps_stay); a graph all of whose
  edges have weight 0 is dropped while other graphs keep pointers to its nodes; `unsigned
  scc_total_count_incl` truncates to 32 bits (symbol_map.cc 964); UpdateWithRatio and
  GetTotalSum count aliases repeatedly; `c_accumulate` starting at int 0 truncates
  (branch_frequencies.h); ComputeOptLayoutScores throws if a hot edge leaves the
  layout; comp_dir of the previous unit is reused; functioninfo.cc and
  addr2line_inlinestack.cc pass .debug_line_str data as the other string sections;
  with .debug_str but without .debug_line_str the end iterator is dereferenced for every
  line table of a unit; version 5 range lists are read with addr_base 0; the offset size of a unit is overwritten by that
  of the headers of .debug_str_offsets and .debug_addr.

## Testing the theorems against wrong programs

`seeded/LOG.jsonl` lists every edit of the model that was tried, the claim it breaks and
the theorems that failed or were tightened.
