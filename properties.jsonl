{"id": "C01", "title": "gcov primitive codec round trip", "statement": "Any sequence of 32-bit words, 64-bit counters and NUL-free strings written with gcov_write_unsigned / gcov_write_counter / gcov_write_string under a given gcov version is read back, value for value and in order, by the corresponding gcov_read_* calls under the same version, with nothing left over.", "quantifier": "every sequence of values of the three kinds, every value of each kind, both string encodings (version < 2 padded words, version >= 2 byte strings)", "why_tests_cant": "the value space is 2^32/2^64/all strings and the sequences are unbounded; a test samples a few", "anchors": ["gcov.cc: gcov_write_unsigned, gcov_write_counter, gcov_write_string, gcov_read_unsigned, gcov_read_counter, gcov_read_string"]}
{"id": "C02", "title": "gcov buffered reader is transparent", "statement": "Reading a gcov file through the 16 KiB refilling buffer returns exactly the bytes of the file in order, whatever the sizes of the individual reads and wherever the block boundaries fall; a read past the end of the file returns null and the reader never returns a byte that is not in the file at that position.", "quantifier": "every file content, every sequence of read sizes below the block size", "why_tests_cant": "boundary alignments between reads and refills are combinatorial", "anchors": ["gcov.cc: gcov_read_bytes, gcov_var", "gcov.h"]}
{"id": "C03", "title": "AutoFDO source offset encoding", "statement": "Writing a (line offset, discriminator) location into an AutoFDO gcov profile and reading it back yields the same location, and two different locations of a function are never written as the same offset word.", "quantifier": "every line offset and every discriminator a SourceInfo can carry", "why_tests_cant": "2^64 locations; collisions only show up for large discriminators or line offsets", "anchors": ["source_info.h: SourceInfo::GenerateCompressedOffset, GenerateOffset, GetLineNumberFromOffset, GetDiscriminatorFromOffset", "profile_reader.cc: ReadSymbolProfile"]}
{"id": "C04", "title": "AutoFDO function profile round trip", "statement": "Writing a symbol map with the AutoFDO writer and reading the resulting function section with the AutoFDO reader into an empty symbol map reproduces every emitted function, every inlined callsite tree, every (location, count) pair and every indirect-call target count.", "quantifier": "every symbol map (any number of functions, any inline depth, any number of locations and targets) whose names and locations are encodable", "why_tests_cant": "recursive data of unbounded depth and breadth", "anchors": ["profile_writer.cc: SourceProfileWriter, AutoFDOProfileWriter::WriteFunctionProfile", "profile_reader.cc: AutoFDOProfileReader::ReadSymbolProfile, ReadFunctionProfile"]}
{"id": "C05", "title": "Declared section length", "statement": "The length word the AutoFDO writer puts in front of the function section equals the number of 32-bit words the function section body really occupies, so that a consumer that skips the section by its length lands on the next section tag. (True for format versions below 3; from version 3 on, including the default --gcov_version, the word is short by two words per function; the name table length is right below version 2 only. Both deviations are theorems.)", "quantifier": "every symbol map", "why_tests_cant": "the length is computed by a separate traversal from the one that writes; agreement must hold for every tree", "anchors": ["profile_writer.cc: SourceProfileLengther, AutoFDOProfileWriter::WriteFunctionProfile"]}
{"id": "C06", "title": "String table indices are consistent", "statement": "Every function name, callee name and indirect-call target that the writer emits as an index resolves, in the emitted name table, to that very name; indices are dense, and distinct names get distinct indices.", "quantifier": "every symbol map and every set of names", "why_tests_cant": "depends on a global ordering of all names of the profile", "anchors": ["profile_writer.cc: StringTableUpdater, WriteFunctionProfile", "profile_writer.h: StringIndexMap, FileIndexMap"]}
{"id": "C07", "title": "Merging symbols adds counts pointwise", "statement": "Merging one function profile into another yields, at every inline path, location and call target, exactly the sum of the two inputs' counts; head and total counts add; nothing else changes; hence the result does not depend on the order in which profiles are merged.", "quantifier": "every pair (and every list) of profile trees", "why_tests_cant": "unbounded recursive structures; commutativity/associativity are universally quantified", "anchors": ["symbol_map.cc: Symbol::Merge", "symbol_map.h: ProfileInfo::operator+="]}
{"id": "C08", "title": "Sample attribution to source locations", "statement": "Adding the samples of an address with inline stack S to the symbol map changes only the profile node selected by S: the location count there becomes the maximum (perf-data source) or the sum (AutoFDO-profile source) of old and new, the total counts of all nodes along the stack grow by the attributed amount and all other locations, targets and functions keep their counts.", "quantifier": "every symbol map state, every inline stack, every count", "why_tests_cant": "history-dependent: the state is built by an arbitrary sequence of additions", "anchors": ["symbol_map.cc: SymbolMap::AddSourceCount, TraverseInlineStack, AddIndirectCallTarget"]}
{"id": "C09", "title": "Flattening bounds nesting depth", "statement": "After flattening with a maximum inline nesting level k > 0 no function in the profile has an inlined callsite deeper than k levels, every function that existed still exists, and the callsites that were removed are merged into the corresponding outline functions.", "quantifier": "every symbol map and every k", "why_tests_cant": "unbounded tree depth and arbitrary recursion between functions", "anchors": ["symbol_map.cc: SymbolMap::FlattenNestedInlineCallsites, Symbol::FlattenCallsite, Symbol::FlatMerge, Symbol::EstimateHeadCount"]}
{"id": "C10", "title": "Inline-instance throttling keeps the hottest", "statement": "After throttling to k inline instances per location, every location of every function has at most k inlined callees, each kept callee is at least as hot as each dropped one at that location, kept instances' bodies are themselves throttled, and locations with at most k instances lose none.", "quantifier": "every profile and every k", "why_tests_cant": "must hold for all ties and all nesting", "anchors": ["symbol_map.cc: SymbolMap::throttleInlineInstancesAtSameLocation"]}
{"id": "C11", "title": "Call-target trimming keeps the top k", "statement": "After trimming to k call targets, every location has at most k targets, the kept targets with their counts are exactly the k largest under (count descending, name ascending), and all other profile data is unchanged.", "quantifier": "every profile and every k", "why_tests_cant": "top-k selection with ties over arbitrary maps", "anchors": ["symbol_map.cc: SymbolMap::TrimCallTargets, GetSortedTargetCountPairs"]}
{"id": "C12", "title": "Suffix elision", "statement": "Eliding the compiler-generated suffixes of function names merges the profiles of all functions that share an original name: the elided name carries no elidable suffix any more, every function whose name is unchanged keeps its samples, and no sample is lost.", "quantifier": "every function name and every symbol map", "why_tests_cant": "all strings, all combinations of suffixes", "anchors": ["symbol_map.cc: getPrefix/GetOriginalName, SymbolMap::ElideSuffixesAndMerge"]}
{"id": "C13", "title": "Call-graph strongly connected components", "statement": "Building the inclusive-count order of a call graph terminates without aborting for every call graph, mutually recursive functions being grouped in one component.", "quantifier": "every call graph", "why_tests_cant": "all graphs, all visiting orders", "anchors": ["symbol_map.cc: CallGraph::StrongConnect, CallGraph::TopoVisit, CallGraph::ComputeSCCs"]}
{"id": "C14", "title": "Working-set histogram", "statement": "Computing the working-set buckets never divides by zero or underflows, fills exactly 128 buckets when there are samples (and leaves them alone when there are none); bucket i records the largest number of hottest counters whose cumulative count does not exceed (i+1) times 1/129 of the total (integer division), together with the count of the next hottest counter; the recorded numbers never decrease and the counts never increase from bucket to bucket.", "quantifier": "every histogram of counters", "why_tests_cant": "all histograms; the nested loop consumes a bucket's counters partially", "anchors": ["symbol_map.cc: SymbolMap::ComputeWorkingSets"]}
{"id": "C15", "title": "Detailed profile summary percentiles", "statement": "For every requested cutoff (taken in ascending order) the detailed summary reports the largest count m such that the counts of at least m sum to that fraction of the total, and how many counts are at least m; the recorded total, maxima and numbers are those of the emitted functions.", "quantifier": "every multiset of counts and every increasing list of cutoffs", "why_tests_cant": "all multisets; boundary cases on ties and cutoff 1.0", "anchors": ["profile_writer.cc: ProfileSummaryComputer::ComputeDetailedSummary, VisitTopSymbol, Visit"]}
{"id": "C16", "title": "File offset / virtual address translation", "statement": "For an address inside a loadable executable segment, converting the static virtual address to a file offset and back is the identity, and converting a file offset inside a segment to a virtual address and back is the identity.", "quantifier": "every list of non-overlapping segments, every address in them", "why_tests_cant": "64-bit address space, any number of segments", "anchors": ["symbol_map.h: get_static_vaddr, GetFileOffsetFromStaticVaddr"]}
{"id": "C17", "title": "Address to symbol lookup", "statement": "Looking up an address returns the symbol whose [start, start+size) range contains it if there is one, and nothing otherwise; the same holds for looking up the instruction at an address.", "quantifier": "every set of disjoint symbol ranges and every address", "why_tests_cant": "64-bit address space", "anchors": ["symbol_map.cc: SymbolMap::GetSymbolInfoByAddr", "instruction_map.h: InstructionMap::lookup"]}
{"id": "C18", "title": "Text sample file round trip", "statement": "Writing the aggregated samples (ranges, addresses, branches with counts) to a text file and reading the file back yields the same samples, and reading it into a reader that already holds samples adds the counts pointwise.", "quantifier": "every sample set with 64-bit addresses and counts", "why_tests_cant": "character-level number formatting and parsing of all 64-bit values", "anchors": ["sample_reader.cc: TextSampleReaderWriter::Write, TextSampleReaderWriter::Append, SampleReader::..."]}
{"id": "C19", "title": "Sample merging is order independent", "statement": "Merging sample readers adds range, address and branch counts pointwise, so the merged samples do not depend on the order of the inputs and the total number of samples is the sum of the totals.", "quantifier": "every list of sample sets", "why_tests_cant": "all orders of an unbounded number of inputs", "anchors": ["sample_reader.cc: TextSampleReaderWriter::Merge, SampleReader::GetTotalCount, ReadAndSetTotalCount"]}
{"id": "C20", "title": "Only valid branch records contribute samples", "statement": "When LBR stacks of a perf file are aggregated, branch-stack entries flagged as mispredicted wrong-path (aborted) entries contribute neither branches nor ranges, every recorded range is non-empty and no longer than 1 MiB, and every range goes from a recorded branch target to the next recorded branch source.", "quantifier": "every list of samples, every stack depth and every flag pattern", "why_tests_cant": "combinatorial in the positions of the bad entries", "anchors": ["sample_reader.cc: PerfDataSampleReader::Append"]}
{"id": "C21", "title": "Instruction counts are the number of covering ranges", "statement": "The execution count attributed to an instruction address equals the sum of the counts of all sampled ranges [begin, end] that contain it, and a branch/call target count equals the sum of the branch samples at that source and target.", "quantifier": "every set of ranges and branches of a function", "why_tests_cant": "all overlaps of unbounded sets of intervals", "anchors": ["profile.cc: Profile::ProcessPerFunctionProfile"]}
{"id": "C22", "title": "Range map insert/lookup", "statement": "In the debug-info range map, after any sequence of insertions of ranges the stored ranges are pairwise disjoint; inserting a range lying inside one stored range overrides exactly that part, inserting a range that covers stored ranges fills exactly the gaps, and partially overlapping a stored range is rejected; lookup of an address returns the value of the stored range containing it, if any.", "quantifier": "every history of insertions and every queried address", "why_tests_cant": "operation histories are unbounded and the insertion position interacts with all stored neighbours", "anchors": ["util/symbolize/nonoverlapping_range_map.h: NonOverlappingRangeMap::InsertRange, Find, SplitRange"]}
{"id": "C23", "title": "LEB128 decoding", "statement": "Decoding the LEB128 encoding of any 64-bit unsigned or signed value yields that value and the exact number of bytes of its encoding, independent of the bytes that follow.", "quantifier": "every 64-bit value and every following byte sequence", "why_tests_cant": "2^64 values and variable length encodings (also non-canonical, padded ones)", "anchors": ["util/symbolize/bytereader-inl.h: ByteReader::ReadUnsignedLEB128, ReadSignedLEB128"]}
{"id": "C24", "title": "Fixed-width integer decoding", "statement": "Reading 1, 2, 3, 4 or 8 bytes yields the little- or big-endian value of these bytes according to the configured endianness, and the initial-length reader returns the unit length and offset size that DWARF prescribes.", "quantifier": "every byte sequence, both byte orders", "why_tests_cant": "all byte values including those with the sign bit set", "anchors": ["util/symbolize/bytereader-inl.h: ReadTwoBytes, ReadThreeBytes, ReadFourBytes, ReadEightBytes", "util/symbolize/bytereader.cc: ReadInitialLength"]}
{"id": "C25", "title": "DWARF range lists", "statement": "Reading a DWARF address range list returns exactly the ranges the list denotes: base-selection entries change the base of the following offset pairs, absolute entries are not relocated by the base, the list ends at its terminator, and the reader never reads outside the section.", "quantifier": "every range list (any sequence of entries), address sizes 4 and 8", "why_tests_cant": "sequence of entries is unbounded and entry kinds interact through the base", "anchors": ["util/symbolize/dwarf3ranges.cc: AddressRangeList::ReadDwarfRangeList, ReadDwarfRngLists"]}
{"id": "C26", "title": "Forced fall-through paths", "statement": "The block paths that Propeller forces to stay together are vertex-disjoint simple paths made only of forced edges (mutually most likely fall-through edges), never contain a block twice, and use every forced edge that does not close a cycle; the function entry block is never placed behind another block.", "quantifier": "every control flow graph with every weighting", "why_tests_cant": "all graphs, including cycles of forced edges", "anchors": ["llvm_propeller_node_chain_builder.cc: GetForcedEdges, BreakCycles, GetForcedPaths"]}
{"id": "C27", "title": "Chain assembly is a permutation", "statement": "Merging two chains, with or without splitting one of them at a bundle boundary, yields a chain that contains every basic block of the two chains exactly once, in one of the allowed slice orders, and keeps the function entry block first when inter-function reordering is off.", "quantifier": "every pair of chains, every split position, every merge order", "why_tests_cant": "combinatorial choice of slice positions", "anchors": ["llvm_propeller_node_chain_assembly.cc: NodeChainAssembly::BuildNodeChainAssembly, ConstructSlices", "llvm_propeller_node_chain.cc: NodeChain::MergeWith"]}
{"id": "C28", "title": "Assembly score is the layout score", "statement": "The score computed for a candidate chain assembly is the score of the edges in the concatenated block order of that assembly, i.e. each edge is scored with its true source-to-sink distance in that order, and the gain offered for a merge is the score of the new order less the scores of the two chains (edges inside one bundle do not move), unless initial chains of several blocks are given.", "quantifier": "every assembly and every edge, including zero-sized blocks and split chains", "why_tests_cant": "all offsets and split positions; slice lookup at boundaries", "anchors": ["llvm_propeller_node_chain_assembly.cc: FindSliceIndex, ComputeEdgeScore", "llvm_propeller_code_layout_scorer.cc: PropellerCodeLayoutScorer::GetEdgeScore"]}
{"id": "C29", "title": "Chain bookkeeping invariant", "statement": "After any sequence of chain merges every basic block belongs to exactly one bundle of exactly one live chain, its recorded bundle offset and the bundles' chain offsets are the sums of the sizes of the blocks before it, the chain's size and frequency are the sums over its blocks, and every CFG edge the layout looks at is recorded exactly once, unless both its ends lie in one bundle.", "quantifier": "every history of merges", "why_tests_cant": "unbounded operation histories over mutable shared structures", "anchors": ["llvm_propeller_node_chain.cc: NodeChain::MergeWith, MergeChainEdges", "llvm_propeller_node_chain.h"]}
{"id": "C30", "title": "Chain building terminates and partitions the blocks", "statement": "Building the chains of a set of CFGs terminates and returns chains in which every hot basic block occurs exactly once.", "quantifier": "every program CFG", "why_tests_cant": "termination and coverage over all priority orders", "anchors": ["llvm_propeller_node_chain_builder.cc: NodeChainBuilder::BuildChains, InitNodeChains, MergeChains, CoalesceChains"]}
{"id": "C31", "title": "Cluster building partitions the chains", "statement": "Clustering the chains by call affinity returns clusters that together contain every chain exactly once, each cluster's size and frequency is the sum over its chains, only clusters not above the size limit are merged (so that a merged cluster is at most twice the limit), each chain is put behind the cluster that feeds it most, and the clusters come in the order of decreasing density.", "quantifier": "every list of chains, every call-edge weighting", "why_tests_cant": "history of merges over shared mutable clusters", "anchors": ["llvm_propeller_chain_cluster_builder.cc: ChainClusterBuilder::BuildClusters, MergeClusters"]}
{"id": "C32", "title": "Layout output covers each block once", "statement": "The function cluster information produced by the code layout lists every laid-out basic block exactly once, the cluster layout indices are exactly 0..n-1 in layout order, the cold indices are exactly 0..m-1, consecutive blocks of one function in one chain stay together and the entry block starts its cluster.", "quantifier": "every program CFG and every chain order", "why_tests_cant": "all interleavings of functions in a chain", "anchors": ["llvm_propeller_code_layout.cc: CodeLayout::OrderAll"]}
{"id": "C33", "title": "Propeller symbol order file", "statement": "The linker symbol ordering file lists, for every cluster in layout order, each alias of its function once with the right part suffix, followed by the cold parts in cold order; functions whose blocks are all in clusters get no cold symbol, and no slot is left unset.", "quantifier": "every layout result", "why_tests_cant": "array slots are filled by index and must all be hit exactly once", "anchors": ["llvm_propeller_profile_writer.cc: PropellerProfileWriter::Write"]}
{"id": "C34", "title": "Address to basic block lookup", "statement": "Looking up a binary address returns the basic block that contains it; for a branch target at an address shared by zero-sized blocks it returns the first of them belonging to the same function, for a branch source the non-empty block; an address that no block contains and no block starts at returns nothing; and the blocks searched are exactly the blocks of the selected functions, each once, in address order.", "quantifier": "every list of basic blocks sorted by address, including empty blocks, and every address", "why_tests_cant": "64-bit address space and arbitrary runs of empty blocks", "anchors": ["llvm_propeller_binary_address_mapper.cc: BinaryAddressMapper::FindBbHandleIndexUsingBinaryAddress"]}
{"id": "C35", "title": "Fall-through validity", "statement": "A sampled range is accepted as a fall-through path only if both ends are in the same function, the end does not precede the start and every block from the start up to but excluding the end can fall through.", "quantifier": "every pair of blocks", "why_tests_cant": "unbounded number of intermediate blocks", "anchors": ["llvm_propeller_binary_address_mapper.cc: BinaryAddressMapper::CanFallThrough", "llvm_propeller_program_cfg_builder.cc: ProgramCfgBuilder::CreateFallthroughs"]}
{"id": "C36", "title": "CFG edge weights account for every branch sample", "statement": "Building the program CFG creates at most one edge per pair of blocks, its weight is the sum of the weights of all branch and fall-through samples mapped to that pair, and the per-kind totals in the statistics add up to the total weight of all edges.", "quantifier": "every branch aggregation, every iteration order of the hash maps", "why_tests_cant": "iteration order of unordered maps is unspecified", "anchors": ["llvm_propeller_program_cfg_builder.cc: CreateEdges, InternalCreateEdge, CreateFallthroughs", "llvm_propeller_cfg.cc: ControlFlowGraph::CreateEdge"]}
{"id": "C37", "title": "Block frequency dominates edges", "statement": "The frequency computed for a block is non-negative, at least the weight of each single edge into or out of the block, and at most the total weight of all its edges; it does not depend on the order of the edges.", "quantifier": "every multiset of edges of every kind", "why_tests_cant": "all multisets", "anchors": ["llvm_propeller_cfg.cc: CFGNode::CalculateFrequency"]}
{"id": "C38", "title": "Fall-through inference from branch frequencies", "statement": "Inferring fall-through counts from taken and not-taken branch counts gives every sampled block the fall-through weight measured at its last instruction, or, where nothing was measured, its branch inflow plus what falls through from the previous sampled block minus its branch outflow; a positive weight is recorded for the range to the next sampled block when control can fall through all the way, else to the next block; no range leaves its function or crosses a block that cannot fall through, and no recorded count is zero or negative.", "quantifier": "every set of branch frequencies", "why_tests_cant": "unbounded sequences of blocks", "anchors": ["frequencies_branch_aggregator.cc: InferFallthroughs, FindFallthroughEndBlock"]}
{"id": "C39", "title": "Runtime address translation", "statement": "The memory maps selected for a process never overlap, a runtime address is translated using the unique map containing it, translation preserves distances inside a segment, and an address outside every selected map or segment translates to the invalid address.", "quantifier": "every sequence of mmap events and every address", "why_tests_cant": "histories of mmap events, 64-bit addresses", "anchors": ["perfdata_reader.cc: SelectMMaps, PerfDataReader::RuntimeAddressToBinaryAddress"]}
{"id": "C40", "title": "LBR aggregation counts", "statement": "Aggregating LBR stacks increments the counter of each recorded branch once per stack entry and the counter of each fall-through once per pair of consecutive entries where the older branch's target is inside the binary and not above the newer branch's source (an untranslatable source counting as the highest address); SPE records count each retired branch once, as taken or as not taken; no other counter changes.", "quantifier": "every list of samples of selected processes", "why_tests_cant": "unbounded histories", "anchors": ["perfdata_reader.cc: PerfDataReader::AggregateLBR"]}
{"id": "C41", "title": "Special symbols when merging profiles", "statement": "When several profiles are merged with special-symbol handling, a strip-all symbol never appears in the result, a keep-sole symbol appears exactly when it occurs in exactly one input profile (and its total passes the output threshold that applies to every function), with that profile's counts, and a keep-cold symbol that occurs in some input appears once with the cold count only (given the default threshold), whatever the number and order of the inputs.", "quantifier": "every list of profiles, every order", "why_tests_cant": "history of all previously read profiles", "anchors": ["llvm_profile_reader.cc: LLVMProfileReader::shouldMergeProfileForSym, ReadFromFunctionSamples", "profile_merger.cc: main"]}
{"id": "C42", "title": "Thread to process resolution over time", "statement": "For an SPE record of a known thread, the resolved process is that of the latest recorded event of that thread not later than the record; a thread never seen (or seen only later) resolves to its own id.", "quantifier": "every history of events and every record", "why_tests_cant": "histories with thread-id reuse", "anchors": ["spe_tid_pid_provider.cc: SpeTidPidProvider::SpeTidPidProvider, GetPid"]}
{"id": "C43", "title": "Profile symbol list coverage", "statement": "The symbol list contains with a symbol every symbol at least as large, the listed symbols together cover at least the requested ratio of the total size (or the list is empty because one symbol alone exceeds it), with ratio 0 nothing and with ratio 1 every symbol is listed.", "quantifier": "every list of symbol sizes and every ratio", "why_tests_cant": "all multisets of sizes", "anchors": ["profile_symbol_list.cc: fillProfileSymbolList"]}
{"id": "C44", "title": "Node frequency percentile threshold", "statement": "The frequency threshold returned for percentile p is 0 if fewer than one hot block is covered, and otherwise a frequency f of some hot block such that at least floor(n*p/100) hot blocks have frequency at most f and fewer have a strictly smaller one; it does not depend on hash-map order.", "quantifier": "every multiset of node frequencies and every percentile 0..100", "why_tests_cant": "selection algorithm under all permutations", "anchors": ["llvm_propeller_program_cfg.cc: ProgramCfg::GetNodeFrequencyThreshold"]}
{"id": "C45", "title": "Lazy evaluation happens once", "statement": "A lazy evaluator invokes its adapter at most once, with the inputs given at construction, however often it is evaluated, and every evaluation returns the same value.", "quantifier": "every adapter, input and number of evaluations", "why_tests_cant": "unbounded call histories", "anchors": ["lazy_evaluator.h: LazyEvaluator::Evaluate"]}
{"id": "C46", "title": "Progress reporting", "statement": "For any tree of status providers whose leaf progress values are in [0,100], the reported overall progress is in [0,100], it is 100 when every job is done, and it does not decrease when the jobs progress in order.", "quantifier": "every tree of weighted jobs and every history of progress updates", "why_tests_cant": "unbounded trees and histories", "anchors": ["status_provider.cc: MultiStatusProvider::GetProgress", "status_provider.h"]}
{"id": "C47", "title": "Unique function names after selection", "statement": "After selecting the functions to optimise, no two selected functions share a symbol name, candidates whose names are distinct and unshared are all kept, of structurally identical unique-named duplicates at most one is kept (the first, if it has no other conflict), the result does not depend on hash iteration order, and the reported number of duplicate symbols is the number of names listed minus the number of distinct names.", "quantifier": "every set of functions with every alias assignment", "why_tests_cant": "alias sharing is an arbitrary hypergraph", "anchors": ["llvm_propeller_binary_address_mapper.cc: FilterDuplicateNameFunctions, SelectFunctions"]}
{"id": "C48", "title": "Split functions are emitted together", "statement": "A function's samples reach the profile exactly when the aggregated sample count of the function and its split (hot/cold) parts exceeds the threshold, and then all parts are emitted.", "quantifier": "every set of per-part sample counts", "why_tests_cant": "all combinations of parts and thresholds", "anchors": ["profile.cc: Profile::ComputeProfile, AggregatePerFunctionProfile"]}
{"id": "C49", "title": "SPE time stamp conversion", "statement": "Converting an SPE counter value to perf time yields time_zero + floor(cycles * mult / 2^shift) without loss to intermediate truncation, preserves the order of time stamps, and recovers the full counter from a truncated one.", "quantifier": "every counter value and every set of conversion parameters in range", "why_tests_cant": "64-bit arithmetic over all parameter combinations", "anchors": ["spe_tid_pid_provider.cc: SpeTidPidProvider::SpeTimestampToPerfTimestamp"]}
{"id": "C50", "title": "Hot function selection", "statement": "When sample addresses are given, the functions considered for optimisation are exactly those in whose address range (from the function start to the end of its last block) at least one sample address lies; otherwise all functions.", "quantifier": "every binary with address-ordered disjoint functions and every set of sample addresses", "why_tests_cant": "unbounded numbers of functions, blocks and samples over a 64-bit address space", "anchors": ["llvm_propeller_binary_address_mapper.cc: CalculateHotFunctions, SelectFunctions"]}
{"id": "C51", "title": "Identifying the profiled binary", "statement": "The build id read from the binary and the one recorded in the profile have the same text exactly when their bytes are equal; the file names used for a build id are exactly those recorded with it that are neither empty nor anonymous, and an error is reported if there are none; with only absolute (only relative) names, a mapped file is selected exactly when its path (its last component) is one of them, whatever order the set is kept in.", "quantifier": "every build id, every list of records and names", "why_tests_cant": "all byte strings and hash orders", "anchors": ["perfdata_reader.cc: BinaryDataToAscii, GetBuildIdNames, MMapSelector", "llvm_propeller_binary_content.cc: ELFFileUtil::GetBuildId"]}
{"id": "C52", "title": "Kernel module information", "statement": "Parsing a .modinfo section accepts exactly the sequences of key=value strings ended by one or more NUL bytes (non-empty keys without '='), and yields for every key the value of its first entry; everything else is rejected with an error and no byte outside the section is needed.", "quantifier": "every byte sequence", "why_tests_cant": "all byte sequences, including truncated ones", "anchors": ["llvm_propeller_binary_content.cc: ELFFileUtilBase::ParseModInfoSectionContent"]}
{"id": "C53", "title": "Propeller cluster file reads back", "statement": "The cluster file written by the Propeller profile writer, in either version and with or without verbose comments, determines the layout: a reader of the documented line format recovers, for every function in order, its names, its module name, its clone paths and its clusters with block ids and clone numbers, provided names contain no separator characters.", "quantifier": "every layout result, version and verbosity", "why_tests_cant": "all names, numbers of clusters and blocks; the text must be unambiguous", "anchors": ["llvm_propeller_profile_writer.cc: PropellerProfileWriter::Write, DumpCfgProfile", "llvm_propeller_profile_writer.h: GetProfileEncoding"]}
{"id": "C54", "title": "Merging LLVM profiles adds counts", "statement": "For a function without special handling, the merged LLVM profile has as head count, and as count and number of records at every inline path and location, the sums over the input profiles, as total of an inlined node the sum of the samples under it, and has a node or location exactly if some input has a record there; the order of the inputs is not visible in these. (Call-target counts are those of the last input; the function's own total is the sum of its samples if every input has samples.)", "quantifier": "every list of LLVM profiles with arbitrary nesting", "why_tests_cant": "unbounded trees, all orders", "anchors": ["llvm_profile_reader.cc: LLVMProfileReader::ReadFromFile, ReadFromFunctionSamples", "symbol_map.cc: SymbolMap::AddSourceCount, AddIndirectCallTarget, AddSymbolEntryCount", "profile_merger.cc: main"]}
{"id": "C55", "title": "Merge candidate queues agree", "statement": "For every sequence of insertions and removals of candidate chain merges, the balanced-tree queue uses only valid iterators, both queues are empty exactly when no inserted candidate is left, and both report the same best candidate, namely the one that is better than all others left (larger gain; then smaller chain ids), whatever order the hash map is iterated in; inserting for a pair of chains replaces the candidate of that pair.", "quantifier": "every sequence of insertions and removals, every hash iteration order", "why_tests_cant": "unbounded histories of operations; hash order", "anchors": ["llvm_propeller_node_chain_builder.h: NodeChainAssemblyBalancedTreeQueue, NodeChainAssemblyIterativeQueue", "llvm_propeller_node_chain_assembly.cc: NodeChainAssemblyComparator"]}
{"id": "C56", "title": "Flat profile", "statement": "Building a flat profile gives every function that occurs in the source, outlined or inlined, exactly once and without inlined callees; its head count, line counts, numbers of instructions and call targets are the sums over all its copies, every inlined callee having become a call that happens as often as the callee's first line or call counts, and its total is the sum of its line counts. With selective flattening, functions at or above the threshold are kept unchanged and the others become the flat version of themselves alone (the samples of what was inlined in them are dropped).", "quantifier": "every source profile without aliases, every threshold", "why_tests_cant": "unbounded inline trees, every order of visiting them, 64-bit wrap-around", "anchors": ["symbol_map.cc: SymbolMap::BuildFlatProfile, Symbol::FlatMerge, Symbol::FlattenCallsite, Symbol::EstimateHeadCount"]}
{"id": "C57", "title": "Hybrid profile", "statement": "Building a hybrid profile keeps an inlined callee where it is exactly if its total exceeds the threshold and otherwise makes it a function of its own plus a call; every node of the result has as head count, total, line counts, numbers of instructions and call targets the sums over the source nodes that belong there; what remains inlined is hotter than the threshold; the counters are the numbers of inlined callees and of those turned into calls. (The source, although passed as constant, is modified.)", "quantifier": "every source profile without aliases, every threshold", "why_tests_cant": "unbounded inline trees, 64-bit wrap-around", "anchors": ["symbol_map.cc: SymbolMap::BuildHybridProfile, Symbol::PopulateSymbolRetainingHotInlineStacks, Symbol::FlattenCallsite"]}
{"id": "C58", "title": "LLVM profile that is written", "statement": "Writing a profile in an LLVM format produces exactly the functions whose total is above the threshold, each with its head count and, for every chain of inlined calls and every line and discriminator, the sums of the totals, counts and call targets of the source nodes and lines that have these LLVM coordinates (16 bits of line, 32 bits of discriminator); writing stops only for a function or callee without a name or a sum above 64 bits. If no line is above 65535, nothing is merged, nothing can overflow, and reading the profile back recovers head counts, counts and call targets at every inline path and location. (Lines above 65535 collide.)", "quantifier": "every symbol map, threshold and nesting of inlined calls", "why_tests_cant": "unbounded inline trees, all offsets and counter values", "anchors": ["llvm_profile_writer.cc: LLVMProfileBuilder::VisitTopSymbol, VisitCallsite, Visit, GetNameRef, LLVMProfileWriter::WriteToFile", "profile_writer.h: SymbolTraverser::Start, Traverse", "source_info.h: GetLineNumberFromOffset, GetDiscriminatorFromOffset", "llvm_profile_reader.cc: LLVMProfileReader::ReadFromFunctionSamples"]}
{"id": "C59", "title": "SPE branch counts become instruction ranges", "statement": "Converting taken and not-taken branch counts of a program with fixed-size instructions gives ranges that do not overlap, contain a branch only as their last and a branch target only as their first instruction, and whose weights give every instruction, from the lowest branch target to 4096 bytes behind the highest, exactly its number of executions: the times it is branched to plus the times the instruction before it continues with it; the branch counts are those of the branches with both ends in the binary. (Misaligned targets give ranges that end before they start.)", "quantifier": "every set of branch counts, every program, every translation of addresses", "why_tests_cant": "unbounded sets of branches and addresses; sums along arbitrarily long fall-through paths", "anchors": ["branch_frequencies_autofdo_sample.cc: ConvertBranchFrequenciesToAutofdoRangeSample, ToRangeCountMap, GetIncomingBranchWeights, FirstControlFlowInstruction, ToBranchCountMap"]}
{"id": "C60", "title": "Line tables give every address its source position", "statement": "Reading the line tables (DWARF versions 2 to 4, either byte order, either offset size, addresses of 4 or 8 bytes) of any units consumes exactly their bytes and gives every address the position (directory, file, line, discriminator) of the row that covers it in its sequence, and no position to addresses outside of all sequences or covered by line 0, if sequences do not overlap and none ends where one begins that was read before. (A sequence that is read later and ends exactly at the start of an earlier one hides its first row; version 5 tables are numbered from 1 instead of 0; a wrapping length of an extended opcode never ends.)", "quantifier": "every list of units, every line number program and encoding of it, every address", "why_tests_cant": "unbounded programs and tables; encodings are not unique; the order of reading matters", "anchors": ["util/symbolize/dwarf2reader.cc: LineInfo::Start, ReadHeader, ProcessOneOpcode, ReadLines", "util/symbolize/functioninfo.cc: CULineInfoHandler::DefineDir, DefineFile, AddLine", "util/symbolize/functioninfo.h: AddressToLineMap", "legacy_addr2line.cc: GetInlineStack"]}
{"id": "C61", "title": "The inline stack of an address is the one the debugging entries describe", "statement": "For well formed debugging entries (inlined calls lie within the code they are inlined in, calls side by side and functions of the binary do not overlap, functions the linker dropped lie below the first load segment) GetInlineStack(address) returns, innermost first, the function instance whose code holds the address and then, for every inlined call, the function the call was inlined in with directory, file, line and discriminator of the call; names and start lines come from the declaration reached through specification and abstract origin references. An address in no function gets its position and no function; one without a position gets the empty stack. Whatever the entries are, two out-of-line functions that are kept have no address in common.", "quantifier": "All sequences of compilation units and debugging entry trees of any depth, all addresses; all orders of attributes the specification allows; all line tables", "why_tests_cant": "Trees, ranges and references are unbounded; tests use the output of one compiler for a few functions", "anchors": ["util/symbolize/addr2line_inlinestack.cc: StartDIE, EndDIE, ProcessAttributeString, ProcessAttributeUnsigned, ProcessAttributeSigned, SortAndMerge, FindBadSubprograms, PopulateSubprogramsByAddress, GetSubprogramForAddress, GetDeclaration, GetAbstractOrigin", "util/symbolize/addr2line_inlinestack.h: SubprogramInfo", "legacy_addr2line.cc: GetInlineStack", "util/symbolize/dwarf2reader.cc: ProcessDIEs"]}
{"id": "C62", "title": "Reading debugging entries drives the handler as they were written", "statement": "Reading .debug_info with its .debug_abbrev (DWARF 2 to 5, either byte order, either offset size, addresses of 4 or 8 bytes, full, skeleton and split-id unit headers) calls any handler in the order of the written entries: every unit with its offset, sizes, length and version, every entry with its offset, tag and attribute list before and its end after its children, and in between every attribute with the value that was written (numbers, strings in place, in .debug_str, in .debug_line_str or through .debug_str_offsets, blocks, addresses through .debug_addr, indirect forms), skipping exactly the entries the handler does not want. Each unit is read to exactly its end. Reading ends for all bytes. (Exceptions: an index of an address that takes more than one byte desynchronises the reader and DW_FORM_addrx2 always gives entry 0; negative constants in abbreviations become positive; a skipped entry with DW_FORM_line_strp and abbreviation codes that are not 1, 2, 3, ... end the program.)", "quantifier": "every list of units, abbreviations and entries, every encoding of them, every handler, every contents of the other sections; for termination every byte string", "why_tests_cant": "unbounded trees and encodings that are not unique; the handler decides what is skipped", "anchors": ["util/symbolize/dwarf2reader.cc: CompilationUnit::ReadAbbrevs, SkipDIE, SkipAttribute, ReadHeader, ReadDebugOffsetTableHeader, ReadDebugAddressTableHeader, Start, ProcessAttribute, ProcessDIE, ProcessDIEs", "util/symbolize/dwarf2reader.h: Dwarf2Handler", "util/symbolize/index_helper.cc", "legacy_addr2line.cc: Google3Addr2line::PrepareSingleUnit"]}
{"id": "C63", "title": "From the bytes of a binary to inline stacks", "statement": "For a binary whose .debug_info, .debug_abbrev, .debug_str, .debug_line_str, .debug_ranges and .debug_line sections hold any list of units (units of version 2 to 4, and of version 5 as far as strings are not indexed and no range lists of version 5 are used; line tables of version 2 to 4), the inline stack of every address is the one the written debugging entries and line tables describe: names from any string section, references within and between units, code given by addresses, lengths or range lists relative to the base address of the unit, call sites in the files of the unit's own line table. An address outside of all functions gets its position alone, one without a position the empty stack; a binary with line tables alone gives the position alone. (.debug_str_offsets is not loaded, so the indexed strings of clang's DWARF 5 end the program.)", "quantifier": "every list of units, entries, abbreviations and line programs, every encoding of them, every address, every content of the other sections", "why_tests_cant": "unbounded inputs in four sections that refer to each other", "anchors": ["legacy_addr2line.cc: Google3Addr2line::Prepare, PrepareSingleUnit, GetInlineStack", "util/symbolize/addr2line_inlinestack.cc: StartCompilationUnit, StartDIE, EndDIE, ProcessAttributeString, ProcessAttributeUnsigned, ProcessAttributeSigned", "util/symbolize/dwarf3ranges.cc: AddressRangeList::ReadRangeList", "util/symbolize/dwarf2reader.cc: CompilationUnit::Start, LineInfo::Start"]}
{"id": "C64", "title": "A text sample file becomes the gcov file GCC reads", "statement": "create_gcov run on a binary and a text sample file writes a file, whenever the functions and those inlined into them have names, and that file, read back, holds exactly the functions (split parts merged under their original name) whose samples, and whose attributed counts, exceed the threshold (the given fraction of all samples, at least ten). In each of them every location of every inline path has as count the sum, over the parts of the function, of the number of executions of the most executed instruction there (ranges that cover it, or samples of it without branch records, times its duplication factor), and the entry count is the number of sampled branches to the entries of its parts from sampled functions. File offsets are converted to addresses through the executable segments of the binary.", "quantifier": "every sample file, every binary with functions that do not overlap and have different names, every assignment of inline stacks to addresses, all flags (branch records or not, suffix policy, threshold, file version)", "why_tests_cant": "composes reading, aggregation, attribution, merging, writing and reading of unbounded profiles", "anchors": ["create_gcov.cc: main", "profile_creator.cc: CreateProfile, ReadSample, ComputeProfile", "profile.cc: ComputeProfile, AggregatePerFunctionProfile, ProcessPerFunctionProfile", "symbol_map.cc: BuildSymbolMap, AddSymbol, AddSourceCount, ElideSuffixesAndMerge, CalculateThresholdFromTotalCount", "sample_reader.cc: TextSampleReaderWriter::Append", "profile_writer.cc: AutoFDOProfileWriter::WriteToFile", "profile_reader.cc: AutoFDOProfileReader::ReadFromFile"]}
{"id": "C65", "title": "ELF binaries are read as they were written", "statement": "For every little endian ELF file of either class (executable, shared object or relocatable) the reader returns the segments of the program header table in order and the address of the first load segment; a section asked for by name is the first one of that name (the last in a .dwp package; .zdebug_x also answers to .debug_x) with exactly its bytes; visiting the symbols gives those of .symtab and then those of .dynsym that have a name, in order, with name, size and address (without the Thumb bit on ARM); the symbol map takes exactly the functions (non-empty symbols of type function or called *.cold or *.__part.N, not *@plt, and the discriminator marker); the build id is that of the only GNU build id note. Other files are recognised as not ELF. (Exceptions: names of less than four bytes that share the tail of another name; empty sections at the start of a page; files without section headers.)", "quantifier": "every file, every number of sections, segments, symbols and notes, both classes, every page size", "why_tests_cant": "unbounded tables and byte strings that refer to each other by offset", "anchors": ["util/symbolize/elf_reader.cc: IsArchElfFile, ParseHeaders, GetNumSections, GetStringTableIndex, GetSectionInfoByName, GetSectionContentsByName, GetSegmentInfo, VaddrOfFirstLoadSegment, VisitSymbols, SymbolIterator, AdjustSymbolValue, GetBuildId", "symbol_map.cc: BuildSymbolMap"]}
{"id": "C66", "title": "create_gcov from the bytes of the binary", "statement": "Given the bytes of an ELF binary (either class) whose debugging information describes its functions, inlined calls and line tables, and a text sample file, create_gcov writes a file which, read back, has exactly the functions above the threshold; every count at every inline path and location and every entry count is the one determined by the function symbols of the binary, by its executable segments, by the inline stacks that its .debug_info and .debug_line sections describe, and by the samples. Function symbols are those of .symtab and .dynsym together.", "quantifier": "every binary, every forest of functions and inlined calls, every line program, every set of samples", "why_tests_cant": "composition of the ELF reader, the DWARF readers, symbolization, aggregation, merging and the file format over unbounded inputs", "anchors": ["create_gcov.cc: main", "profile_creator.cc: CreateProfile, ComputeProfile", "legacy_addr2line.cc: Google3Addr2line::Prepare, GetInlineStack", "symbol_map.cc: ReadLoadableExecSegmentInfo, BuildSymbolMap", "instruction_map.cc: BuildPerFunctionInstructionMap", "util/symbolize/elf_reader.cc: GetSectionByName"]}
{"id": "C67", "title": "Counts and ranges from ARM SPE records (create_gcov)", "statement": "Reading a perf.data file with ARM SPE records for a binary counts, at its offset in the binary (through the first mapping of a file of that name), every retired branch that fell through and every branch-target pair as often as recorded, and refuses the file exactly if the binary is not mapped or no record counts. The ranges are exactly the straight-line runs: one from each target, counted by the jumps to it, one behind each not-taken branch that ends a range, counted by its fall-throughs (unless a target is there, or 4096 bytes behind the last target); each ends with the first branch or before the next target, two ranges share no address, no branch or target lies inside of one. Appending a file adds its counts.", "quantifier": "every list of events and records, every mapping, every set of branches and targets of any size", "why_tests_cant": "the ranges depend on the relative order of all branches and targets of the file", "anchors": ["simple_spe_sample_reader.cc: MMapInfo, FindBinaryMMap, SynthesizeRanges, Append, Read", "sample_reader.cc: SampleReader::ReadAndSetTotalCount"]}
{"id": "C68", "title": "sample_merger writes the sum of its inputs", "statement": "Merging sample files (text, or perf through any reader) makes the output file a sample file with the sum of the counts of all inputs, an input named twice counted twice, empty names ignored, and of what the output file held before; no other file changes. The order of the inputs does not matter, merging in two runs is merging at once, a missing input makes the run fail, and a failing run changes no file.", "quantifier": "every file system, every list of inputs, every content of the files", "why_tests_cant": "unbounded numbers of inputs and histories of runs on the same output file", "anchors": ["profile_creator.cc: MergeSample, ProfileCreator::ReadSample", "sample_merger.cc: main", "sample_reader.cc: TextSampleReaderWriter::Append, Merge, Write, IsFileExist"]}
{"id": "C69", "title": "Propeller: from samples and binary to the cluster file", "statement": "For a binary whose functions do not overlap, begin with their first block and have different block ids, and for branch and fall-through counts of any size that together stay in the bounds of int, the run ends either with the error status of the check of the sampled edges or with a cluster file that, read back, has exactly one entry for each function in which a block was executed, sections in byte order of their names, functions of a section by number; an entry has all names and the module of the function and lists, in non-empty clusters, exactly once each of its blocks that was executed (and the entry unless functions are laid out together, and the landing pads if one of them was executed; without splitting all blocks) and no other, the entry block only in front of a cluster. Functions are looked at if a sampled address is in them and their names are their own. Jumps and fall-throughs never leave their function; the symbol ordering file has no symbol twice. None of this depends on the iteration order of hash containers.", "quantifier": "every binary, all samples, every layout option, every iteration order of hash containers, every score function that is not negative", "why_tests_cant": "composes address mapping, graph construction, chain and cluster building and writing over unbounded programs", "anchors": ["llvm_propeller_profile_computer.cc: ComputeProfile, GetProgramCfg", "llvm_propeller_program_cfg_builder.cc: Build, CreateEdges", "branch_aggregation.cc: GetUniqueAddresses", "llvm_propeller_code_layout.cc: GenerateLayoutBySection", "llvm_propeller_program_cfg.cc: GetCfgsBySectionName", "llvm_propeller_profile_writer.cc: Write"]}
{"id": "C70", "title": "Propeller: from options, perf profiles and binary to the cluster file", "statement": "A Propeller run over perf profiles uses exactly the profiles in which the binary is found: under the name the user gave, else (build ids ignored) under its own name, else under the names the profile lists for its build id. An unreadable file makes the run fail, profiles that cannot be used are skipped, and the run fails if none is left, if there is no input, if LBR and SPE inputs are mixed, or if the kind is not supported (unspecified is LBR). The count of every branch and fall-through range (LBR), or of every taken and not taken branch (SPE), is the sum over the samples of the used profiles of what each sample shows, whatever the order of the files and of hash containers; each source address of a branch is classified once by the disassembler. The cluster file then has exactly the executed functions and blocks of these counts, as for the run from counters.", "quantifier": "every list of input files and profiles, every binary, every option, every iteration order of hash containers", "why_tests_cant": "composes profile selection, aggregation over unbounded many profiles and samples, and layout", "anchors": ["llvm_propeller_profile_generator.cc: GeneratePropellerProfiles, GetProfileType", "llvm_propeller_file_perf_data_provider.cc: GetNext", "llvm_propeller_perf_lbr_aggregator.cc: AggregateLbrData, CheckLbrAddress", "llvm_propeller_perf_branch_frequencies_aggregator.cc: AggregateBranchFrequencies", "lbr_branch_aggregator.cc: GetBranchEndpointAddresses, Aggregate", "perfdata_reader.cc: BuildPerfDataReader", "llvm_propeller_statistics.h: DisassemblyStats, ProfileStats"]}
{"id": "C71", "title": "Counts and ranges from ARM SPE profiles and an AArch64 binary (LLVM reader)", "statement": "Appending SPE profiles for an AArch64 binary succeeds exactly if the binary is found in the profile (under the names listed for its build id, or without build id under the names of maps that match the regular expression) and the disassembler, if asked for, exists; otherwise nothing changes. Every branch inside of the binary is then counted, at the file offsets of its ends, as often as the profiles record it, and nothing else is counted; the ranges over each instruction add up to the number of its executions: how often it was branched to plus what came through from the instruction before (its not-taken count if that is a branch, else its executions), over all files. Whether an instruction is a branch is what the disassembler says, or with sampling, whether a branch was sampled there. The run aborts exactly if a recorded branch into the binary has an end below its first executable segment.", "quantifier": "every sequence of profiles, all records, every map of the binary, every iteration order of hash containers", "why_tests_cant": "composes map selection, aggregation of unbounded many records, propagation of counts along instructions and accumulation over files", "anchors": ["spe_sample_reader.cc: CreatePerfDataReader, GenerateAutofdoProfile, CreateBranchIdentifier, Append, AddBranchesAndRanges", "branch_frequencies_autofdo_sample.cc: ConvertBranchFrequenciesToAutofdoRangeSample", "symbol_map.h: GetFileOffsetFromStaticVaddr", "perfdata_reader.cc: SelectMMaps, AggregateSpe"]}
{"id": "C72", "title": "Control-flow graph objects after any history of edge creation and path cloning", "statement": "A client builds control-flow graphs of functions, clones paths of blocks and creates edges or adds to them, in any order. Exactly the calls stated by the rules go through (both nodes exist; an edge inside of a function is not marked inter-section and is created once per pair of nodes; a weight stays an int; a cloned path consists of original blocks): every other call stops the program. Afterwards every node is found under its id (block, clone number), ids are different, clones are numbered from 1 in order of creation and show the same block; the edges seen from the graph, from their source and from their sink are the same ones, of the requested kinds, with the sum of the weights requested; landing pads and recorded paths are those of the history; frequencies, hot join nodes, statistics and hotness are those of the edges; and a copy of a graph has the same nodes and exactly its edges inside of the function.", "quantifier": "every program, every history of calls of any length, every threshold, every iteration order of hash containers", "why_tests_cant": "the consistency of four edge lists per node, two per graph and the clone map under unbounded histories of updates cannot be enumerated", "anchors": ["llvm_propeller_cfg.h: ControlFlowGraph, GetNodeById, GetAllClonesForBbIndex, ClonePath, n_landing_pads, has_hot_landing_pads, is_hot, CFGNode::Clone, addr", "llvm_propeller_cfg.cc: CreateEdge, CreateOrUpdateEdge, GetEdgeTo, GetHotJoinNodes, GetNodeFrequencyStats, CloneCfg", "llvm_propeller_program_cfg.cc: GetHotJoinNodes"]}
{"id": "C73", "title": "Prefetch hints become call-target annotations, one for one", "statement": "A prefetch-hints file of lines 'hex address, signed delta, type' is turned into a profile in which, for every hint whose address lies in a function and has a source location, the function (under its original name) has, at that location and inline path, a call target __prefetch_<type>_<number of earlier hints for that address> whose count is the delta as an unsigned 64-bit number; no hint replaces another when different instructions with hints have different source positions and no instruction has more than 256; the profile has no other functions and no other counts than the bogus samples that keep the functions in the profile.", "quantifier": "every file, symbol table, inline-stack oracle and suffix policy that elides in one step", "why_tests_cant": "tests use one small file; the mapping must hold for every number of hints per instruction, every order, and every way functions share a name", "anchors": ["profile_creator.cc: ReadPrefetchHints, ProfileCreator::ConvertPrefetchHints", "symbol_map.cc: SymbolMap::EnsureEntryInFuncForSymbol, TraverseInlineStack, AddIndirectCallTarget"]}
{"id": "C74", "title": "The profile symbol list names functions outside the profile", "statement": "The symbol list stored in a profile consists of exactly the original names of those function symbols of the binary that the profile does not mention (neither as a function with samples, nor as an inlined function, nor as a call target) and whose size is kept by the coverage rule; if the suffix policy leaves the names of the binary alone, no listed name is mentioned in the profile.", "quantifier": "every profile, symbol table, suffix policy and coverage ratio", "why_tests_cant": "profiles nest to any depth, and the rule relates all names of the binary to all names of the profile", "anchors": ["symbol_map.cc: SymbolMap::collectNamesForProfSymList, collectNamesInProfile", "profile_symbol_list.cc: fillProfileSymbolList", "profile_creator.cc: ProfileCreator::CreateProfile"]}
{"id": "C75", "title": "Names and sections of the functions of the address map", "statement": "Propeller gives every function of the basic-block address map the names of the function symbols at its address, in symbol-table order, dropping those whose size differs from the first one, and the section group of the first (.text for .text and .text.*); a function has symbol information exactly when some function symbol with a name and a size lies at its address.", "quantifier": "every symbol table and address map", "why_tests_cant": "symbol tables of any length, any number of aliases and any order", "anchors": ["llvm_propeller_binary_address_mapper.cc: ReadSymbolTable, GetSymbolInfoMap"]}
{"id": "C76", "title": "The command line of create_llvm_prof", "statement": "create_llvm_prof refuses exactly these combinations of flags, returning 1 and writing nothing: --out and --gcov that differ, neither of them, --ignore_build_id without --format=propeller, both --propeller_split_only and --propeller_layout_only with it, and without it several profiles, a list file, an unknown format, or --prof_sym_list for a format other than extbinary. Every other line is carried out: a Propeller run reads the files named by the list file (its lines that are neither empty nor begin with '#') or separated by ';', in this order, with the type that --profiler stands for when there is a list file and LBR otherwise, recognises the maps of the binary by --profiled_binary_name or else by build id, and writes the files named by --out or --gcov and --propeller_symorder, or fails with 1; any other format passes the flags on to the profile creation and returns 0 or -1.", "quantifier": "every combination of flags, every content of a list file, every set of profiles", "why_tests_cant": "combinations of a dozen flags with list files of any length; main has no tests, and its effect only shows in what the run reads and writes", "anchors": ["create_llvm_prof.cc: main, CreatePropellerOptionsFromFlags, GetProfileTypeFromFlag", "llvm_propeller_options_builder.cc: PropellerOptionsBuilder", "llvm_propeller_perf_lbr_aggregator.cc: ResolveMmapName"]}
{"id": "C77", "title": "What profile_diff prints", "statement": "The number printed by profile_diff is within a relative error of (n+3)/2^24 (n the number of functions) of the overlap of the two profiles, the sum over the functions of the smaller of their shares of the two total counts, and does not depend on which profile comes first, as long as the totals fit 64 bits; it is exactly 0 when either profile is empty or they share no function with a count. The overlap itself lies in [0,1], and is 1 exactly for equal shares. The function comparison lists, for a cutoff of at least one percent, exactly the functions with a count that reach the cutoff percentage of the largest count in one of the profiles, each once with its two counts, those hot in the first by decreasing first count, then the others by decreasing second count, ties by name", "quantifier": "every pair of profiles, every cutoff", "why_tests_cant": "the error bound is over all floating-point roundings of a sum of any length, and the listing over all pairs of profiles and cutoffs", "anchors": ["symbol_map.cc: SymbolMap::Overlap, DumpFuncLevelProfileCompare", "profile_diff.cc: main"]}
{"id": "C78", "title": "What dump_gcov prints", "statement": "dump_gcov prints the functions of the profile that have a count, each once, the larger total counts first and equal ones by name; below each function its positions in order of line and discriminator with the count and the call targets (larger counts first), then its inlined callees, each with its own positions one level deeper. The text does not depend on the order of the hash tables, and nothing printed is lost: two profiles whose names and files have no blank, colon or line end give the same text exactly if their functions with a count, file names, head counts, timestamps, positions, counts, call targets and inlined callees are the same at every depth", "quantifier": "every pair of profiles as they are read from a file, inlining of any depth", "why_tests_cant": "that a nested text can be read back uniquely, and that no iteration order shows, are statements about all pairs of profiles", "anchors": ["symbol_map.cc: SymbolMap::Dump, Symbol::Dump, Symbol::DumpBody, PrintSourceLocation, GetSortedTargetCountPairs", "symbol_map.h: CallsiteLessThan", "dump_gcov.cc: main"]}
{"id": "C79", "title": "The entry count of a symbol", "statement": "Symbol::EntryCount() is the count at the smallest location of the symbol, positions and call sites together; if only an inlined call is there, it is the entry count of the callee, and so on down; locations from line 10000 on are ignored at every level, and without any other it is 0. If no two callees are inlined at the same location, the order of the hash tables makes no difference", "quantifier": "every symbol, inlining of any depth, every iteration order", "why_tests_cant": "tests use two small symbols; the minimum is over all positions and call sites, recursively, and iteration orders cannot be enumerated", "anchors": ["symbol_map.cc: Symbol::EntryCount", "symbol_map.h: Symbol::EntryCount"]}
{"id": "C80", "title": "The sampled functions of a binary", "statement": "GetSampledSymbolStartAddressSizeMap() returns, in order of addresses and each once with its size, exactly the functions of the symbol table that have a count in the profile or are the last ones to begin at or before one of the sampled addresses, if the functions do not overlap and the segments keep the order of the addresses", "quantifier": "every symbol table, set of sampled addresses, set of segments and profile", "why_tests_cant": "the loop skips addresses it takes for covered; that it skips none that matters depends on the whole table and all addresses before", "anchors": ["symbol_map.cc: SymbolMap::GetSampledSymbolStartAddressSizeMap", "symbol_map.h: get_static_vaddr"]}
