# Formal model of the sparta simulation framework: design

The subject is the C++ framework under `/repo/sparta` (kernel, events, resources,
utilities, functional state, checkpointing, memory, cache, statistics, ports).
`properties.jsonl` lists what a user relies on; this file says, for each property,
what is modelled and how it is proved, and what is trusted.

## Ground rules

* One model file per code module (`rocq/theories/<Mod>Model.v`), containing only total
  computable definitions. Each definition cites the file and lines it transcribes;
  simplifications are named in the same comment.
* Lemmas live in `<Mod>Proofs.v`. The property theorems live in `<Mod>Props.v`, with a
  concrete instance (`Example`) beside each theorem and `Print Assumptions` after it.
* C++ outcomes are explicit. A failed `sparta_assert` or a thrown exception is an error
  outcome of the model function. Undefined behaviour (out-of-range access, shift by
  the full width, null dereference) is a separate outcome where the property concerns it.
* Integers are `N`/`Z`/`nat` with wrap-around written out (`mod 2^32`, `mod 2^64`)
  wherever a property depends on it. Otherwise unbounded integers are used and the
  comment says so.
* Where the English claim is false of the code, the claim is kept, the part that holds is
  proved under the name `..._partial`, and `..._refuted` gives a concrete witness.

## Plan per property

| Id | Model | Proof |
|----|-------|-------|
| C01, C02, C05 | `Sched*`: sorted list of tick quanta, each an array of per-group event lists; `schedule`, `cancel`, `isScheduled`, one `fire` step at a time; handlers are an arbitrary function from user state and event to user state and a list of requests | refinement: pending set = occurrences stamped with (tick, group, sequence); every firing step removes the minimum in lexicographic order; trace induction |
| C03 | the `run` driver with stop event and exacting flag | invariant over the loop; the stale stop marker is a `_refuted` witness |
| C04 | precedence check in `scheduleEvent`, drain of the async list in `run` | case analysis on the reachable state; async delay-0 witness as `_refuted` |
| C06-C09 | `Dag*`: vertices with ordered out-lists and in-counts, `link`, `unlink`, Kahn sort with FIFO, three-colour DFS | Kahn invariant (in-count = number of unprocessed predecessors; processed prefix is topologically ordered); exception iff cyclic by finite-descent; DFS by fuel bounded by the number of white vertices |
| C10, C11 | `Sched*`, `SingleCycle*`: the two schedule guards on top of an abstract set of pending ticks | invariant over call sequences; tick-0 and cancel cases as `_refuted` |
| C12 | `Payload*`: pool of proxies, free list, in-flight list | pool partition invariant; trace property |
| C13, C14 | `Clock*`: the two crossing functions with the asserts as error outcomes | division algebra over unbounded integers |
| C15 | `Clock*`: clock tree as an inductive tree, `calcNorm`, `setPeriod` | tree induction; lcm of reduced denominators |
| C16, C17 | `Queue*`: ring of 2^k slots with object ids | refinement to list; window invariant on ids; 32-bit id truncation as `_refuted` |
| C18 | `PriorityQueue*`: ordered insertion into a list | sortedness, stability via insertion stamps |
| C19 | `FastList*`: array of nodes with next/prev indices and free chain | doubly linked representation predicate; refinement to list |
| C20 | `Buffer*`: pool, free list, address map, pointer map | refinement to list in finite mode; insert-then-resize as `_refuted` |
| C21 | `CircularBuffer*` | list algebra (last n of history); insert overflow as `_refuted` |
| C22, C23 | `Array*`: slots plus age list | invariant: age list = valid indices in reverse write order |
| C24 | `Pipe*`: ring of stages with tail rotation | refinement to a list of stage slots; `flushIf` of the append slot as `_refuted` |
| C25 | `Pipeline*`: pipe plus stall bookkeeping | refinement to stage lists; conservation of elements |
| C26 | `SharedData*`: two-state storage with deferred updates | trace induction for one write per cycle; double write as `_refuted` |
| C27 | `Scoreboard*`: master, views, delayed updates | convergence when no clear races; race as `_refuted` |
| C28-C30 | `MathUtils*`: literal transcription with wrap-around and lookup tables | smearing lemma and finite check of the table; binary gcd by measure |
| C31 | `Rational*` | cross-multiplication over N with explicit no-overflow hypotheses; wrap-around subtraction as `_refuted` |
| C32 | `TieredMap*`: tree of nodes with per-tier shifts | refinement to a finite map for node size 2^s, s >= 1; node size 1 as `_refuted` |
| C33 | `BitArray*`: byte arrays with byte/bit shift split | equality with `N.shiftl`/`N.shiftr` on the denoted integer |
| C34 | `RegisterBits*`: 64-bit word arrays, in-place loops | same; in-place shift and `none` as `_refuted` |
| C35 | `SharedPtr*`: control blocks with strong and weak counts | counting invariant; expired lock as `_refuted` |
| C36 | `Layout*`: segment placement | induction over the placement order |
| C37 | `ArchData*`: line map, lazy allocation, fill pattern | refinement to a total byte map |
| C38, C40 | `Ckpt*`: checkpoint tree, delta/snapshot contents, deletion flags, cleanup | invariant: the retained chain of each live checkpoint reconstructs its bytes; deletion of the current checkpoint as `_refuted` |
| C39 | `Storage*`: record streams | round-trip by induction |
| C41 | `DataView*`: byte-level read/write in both byte orders | byte list algebra |
| C42 | `CachedMem*`: cached lines, outstanding writes with previous data | stack-of-overlays invariant; poke as `_refuted` |
| C43 | `MemMap*`: separator tree with red-black fixup | search-tree invariant |
| C44, C45 | `Replacement*` | list permutation; recursion on the tree |
| C46, C47 | `Cache*` | set invariant; refinement to flat memory |
| C48 | `AddrDecode*` | bit algebra; non-power-of-two sets and stride as `_refuted` |
| C49-C51 | `Stat*` | interval sums; partition invariant; documented bucket as `_refuted` |
| C52, C53 | `SyncPort*`, `DataPort*` | monotone arrival ticks |

## Modelled source

Paths are under `/repo/sparta`. Each definition cites its lines; the header of each model file
lists its simplifications. The cited lines are the exact list of what is modelled: code that no definition
cites is not.

| Files | Source | Modelled | Left out |
|---|---|---|---|
| `AddrDecode*` | cache/DefaultAddrDecoder.hpp | the decoding functions |  |
| `MathUtils*` | sparta/utils/MathUtils.hpp | floor/ceil log2, power of two, gcd/lcm, masks, powers, rounding | floating-point helpers |
| `Rational*` | sparta/utils/Rational.hpp | construction, simplification, arithmetic, comparison | stream output |
| `Clock*` | sparta/simulation/Clock.hpp, src/Clock.cpp, sparta/simulation/ClockManager.hpp | crossings, periods, normalisation of the clock tree | tree-node plumbing, frequencies as doubles |
| `PriorityQueue*` | sparta/resources/PriorityQueue.hpp | operations | iterators of std::list |
| `Replacement*` | cache/LRUReplacement.hpp, TreePLRUReplacement.hpp | touch, victim choice, clone | way masks |
| `Sched*`, `SchedTime*` | sparta/kernel/Scheduler.hpp, src/Scheduler.cpp, sparta/events/Scheduleable.hpp, PhasedUniqueEvent.hpp, GlobalEvent.hpp | quanta, scheduling, cancelling, queries, run, async list, elapsed time, completion | watchdog, SystemC, debug output, 64-bit tick overflow |
| `SingleCycle*` | sparta/events/PhasedSingleCycleUniqueEvent.hpp | schedule and fire | debug assertions |
| `Payload*` | sparta/events/PhasedPayloadEvent.hpp | proxy pool, preparation, delivery, cancelling | precedence, labels, destructor |
| `Dag*` | src/DAG.cpp, src/Vertex.cpp, sparta/kernel/Vertex.hpp, DAG.hpp, src/Scheduleable.cpp | links, sort, group numbers, cycle detection | printing, labels |
| `Queue*` | sparta/resources/Queue.hpp | operations and iterators | statistics, collection |
| `CircularBuffer*` | sparta/resources/CircularBuffer.hpp | operations and iterators | statistics, collection |
| `Buffer*` | sparta/resources/Buffer.hpp | operations in both modes, forward iterators | move construction, statistics |
| `Array*` | sparta/resources/Array.hpp, FrontArray.hpp | writes, erasure, ages, first free position | statistics, collectors |
| `Pipe*` | sparta/resources/Pipe.hpp | append, push, writes, flushes, update, shifts | iterators, collection |
| `Pipeline*` | sparta/resources/Pipeline.hpp | constructor, append, writeStage, invalidateStage, stall, clearStall, flushStage/All/Append, handler (de)activation, update, internalUpdate_, drain_, deactivate_, restart_ | precedence between stages, payload events, iterators, collection, registering handlers later |
| `FastList*` | sparta/utils/FastList.hpp | operations and iterators |  |
| `SharedData*` | sparta/resources/SharedData.hpp, utils/ValidValue.hpp | reads, deferred writes, update event |  |
| `Scoreboard*` | sparta/resources/Scoreboard.hpp, src/Scoreboard.cpp | the latency table, views, set, clearBits, registerView, setReady, updates in flight, ready callbacks, printBitSet | parsing and checking the parameters, finding the master in the tree, callbacks that call back |
| `Stat*` | sparta/statistics/CycleCounter.hpp, CycleHistogram.hpp, BasicHistogram.hpp | counting and bucketing | report output |
| `BitArray*`, `RegisterBits*` | sparta/utils/BitArray.hpp, sparta/functional/RegisterBits.hpp | shifts, masks, comparisons, access | big-endian hosts |
| `TieredMap*` | sparta/utils/TieredMap.hpp | find, insertion, operator[], clear | memory statistics |
| `SharedPtr*` | sparta/utils/SpartaSharedPointer.hpp, SpartaSharedPointerAllocator.hpp | shared and weak pointers, allocator | count overflow, threads |
| `Layout*` | sparta/functional/ArchData.hpp, ArchDataSegment.hpp | layout, placement, association | segments added after layout |
| `ArchData*` | sparta/functional/ArchData.hpp, sparta/memory/MemoryObject.hpp | lines, lazy allocation, reads, writes, fill | pools |
| `DataView*` | sparta/functional/DataView.hpp, utils/ByteOrder.hpp | typed and byte accesses | observers |
| `CachedMem*` | sparta/memory/CachedMemory.hpp, BlockingMemoryIF.hpp, DebugMemoryIF.hpp | reads, writes, commit, rollback, merging | pre/post access notifications |
| `Storage*` | sparta/serialization/checkpoint/VectorStorage.hpp, StringStreamStorage.hpp, ArchData saving and restoring | record streams, snapshot and delta saves | state of an object after an exception |
| `Ckpt*` | sparta/serialization/checkpoint/FastCheckpointer.hpp, DeltaCheckpoint.hpp, Checkpoint.hpp, Checkpointer.hpp | creation, loading, deletion, chains, cleanup | squashing branches, printing |
| `Cache*` | cache/BasicCacheItem.hpp, LineData.hpp, BasicCacheSet.hpp, Cache.hpp, SimpleCache.hpp, SimpleCache2.hpp | lookup, victim choice, allocation, reads, writes, invalidation | statistics |
| `MemMap*` | sparta/memory/SimpleMemoryMap.hpp | addition with rebalancing, lookup, translation | dumps |
| `DataPort*` | sparta/ports/DataPort.hpp | send, delivery, cancellation, the container of the last datum | collection, binding, precedence between deliveries in one phase |
| `SyncPort*` | sparta/ports/SyncPort.hpp | send, clock crossing, sliding, back-pressure, recirculation | collection, binding |
| `Register*` | sparta/functional/Register.hpp | construction, write and field masks, reads, writes, pokes, fields, reset, notification of observers | register sets, banks, groups, aliases, callbacks |
| `Trigger*` | sparta/trigger/{SingleTrigger,ManagedTrigger,TriggerManager}.hpp, sparta/src/Trigger.cpp | counter triggers on one clock: creation, copy, assignment, set, deactivate, resetAbsolute, destruction, the clock handler, startup | context counter triggers, triggers on several clocks, names; calls from outside the handler in the Trigger phase or before it in the same cycle |
| `MemIF*` | sparta/memory/DebugMemoryIF.hpp, BlockingMemoryIF.hpp, BlockingMemoryIFNode.hpp, DMIBlockingMemoryIF.hpp, MemoryObject.hpp (BlockingMemoryObjectIFNode) | reads, writes, peeks and pokes with block and window checks, counters, notifications, DMIs, cleaning of the memory behind the interface | translation, supplements, notification handlers that call back, several interfaces to one memory object |
| `TreeName*` | sparta/simulation/TreeNode.hpp, src/TreeNode.cpp, sparta/simulation/RootTreeNode.hpp | names, groups and aliases of nodes and their checks, addChild, privacy levels, location, getChild, hasChild, findChildren, getDeepestMatchingPath, locationMatchesPattern, groups, root, level | tree phases, destruction, tags, search scope above a root, templates that cast the node found |
| `StatInst*` | src/StatisticInstance.cpp, statistics/StatisticInstance.hpp, ExpressionNodeTypes.hpp, ExpressionNodeVariables.hpp | start, end, getValue, accumulateStatistic on trees of instances and functions, with the IEEE doubles of the standard library (SpecFloat) | parsing of expressions; snapshot loggers; sub-statistics; text output |
| `Bounded*` | utils/BoundedValue.hpp | the seven integer constructors, conversion, assignment, ++, --, +=, -=, the reference, with C++ promotion, conversion and overflow written out | floating point operands, which do not compile; the stream output |
| `State*` | simulation/State.hpp, Audience.hpp, StateTracker.hpp | values, both resets, markers with their count and threshold, observers, monitors that look on, force a value or reset, the calls made, copies, the time accounts of the tracker | monitors that attach or detach monitors while signalled, the pool of trackers and its files |
| `Tag*` | utils/Tag.hpp | constructors, copies, assignment, reset of the sequence, text, comparison with tags and texts, with 32-bit wrap | destruction of tags, stream output |
| `StringMgr*` | utils/StringManager.hpp | internString, findString, hasString, isInterned, the counts, writes through the pointers | dumpStrings, static initialisation |
| `Wrap*` | utils/ValidValue.hpp, LockedValue.hpp | constructors, copies, moves, assignments, comparisons, reads, writes through references, serialization | operator<<, construction from several arguments |
| `Squash*` | sparta/serialization/checkpoint/FastCheckpointer.hpp, Checkpoint.hpp, DeltaCheckpoint.hpp | squashCurrentBranch_ with and without a new head, on the checkpointer of Ckpt, and histories with squashes | the destruction of saved checkpoints by the disk; CherryPick threads |
| `Cherry*` | src/CherryPickFastCheckpointer.cpp, sparta/serialization/checkpoint/CherryPickFastCheckpointer.hpp | commitCurrentBranch, saveCheckpoints, teardown, the rows of both tables, the loader with its cached window, the replayer, loading along the chain of deltas | which checkpoints a commit hands over (see Squash), the database and its threads (rows arrive in order), archive and compression; a checkpoint is what loading it does to the state |
| `SignalPort*` | sparta/ports/SignalPort.hpp, sparta/events/PhasedUniqueEvent.hpp | send, delivery on the spot and by the unique event, its assertion, time stamp | the scheduler itself (reduced to what SchedModel shows), binding, precedence between producers and consumers, pullData and clearData |
| `StateTimer*` | sparta/simulation/StateTimerUnit.hpp | allocation and release of timers, startState, endState, dynamicQuery, destruction of the unit as release of every timer, values added to the histograms | hash codes of types (sets are numbers), 64-bit wrap of cycles, text of the histograms, the debug output |
| `Histogram*` | sparta/statistics/Histogram.hpp, EnumHistogram.hpp | construction, names of bins, addValue, largest values, cumulative text | statistics computed as double |
| `Notify*` | sparta/log/NotificationSource.hpp, sparta/simulation/TreeNode.hpp, src/TreeNode.cpp, sparta/simulation/VirtualGlobalTreeNode.hpp (notifications) | building of trees of plain nodes and notification sources, registration and deregistration with lists of names, broadcast, observation state callbacks, posting | destruction of nodes, tree phases and name checks of addChild, ANY_TYPE, observers and callbacks that call back into the tree, MirrorNotificationSource; the glob match is a parameter |
| `ParamTree*` | sparta/simulation/ParameterTree.hpp, src/sparta.cpp 134-147, src/TreeNode.cpp 1492-1535 | the tree of parameter nodes: patterns, create, set, get, exists, isRead, unread report, isRequired, unrequire, merge, copy, assignment | names with characters that are special in regular expressions and not handled by the source; user data, printing, clone(), writing of trees; regex library itself (its meaning for the patterns made here is modelled) |
| `LexCast*` | sparta/utils/SmartLexicalCast.hpp, LexicalCast.hpp | reading unsigned and signed integers from text: separators, prefixes, suffixes, fractions, summands, end position | reading of floating point numbers, booleans and strings |
| `CycleTrigger*` | sparta/trigger/SingleTrigger.hpp (CycleTrigger, TimeTrigger), sparta/src/Trigger.cpp | preparation, set, alignment, deactivation, the event and its callback, startup | several triggers at once, destruction, the state of the scheduler after an event was put at a tick that is over |

## Not modelled

Logging, the phases and tags of tree nodes, parameter sets, report generation, the pipeline-viewer database, the Python
shell, SystemC glue and all string formatting are not modelled. Handlers are arbitrary
functions. Memory allocation never fails. Threads are not modelled; the async queue of
the scheduler is modelled as an arbitrary list of requests found at the drain point.
C++ integer widths are written out where a property depends on them; a host is little endian.

## Where the code departs from the claims

Each entry is a theorem with a concrete witness; the positive theorems beside it say what does hold.

* `C48_nonpow2_sets_refuted`
* `C48_stride_refuted`
* `C37_wide_fill_refuted`: Read strictly, a pattern of four or eight bytes has no defined meaning: filling any line shifts by the full width of the type (ad 1249 with buf_offset 0).
* `C37_wrapping_access_refuted`: A wrapping access is not rejected: the checks add address and size modulo 2^64 (ad 336, 867-870, 934).
* `C37_update_from_refuted`: updateFrom does not make two memories equal: a line the other one never touched keeps its old bytes.
* `C22_objects_refuted`: Overwriting an entry loses the old object: it is never destroyed.
* `C23_read_valid_refuted`: readValid does not return when an entry below the wanted one is not valid: with only entry 1 valid, readValid(0) passes both its assertions and its loop runs for ever.
* `C23_write_back_refuted`: writeBack fails on an empty array of more than 2^31 entries.
* `C33_large_amount_refuted`: Shifting by more than n bytes: the integer result would be 0, the code computes an iterator outside the array.
* `C33_assign_refuted`: ... those made by assignment are not: after b = a, modifying b modifies a.
* `C82_add_refuted`: Claim: += is an addition or an assertion. With the default bounds of a 32 or 64 bit signed type the distance to the upper bound overflows as soon as the value is negative, so adding 1 to a BoundedValue<int32_t> of -1 is undefined (bv 582).
* `C82_construct_refuted`: Claim: a constructor that accepts its arguments stores the bounds it was given. A lower bound below the smallest value of the type is not refused but truncated: a BoundedValue<int8_t> made with 50 and the int bounds -1000 and 100 has the lower bound 24, so it cannot be set to 0 (bv 67-84); bounds of mixed signedness are taken even when they are out of order (bv 262-333).
* `C82_convert_refuted`: Claim: a converted bounded value is within its bounds. From signed to a narrower unsigned type the bounds are cast before they are checked, so the checks always hold: a BoundedValue<int32_t> of 250 with the bounds 0 and 300 becomes a BoundedValue<uint8_t> of 250 with the bounds 0 and 44 (bv 403-418, 476-493).
* `C82_reference_refuted`: Claim: no operator takes the value out of the bounds. The conversion to a plain reference lets every built-in compound assignment that the class does not define, like *=, store any value (bv 676-678).
* `C20_infinite_insert_refuted`: With insert the contents are wrong after the buffer grows: line 998 records the new slot under the wrong index. Pushing 1 and 2, inserting 3 in front and pushing 4 gives 1 1 3 4 in place of 3 1 2 4.
* `C20_infinite_walk_refuted`: In infinite mode, once the buffer has grown, walking from begin() never reaches the third element nor end(): the move constructor of DataPointer drops physical_idx.
* `C20_insert_end_refuted`: insert(end(), x) does not append: it is refused whatever the contents.
* `C20_erase_stale_refuted`: Stale iterators: the documentation (52-64) says that erasing through the iterator of an element already erased throws. The example given there erases another element.
* `C20_reused_iterator_refuted`: The iterator of an erased element becomes valid again, with another value, when its slot is used by a later push_back.
* `C46_plru_fills_first_refuted`
* `C46_touch_lru_refuted`: touchLRU on a valid line makes LRU throw it out although the set has a free way.
* `C46_blind_allocation_refuted`: allocateWithMRUUpdate itself does not look the address up: two valid lines get one tag.
* `C46_nontemporal_refuted`: Non-temporal fills: once both reserved ways hold non-temporal lines, the one filled last is the one replaced.
* `C47_crossing_write_refuted`: The limits are real. A write over the end of a line in no-write-allocate mode reaches the next level behind the back of the cached neighbour.
* `C47_invalidate_refuted`: Invalidating a modified line loses the write.
* `C47_irregular_refuted`: 6 sets, which the constructor accepts: different blocks share set and tag, and a read returns another block's bytes.
* `C42_poke_refuted`: poke of a block that is not held destroys it downstream: the fresh zero-filled line is poked there (cm 372).
* `C42_poke_drop_refuted`: After a poke over an outstanding write, dropping the write undoes the poke in the cache but not downstream.
* `C42_merge_refuted`: Merging another agent's write into a block that is not held makes the rest of the block read as zero.
* `C42_commit_lost_refuted`: A downstream memory with smaller blocks loses a committed write that crosses one of its block borders: the result of tryWrite is ignored (cm 414).
* `C79_count_early_refuted`: Before the teardown getNumCheckpoints counts checkpoints that the database does not let anyone load; if all have the same tick, the loader's constructor asserts although windows have been written.
* `C21_insert_overflow_refuted`
* `C21_window_wrap_refuted`
* `C38_delta_after_delete_refuted`: Where the condition matters. Here 3 is current, a delta on 1, and deleted; deleting 2 then also drops 1, which 3 needs. 4 is a delta on 3, so it lacks byte 0.
* `C38_delta_after_reset_refuted`: ArchData::reset leaves no dirty line behind, so the next delta does not record it.
* `C38_delta_after_forget_refuted`: After forgetCurrent a delta is taken against the head, without what the forgotten checkpoint recorded.
* `C40_deleted_available_refuted`: A deleted checkpoint that a live one depends on is still found, and can be loaded and deleted again.
* `C40_head_delete_refuted`: The head can be deleted (documented to throw); getHeadID, documented to be valid from then on, is then unidentified.
* `C40_current_moves_refuted`: Deleting the current checkpoint leaves it current; it is documented to move back to one that is not deleted.
* `C40_chain_order_refuted`: getCheckpointChain is documented to have the head in front.
* `C40_find_latest_deleted_refuted`: findLatestCheckpointAtOrBefore can give a deleted checkpoint.
* `C59_set_again_refuted`: deactivate() and then set() while the earlier event is outstanding: set() does not look at scheduled_ (SingleTrigger.hpp 496-507), so the earlier event calls the callback, at the old time, and the later one is ignored. The same holds for time triggers.
* `C59_two_kinds_refuted`: A trigger that has been set relatively once cannot be set for an absolute cycle any more: the earlier kind is never forgotten, set_ looks at it first (SingleTrigger.hpp 619-629), and the callback comes after the earlier delay. With prepAbsolute, set() fails an assertion.
* `C59_align_zero_refuted`: An aligned trigger with a delay of 0 divides by zero (SingleTrigger.hpp 623).
* `C59_deactivate_before_start_refuted`: A trigger set and then deactivated before the first run calls its callback all the same: the startup handler sets it again (SingleTrigger.hpp 648-651).
* `C59_in_callback_refuted`: In its callback a trigger cannot be set for a new time: scheduled_ is still true (SingleTrigger.hpp 657-666), and setRelative fails an assertion. set() succeeds, but scheduled_ is then cleared though the new event is outstanding; after deactivate() the trigger can be set again, and the outstanding event calls the callback early.
* `C59_past_refuted`: setAbsolute for a cycle that is over: the documentation says that the event never occurs (SingleTrigger.hpp 487-491); the difference wraps around, and the event is put in the scheduler at a tick that is over.
* `C53_overtake_refuted`: A send with no delay to a port of the sender's phase is delivered on the spot and overtakes what was sent earlier for the same tick.
* `C53_far_refuted`: The sum of the delays is cut to 32 bits: data sent 2^32 cycles ahead is delivered at once.
* `C53_cancel_refuted`: cancel of a DataOutPort also cancels what other DataOutPorts sent to the DataInPorts it is bound to; and isDriven says true of one that has sent nothing.
* `C41_padded_outside_refuted`: readPadded and writeTruncated with a type narrower than the view leave the view: with uint32_t at index 2 of a 16-byte view they access the 8 bytes behind it.
* `C41_truncated_widens_refuted`: writeTruncated<uint32_t> at index 0 of an 8-byte view also clears the other 4 bytes.
* `C41_padded_big_endian_refuted`: readPadded<uint32_t, BE> at index 0 of an 8-byte view returns bytes 4..7, not 0..3.
* `C41_padded_rejects_refuted`: A 32-byte view cannot be read with readPadded<uint64_t> at index 1, where read<uint64_t> is fine.
* `C75_whole_range_refuted`: With all 64-bit numbers as range and one value for each bin, the constructor succeeds but there is no bin: every value makes it throw.
* `C75_labels_refuted`: Otherwise a bin may be named after a largest value of 1, less than its smallest.
* `C75_enum_one_refuted`: An enumeration with one constant is refused.
* `C36_subset_wraps_refuted`: Without [no_wrap] the claim is false: size + subset offset is added modulo 2^64 (ad 1556), so a subset with a huge offset is accepted and lands outside its parent - here exactly on the segment before it.
* `C36_cycle_refuted`: A cycle of subsets is not refused: placeSegment_ recurses without end (ad 1553).
* `C36_unbounded_line_refuted`: A line size of 0, documented as lines without bound (ad 92-93, 428-430), cannot hold two segments: the second one fails an assertion (ad 1600); and a DataView cannot be placed at all (ad 934).
* `C36_largest_line_refuted`: The largest line size the constructor admits, 2^31, makes its mask computation undefined (ad 492).
* `C61_end_pos_refuted`: C61, not as documented: end_pos is npos if all characters are consumed (sl 123) fails when recursion is not allowed and the text ends in a suffix: reading "5k" leaves 2.
* `C61_overflow_refuted`: C61, not as expected: a number too large for 64 bits is refused only if its digits alone are; after multiplication by the suffix, and in the sum, it wraps silently. 20000p, 2 * 10^19, is read as 1553255926290448384.
* `C61_fraction_refuted`: C61, not as documented: "guarantee NO floating point rounding errors" and the refusal of a fraction that does not represent an integer (sl 346-359) do not extend to the binary suffixes: 0.3ki is 307.2, and is read as 307.
* `C61_fraction_zero_refuted`: C61, not as expected: a digit 0 in a fraction is refused, although the number is whole: 1.05M is 1050000.
* `C61_fraction_place_refuted`: C61, not as expected: from the tenth digit of a fraction on the place is computed modulo 2^32. 0.1111111111p is 111111111100000, and is read as 111111111709186.
* `C61_crash_refuted`: C61, not as expected: 33 digits in a fraction divide by zero - the place 10^32 is 0 modulo 2^32; two points in one summand fail an assertion.
* `C61_radix_refuted`: C61, not as expected: a run of decimal digits need not be read in one radix. 019 is neither 19 nor refused but octal 1 plus decimal 9, and 0b12 is binary 1 plus decimal 2.
* `C62_small_refuted`: C62, not as expected: the bounds tested for int16_t and int8_t are those of one bit more (sl 483-484, 497-498), so 40000 is read as -25536 and 200 as -56.
* `C62_int64_min_refuted`: C62, not as expected: reading the smallest int64_t multiplies it by -1 (sl 457-459), which overflows.
* `C62_wrap_refuted`: C62, not as expected: since the 64-bit value has wrapped before, a number far too large can be read as a small unsigned value: 18446744073709552k as 384 in 16 bits.
* `C62_minus_refuted`: C62, not as expected: a lone minus sign is read as 0.
* `C30_lcm_zero_refuted`
* `C30_safe_power_refuted`
* `C60_poke_stops_refuted`: "Data in memory is not expected to be modified upon an illegal poke" (db 489): an implementer that refuses the second of two blocks has had the first poked before tryPoke returns false.
* `C60_dmi_dead_refuted`: A DMI that has been invalidated cannot be replaced: whatever is called after invalidateAllDMI, asking for the block's DMI again returns the same invalid object, and reads through it return false.
* `C60_dmi_poke_refuted`: An invalidated DMI still peeks and pokes.
* `C60_dmi_after_clean_refuted`: Once the memory object has been cleaned - which is also what restoring a snapshot does first - a DMI handed out before says it is valid and using it touches deleted memory.
* `C60_dmi_checkpoint_refuted`: A write through a DMI is missing from the next delta checkpoint: a snapshot is saved, the same byte is written once through the DMI and once through the interface, and only the latter leaves anything in the delta.
* `C60_dmi_outside_refuted`: getDMI outside the window raises an exception instead of returning nullptr (mo 320-321).
* `C60_wrap_refuted`: Address and size that wrap pass the checks: a poke of eight bytes four bytes below the top of the address space, through the DMI of block 0, writes in front of the block; through the interface it raises an exception instead of returning false; a read with a size close to 2^64 copies that many bytes out of a block.
* `C60_empty_refuted`: Empty accesses: refused at the start of a block, accepted elsewhere; a peek of nothing at the end of the window raises an exception.
* `C43_destination_in_range_refuted`: An accepted mapping whose destination addresses lie outside the interface: the size needed is computed modulo 2^64.
* `C43_verify_wraps_refuted`: An access that passes the top of the address space is reported as inside one mapping.
* `C43_large_blocks_refuted`: Block sizes from 2^31 on: the mask is computed in int.
* `C67_list_refuted`: A list of names registered before the source is in the tree reaches no source: the whole text is then compared with the name of the source (ns 617-632 with tn 3076-3080). Registered after, it reaches it.
* `C67_private_refuted`: A private subtree is passed by when an observer registers above it, but not when it is put below an observer.
* `C67_child_refuted`: A node constructed with its parent given stays in [parentless_map_] (tc 131-151): an observer registered on the virtual global node is then called once for every such node on the path and once for the root.
* `C67_global_child_refuted`: A source that is itself a child of the virtual global node is never told of a registration there, and told twice if the registration was there before.
* `C68_ensure_list_refuted`: Asking for a possible source refuses every list of several names, though a source below has one of them (tc 2559-2570 takes the text for one name).
* `C68_malformed_refuted`: A malformed list is refused with an exception only after the observer has been kept (tn 4340-4348): registering it again is refused as double, deregistering it is refused too.
* `C68_ensure_global_refuted`: On the virtual global node, asking for a possible source is always refused, even though a source in the tree can send what is asked for (vg 229-233 and tc 2572-2587 look at its own children only).
* `C69_attach_refuted`: Coming below an observed node makes a source observed without any callback (ns 597-638), though deregistering that observer later calls them.
* `C65_copy_refuted`: A tree in which a parameter has a value and others sit below it (set in the order that works) cannot be copied: the copy constructor fails.
* `C65_self_assign_refuted`: Assigning a tree to itself empties it.
* `C65_failed_merge_refuted`: A merge that fails has already changed the tree.
* `C63_cannot_fail_refuted`: "It cannot fail" (documentation of set, sparta/simulation/ ParameterTree.hpp 1233-1238) is false: once "a" has a value, "a.b" cannot be set. Setting the two the other way round works.
* `C63_bracket_refuted`: A parameter whose name holds a bracket or a parenthesis can be set but never read: these characters count as wildcards, and reading asserts that there are none (sparta/simulation/ParameterTree.hpp 1574-1577).
* `C63_walk_refuted`: Walking down from node to node (getChild, operator[]) does not find what the full path finds: the newest match of the first name hides the older ones.
* `C63_exists_refuted`: exists() answers differently for nodes without a value: true for a path of one name, false for a longer one (sparta/simulation/ParameterTree.hpp 1591-1599 against 1618).
* `C63_handle_refuted`: A node obtained from create and given its value later keeps its old place: the value set last is not the one read.
* `C64_exists_refuted`: Asking whether a parameter exists or has a value counts as reading it (sparta/simulation/ParameterTree.hpp 1304-1317, 1581-1589): the report of unread parameters misses a parameter whose value nobody has looked at.
* `C64_unrequire_refuted`: Taking back a requirement counts as reading (sparta/simulation/ ParameterTree.hpp 1402-1404).
* `C64_overwrite_refuted`: A value set after the last read counts as read (sparta/simulation/ ParameterTree.hpp 628-640: setValue leaves the read counter alone).
* `C64_shadow_refuted`: A read marks also the parameters whose values it does not deliver: an overridden pattern counts as read although its value was never used (sparta/simulation/ParameterTree.hpp 1581-1589).
* `C64_twice_refuted`: A parameter can appear twice in the report, once with a value that can no longer be read: setting "a.x" again after a pattern that covers it makes a second node (sparta/simulation/ParameterTree.hpp 566-570).
* `C66_hidden_refuted`: A required parameter stops being required when a longer path is set whose beginning covers it: the node made on the way hides the parameter (sparta/simulation/ParameterTree.hpp 498-501, 1643-1652).
* `C66_optional_refuted`: Setting a parameter again as not required does not make it optional (sparta/simulation/ParameterTree.hpp 628-640).
* `C66_unrequire_others_refuted`: Taking back the requirement of one path takes back that of others: the node found may be a pattern (sparta/simulation/ParameterTree.hpp 653-658, 1402-1409).
* `C66_unrequire_below_refuted`: Nor does it reach every node below the path: "a.x" was set in an older node than the pattern that unrequire("a") finds.
* `C12_handler_payload_refuted`: A handler that cancels the event (or drops the last handle of the payload it was called with) destroys the payload it is reading; the next preparation overwrites the storage with another payload.
* `C12_cancel_at_refuted`: cancel(0) called in the tick and group in which a payload has just fired hits the proxy's old slot: the proxy, used again for a payload of a later tick, is given back although its slot is pending; the delivery fails, or if the proxy has been taken again, delivers the payload of tick 9 at tick 3.
* `C12_move_refuted`: A moved handle is counted once but given back twice: the payload is destroyed and its storage handed out again while the new handle still refers to it.
* `C12_self_assign_refuted`: Assigning the only handle of a payload to itself gives the payload back.
* `C12_counts_refuted`: The documented results "number of cancelled events" of cancel(rel_cycle) and "driven at all" of isScheduled() are the number of outstanding payloads instead: here nothing is scheduled, and nothing is cancelled.
* `C24_flushif_refuted`: flushIf counts the datum in the append slot as a valid stage: the count becomes 2^32-1.
* `C24_own_stuck_refuted`: The wrong count then stops a self-updating pipe: a datum appended later sticks at stage 0.
* `C25_upstream_held_refuted`: A stall without crush_bubbles does not hold everything upstream: the datum in the append slot still enters stage 0 if that is empty.
* `C25_deactivated_stays_refuted`: The end of a stall activates the handlers of the stages up to the stalled one, also those that deactivateEventAtStage had switched off before.
* `C25_flush_cancels_refuted`: flushStage does not cancel the pending handlers of a stage whose handlers a stall has just suppressed: they run on a flushed stage.
* `C25_stalled_at_refuted`: With crush_bubbles, isStalledOrStallingAtStage reports a stage as stalled although its datum moves with the next update.
* `C25_stall_ends_refuted`: The stall of a self-updating pipeline that runs empty (its stalled stage invalidated) never ends by itself: no update is pending, however many cycles pass.
* `C17_id_truncation_refuted`
* `C31_sub_refuted`
* `C34_shift_right_refuted`: The undefined amounts are real: a 128-bit register shifted right by 1 evaluates an int shift by 63, and one shifted right by 193 runs past its words.
* `C34_shl_assign_refuted`: For every other word count the in-place shift is wrong on some register of that size.
* `C34_none_refuted`: none() is true of non-zero registers too: whenever all bytes are equal, so for every one-byte register.
* `C34_copy_refuted`: Copying a mutable wrapper of at most 8 bytes, and moving any mutable wrapper, loses the value.
* `C57_overflow_refuted`: A value too large for the field is not always refused. In the topmost field of a register 2^width is stored as 0; in an eight-byte register a value whose excess bits are the same in every byte overwrites the neighbours of the field.
* `C57_wide_refuted`: In a 32-byte register, a field within bits 64 to 127 has its mask at bits 192 to 255: it reads as 0 whatever the register holds, and writing it changes bits of other fields.
* `C56_unmasked_index_refuted`: Register::writeUnmasked<T>(value, index) does not do what the other typed accesses do: index 1 of a 4-byte type overwrites bytes 1 to 4 instead of 4 to 7, an index past the register overwrites what lies behind it, and observers are not told.
* `C56_odd_size_refuted`: Masked writes of a size without RegisterBits implementation (3, 5, 6, 7, 9, ... bytes) are undefined although in range: they store indeterminate bytes or access memory behind the objects.
* `C56_wrap_refuted`: The bounds assertion adds in 64 bits: an offset just below 2^64 passes it and the access lands in front of the register.
* `C56_not_writable_refuted`: A register defined as not writable refuses writes only where assert() is compiled in.
* `C03_stale_stop_refuted`
* `C04_async_refuted`
* `C05_self_refuted`
* `C10_async_refuted`
* `C10_restart_refuted`
* `C54_restart_refuted`: A restart after a run breaks the count: at tick 10 the scheduler reports 12 elapsed ticks.
* `C55_stale_stop_refuted`: The left-over stop marker of an earlier run ends a run without limit while continuing events are pending.
* `C55_async_refuted`: A continuing event handed over by scheduleAsyncEvent to an idle scheduler is not run by run(), which reports finished.
* `C27_late_update_refuted`: Each of the three conditions is needed. A bit cleared while an update of it is on its way: the update is delivered, the view says ready, the master not ready, and nothing is on its way.
* `C27_new_view_refuted`: A view created after clearBits of one of the first 32 bits starts with it ready.
* `C27_no_latency_refuted`: A consumer without a latency from the producer never learns of its bits.
* `C27_create_refuted`: A view cannot be created while the master has no bit ready: the assertion of receiveScoreboardUpdate_ fails.
* `C27_already_ready_refuted`: A callback registered when its bits are already ready is not invoked, then or later, until some update reaches the view.
* `C27_print_refuted`: A range that reaches bit 511 is printed without its end: 500 to 511 is printed as "[500]".
* `C26_several_writes_refuted`: With more than one write in a cycle the value is lost: after the updates of the next cycle nothing is valid.
* `C26_early_write_refuted`: A write made before the due update of its cycle has fired (phase Trigger, or earlier in Update) is visible in its own cycle and is lost in the next one.
* `C26_move_refuted`: Copying or moving the object forgets the pending update: the written value never becomes visible.
* `C35_lock_expired_refuted`: lock() of an expired weak pointer to an object made by the allocator gives a non-null pointer to the destroyed object, and with two such locks the object is destroyed a second time.
* `C35_lock_dangling_refuted`: Also on the heap: the control block is deleted while the locked pointer still uses it.
* `C35_assign_from_member_refuted`: [p = p->next] where [p] is the only owner of its object: the operand dies before it is read.
* `C35_reset_member_refuted`: An object that owns itself and is released by [x->self.reset()].
* `C77_once_refuted`: A handler can be called more than once in a tick, and signals received on the spot are not put together with those of the event.
* `C77_far_refuted`: A delay of 2^32 cycles is none: the signal arrives at once.
* `C11_tick0_refuted`: In tick 0, schedule(1) followed by schedule(0) loses the call in tick 0.
* `C11_cancel_refuted`: After cancel() a new request in the same cycle is ignored.
* `C11_off_edge_refuted`: Requests made between the edges of the event's clock, from a handler of another clock domain, can run the handler twice in one tick: schedule(1) at 10, then schedule(1) and schedule(0) at 15, then schedule(0) at 20.
* `C80_after_delete_refuted`: A user who deletes a checkpoint and later squashes can end the program: with the head deleted a null pointer is followed, with a delta in the way deleted an assertion fails, though every call before went well.
* `C80_new_head_count_refuted`: A squash with a new head does not count down the checkpoints of other branches it drops: one checkpoint is left, the counters say three and two.
* `C81_last_tick_refuted`: Claim: a window that is ended stays as it was. One that is ended at the last tick there is, 2^64 - 1, is taken for one that is not ended: it goes on counting.
* `C81_count_refuted`: Claim: over any window the value of a counter is the number of events counted in it. It is not: at 2^53 the counter and its starting value are both rounded to doubles before they are subtracted, so a window in which one event was counted reads 0 (si 189, 554).
* `C81_free_refuted`: Claim: an instance made from a free expression can be started like any other. It cannot before setContext was called: it has no scheduler and no node to ask, and the assertion in getScheduler_ fails (si 566-589).
* `C50_same_cycle_refuted`: Read in the cycle of an addValue, the counts exceed the elapsed cycles by one.
* `C50_add_twice_refuted`: A second addValue in the same cycle fails an assertion.
* `C51_documented_refuted`: The charged bucket is not the documented one: with the bounds 0, 10, 20 of the header's example the value 10 belongs to bucket "greater than 0 and less than or equal to 10" but so does, by the documentation, 5 - and the code charges 5 to the first bucket and 10 to the second.
* `C51_off_by_one_refuted`: In general: a value strictly between two neighbouring bounds is never charged where the documentation says.
* `C51_empty_refuted`: An empty bucket list is accepted by the constructor, and the first value then indexes outside the counters.
* `C83_threshold_refuted`: The threshold is documented as the least number of markers that must call in. It is the number that may be missing: with two markers and a threshold of two one call is enough, and with three markers and a threshold of one it is not.
* `C83_late_refuted`: With a threshold, every further marker moves the state again: a value set since the transition is lost when the last marker calls in.
* `C83_clear_refuted`: isClear is documented to tell that the state never reached a value. It is true of the value the state was made with, and of the one it was reset to.
* `C83_time_refuted`: A transition made by markers is not told to the tracker: the time in the new value is counted for the old one. So is the time after a reset.
* `C83_bool_refuted`: A State<bool> that is given true to start with is false, from the constructor on and after every reset.
* `C83_monitor_refuted`: A monitor is documented to be called when its value is up for selection. It is called by every marker, when others are missing too.
* `C83_monitor_reset_refuted`: A monitor that resets the state when it is called leaves its marker marked and not counted; the next clear of that marker fails an assertion.
* `C83_copy_refuted`: A copy has the observers of the original, so one enrolment is answered by both; and it counts the markers of the original, which nobody can set in the copy: with a marker of its own that is set it still waits for them.
* `C76_cycle_zero_refuted`: A state started in cycle zero cannot be left by starting another one, at no time, though ending it and then starting the other is accepted.
* `C39_read_past_end_refuted`: Reading one ArchData more than was written is not noticed by the vector class: it looks like an empty one. The stream class throws.
* `C39_line_in_pieces_refuted`: The vector class takes a line's bytes in one piece only; the stream class joins pieces.
* `C85_write_refuted`: Claim: the pointer of an interned string points to that string. The pointers are not const: after a write through one, its string is interned under a pointer to another text, and two different pointers point to equal texts.
* `C52_order_refuted`: Without these conditions the order is not kept: a datum that finds the receiver not ready comes after data sent later.
* `C52_not_ready_refuted`: Or its delivery event fails an assertion and it is lost, the tick it would go round to being taken.
* `C52_one_cycle_refuted`: After the port has become ready it is not always one cycle until data that went round is delivered, as the comment of setReady says.
* `C52_is_ready_refuted`: isReady of the sender does not see what was sent in this cycle, couldAccept_ (859) giving the current tick as the delay: it says ready and send fails.
* `C52_is_ready_waiting_refuted`: Nor does it see data going round for the next cycle.
* `C52_slide_refuted`: sendAndAllowSlide from a slow clock to a fast one fails for the second datum of a cycle, after it has been scheduled: it is delivered although refused.
* `C52_next_available_refuted`: For a sender slower than the receiver the next available cycle may be the current one when nothing can be sent in it.
* `C52_driven_refuted`: isDriven of the sender says no while data is in flight that will arrive before what could be sent now.
* `C52_tick_zero_refuted`: setReady cannot change the state in tick 0, though it was not called before.
* `C84_copy_refuted`: A copy of a tag has its own count of children: the copy and the original hand out equal children.
* `C84_reset_refuted`: After resetGlobalSeqNum new tags are equal to the first ones.
* `C84_wrap_refuted`: The numbers wrap: the 2^32nd tag has the number 0, and the one after it is equal to the first.
* `C84_assign_refuted`: A tag that is assigned one of its children becomes its own parent: its text and its comparison with itself do not end.
* `C32_size_one_refuted`: A node size of 1 is accepted by the constructor, but storing any key other than 0 recurses without end.
* `C32_size_wide_refuted`: From a node size of 2^31 on, the constructor shifts an int out of range (undefined behaviour).
* `C71_unique_refuted`: Without names it is not so: two nodes of one group, both without a name, have one location.
* `C71_private_refuted`: Privacy is not kept by getChild: from inside a private subtree a path through the parent reaches into another private subtree; only the levels of the two ends are compared. findChildren does not find the node.
* `C72_texts_refuted`: With three parts the texts come in another order: those of the second and third part are exchanged.
* `C72_example_refuted`: The last example in the documentation of findChildren (sparta/simulation/TreeNode.hpp 1386-1417) finds nothing: two dots at the beginning go up twice.
* `C72_deepest_refuted`: getDeepestMatchingPath does not give back the path of a node that exists: its name comes twice.
* `C73_inverse_refuted`: It is not the inverse of findChildren: a node known only by its group is found but does not match, and a pattern that ends with a dot finds a node but asking whether that node matches throws.
* `C73_up_refuted`: A pattern that begins with a dot, to go up, is not refused as the documentation says; the dot is passed over.
* `C74_two_parents_refuted`: Adding a node that has a parent already is a critical error, but then the node is a child of both and keeps the first as its parent.
* `C74_underscores_refuted`: Two underscores one after the other are documented as forbidden (sparta/simulation/TreeNode.hpp 894-900) but accepted in the middle and, because of a wrong offset, at the end of a name; and with one character behind them they are refused.
* `C58_deactivate_last_refuted`: Deactivating the only active trigger between cycles destroys its clock handler, whose event the scheduler still holds: the next cycle calls a destroyed object (removeTrigger, TriggerManager.hpp 140-154; ~ClockHandler, 199-200).
* `C58_after_firing_refuted`: Once its triggers have fired the handler stays, without triggers; taking away a trigger that has already fired - destroying it, for instance - then destroys the handler, with the same result.
* `C58_in_callback_refuted`: A callback that deactivates another trigger of the same clock: if that trigger comes later in the cycle, check() fails its assertion (ManagedTrigger.hpp 67), although it had been watched when the cycle began; if the callback destroys it, check() is called on a destroyed object (clockTick_, TriggerManager.hpp 359-370). If it came earlier, all is well.
* `C58_rearm_then_stop_refuted`: A callback that re-arms its trigger and then stops it: the cycle succeeds, and the next one fails the assertion in check(), because the deferred additions come after the deferred removals (TriggerManager.hpp 170-174). Setting the point twice fails at once.
* `C58_before_run_refuted`: Before the first run: deactivate() has no effect, the startup handler activates the trigger all the same (ManagedTrigger::registerSelf_, Trigger.cpp 107-117); resetAbsolute makes the first run fail an assertion, as the trigger is registered twice; a copy of the trigger never fires, as a trigger is not active yet when it is copied; and destroying the trigger makes the first run call a destroyed object.
* `C58_self_assign_refuted`: A trigger assigned to itself is deactivated and stays so (CounterTrigger::operator=, Trigger.cpp 59-70).
* `C86_write_refuted`: Refuted: that a locked value cannot be overwritten (lv 20-21). getValue and the conversion of an object that is not const give a reference that may be written.
* `C86_stale_refuted`: Refuted: that comparing ValidValues compares valid values. Only the left one is asked: one whose validity was cleared still equals by its old value when it is on the right, and the same comparison the other way round throws.
* `C86_moved_refuted`: Refuted: that a ValidValue moved from is not valid. The move constructor clears the validity of its source, move assignment does not, and the source then gives what moving left in it, a value nobody assigned.

## Trusted base

* Coq 8.16.1's kernel, checked again with `coqchk`.
* `Print Assumptions` stands after every property theorem (591 of them). Each one prints
  `Closed under the global context`: no theorem depends on any axiom.
* `coqchk -o` lists seven library axioms, `Coq.ssr.ssrunder.Under_rel.*`. They are the sealed
  module of the standard library's `ssrunder`, loaded by `lia`/`ssreflect` support files. No theorem uses them.
* The faithfulness of the transcriptions named above, which was checked by reading the source.
* `seeded/LOG.jsonl` records deliberate errors put into the definitions and the theorems that failed.
