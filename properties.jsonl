{"id": "C01", "title": "Scheduler firing order", "statement": "Whatever events are scheduled, cancelled or scheduled again from inside handlers, the events that fire during run() fire in non-decreasing tick order; within a tick in non-decreasing precedence-group order; and two events scheduled for the same tick and group fire in the order in which they were scheduled.", "quantifier": "every finite sequence of schedule / cancel / run calls, and every behaviour of the event handlers (each handler may schedule or cancel any events)", "why_tests_cant": "the order must hold for all interleavings of handler-made schedules; a test fixes a handful of event graphs", "anchors": ["sparta/sparta/kernel/Scheduler.hpp: TickQuantum, scheduleEvent", "sparta/src/Scheduler.cpp: scheduleEvent, determineTickQuantum_, run"]}
{"id": "C02", "title": "Scheduler exactly-once delivery and cancellation", "statement": "Every event occurrence accepted by the scheduler fires exactly once, at exactly the tick it was scheduled for, unless it is cancelled before that tick is reached, in which case it never fires; nothing that was not scheduled ever fires.", "quantifier": "every finite sequence of schedule / cancel / run calls and every handler behaviour", "why_tests_cant": "loss or duplication of one occurrence may need an arbitrary mix of schedule, cancel and run calls", "anchors": ["sparta/src/Scheduler.cpp: scheduleEvent, cancelEvent, run", "sparta/sparta/kernel/Scheduler.hpp"]}
{"id": "C03", "title": "run(num_ticks) stays within its window", "statement": "run(n) fires only events whose tick lies in [t, t+n) where t is the current tick at the call; after an exacting run(n) the current tick is t+n and later runs are unaffected by the stop marker of earlier runs.", "quantifier": "every scheduler state reachable by any sequence of schedule / cancel / run calls and every n", "why_tests_cant": "needs every history of earlier runs: the stop marker of an earlier run can leak into a later one", "anchors": ["sparta/src/Scheduler.cpp: run, scheduleEvent (stop_event_)"]}
{"id": "C04", "title": "Scheduling into the past is always refused", "statement": "While a tick is being processed, a request to schedule an event for the current tick into a precedence group that has already been passed is refused with an exception and leaves the pending events unchanged; any other request is accepted and the event will fire in the current run no earlier than requested. This includes events posted with scheduleAsyncEvent.", "quantifier": "every reachable state of the running scheduler, every group and delay", "why_tests_cant": "depends on the exact group currently firing and on what else is pending", "anchors": ["sparta/src/Scheduler.cpp: scheduleEvent, scheduleAsyncEvent, run"]}
{"id": "C05", "title": "isScheduled reports exactly the pending occurrences", "statement": "isScheduled(e) and isScheduled(e, rel) return true exactly when an occurrence of e is pending (at any tick, or at current tick + rel).", "quantifier": "every reachable scheduler state, every event and relative time", "why_tests_cant": "requires agreement of a search over an intrusive list of quanta with the abstract set of pending events for all histories", "anchors": ["sparta/src/Scheduler.cpp: isScheduled, cancelEvent"]}
{"id": "C06", "title": "Precedence links are honoured by group numbers", "statement": "If finalisation of the precedence graph succeeds, then for every link a->b the group of a is strictly smaller than the group of b; every group number lies between 1 and the reported number of groups; and every vertex that was linked has been numbered.", "quantifier": "every finite set of vertices and every sequence of link/unlink calls", "why_tests_cant": "graphs of unbounded size and shape", "anchors": ["sparta/src/DAG.cpp: link, sort, finalize", "sparta/src/Vertex.cpp: link, unlink", "sparta/sparta/kernel/Vertex.hpp"]}
{"id": "C07", "title": "Finalisation fails exactly on cyclic precedence graphs", "statement": "Sorting the precedence graph raises CycleException if and only if the links contain a directed cycle, and the internal consistency assertions of the sort never fire.", "quantifier": "every finite set of vertices and every sequence of link/unlink calls", "why_tests_cant": "graphs of unbounded size and shape", "anchors": ["sparta/src/DAG.cpp: sort, finalize", "sparta/src/Vertex.cpp"]}
{"id": "C08", "title": "Cycle detection is exact and the reported cycle is real", "statement": "detectCycle() is true if and only if the graph has a directed cycle; when a cycle is reported, the reported vertex list is a non-empty path of existing links whose last vertex has a link back into the list (so printing it never trips its assertion).", "quantifier": "every finite graph built by link/unlink", "why_tests_cant": "depth-first search over unbounded graphs", "anchors": ["sparta/src/Vertex.cpp: detectCycle, findCycle", "sparta/src/DAG.cpp: detectCycle, getCycles_, CycleException::writeCycleAsText"]}
{"id": "C09", "title": "Scheduling phases are totally ordered", "statement": "In every finalised precedence graph, an event assigned to an earlier scheduling phase is in a strictly lower group than every event assigned to a later phase (Trigger < Update < PortUpdate < Flush < Collection < Tick < PostTick).", "quantifier": "all event populations, all additional precedence links that keep the graph acyclic", "why_tests_cant": "user links are arbitrary", "anchors": ["sparta/src/DAG.cpp: initializeDAG_", "sparta/src/Scheduleable.cpp: setupDummyPrecedence"]}
{"id": "C10", "title": "UniqueEvent fires at most once per tick", "statement": "However many times a UniqueEvent is scheduled for the same tick, its handler runs exactly once in that tick.", "quantifier": "all sequences of schedule calls with arbitrary delays", "why_tests_cant": "all multiplicities and orders of calls", "anchors": ["sparta/sparta/events/PhasedUniqueEvent.hpp: schedule", "sparta/sparta/kernel/Scheduler.hpp: addEventIfNotScheduled", "sparta/src/Scheduler.cpp: scheduleEvent"]}
{"id": "C11", "title": "SingleCycleUniqueEvent fires once at each requested tick", "statement": "For every pattern of schedule(0)/schedule(1) calls the handler of a SingleCycleUniqueEvent runs exactly once in each tick that was requested and in no other tick.", "quantifier": "every sequence of schedule, cancel and time-advance steps", "why_tests_cant": "depends on the history remembered in two tick registers", "anchors": ["sparta/sparta/events/PhasedSingleCycleUniqueEvent.hpp: schedule, scheduleRelativeTick, cancel"]}
{"id": "C12", "title": "PayloadEvent delivers every payload exactly once", "statement": "Each payload prepared and scheduled on a PayloadEvent is delivered to the handler exactly once and unmodified, or not at all if it was cancelled; payloads in flight never share storage; and when nothing is in flight no storage is leaked.", "quantifier": "every sequence of prepare / schedule / fire / cancel / cancelIf calls", "why_tests_cant": "proxy reuse problems appear only in particular interleavings", "anchors": ["sparta/sparta/events/PhasedPayloadEvent.hpp: allocateProxy_, preparePayload, deliverPayload_, reclaimProxy_, cancel, cancelIf, getNumOutstandingEvents"]}
{"id": "C13", "title": "Clock-domain crossing delivers at the first legal edge", "statement": "A value sent over a clock crossing arrives on a rising edge of the destination clock, not earlier than the requested source and destination delays allow, and on the first such edge.", "quantifier": "all current ticks that are source edges, all clock periods, all delays", "why_tests_cant": "unbounded integers; all period ratios", "anchors": ["sparta/sparta/simulation/Clock.hpp: calculateClockCrossingDelay", "sparta/sparta/simulation/Clock.hpp"]}
{"id": "C14", "title": "Reverse clock-domain crossing is the latest sending edge", "statement": "For a required arrival edge, the reverse crossing computation yields the latest source-clock edge from which the forward crossing still arrives no later than that edge, and sending from it arrives no later than the requested edge.", "quantifier": "all arrival ticks that are destination edges, all clock periods, all delays", "why_tests_cant": "unbounded integers; all period ratios", "anchors": ["sparta/sparta/simulation/Clock.hpp: calculateReverseClockCrossingDelay"]}
{"id": "C15", "title": "Clock normalisation realises every frequency ratio exactly", "statement": "After normalising a clock tree, for every clock with ratio p:c to its parent, child_period * p = parent_period * c with all periods positive integers, and no smaller assignment of integral periods exists (absent 32-bit overflow).", "quantifier": "every finite clock tree and every positive ratio", "why_tests_cant": "trees of unbounded shape, all ratios", "anchors": ["sparta/sparta/simulation/Clock.hpp: calcNorm, setPeriod", "sparta/sparta/simulation/ClockManager.hpp: normalize", "sparta/sparta/utils/Rational.hpp"]}
{"id": "C16", "title": "Queue is a bounded FIFO", "statement": "Any sequence of push / pop / pop_back / clear on a Queue of capacity n behaves like a FIFO list of at most n elements: size, free space, front, back and indexed access agree with the list after every step, although storage indices wrap around.", "quantifier": "every capacity n >= 1 and every legal operation sequence of any length", "why_tests_cant": "wrap-around of ring indices needs long histories", "anchors": ["sparta/sparta/resources/Queue.hpp: push, pop, pop_back, clear, front, back, read, access, rollPhysicalIndex_"]}
{"id": "C17", "title": "Queue iterators are valid exactly while their element is queued", "statement": "An iterator returned by push designates the pushed element for as long as it is in the queue, reports invalid once it has been removed, and never designates a different element, whatever happens afterwards.", "quantifier": "every operation sequence of any length, every iterator obtained along the way", "why_tests_cant": "storage reuse (ABA) after arbitrarily long histories", "anchors": ["sparta/sparta/resources/Queue.hpp: QueueIterator, isValid, determineIteratorValidity_"]}
{"id": "C18", "title": "PriorityQueue pops in order and is stable", "statement": "A PriorityQueue always holds its elements sorted by the user order; top() is a least element; equal elements leave in insertion order; and the multiset of elements is exactly inserted minus removed.", "quantifier": "every total preorder and every sequence of insert/pop/remove operations", "why_tests_cant": "all orders and all sequences", "anchors": ["sparta/sparta/resources/PriorityQueue.hpp: insert, pop, top, remove, erase, forceFront"]}
{"id": "C19", "title": "FastList behaves as a bounded list with stable iterators", "statement": "For any sequence of emplace / emplace_front / emplace_back / erase / clear, a FastList holds exactly the expected sequence, never exceeds its capacity, and an iterator to an element keeps denoting that element until it is erased.", "quantifier": "every capacity and every operation sequence", "why_tests_cant": "intrusive index links; corruption shows only for particular histories", "anchors": ["sparta/sparta/utils/FastList.hpp: emplace, emplace_front, emplace_back, erase, clear"]}
{"id": "C20", "title": "Buffer behaves as an ordered sequence", "statement": "For any sequence of push_back / insert / erase / clear on a Buffer the visible order is that of the corresponding list operations, size never exceeds the configured number of entries unless infinite mode is on, and iterators follow their element.", "quantifier": "every capacity and operation sequence, with and without infinite mode", "why_tests_cant": "free-list pool and address map; corruption needs particular histories (insert then resize)", "anchors": ["sparta/sparta/resources/Buffer.hpp: push_backImpl_, insertImpl_, erase, clear, resizeInternalContainers_"]}
{"id": "C21", "title": "CircularBuffer keeps the most recent elements", "statement": "A CircularBuffer of capacity n contains, after any sequence of push_back calls, exactly the last min(n,k) values pushed in order; insert and erase keep the relative order and the capacity bound; iterators to evicted elements are invalid.", "quantifier": "every capacity and operation sequence", "why_tests_cant": "all operation mixes", "anchors": ["sparta/sparta/resources/CircularBuffer.hpp: push_backImpl_, insertEntry_, eraseEntry_, invalidateIndexes_, isValidIterator_"]}
{"id": "C22", "title": "Array age order", "statement": "In an aged Array, the n-th oldest / youngest query returns the valid entries exactly in order of their writes, isOlder/isYounger agree with that order for valid entries, and validity of each index is exactly written-and-not-erased.", "quantifier": "every capacity and every sequence of write / erase / clear", "why_tests_cant": "all operation sequences including overwrites", "anchors": ["sparta/sparta/resources/Array.hpp: writeImpl_, erase, getOldestIndex, getYoungestIndex, isOlder, isYounger, getNextOldestIndex"]}
{"id": "C23", "title": "FrontArray allocates the lowest/highest free slot", "statement": "writeFront uses the lowest invalid index and writeBack the highest invalid index; a write into a full array is refused; and readValid(n) returns the n-th valid entry counted from index 0.", "quantifier": "every validity pattern and every n", "why_tests_cant": "all validity patterns", "anchors": ["sparta/sparta/resources/FrontArray.hpp: writeFront, writeBack, readValid"]}
{"id": "C24", "title": "Pipe moves every element one stage per update", "statement": "A datum appended to a Pipe of length n is visible at stage k exactly after k+1 updates, leaves after n updates unless invalidated or flushed, elements never overtake each other, and numValid() equals the number of valid stages.", "quantifier": "every pipe length and every sequence of append / write / invalidate / flush / flushIf / update", "why_tests_cant": "ring-buffer index arithmetic over unbounded histories", "anchors": ["sparta/sparta/resources/Pipe.hpp: append, writePS, invalidatePS, flushPS, flushAppend, flushAll, flushIf, internalUpdate_, isValid, numValid"]}
{"id": "C25", "title": "Pipeline stalls hold and never lose elements", "statement": "A stalled Pipeline stage holds its element and everything upstream of it for exactly the requested number of updates, everything downstream keeps moving, and no element is lost, duplicated or overtaken by stalls and restarts.", "quantifier": "every number of stages, every stall stage and length, every element pattern", "why_tests_cant": "all stall positions, durations and contents", "anchors": ["sparta/sparta/resources/Pipeline.hpp: stall, clearStall, internalUpdate_, drain_, restart_"]}
{"id": "C26", "title": "SharedData shows a written value after exactly one cycle", "statement": "A value written to a SharedData is not visible in the cycle of the write, is visible from the next cycle on, and the last write of a cycle wins.", "quantifier": "every sequence of write / clear / cycle steps", "why_tests_cant": "multiple writes in the same cycle interact with deferred updates", "anchors": ["sparta/sparta/resources/SharedData.hpp: writeImpl_, update_, clear, read, isValid"]}
{"id": "C27", "title": "Scoreboard views converge to the master bits", "statement": "After any sequence of set / clearBits operations, once all in-flight updates have been delivered every view of a scoreboard agrees with the master scoreboard, and a ready callback is invoked exactly once when all requested bits are ready.", "quantifier": "every sequence of set / clearBits / time steps and every latency table", "why_tests_cant": "late updates race with clears", "anchors": ["sparta/sparta/resources/Scoreboard.hpp", "sparta/src/Scoreboard.cpp: set, clearBits, receiveScoreboardUpdate_, registerReadyCallback"]}
{"id": "C28", "title": "Integer logarithms are exact", "statement": "floor_log2(x) is the integer base-2 logarithm for every non-zero 32- and 64-bit x; ceil_log2(x) is its ceiling; is_power_of_2 is exact; next_power_of_2(x) is the least power of two not below x.", "quantifier": "all 2^32 and 2^64 inputs", "why_tests_cant": "2^64 inputs cannot be enumerated", "anchors": ["sparta/sparta/utils/MathUtils.hpp: floor_log2, ceil_log2, is_power_of_2, next_power_of_2, log2_lsb"]}
{"id": "C29", "title": "log2_lsb finds the least significant set bit", "statement": "log2_lsb(x) is the index of the least significant one bit of x for every non-zero 32- and 64-bit x.", "quantifier": "all 2^32 and 2^64 inputs", "why_tests_cant": "2^64 inputs cannot be enumerated", "anchors": ["sparta/sparta/utils/MathUtils.hpp: log2_lsb"]}
{"id": "C30", "title": "gcd, lcm and safe_power are arithmetically exact", "statement": "gcd(u,v) is the greatest common divisor for all inputs; lcm(u,v) is the least common multiple whenever it fits; safe_power(b,e) returns b^e or raises when the result does not fit in the type.", "quantifier": "all pairs of machine integers", "why_tests_cant": "infinitely many pairs", "anchors": ["sparta/sparta/utils/MathUtils.hpp: gcd, lcm, safe_power"]}
{"id": "C31", "title": "Rational arithmetic is exact and canonical", "statement": "Every Rational is kept in lowest terms; +, -, * and / yield the exact rational result whenever intermediate values fit the integer type; equality of Rationals is equality of the numbers they denote.", "quantifier": "all rational operands whose intermediates fit in the integer type", "why_tests_cant": "infinitely many operands", "anchors": ["sparta/sparta/utils/Rational.hpp"]}
{"id": "C32", "title": "TieredMap is a finite map", "statement": "A TieredMap maps each 64-bit key to exactly the value last stored for it, distinct keys never interfere, and iteration visits each stored key exactly once in insertion order.", "quantifier": "every sequence of insertions and lookups, every 64-bit key, every permitted node size", "why_tests_cant": "2^64 keys, tier growth depends on the history", "anchors": ["sparta/sparta/utils/TieredMap.hpp: tryGet, set_, addTier_, operator[], find, clear"]}
{"id": "C33", "title": "BitArray shifts and logic are those of an n-byte integer", "statement": "Shifting a BitArray of n bytes left or right by any amount, and/or-ing and filling give exactly the result of the corresponding operation on the n-byte little-endian integer.", "quantifier": "every size, content and shift amount", "why_tests_cant": "byte/bit split of shift amounts for all sizes", "anchors": ["sparta/sparta/utils/BitArray.hpp: shiftLeft_, shiftRight_, and_, or_, fill"]}
{"id": "C34", "title": "RegisterBits operations are those of an n-byte integer", "statement": "For every register size, <<, >>, |, &, ~, ==, none and any on RegisterBits give the result of the corresponding operation on the unsigned integer of that width, and x <<= k leaves x equal to x << k.", "quantifier": "every register width, value and shift amount", "why_tests_cant": "all widths, values and amounts", "anchors": ["sparta/sparta/functional/RegisterBits.hpp: operator<<, operator>>, operator<<=, operator|, operator&, operator~, none, any"]}
{"id": "C35", "title": "Shared pointers destroy exactly once", "statement": "An object managed by SpartaSharedPointer is destroyed exactly once, exactly when the last owning pointer goes away; its control block is released exactly once after the last owner and last weak pointer are gone; a locked weak pointer never yields a destroyed object.", "quantifier": "every sequence of construction, copy, move, assignment, reset, lock and destruction of strong and weak pointers", "why_tests_cant": "all interleavings of owners", "anchors": ["sparta/sparta/utils/SpartaSharedPointer.hpp: unlink_, releaseRefCount_, SpartaWeakPointer::lock", "sparta/sparta/utils/SpartaSharedPointerAllocator.hpp: allocate_, releaseObject_, releaseBlock_"]}
{"id": "C36", "title": "ArchData segments never overlap", "statement": "Laying out any set of segments gives every non-subset segment a range of its own that lies within one line and is aligned to the host word (4 bytes), and every subset segment the requested sub-range of its parent; illegal requests are refused.", "quantifier": "every list of segments of any sizes and subset relations", "why_tests_cant": "all size combinations", "anchors": ["sparta/sparta/functional/ArchData.hpp: layout, placeSegment_", "sparta/sparta/functional/ArchDataSegment.hpp"]}
{"id": "C37", "title": "ArchData reads return the last write", "statement": "Reading bytes from an ArchData (or memory object built on it) returns the most recently written bytes, or the fill pattern where nothing has been written, independent of line boundaries and allocation order.", "quantifier": "every sequence of aligned in-line writes, reads and resets; every line size that is a power of two; every fill pattern", "why_tests_cant": "all access histories over a 64-bit address space", "anchors": ["sparta/sparta/functional/ArchData.hpp: Line::read, Line::write, getLine, allocateLine_, fillWith_, reset", "sparta/sparta/memory/MemoryObject.hpp: read, write"]}
{"id": "C38", "title": "Loading a checkpoint restores the saved state", "statement": "After loading any existing checkpoint the architectural state is exactly what it was when that checkpoint was taken, whatever checkpoints were created, loaded or deleted in between.", "quantifier": "every history of writes, checkpoint creations (delta or snapshot), loads and deletions", "why_tests_cant": "checkpoint trees and deletion orders are unbounded; bytes survive only if every needed delta is retained", "anchors": ["sparta/sparta/serialization/checkpoint/FastCheckpointer.hpp: createCheckpoint_, loadCheckpoint, deleteCheckpoint, cleanupChain_, recursForwardFindAlive_", "sparta/sparta/serialization/checkpoint/DeltaCheckpoint.hpp: load, canDelete, getRestoreChain", "sparta/sparta/functional/ArchData.hpp: save, saveAll, restore, restoreAll"]}
{"id": "C39", "title": "Checkpoint storage round-trips", "statement": "Restoring from a checkpoint storage yields exactly the sequence of (line, bytes) records and segment boundaries that was saved into it, for any number of ArchDatas and lines.", "quantifier": "every sequence of saved lines and ArchData terminators", "why_tests_cant": "unbounded record sequences", "anchors": ["sparta/sparta/serialization/checkpoint/VectorStorage.hpp", "sparta/sparta/serialization/checkpoint/StringStreamStorage.hpp"]}
{"id": "C40", "title": "Checkpoint bookkeeping", "statement": "Checkpoint identifiers are unique, ticks along every chain never decrease, every live checkpoint can be found by id, deleting a checkpoint makes it unavailable, and the number of live checkpoints equals creations minus deletions.", "quantifier": "every history of creations, loads and deletions", "why_tests_cant": "unbounded histories", "anchors": ["sparta/sparta/serialization/checkpoint/FastCheckpointer.hpp: getCheckpoints, getCheckpointsAt, hasCheckpoint, findLatestCheckpointAtOrBefore, deleteCheckpoint"]}
{"id": "C41", "title": "DataView accesses are byte-exact in either byte order", "statement": "A value written through a DataView is read back unchanged with the same type and byte order, reading with smaller types yields the corresponding parts of the value, and bytes outside the written range are unchanged.", "quantifier": "all values, offsets, access sizes and both byte orders", "why_tests_cant": "all value/offset/size combinations", "anchors": ["sparta/sparta/functional/DataView.hpp: read, readPadded, write, writeTruncated", "sparta/sparta/functional/ArchData.hpp: Line::read<T>, Line::write<T>", "sparta/sparta/utils/ByteOrder.hpp"]}
{"id": "C42", "title": "CachedMemory commits and drops writes transparently", "statement": "A CachedMemory always shows its own outstanding writes on top of the downstream memory; committing the oldest write makes it permanent downstream without changing what is read; dropping a write restores exactly what was visible before it and all younger writes; downstream memory is changed only by commits.", "quantifier": "every sequence of read / write / poke / commit / drop / merge operations", "why_tests_cant": "overlapping outstanding writes in any order", "anchors": ["sparta/sparta/memory/CachedMemory.hpp: tryRead_, tryWrite_, tryPoke_, commitWrite, dropWrite, mergeWrite"]}
{"id": "C43", "title": "SimpleMemoryMap finds the one mapping containing an address", "statement": "After any sequence of accepted mappings, findMapping(a) returns the unique mapping whose range contains a, or nothing if there is none; overlapping mappings are refused and every non-overlapping aligned mapping is accepted.", "quantifier": "every sequence of mappings in any order, every 64-bit address", "why_tests_cant": "balanced-tree shapes depend on insertion order", "anchors": ["sparta/sparta/memory/SimpleMemoryMap.hpp: addMapping, findMapping, findSeparatorNode_, RBTreeFixup_, rotateLeft_, rotateRight_"]}
{"id": "C44", "title": "LRU replacement", "statement": "With LRU replacement the way chosen as victim is always the least recently used one, the bookkeeping remains a permutation of the ways, and the most recently used way is never the victim when there are two or more ways.", "quantifier": "every associativity and every sequence of touches", "why_tests_cant": "all touch sequences", "anchors": ["sparta/cache/LRUReplacement.hpp"]}
{"id": "C45", "title": "Tree-PLRU replacement", "statement": "With tree-PLRU replacement of 2^k ways: after touchMRU(w) the victim is not w and the MRU way is w; after touchLRU(w) the victim is w; every victim is a legal way; and repeatedly replacing the victim visits every way once every 2^k replacements.", "quantifier": "every power-of-two associativity, every state, every way", "why_tests_cant": "all tree states", "anchors": ["sparta/cache/TreePLRUReplacement.hpp"]}
{"id": "C46", "title": "A cache set never holds two copies of a block", "statement": "No two valid lines of one cache set ever have the same tag, lookups find a block if and only if it was allocated and not since evicted or invalidated, and a victim is a valid line only if the set has no invalid way (LRU replacement).", "quantifier": "every sequence of accesses, allocations and invalidations; every associativity and number of sets", "why_tests_cant": "all access sequences", "anchors": ["sparta/cache/SimpleCache.hpp", "sparta/cache/SimpleCache2.hpp", "sparta/cache/BasicCacheSet.hpp", "sparta/cache/Cache.hpp"]}
{"id": "C47", "title": "A cache in front of memory is invisible", "statement": "A SimpleCache whose castout/reload/write-next-level hooks access a backing memory returns for every read the bytes most recently written to that address, for every write-allocate / write-back configuration.", "quantifier": "every sequence of reads and writes, every replacement policy and write mode", "why_tests_cant": "all access sequences and policies", "anchors": ["sparta/cache/SimpleCache.hpp: read, write, replaceLine_, getLine"]}
{"id": "C48", "title": "Address decoding identifies blocks uniquely", "statement": "Two addresses are given the same set index and tag if and only if they belong to the same cache block, and block address plus offset reassemble the address.", "quantifier": "all 64-bit addresses, all permitted cache geometries", "why_tests_cant": "2^64 addresses, all geometries", "anchors": ["sparta/cache/DefaultAddrDecoder.hpp"]}
{"id": "C49", "title": "CycleCounter counts exactly the cycles between start and stop", "statement": "The value of a CycleCounter equals the sum over its completed and open counting intervals of interval length times multiplier, and never decreases while time advances.", "quantifier": "every sequence of startCounting / stopCounting / get at non-decreasing times with arbitrary delays", "why_tests_cant": "all timing patterns", "anchors": ["sparta/sparta/statistics/CycleCounter.hpp"]}
{"id": "C50", "title": "CycleHistogram partitions time", "statement": "At any time the counts of all bins including underflow and overflow add up to the total number of elapsed cycles, and each bin holds exactly the cycles during which the tracked value was in its range.", "quantifier": "every sequence of setValue / addValue calls at non-decreasing times, every range and bin size", "why_tests_cant": "all value/time patterns", "anchors": ["sparta/sparta/statistics/CycleHistogram.hpp: setValue, addValue, startCounting_, stopCounting_"]}
{"id": "C51", "title": "BasicHistogram charges the documented bucket", "statement": "addValue(v) charges exactly one bucket, the one whose documented range (previous bound, bound] contains v, with underflows charged to the first and overflows to the last bucket; the counts sum to the number of values added.", "quantifier": "every sorted bucket list and every sequence of values", "why_tests_cant": "all bucket lists and values", "anchors": ["sparta/sparta/statistics/BasicHistogram.hpp: BasicHistogram, addValue"]}
{"id": "C52", "title": "Synchronous ports deliver in order, at most one item per receiver cycle", "statement": "Every datum accepted by a SyncOutPort is delivered exactly once to the bound SyncInPort, in the order of the sends, on rising edges of the receiver clock, with at most one delivery per receiver cycle.", "quantifier": "all clock periods, delays and sequences of sends (with and without slide)", "why_tests_cant": "all clock ratios and send patterns", "anchors": ["sparta/sparta/ports/SyncPort.hpp: send, computeSendToReceiveTickDelay_, send_, forwardData_"]}
{"id": "C53", "title": "Data ports deliver after exactly the configured delay", "statement": "A datum sent on a DataOutPort is delivered to every bound DataInPort exactly once, exactly send-delay plus port-delay cycles after the send, and data sent for the same cycle is delivered in the order of the sends.", "quantifier": "all delays and send sequences", "why_tests_cant": "all send patterns", "anchors": ["sparta/sparta/ports/DataPort.hpp: send, send_, receivePortData_"]}
{"id": "C54", "title": "Elapsed ticks follow the current tick", "statement": "The scheduler's elapsed tick count never decreases (except by restartAt), equals the current tick whenever a handler runs, and between runs is at most one behind it; so statistics normalised by elapsed ticks are normalised by simulated time.", "quantifier": "every history of scheduling, cancelling, clearing, running and asynchronous calls", "why_tests_cant": "all histories of runs", "anchors": ["sparta/src/Scheduler.cpp: run, restartAt, clearEvents", "sparta/sparta/kernel/Scheduler.hpp: getCurrentTick, getElapsedTicks"]}
{"id": "C55", "title": "A run without limit ends only when the work is done", "statement": "When isFinished() is true after a run, no continuing event that was scheduled is still pending; and run() without a limit returns only if it was stopped or all continuing events have been executed.", "quantifier": "every history of scheduling, cancelling, runs, handler activity and asynchronous calls", "why_tests_cant": "all histories and handler behaviours", "anchors": ["sparta/src/Scheduler.cpp: run, scheduleEvent, clearEvents", "sparta/sparta/kernel/Scheduler.hpp: isFinished, stopRunning, scheduleAsyncEvent"]}
{"id": "C56", "title": "Register accesses change exactly the writable bits they cover", "statement": "A write or poke inside a register stores the given bits except those covered by a read-only field and leaves every other bit of the register file unchanged; the unmasked variants store all given bits; reads and peeks return the bytes and change nothing; accesses that leave the register are refused; and no sequence of masked operations ever changes a read-only bit.", "quantifier": "every register size, list of field definitions, contents, value, offset and sequence of accesses through any registers and fields sharing a line", "why_tests_cant": "all field layouts, values and access sequences", "anchors": ["sparta/sparta/functional/Register.hpp: RegisterBase constructor, read, peek, write, poke, writeUnmasked, pokeUnmasked, computeWriteMask_, reset", "sparta/sparta/functional/Register.hpp: Register: read_, write_, poke_, dmiWrite"]}
{"id": "C57", "title": "A register field reads and writes exactly its bits", "statement": "Reading a field gives the number formed by the register's bits low to high; writing a value that fits stores it in the field's writable bits and leaves all other bits unchanged, so it reads back and other fields are unaffected; a value that does not fit is refused and changes nothing.", "quantifier": "every register size, field position, contents and value", "why_tests_cant": "all field positions and values", "anchors": ["sparta/sparta/functional/Register.hpp: Field: read, peek, write, poke, pokeUnmasked, computeFieldMask_, newRegisterValue_"]}
{"id": "C58", "title": "Counter triggers fire in the first cycle that sees the trigger point reached", "statement": "An active counter trigger calls its callback exactly once, in the first cycle of its clock in which the counter is at or past the trigger point, and not before; it is inactive afterwards unless re-armed; a deactivated trigger does not fire; creating, re-arming, deactivating and destroying triggers at any time, also in callbacks, does not disturb the others.", "quantifier": "every history of creating, copying, assigning, setting, deactivating, resetting and destroying triggers, counter values and cycles, and every callback", "why_tests_cant": "all interleavings of counter values, callbacks and trigger operations", "anchors": ["sparta/sparta/trigger/SingleTrigger.hpp: CounterTrigger", "sparta/sparta/trigger/ManagedTrigger.hpp: check", "sparta/sparta/trigger/TriggerManager.hpp: addTrigger, removeTrigger, ClockHandler", "sparta/src/Trigger.cpp"]}
{"id": "C59", "title": "Cycle and time triggers fire once, at the time they were set for", "statement": "A cycle trigger set relatively calls its callback exactly once, the given number of cycles later (with alignment, in the next cycle that is a multiple of it); set absolutely, in the given cycle; a time trigger the given number of picoseconds after it is set; a deactivated trigger does not call it, and a trigger can be set again for another time afterwards.", "quantifier": "every clock period, delay, time and history of prep, set, align and deactivate calls, before and during the run and in callbacks", "why_tests_cant": "all histories and times", "anchors": ["sparta/sparta/trigger/SingleTrigger.hpp: CycleTrigger, TimeTrigger", "sparta/src/Trigger.cpp: TimeTrigger"]}
{"id": "C60", "title": "A memory interface and its direct accesses behave as one byte array", "statement": "Reads and writes inside a block, peeks and pokes of any range inside the window, and accesses through DMIs (direct memory interfaces) all act on the same bytes: what was written last is returned, other bytes are unchanged, unwritten bytes show the fill pattern; calls that return false change nothing; each observed read and write is notified once, a write with the bytes before it; a DMI obtained from the interface is usable until it is invalidated and never reaches outside its block.", "quantifier": "every block size, memory size, fill pattern and sequence of calls on the interface and its DMIs", "why_tests_cant": "all addresses, sizes and interleavings", "anchors": ["sparta/sparta/memory/DebugMemoryIF.hpp: tryPeek, tryPoke, doesAccessSpan, isInAccessWindows", "sparta/sparta/memory/BlockingMemoryIF.hpp", "sparta/sparta/memory/BlockingMemoryIFNode.hpp: tryRead, tryWrite", "sparta/sparta/memory/MemoryObject.hpp: BlockingMemoryObjectIFNode", "sparta/sparta/memory/DMIBlockingMemoryIF.hpp"]}
{"id": "C61", "title": "The text of a number means the number it spells", "statement": "Reading an unsigned number from text gives exactly the value written: digits in the radix of an optional prefix, times the factor of an optional suffix, fractions exactly, further summands added, separators ignored; text that is not a number, or whose value does not fit 64 bits, is refused with an exception; the whole text is always consumed.", "quantifier": "every text: any number of summands, digits, fraction digits, suffixes, prefixes and separators", "why_tests_cant": "infinitely many texts; interactions of prefixes, suffixes and separators", "anchors": ["sparta/sparta/utils/SmartLexicalCast.hpp: smartLexicalCast<uint64_t>, parseNumericString, prefixes, suffixes", "sparta/sparta/utils/LexicalCast.hpp: lexicalCast<uint64_t>"]}
{"id": "C62", "title": "A number read from text fits the type it is read as", "statement": "Reading text as a narrower or a signed integer gives the value written, with its sign, if the type can represent it, and is refused with an exception otherwise.", "quantifier": "every text and every integer type", "why_tests_cant": "all values around every type's limits, in every notation", "anchors": ["sparta/sparta/utils/SmartLexicalCast.hpp: smartLexicalCast<uint32_t>, <uint16_t>, <uint8_t>, <int64_t>, <int32_t>, <int16_t>, <int8_t>"]}
{"id": "C63", "title": "A parameter read from the parameter tree has the value set last for it", "statement": "Reading a path delivers the value and origin given by the latest call of set whose path or pattern covers it, and no value if there is none; patterns match as documented (*, ?, +); other calls do not change what is read; set works for every well-formed path unless a beginning of the path has a value.", "quantifier": "every history of set, create, read and unrequire calls, every pattern and every path", "why_tests_cant": "arbitrary nesting and overriding of patterns, in any order", "anchors": ["sparta/sparta/simulation/ParameterTree.hpp: Node::create, getPriorityChildMatch, matches, setValue, set, tryGet_, recursTryGet_", "sparta/src/sparta.cpp: createSearchRegexPattern", "sparta/src/TreeNode.cpp: getNextName, hasWildcardCharacters"]}
{"id": "C64", "title": "The parameter tree knows which parameters were read", "statement": "The report of unread parameters lists a parameter exactly if its value was set and has not been read; isRead(path) answers yes exactly if the value of the path was read.", "quantifier": "every history of set, create, read and unrequire calls", "why_tests_cant": "all histories; overlapping patterns; counters", "anchors": ["sparta/sparta/simulation/ParameterTree.hpp: getUnreadValueNodes, recursCountUnreadValueNodes_, isRead, recursIsRead_, recursTryGet_, Node::incRead"]}
{"id": "C65", "title": "Merging and copying parameter trees", "statement": "After merging another tree, a path reads as the value from the other tree if it has one for the path, else as before; a copy reads like the original; assignment replaces the contents.", "quantifier": "every two trees built by any histories of calls", "why_tests_cant": "all pairs of trees with overlapping patterns", "anchors": ["sparta/sparta/simulation/ParameterTree.hpp: merge, recursAppendTree_, copy constructor, operator="]}
{"id": "C66", "title": "The parameter tree knows which parameters are required", "statement": "A path is required exactly if the parameter that covers it was set or created as required and the requirement was not taken back; unrequire of a path makes it not required and leaves the others alone.", "quantifier": "every history of set, create, read and unrequire calls", "why_tests_cant": "all histories; overlapping patterns", "anchors": ["sparta/sparta/simulation/ParameterTree.hpp: isRequired, recursGetIsRequired_, unrequire, Node::unrequire, setValue, create"]}
{"id": "C67", "title": "A notification reaches exactly the observers registered for it", "statement": "When a notification source posts, every registration in force for its data type and a matching name, made at the source, at one of its ancestors or at the virtual global node, is called exactly once with the source as origin, and nobody else is called; this does not depend on whether the registration or the attachment of the source came first; observed, getNumObservers, getObservationPoints and getNumPosts agree with it.", "quantifier": "every history of building trees, registering, deregistering and posting, every name pattern", "why_tests_cant": "all orders of building and registering, all trees", "anchors": ["sparta/sparta/log/NotificationSource.hpp: determineObs_Nodes_, notificationObserverAdded_, notificationObserverRemoved_, postNotification, observed, getNumObservers", "sparta/sparta/simulation/TreeNode.hpp: registerForNotification_, deregisterForNotification_, delegate", "sparta/src/TreeNode.cpp: broadcastRegistrationForNotificationToChildren_, broadcastDeregistrationForNotificationToChildren_, informAddedChildSubtree_", "sparta/sparta/simulation/VirtualGlobalTreeNode.hpp"]}
{"id": "C68", "title": "Which registrations are accepted, and that refused ones have no effect", "statement": "A registration is accepted exactly if the same registration is not in force at that node and, where this is asked for, some source below the node can generate the notification; a deregistration exactly if the registration is in force; a refused call changes nothing and calls nobody.", "quantifier": "every history of building trees, registering, deregistering and posting", "why_tests_cant": "all histories and trees", "anchors": ["sparta/sparta/simulation/TreeNode.hpp: registerForNotification_, deregisterForNotification_, findDelegate_", "sparta/src/TreeNode.cpp: canSubtreeGenerateNotification, canSubtreeGenerateNotifications, addChild_, setParent_"]}
{"id": "C69", "title": "Observation state callbacks report every change of the observers", "statement": "Each callback installed on a notification source is called when an observer comes or goes, with the number of observers after the change: callbacks for the sole observer exactly when the number changes from 0 to 1 or from 1 to 0, the others at every change; in order of installation, and not on sources that the change does not concern.", "quantifier": "every history of building trees, installing callbacks, registering and deregistering", "why_tests_cant": "all histories and trees", "anchors": ["sparta/sparta/log/NotificationSource.hpp: ObservationStateCallback, invokeObservationStateChangeCallbacks_, notificationObserverAdded_, notificationObserverRemoved_, determineObs_Nodes_"]}
{"id": "C70", "title": "A list of notification names is read as its comma separated names", "statement": "A list of names is split at commas, blanks around names are dropped, and the names are those written, in order; text between commas that holds several words is refused with an exception.", "quantifier": "every text", "why_tests_cant": "infinitely many texts; interplay of blanks, commas and empty fields", "anchors": ["sparta/src/TreeNode.cpp: parseNotificationNameString"]}
{"id": "C71", "title": "A path and a location name one node of the device tree", "statement": "getChild follows a path name by name, each name meaning the first child that answers to it by name, alias or group; the location of a node is that of its parent, a dot and its name, and getChild leads along it back to the node; two named nodes with the same location are one node; a node has the privacy level given by the makeSubtreePrivate calls on it and its ancestors, and getChild refuses nodes of another level unless they are asked for.", "quantifier": "every history of constructing nodes, adding children, adding aliases and marking subtrees private; every path", "why_tests_cant": "all trees, all paths; interplay of names, aliases and groups", "anchors": ["sparta/sparta/simulation/TreeNode.hpp: getChild, hasChild, getChild_, getImmediateChildByIdentity_", "sparta/src/TreeNode.cpp: getLocation, getDisplayLocation, makeSubtreePrivate, incrementPrivacyLevel_"]}
{"id": "C72", "title": "Finding nodes by pattern finds exactly the nodes that match", "statement": "findChildren finds exactly the nodes that the parts of the pattern lead to, where a part of wildcards leads to the children with an identity that matches and an empty part to the parent; with each node come the texts that the wildcards stand for; no node is found twice unless the pattern goes up; what getChild finds by a path findChildren finds by the same text.", "quantifier": "every history of building a tree, every starting node and every pattern", "why_tests_cant": "all trees and patterns", "anchors": ["sparta/sparta/simulation/TreeNode.hpp: findChildren, findChildren_, getDeepestMatchingPath", "sparta/src/TreeNode.cpp: findChildren_, findImmediateChildren_, createSearchRegexPattern, identityMatches_"]}
{"id": "C73", "title": "A location matches a pattern exactly if its names do", "statement": "locationMatchesPattern says yes exactly if the names on the way from the starting node down to the node match the parts of the pattern one by one.", "quantifier": "every history of building a tree, every node, starting node and pattern", "why_tests_cant": "all trees and patterns", "anchors": ["sparta/src/TreeNode.cpp: locationMatchesPattern"]}
{"id": "C74", "title": "Building a device tree keeps it a tree", "statement": "addChild succeeds exactly if the child has no parent, is no root, is not the parent itself or above it, and none of the children answers to its name or an alias or has its index in its group; then it comes last among the children and nothing else changes; every node has one way up, on which root, level and the relation isDescendantOf agree; the nodes of a group are the children of that group in order of index; names contain only letters, digits and underscores.", "quantifier": "every history of constructing nodes, adding children, adding aliases and marking subtrees private", "why_tests_cant": "all orders of building", "anchors": ["sparta/sparta/simulation/TreeNode.hpp: getRoot, getLevel, isDescendantOf, getGroup, getGroupSize", "sparta/src/TreeNode.cpp: addChild_, addChild, setParent_, validateName, validateGroup, addAlias, ensureNoParent_"]}
{"id": "C75", "title": "A histogram counts every value in the bin that its name says", "statement": "Whatever values are added, none is refused and each is counted in the total, in the sum and in exactly one of underflow, overflow and the bins; the bin counts the values between the two numbers in its name; underflow, overflow and bins add up to the total; the maximum counters hold the largest values in order; the cumulative text tells how many values are at most each bound; the histogram over an enumeration counts each constant in a bin of its own.", "quantifier": "every accepted lower and upper value and bin width, every sequence of values", "why_tests_cant": "infinitely many sequences and ranges up to 64 bits", "anchors": ["sparta/sparta/statistics/Histogram.hpp: HistogramBase, addValue, updateMaxValues_, initializeStats_, getDisplayStringCumulative_", "sparta/sparta/statistics/EnumHistogram.hpp: EnumHistogram, addValue"]}
{"id": "C76", "title": "State timers account for every cycle", "statement": "For a StateTimerUnit, the values added to the histogram of a state, plus what the timers in use have not reported yet, sum to the cycles that all timers have spent in that state; after a dynamicQuery, and when no handle is left, the histograms hold all of it. A handle that goes adds one value per histogram, a query one per timer not queried before in the cycle, nothing else adds any. A timer given out is unused and in no state; one can be had while fewer than 10000 are in use. A state is started, ended and released exactly under the stated conditions; a state started in cycle zero cannot be left by starting another.", "quantifier": "all pools, sets of states and histories of allocate, startState, endState, dynamicQuery, release and passing cycles", "why_tests_cant": "The time a state has run is split over queries, implicit ends and reuse of timers; the sum over all interleavings cannot be enumerated.", "anchors": ["sparta/sparta/simulation/StateTimerUnit.hpp"]}
{"id": "C77", "title": "Signals arrive in their tick and are joined per tick", "statement": "For signal ports: the number of calls of a SignalInPort's handler in a tick that is over is the number of signals sent to it in that tick without any delay in its own phase, plus one if any other signals were due then, however many. No handler is called in another tick; a port with a delay is called at most once per tick. A send is accepted exactly when the port is bound and no receiver's phase of the tick is over; a due signal never blocks the scheduler; dataReceivedThisCycle tells whether the handler was called in this tick. A delay of 2^32 cycles is lost by truncation.", "quantifier": "all bindings, delays, phases and interleavings of sends and scheduler moves", "why_tests_cant": "Joining depends on which sends meet in the same tick and phase over several outputs; the interleavings cannot be enumerated.", "anchors": ["sparta/sparta/ports/SignalPort.hpp", "sparta/sparta/events/PhasedUniqueEvent.hpp"]}
{"id": "C78", "title": "Committed checkpoints reach the disk completely", "statement": "For the checkpointer that saves committed branches: a series of commits goes through exactly if each one that hands over checkpoints starts with a snapshot and contains no deleted one, and each reports its identifiers. Each becomes one window with consecutive numbers and exact tick bounds; after the teardown the tick rows, written out, give every committed checkpoint's number and tick once and in order, neighbouring rows have different ticks, and the count is the number of checkpoints committed.", "quantifier": "all series of commits of fewer than 2^64 checkpoints, all ticks", "why_tests_cant": "Runs of equal ticks continue across commits and are sent when they end; series of commits cannot be enumerated.", "anchors": ["sparta/src/CherryPickFastCheckpointer.cpp: commitCurrentBranch, saveCheckpoints, preTeardown, getNumCheckpoints", "sparta/sparta/serialization/checkpoint/CherryPickFastCheckpointer.hpp"]}
{"id": "C79", "title": "A checkpoint loaded by index is the one committed in that place", "statement": "For a database left by the checkpointer after its teardown: the loader offers as many checkpoints as were committed; loading indices in any order with any repetition, whatever window is cached, each time gives the state of which the checkpoint in that place was taken; a larger index is refused; the replayer shows the states in order and then stops. Before the teardown the loader lacks the last run of equal ticks, which the writer already counts.", "quantifier": "all series of commits whose ticks do not go back within a commit, all sequences of loads, all states before", "why_tests_cant": "The result depends on the rows, on the cached window and on the chain of deltas inside the window; the sequences cannot be enumerated.", "anchors": ["sparta/src/CherryPickFastCheckpointer.cpp: DatabaseCheckpointLoader, getChkptFromWindow_, getChkptFromDisk_, loadCheckpoint_, DatabaseCheckpointReplayer::step", "sparta/sparta/serialization/checkpoint/DeltaCheckpoint.hpp: getRestoreChain, load"]}
{"id": "C80", "title": "Squashing a branch saves the front of the chain and keeps a loadable rest", "statement": "squashCurrentBranch divides the chain from the head to the current checkpoint. Everything before the last snapshot is handed to the disk in order of creation with its tick, kind and recorded bytes; that snapshot becomes the head and stays with the deltas since, the current checkpoint is unchanged, other branches are dropped, and the counts of checkpoints, snapshots and dead checkpoints are those of what is left. Checkpoints that stay still load to the bytes and tick they were taken at, through any further calls and squashes. Over a whole history identifiers handed to the disk increase, ticks never go back and each batch starts with a snapshot. A squash goes through exactly if no deleted checkpoint is still kept. A squash with a new head saves the whole branch and leaves one snapshot of the present state, which loads to it.", "quantifier": "for all ArchData shapes, all histories of writes, ticks, checkpointer calls and squashes, all branch structures", "why_tests_cant": "Tests squash a few fixed trees; which checkpoints are saved, dropped, relinked or still needed depends on the whole branch structure and on earlier deletions and squashes.", "anchors": ["sparta/sparta/serialization/checkpoint/FastCheckpointer.hpp: squashCurrentBranch, squashCurrentBranch_, createHead_", "sparta/sparta/serialization/checkpoint/Checkpoint.hpp: makeHeadCheckpoint, ~Checkpoint", "sparta/sparta/serialization/checkpoint/DeltaCheckpoint.hpp: flagDeleted, getRestoreChain, makeHeadCheckpoint"]}
{"id": "C81", "title": "A statistic reports exactly its window", "statement": "A StatisticInstance of a counter, a parameter, a statistic definition or a free expression with a scheduler, however it was started and ended before, reports after start() the value of its expression over the window from that start to the moment of the read; after end() it reports the window it was ended with for ever, whatever the counters do and even when the nodes are gone. Told to accumulate, it counts from the start before that over all later windows. For a counter below 2^53 the value is exactly the number counted, and windows that follow each other add up. Reads before the start or before the end of an ended window are refused; a destroyed node reads NaN. Counts at 2^53 and above are rounded before the difference is taken and can lose events.", "quantifier": "all expression trees over instances, all functions in them, all histories of start and end, all counter values and moments", "why_tests_cant": "Expressions nest instances of definitions without bound, and the value depends on the whole history of start and end calls.", "anchors": ["sparta/src/StatisticInstance.cpp: start, end, getValue, computeValue_, getScheduler_", "sparta/sparta/statistics/StatisticInstance.hpp: accumulateStatistic, InitialStatValue", "sparta/sparta/statistics/ExpressionNodeTypes.hpp", "sparta/sparta/statistics/ExpressionNodeVariables.hpp"]}
{"id": "C82", "title": "Bounded integers stay within their bounds", "statement": "A BoundedValue that any of its constructors lets come to be is within its bounds; with bounds of its type in order exactly the values within are taken and stored as given. Any series of assignments, increments, decrements, additions and subtractions with operands of any integer type that goes through has computed what plain integers give, stayed within the bounds and kept them; if the distance of the bounds fits the promoted type, the series is stopped by an assertion exactly when plain integers would leave the bounds. Conversions keep value and bounds when these fit the new type. Not so: additions with the default bounds of int32_t and int64_t can overflow, too small lower bounds are truncated, conversions to a narrower unsigned type can leave the bounds, and built-in operators through the reference are not checked.", "quantifier": "all integer types of 8 to 64 bits for the value and all operands, all bounds, all series of operations", "why_tests_cant": "Eight types for each of four template parameters with all their values; the overloads differ by signedness.", "anchors": ["sparta/sparta/utils/BoundedValue.hpp"]}
{"id": "C83", "title": "A state with markers changes when enough of them are set, and tells its observers once", "statement": "For a sparta::State, whatever sequence of setValue, reset, markers, thresholds, observers and monitors: its value, counts of markers and marks and its calls to others are those of a description with sets. The number of marks is that of the marked markers, and complete tells whether all are. A marker that is set moves the state exactly if at most as many markers are missing as the threshold says; then those who observe the value are scheduled once, in order, and otherwise nothing happens. Monitors that look on are told of each marker and no value changes. An observer is scheduled or cancelled at most once for each enrolment and, if never withdrawn, each enrolment waits or has been answered. isSet knows each value a change led to until a reset, and without monitors only values the state had. With changes by setValue alone the tracker has the time spent in each value. The documentation is not met: the threshold is not the least number of markers, further markers move the state again, isClear is true of the value it started with, transitions by markers and resets escape the tracker, a bool state given true is false, monitors are called early, one that resets the state breaks the count, and a copy keeps the observers and counts the markers of the original.", "quantifier": "all numbers of values and markers below 2^32, all monitors that force a value or look on, all sequences of calls", "why_tests_cant": "Which marker completes a set depends on the history of marks, clears, resets, thresholds and monitors; tests run a few fixed scenarios.", "anchors": ["sparta/sparta/simulation/State.hpp", "sparta/sparta/simulation/Audience.hpp", "sparta/sparta/simulation/StateTracker.hpp: startState, endTimerState_, getActiveTime"]}
{"id": "C84", "title": "Tags are unique and their texts tell them apart", "statement": "Whatever tags are made, with or without parent, copied, and whenever the sequence is reset: each tag has a text that no later step changes, and comparing two tags, or a tag with a text, is comparing texts. While fewer than 2^32 - 1 tags are made, none is copied and the sequence is not reset, different tags are different and have different texts. The children of a tag are numbered from 1 in the order they are made, and the text of a child is that of its parent, a dot and the number. A tag assigned an earlier one has its text. Copies hand out equal children, a reset or 2^32 tags repeat numbers, and a tag assigned one of its children has no text.", "quantifier": "all sequences of constructions, copies and resets, all depths of parents", "why_tests_cant": "Tests make a few tags; uniqueness is about all pairs of tags of any hierarchy, and the wrap needs 2^32 tags.", "anchors": ["sparta/sparta/utils/Tag.hpp"]}
{"id": "C85", "title": "Interned strings are equal exactly if their pointers are", "statement": "However many strings a StringManager interns: two pointers are equal exactly if the strings are, each points to its string and is what findString and every further internString give; hasString and isInterned know exactly the strings and pointers given and the empty string, getNumStrings counts each string once, and the longest length is that of the longest string. This holds while nobody writes through the pointers, which are not const.", "quantifier": "all sequences of strings", "why_tests_cant": "Pointer equality for all pairs of strings in all orders of interning; tests intern a few.", "anchors": ["sparta/sparta/utils/StringManager.hpp"]}
{"id": "C86", "title": "A ValidValue is an optional value, and a LockedValue keeps its value", "statement": "Whatever ValidValues are constructed, copied, moved, assigned, cleared, compared and read: they hold what optional values hold and each call gives what it gives for those, with a failed assertion where there is no value; an assigned value stays until the object is named by a call that changes it. Saving any number of them to an archive and loading them in order restores values and validity. A LockedValue is locked exactly from the first call that locks, has the last value given up to then, and refuses exactly the settings after that. Not so: a locked value can be written through the reference from getValue, comparing with a ValidValue without a value on the right compares its old value, and move assignment leaves its source valid.", "quantifier": "all value types, all sequences of calls, all numbers of objects", "why_tests_cant": "The result of a call depends on the history of all objects it was copied or moved from; tests try short fixed sequences with numbers, for which moving is copying.", "anchors": ["sparta/sparta/utils/ValidValue.hpp", "sparta/sparta/utils/LockedValue.hpp"]}
