{
 "claims": [
  {
   "property": "C01",
   "status": "proved",
   "theorems": [
    "C01_firing_order"
   ],
   "note": "For every configuration and action sequence; restartAt separates the compared firings. Ticks unbounded."
  },
  {
   "property": "C02",
   "status": "proved",
   "theorems": [
    "C02_fired_was_scheduled",
    "C02_accepted_fires",
    "C02_cancelled_never_fires"
   ],
   "note": "Soundness (fired => accepted, not cancelled, not fired before), completeness once the tick has passed, cancelled occurrences never fire."
  },
  {
   "property": "C03",
   "status": "partial",
   "theorems": [
    "C03_run_window",
    "C03_exacting_run_advances_partial",
    "C03_stale_stop_refuted"
   ],
   "note": "Window proved for all runs. Exact advance proved when no stop marker of an earlier run is outstanding and stopRunning is not called; C03_stale_stop_refuted shows that a leftover marker does affect a later run."
  },
  {
   "property": "C04",
   "status": "partial",
   "theorems": [
    "C04_handler_request",
    "C04_idle_request",
    "C04_async_refuted"
   ],
   "note": "Requests from handlers and between runs proved. The async part is false: C04_async_refuted."
  },
  {
   "property": "C05",
   "status": "partial",
   "theorems": [
    "C05_pending_reported",
    "C05_idle_exact",
    "C05_handler_exact_partial",
    "C05_self_refuted"
   ],
   "note": "Exact between runs; a pending occurrence is always reported; inside a handler exact outside the group being fired. C05_self_refuted: inside its own handler an event is still reported as scheduled."
  },
  {
   "property": "C06",
   "status": "proved",
   "theorems": [
    "C06_links_respected",
    "C06_precedence_observed",
    "C06_groups_fit"
   ],
   "note": "Proved for every sequence of link/unlink/phase calls; combined with the scheduler model to give the firing order inside a tick."
  },
  {
   "property": "C07",
   "status": "proved",
   "theorems": [
    "C07_fails_iff_cyclic",
    "C07_unlink_never_asserts"
   ],
   "note": "Sorting throws CycleException exactly on cyclic link sets; the internal assertions of sort and unlink never fire."
  },
  {
   "property": "C08",
   "status": "proved",
   "theorems": [
    "C08_detect_exact",
    "C08_reported_cycle_real",
    "C08_early_detection",
    "C08_early_relink"
   ],
   "note": "detectCycle is exact and terminates; the reported list is a walk of links that closes; early detection in link is exact."
  },
  {
   "property": "C09",
   "status": "proved",
   "theorems": [
    "C09_phases_ordered",
    "C09_phases_observed"
   ],
   "note": "Group numbers of events in different phases are ordered; combined with the scheduler model."
  },
  {
   "property": "C10",
   "status": "partial",
   "theorems": [
    "C10_at_most_once_partial",
    "C10_requests_served_partial",
    "C10_async_refuted",
    "C10_restart_refuted"
   ],
   "note": "At most once per tick and every accepted request served, for events never posted with scheduleAsyncEvent. C10_async_refuted and C10_restart_refuted show where the unrestricted statement fails."
  },
  {
   "property": "C11",
   "status": "partial",
   "theorems": [
    "C11_once_partial",
    "C11_served_partial",
    "C11_only_requested_partial",
    "C11_tick0_refuted",
    "C11_cancel_refuted",
    "C11_off_edge_refuted"
   ],
   "note": "Proved for all executions in which the event is only asked for on edges of its clock, is not cancelled, and tick 0 does not see schedule(1) before schedule(0): one call in each tick asked for, none in others. Outside these conditions the claim is false: tick 0, re-request after cancel(), and requests between clock edges (double call)."
  },
  {
   "property": "C12",
   "status": "partial",
   "theorems": [
    "C12_exactly_once_partial",
    "C12_no_failure_partial",
    "C12_storage_partial",
    "C12_cancel_partial",
    "C12_is_scheduled_partial",
    "C12_cancelled_partial",
    "C12_cancel_final",
    "C12_is_scheduled_at_partial",
    "C12_handler_payload_partial",
    "C12_handler_payload_refuted",
    "C12_cancel_at_refuted",
    "C12_move_refuted",
    "C12_self_assign_refuted",
    "C12_counts_refuted"
   ],
   "note": "Proved for every history of API calls without handle moves, handle self-assignment and cancel(rel_cycle) on the current tick after a delivery. The refuted theorems show those three cases, the payload destroyed under a running handler that cancels, and the wrong counts of cancel(rel_cycle) and isScheduled(). C12_cancel_final needs no condition: a payload cancelled while scheduled is never scheduled or delivered again."
  },
  {
   "property": "C13",
   "status": "proved",
   "theorems": [
    "C13_crossing_first_edge",
    "C13_off_edge_refused",
    "C13_crossing_monotone"
   ],
   "note": "Forward crossing arrives on the first legal destination edge; off-edge sends are refused; monotone."
  },
  {
   "property": "C14",
   "status": "proved",
   "theorems": [
    "C14_reverse_crossing",
    "C14_early_arrival_wraps"
   ],
   "note": "Reverse crossing is exact whenever the delays fit before the arrival; otherwise no legal edge exists and the code wraps (shown)."
  },
  {
   "property": "C15",
   "status": "proved",
   "theorems": [
    "C15_normalize",
    "C15_tick_cycle_roundtrip"
   ],
   "note": "Every clock tree without 32-bit overflow; explicit-frequency (double) clocks are not modelled."
  },
  {
   "property": "C16",
   "status": "proved",
   "theorems": [
    "C16_fifo"
   ],
   "note": "Refinement to a FIFO list for every capacity 1..2^30 (beyond that the uint32_t storage size overflows) and every call sequence."
  },
  {
   "property": "C17",
   "status": "partial",
   "theorems": [
    "C17_push_iterator_partial",
    "C17_never_other",
    "C17_iteration_partial",
    "C17_id_truncation_refuted",
    "C17_reverse_partial",
    "C17_equality"
   ],
   "note": "Never designates another element: proved up to 2^64 pushes. Valid exactly while queued: proved below 2^32 pushes; refuted at 2^32 because the iterator constructor truncates the 64-bit id."
  },
  {
   "property": "C18",
   "status": "proved",
   "theorems": [
    "C18_sorted",
    "C18_top_least",
    "C18_back_greatest",
    "C18_numbering_faithful",
    "C18_stable",
    "C18_multiset",
    "C18_pop_top"
   ],
   "note": "All histories of insert/pop/remove/erase/clear/forceFront over any strict weak order."
  },
  {
   "property": "C19",
   "status": "proved",
   "theorems": [
    "C19_list",
    "C19_capacity",
    "C19_stable"
   ],
   "note": "Proved for every legal call sequence and capacity below 2^31 (node indexes are int). An iterator argument must be live or end(); the code does not check that."
  },
  {
   "property": "C20",
   "status": "partial",
   "theorems": [
    "C20_list_partial",
    "C20_iterators_partial",
    "C20_infinite_push_partial",
    "C20_infinite_insert_refuted",
    "C20_infinite_walk_refuted",
    "C20_insert_end_refuted",
    "C20_erase_stale_refuted",
    "C20_reused_iterator_refuted"
   ],
   "note": "Without makeInfinite the Buffer equals the list operations for every call sequence, refuses exactly the impossible calls, and iterators follow their element. In infinite mode only push_back/erase/clear with reads by index are proved; insert followed by growth gives wrong contents and walking after growth never ends. insert(end(),x) is always refused; erase through a stale iterator erases another element; a stale iterator becomes valid again."
  },
  {
   "property": "C21",
   "status": "partial",
   "theorems": [
    "C21_contents_partial",
    "C21_push_only_partial",
    "C21_iterators_partial",
    "C21_insert_overflow_refuted",
    "C21_window_wrap_refuted"
   ],
   "note": "Contents, order and iterator validity proved when no insert hits a full buffer and the window index stays below 2^32; insert into a full buffer exceeds the capacity for good, and after 2^32 pushes begin() is invalid (both refuted by witness)."
  },
  {
   "property": "C22",
   "status": "partial",
   "theorems": [
    "C22_entries",
    "C22_age_order",
    "C22_older",
    "C22_walk",
    "C22_objects_partial",
    "C22_objects_refuted"
   ],
   "note": "Entries, age order, comparisons and the aged walk proved for every call sequence (fewer than 2^64 calls). Object lifetimes are partial: a write to a valid entry never destroys the old object (refuted theorem)."
  },
  {
   "property": "C23",
   "status": "partial",
   "theorems": [
    "C23_write_partial",
    "C23_read_valid_partial",
    "C23_read_valid_refuted",
    "C23_write_back_refuted"
   ],
   "note": "writeFront/writeBack proved for capacities up to 2^31; above that writeBack fails on an empty array (refuted). readValid proved only when all lower entries are valid; otherwise its loop never ends (refuted)."
  },
  {
   "property": "C24",
   "status": "partial",
   "theorems": [
    "C24_refines",
    "C24_transit",
    "C24_window",
    "C24_no_overtaking",
    "C24_num_valid_partial",
    "C24_own_update_pending_partial",
    "C24_flushif_refuted",
    "C24_own_stuck_refuted"
   ],
   "note": "Cells, transit, exact window and ordering proved for every call sequence. numValid and the pending self-update are partial: both need that no flushIf predicate holds of the datum in the append slot; the refuted theorems show the count becoming 2^32-1 and a self-updating pipe getting stuck otherwise."
  },
  {
   "property": "C25",
   "status": "partial",
   "theorems": [
    "C25_refines",
    "C25_held",
    "C25_ahead",
    "C25_order",
    "C25_own_pending",
    "C25_handlers",
    "C25_suppressed",
    "C25_upstream_held_refuted",
    "C25_deactivated_stays_refuted",
    "C25_flush_cancels_refuted",
    "C25_stalled_at_refuted",
    "C25_stall_ends_refuted"
   ],
   "note": "Every call is shown to act on the stages, the pending handlers, the update event and the stall state exactly as a list-level description says (C25_refines). From it: a datum at or behind the stalled stage is held for exactly the requested number of updates, with the closing of bubbles counted exactly (C25_held); data ahead moves every update (C25_ahead); nothing is lost, duplicated or reordered (C25_order); a self-updating pipeline holding data has its update pending; handlers run exactly for occupied stages unless deactivated or suppressed. Partial because the claim fails in these cases, shown as refuted theorems: the append slot still enters an empty stage 0 under a stall; the end of a stall reactivates handlers the user had deactivated; flushStage does not cancel handlers a stall just suppressed; isStalledOrStallingAtStage is true for stages that still move; the stall of an emptied self-updating pipeline never elapses."
  },
  {
   "property": "C26",
   "status": "partial",
   "theorems": [
    "C26_refines_partial",
    "C26_visible_partial",
    "C26_several_writes_refuted",
    "C26_manual",
    "C26_early_write_refuted",
    "C26_move_refuted"
   ],
   "note": "Automatic update: proved for histories with at most one write per cycle and no call between the start of a cycle and its due update; manual update proved for all sequences. Refuted: two or more writes in a cycle lose the value altogether, a write before the due update of its cycle is visible at once and then lost, copying or moving the object forgets the pending update."
  },
  {
   "property": "C27",
   "status": "partial",
   "theorems": [
    "C27_views_agree_partial",
    "C27_late_update_refuted",
    "C27_new_view_refuted",
    "C27_no_latency_refuted",
    "C27_create_refuted",
    "C27_initial",
    "C27_not_before",
    "C27_not_after",
    "C27_callback_once",
    "C27_callback_at_most_once",
    "C27_called_ready",
    "C27_called_at_once",
    "C27_already_ready_refuted",
    "C27_set_calls",
    "C27_empty_refused",
    "C27_print_partial",
    "C27_print_refuted"
   ],
   "note": "Proved for every latency table and sequence of calls: with no clear of a bit in flight, no view created while one of bits 0-31 is not ready and no producer without a latency to some view, each view equals the master less what is in flight, and equals it once nothing is (partial, each condition shown necessary by a refutation); updates arrive after exactly the table's latency; every registered callback is invoked once, waiting, or cleared; it is invoked only when its bits are ready, and as soon as they become so. Refuted: late updates after a clear, views created after a clear, consumers without latency, a callback registered on bits already ready (waits for the next update), creation of a view with no bit ready, printing of a range ending at bit 511. Callbacks that call back into the scoreboard are not modelled."
  },
  {
   "property": "C28",
   "status": "proved",
   "theorems": [
    "C28_floor_log2_32",
    "C28_floor_log2_64",
    "C28_floor_log2_generic",
    "C28_ceil_log2",
    "C28_is_power_of_2",
    "C28_next_power_of_2"
   ],
   "note": "floor_log2/ceil_log2/is_power_of_2/next_power_of_2 for every 64-bit (32-bit) input."
  },
  {
   "property": "C29",
   "status": "proved",
   "theorems": [
    "C29_log2_lsb32",
    "C29_log2_lsb64"
   ],
   "note": "Both De Bruijn tables, for every non-zero input."
  },
  {
   "property": "C30",
   "status": "partial",
   "theorems": [
    "C30_gcd32",
    "C30_gcd64",
    "C30_lcm32",
    "C30_lcm64",
    "C30_lcm_zero_refuted",
    "C30_safe_power_partial",
    "C30_safe_power_refuted",
    "C30_abs_unsigned"
   ],
   "note": "gcd, lcm and abs proved for all inputs. lcm(0,0) divides by zero (refuted); safe_power can return a wrapped result without throwing (refuted), proved exact when the power fits."
  },
  {
   "property": "C31",
   "status": "partial",
   "theorems": [
    "C31_construct",
    "C31_add",
    "C31_mul",
    "C31_div",
    "C31_sub_partial",
    "C31_sub_refuted",
    "C31_eq",
    "C31_inv"
   ],
   "note": "Exact and in lowest terms for +,*,/,inv,== whenever the intermediates fit. operator- is wrong when the difference reaches half the range (refuted), proved below that."
  },
  {
   "property": "C32",
   "status": "partial",
   "theorems": [
    "C32_map_partial",
    "C32_laws",
    "C32_size_one_refuted",
    "C32_size_wide_refuted"
   ],
   "note": "Proved for every node size 2^k with 1 <= k <= 30 and every history of store/touch/clear on 64-bit keys: no failure, pairs in insertion order, find exact. Refuted at the edges the constructor still accepts: node size 1 recurses without end for any key above 0, and node sizes of 2^31 and more shift an int out of range."
  },
  {
   "property": "C33",
   "status": "partial",
   "theorems": [
    "C33_shift_left_partial",
    "C33_shift_right_partial",
    "C33_large_amount_refuted",
    "C33_logic",
    "C33_not",
    "C33_value",
    "C33_fill",
    "C33_equal",
    "C33_copy",
    "C33_assign_refuted"
   ],
   "note": "Proved for shift amounts up to n bytes + 7 bits, logic, complement, fill, construction, comparison, copy construction. Refuted: larger shift amounts (iterator outside the array) and copy assignment (aliases the source)."
  },
  {
   "property": "C34",
   "status": "partial",
   "theorems": [
    "C34_logic",
    "C34_not",
    "C34_shift_left_partial",
    "C34_shift_right_partial",
    "C34_shift_right_refuted",
    "C34_shl_assign_partial",
    "C34_shl_assign_refuted",
    "C34_equal",
    "C34_access",
    "C34_none_partial",
    "C34_none_refuted",
    "C34_copy_partial",
    "C34_copy_refuted"
   ],
   "note": "Proved: |, &, ~, ==, dataAs, set; << for all wide registers and amounts below the width otherwise; >> where defined; <<= where it agrees with <<. Refuted: >> by amounts that evaluate undefined shifts or run past the words, <<= for every other word count, none()/any(), copies of mutable wrappers."
  },
  {
   "property": "C35",
   "status": "partial",
   "theorems": [
    "C35_destroyed_once_partial",
    "C35_get_partial",
    "C35_empty_partial",
    "C35_lock_partial",
    "C35_no_undefined_partial",
    "C35_allocator_partial",
    "C35_lock_expired_refuted",
    "C35_lock_dangling_refuted",
    "C35_assign_from_member_refuted",
    "C35_reset_member_refuted"
   ],
   "note": "Strong and weak pointers, allocator, members of managed objects and nested destruction modelled as micro-steps. Proved for all executions in which lock() is not called on an expired pointer: destroyed and released at most once and exactly when the last (strong / any) pointer is gone, get/use_count/expired/lock exact, allocator accounting; no undefined behaviour and termination when reset and assignments are applied to local variables. Refuted without these conditions: lock() of an expired pointer resurrects a destroyed object (second destruction, dangling control block); p = p->next and x->self.reset() are undefined. Not modelled: up-casts, overflow of the counts, throwing constructors."
  },
  {
   "property": "C36",
   "status": "partial",
   "theorems": [
    "C36_layout_partial",
    "C36_accepts_exactly_partial",
    "C36_refuses_partial",
    "C36_registration",
    "C36_subset_wraps_refuted",
    "C36_cycle_refuted",
    "C36_unbounded_line_refuted",
    "C36_largest_line_refuted"
   ],
   "note": "Positive theorems for line sizes 2^0..2^30, under 2^32 segments and non-wrapping size+offset sums; wrapping subset offsets, subset cycles (endless recursion), line size 0 and line size 2^31 are refuted with witnesses."
  },
  {
   "property": "C37",
   "status": "partial",
   "theorems": [
    "C37_reads_partial",
    "C37_writes_partial",
    "C37_wide_fill_refuted",
    "C37_wrapping_access_refuted",
    "C37_update_from_refuted"
   ],
   "note": "Refinement to a byte store for every history of reads, writes and cleans, for fill patterns that avoid an over-wide shift (or with the machine's masking shift given) and addresses that do not wrap; the wide-fill shift, wrapping accesses and updateFrom leaving stale lines are refuted with witnesses."
  },
  {
   "property": "C38",
   "status": "partial",
   "theorems": [
    "C38_load_partial",
    "C38_snapshot_partial",
    "C38_delta_after_delete_refuted",
    "C38_delta_after_reset_refuted",
    "C38_delta_after_forget_refuted"
   ],
   "note": "A checkpoint taken at any point of any history, by a forced snapshot or while the current checkpoint is what the dirty lines are relative to (a flag computed from the client's own calls and what the checkpointer lists), restores every byte and the scheduler tick when loaded, whatever writes, resets, creations, loads, deletions, forgets and threshold changes came in between, as long as it is still listed. Forced snapshots need nothing of the history. Partial: ArchDatas hold fewer than 2^32 lines in all, addresses do not wrap; without the condition the statement is false (three refutations: delta after deleting the current checkpoint and a sibling, delta after ArchData::reset, delta after forgetCurrent). Branch squashing and the cherry-pick/persistent checkpointers are not modelled."
  },
  {
   "property": "C39",
   "status": "partial",
   "theorems": [
    "C39_vector_records",
    "C39_stream_records",
    "C39_snapshot_vector_partial",
    "C39_snapshot_stream_partial",
    "C39_read_past_end_refuted",
    "C39_line_in_pieces_refuted"
   ],
   "note": "Proved for VectorStorage and StringStreamStorage: records written come back in order and can be read twice, and a snapshot (saveAll) of any list of ArchDatas restored into others of the same layouts gives the same reads. Partial: the snapshot theorems cover snapshots only, a delta (save/restore) is covered by a supporting lemma and not by a C39 theorem; VectorStorage needs fewer than 2^32 records. Refuted: reading past the last record is noticed by one storage only, and a line written in pieces is accepted by one storage only."
  },
  {
   "property": "C40",
   "status": "partial",
   "theorems": [
    "C40_always_runs_partial",
    "C40_notebook_partial",
    "C40_counts_partial",
    "C40_snapshot_rule_partial",
    "C40_refusals_partial",
    "C40_chain_partial",
    "C40_find_latest_partial",
    "C40_deleted_available_refuted",
    "C40_head_delete_refuted",
    "C40_current_moves_refuted",
    "C40_chain_order_refuted",
    "C40_find_latest_deleted_refuted"
   ],
   "note": "Every history runs without undefined behaviour or assertion; the listing, ticks, counts, identifiers and total agree with a notebook kept by the client; exact refusal conditions; numbers of snapshots, deltas and dead checkpoints; a new checkpoint is a snapshot exactly if forced or at the threshold; chains and findLatestCheckpointAtOrBefore. Partial: fewer than 2^32 lines, addresses do not wrap. Refuted: a deleted checkpoint stays available while something depends on it, the head can be deleted, current does not move back on deletion, chain order is the reverse of the documented one, findLatest may return a deleted checkpoint."
  },
  {
   "property": "C41",
   "status": "partial",
   "theorems": [
    "C41_read",
    "C41_same_memory",
    "C41_round_trip",
    "C41_write_frame",
    "C41_disjoint_views",
    "C41_assign",
    "C41_initial",
    "C41_padded_partial",
    "C41_padded_outside_refuted",
    "C41_truncated_widens_refuted",
    "C41_padded_big_endian_refuted",
    "C41_padded_rejects_refuted"
   ],
   "note": "read/write, disjoint views, copies and initial values proved for all placed views and both byte orders; readPadded/writeTruncated proved for types at least as wide as the view at index 0, refuted with witnesses for narrower types, other indices and big endian. C41_same_memory: a view and MemoryObject::read show the same bytes at the same address."
  },
  {
   "property": "C42",
   "status": "partial",
   "theorems": [
    "C42_view_partial",
    "C42_accepted_partial",
    "C42_poke_refuted",
    "C42_poke_drop_refuted",
    "C42_merge_refuted",
    "C42_commit_lost_refuted",
    "C42_writes_for_partial"
   ],
   "note": "Proved against a specification (system memory + outstanding writes) for every history of writes, commits and drops, merges into blocks the cache holds and pokes of any number of held blocks clear of outstanding writes, with a downstream memory at least as large and with blocks at least as large (C42_view_partial, C42_accepted_partial, C42_writes_for_partial). False otherwise: poking a block not held zeroes it downstream (C42_poke_refuted), poke over an outstanding write then drop diverges (C42_poke_drop_refuted), merging into a block not held makes the rest of it read 0 (C42_merge_refuted), commit across a smaller downstream block is lost (C42_commit_lost_refuted)."
  },
  {
   "property": "C43",
   "status": "partial",
   "theorems": [
    "C43_additions",
    "C43_find",
    "C43_translate",
    "C43_verify",
    "C43_destination_in_range_refuted",
    "C43_verify_wraps_refuted",
    "C43_large_blocks_refuted"
   ],
   "note": "For block sizes 2^k with k < 31 and every history of additions: each addition ends, accepts exactly the wellformed mappings disjoint from those accepted before, and lookups, translations and verifyHasMapping agree with the accepted mappings. Refuted for the rest: block sizes from 2^31 on are undefined behaviour; the size needed in the destination is computed modulo 2^64, so an accepted mapping can translate outside its interface; verifyHasMapping accepts accesses that pass 2^64. The red-black colouring (balance) is not claimed."
  },
  {
   "property": "C44",
   "status": "proved",
   "theorems": [
    "C44_lru",
    "C44_mru_not_victim"
   ],
   "note": "All associativities and touch histories."
  },
  {
   "property": "C45",
   "status": "proved",
   "theorems": [
    "C45_touch",
    "C45_legal_way",
    "C45_reset",
    "C45_rotation"
   ],
   "note": "All tree depths and bit states."
  },
  {
   "property": "C46",
   "status": "partial",
   "theorems": [
    "C46_simple_no_duplicates",
    "C46_chosen_no_duplicates",
    "C46_simple_hits",
    "C46_simple_fills_first",
    "C46_chosen_fills_first",
    "C46_invalid_check",
    "C46_plru_fills_first_refuted",
    "C46_touch_lru_refuted",
    "C46_blind_allocation_refuted",
    "C46_nontemporal_refuted"
   ],
   "note": "Proved for geometries with a power-of-two number of sets and stride = line size (what the default decoder needs): for every history of SimpleCache calls, and of SimpleCache2 rounds that look up before allocating, with any policy honouring ReplacementIF (both shipped ones do), no two valid lines of a set share a tag and isHit is true exactly for addresses inside some valid line; step by step, which addresses hit after each call, isHitWithCastout announcing exactly the line thrown out; with LRU a valid line is thrown out only of a full set (SimpleCache: always; SimpleCache2: unless touchLRU is called on a valid line); the invalid-way check works in every state and for every policy. Refuted: the same for Tree-PLRU and after touchLRU on a valid line, duplicates after allocating without lookup, and replacement of the older non-temporal line."
  },
  {
   "property": "C47",
   "status": "partial",
   "theorems": [
    "C47_invisible",
    "C47_lru",
    "C47_plru",
    "C47_crossing_write_refuted",
    "C47_invalidate_refuted",
    "C47_irregular_refuted"
   ],
   "note": "Proved for the same geometries, any policy honouring ReplacementIF, both write modes and mode changes, every history of reads, writes, line fetches, lookups and invalidations: answers equal those of a flat memory. Excluded by hypothesis and refuted: writes over the end of a line in no-write-allocate mode, invalidating a line modified in write-back mode; also refuted: a number of sets that is not a power of two."
  },
  {
   "property": "C48",
   "status": "partial",
   "theorems": [
    "C48_same_block_partial",
    "C48_reassemble",
    "C48_nonpow2_sets_refuted",
    "C48_stride_refuted"
   ],
   "note": "Exact for 2^s sets and stride = line size; other geometries the constructor accepts are refuted. Reassembly holds always."
  },
  {
   "property": "C49",
   "status": "proved",
   "theorems": [
    "C49_intervals",
    "C49_monotone"
   ],
   "note": "Proved: the value is the interval sum modulo 2^64 for every call sequence, and is monotone in time while the sum fits 64 bits; calls are refused exactly if they form no interval."
  },
  {
   "property": "C50",
   "status": "partial",
   "theorems": [
    "C50_bins_partial",
    "C50_total_partial",
    "C50_same_cycle_refuted",
    "C50_add_twice_refuted"
   ],
   "note": "Proved for calls at non-decreasing times where no call follows an addValue in its cycle. Refuted: reading in the cycle of an addValue (sum is one too high) and a second addValue in one cycle (assertion)."
  },
  {
   "property": "C51",
   "status": "partial",
   "theorems": [
    "C51_bucket_partial",
    "C51_total_partial",
    "C51_documented_refuted",
    "C51_off_by_one_refuted",
    "C51_empty_refuted"
   ],
   "note": "Counts sum and half-open ranges [bound i, bound i+1) are proved; the documented range (previous bound, bound] is refuted, and an empty bucket list is out-of-range."
  },
  {
   "property": "C52",
   "status": "partial",
   "theorems": [
    "C52_edges",
    "C52_exactly_once",
    "C52_in_order",
    "C52_arrival",
    "C52_recirculate",
    "C52_ready",
    "C52_progress",
    "C52_plain_in_order",
    "C52_next_available",
    "C52_order_refuted",
    "C52_not_ready_refuted",
    "C52_one_cycle_refuted",
    "C52_is_ready_refuted",
    "C52_is_ready_waiting_refuted",
    "C52_slide_refuted",
    "C52_next_available_refuted",
    "C52_driven_refuted",
    "C52_tick_zero_refuted"
   ],
   "note": "Proved for all periods, port delays, senders and sequences of calls: accepted data is delivered or in flight exactly as often as sent (C52_exactly_once), deliveries are on receiver edges and strictly later than each other (C52_edges), arrivals are on the first edge after the delays or one cycle after the previous arrival when sliding (C52_arrival), setReady takes effect from the next tick (C52_ready), a datum at a ready port is delivered (C52_progress), and order is kept if nothing else is in flight when a datum goes round (C52_in_order) or for plain sends to ports with at most a cycle of delay (C52_plain_in_order). False in general: recirculated data can be overtaken or fail an assertion, isReady misses data already sent, a refused slide is still delivered, the next available cycle is wrong for slow senders, isDriven misses data in flight (the _refuted theorems). Outside the model: delays of 2^53 ticks and more, ticks of 2^64 - 1 and more."
  },
  {
   "property": "C53",
   "status": "partial",
   "theorems": [
    "C53_exactly_once",
    "C53_on_time",
    "C53_progress",
    "C53_order",
    "C53_order_delayed",
    "C53_container",
    "C53_container_empty",
    "C53_driven",
    "C53_cancel_exact",
    "C53_overtake_refuted",
    "C53_far_refuted",
    "C53_cancel_refuted"
   ],
   "note": "Proved for all port configurations, sequences of sends, cancels, deliveries and time steps whose total delay stays below 2^32 cycles: each send yields exactly one item per bound port, at now plus (send delay + port delay) receiver cycles, which is delivered, waiting or cancelled (C53_exactly_once); nothing waits past its tick and the scheduler is never stuck on a due item (C53_on_time, C53_progress); items of one port and tick come in send order unless one is delivered on the spot (C53_order, C53_order_delayed); the container shows the last delivery; isDriven and cancelIf are exact for the bound ports. False in general: a zero-delay send in the phase of the port overtakes (C53_overtake_refuted), delays wrap at 2^32 (C53_far_refuted), and cancel/isDriven of one out port also affect data of other out ports (C53_cancel_refuted). Precedence between delivery events inside one phase is left free, so the model allows every order of deliveries to different ports."
  },
  {
   "property": "C54",
   "status": "partial",
   "theorems": [
    "C54_elapsed_partial",
    "C54_monotone",
    "C54_restart_refuted"
   ],
   "note": "Proved for histories in which restartAt is never called while a later tick has been reached (late_restart): elapsed ticks equal the current tick in every handler and are at most one behind between runs; monotone for every action other than restartAt. C54_restart_refuted: after running to tick 12 and restartAt, a handler at tick 10 sees elapsed ticks 12. Arithmetic in N, no 64-bit wrap."
  },
  {
   "property": "C55",
   "status": "partial",
   "theorems": [
    "C55_finished",
    "C55_runs_to_the_end_partial",
    "C55_stale_stop_refuted",
    "C55_async_refuted"
   ],
   "note": "C55_finished: if isFinished() holds after any history, every accepted continuing event has fired or been cancelled. C55_runs_to_the_end_partial: an unlimited run without stopRunning returns finished, provided no stop marker of an earlier limited run is pending; C55_stale_stop_refuted shows the proviso is needed. C55_async_refuted: a continuing event posted with scheduleAsyncEvent to a scheduler with an empty queue is not run by run(), which reports finished."
  },
  {
   "property": "C56",
   "status": "partial",
   "theorems": [
    "C56_construct",
    "C56_masked_write",
    "C56_unmasked_write",
    "C56_read",
    "C56_bounds",
    "C56_read_only",
    "C56_reset",
    "C56_unmasked_index_refuted",
    "C56_odd_size_refuted",
    "C56_wrap_refuted",
    "C56_not_writable_refuted"
   ],
   "note": "Proved for every size, field list, contents and access: which definitions are accepted (C56_construct); masked and unmasked writes and pokes store exactly the stated bits and nothing else in the line, and writes notify with the bytes before and after (C56_masked_write, for sizes 1, 2, 4, 8 and multiples of 8; C56_unmasked_write); reads (C56_read); refusal of accesses leaving the register (C56_bounds, ends below 2^64); read-only bits never change under masked operations (C56_read_only); reset (C56_reset). False: Register::writeUnmasked with an index, masked writes of other sizes, offsets near 2^64, non-writable registers without assert (the _refuted theorems). Registers wider than 8 bytes are covered on x86-64 shifts only (shift_ok)."
  },
  {
   "property": "C57",
   "status": "partial",
   "theorems": [
    "C57_read",
    "C57_write",
    "C57_roundtrip",
    "C57_overflow_partial",
    "C57_overflow_refuted",
    "C57_wide_refuted"
   ],
   "note": "Proved for fields where the field mask is right (pos_ok: registers of at most 8 bytes, or low bit below 64, or past the middle words): reading gives the field's bits (C57_read), writing a fitting value changes exactly the writable bits of the field (C57_write), reads back and leaves disjoint and read-only fields alone (C57_roundtrip); too large values are refused if the excess bits land in the register and the register has fewer than 8 bytes or the field reaches bit 7 (C57_overflow_partial). False: other too large values (C57_overflow_refuted), middle fields of wide registers (C57_wide_refuted, for 32 bytes)."
  },
  {
   "property": "C58",
   "status": "partial",
   "theorems": [
    "C58_tick_partial",
    "C58_first_cycle_partial",
    "C58_stopped_partial",
    "C58_calm_partial",
    "C58_not_last_partial",
    "C58_deactivate_last_refuted",
    "C58_after_firing_refuted",
    "C58_in_callback_refuted",
    "C58_rearm_then_stop_refuted",
    "C58_before_run_refuted",
    "C58_self_assign_refuted"
   ],
   "note": "For callbacks that only create triggers and re-arm the calling trigger at most once: each cycle fires exactly the active triggers whose counter has reached the point, once each (C58_tick_partial, while no handler was destroyed with its event pending); an untouched active trigger fires in the first such cycle and not before (C58_first_cycle_partial); inactive triggers stay silent (C58_stopped_partial); the destroyed-handler condition holds if the outside code never takes triggers away, or only while another one is active (C58_calm_partial, C58_not_last_partial). False in general: removing the last trigger, removing after firing, deactivating or destroying other triggers in callbacks, operations before the first run, self-assignment (the _refuted theorems)."
  },
  {
   "property": "C59",
   "status": "partial",
   "theorems": [
    "C59_timer_partial",
    "C59_target",
    "C59_once_partial",
    "C59_deactivated_partial",
    "C59_has_fired",
    "C59_before_start_partial",
    "C59_time_partial",
    "C59_set_again_refuted",
    "C59_two_kinds_refuted",
    "C59_align_zero_refuted",
    "C59_deactivate_before_start_refuted",
    "C59_in_callback_refuted",
    "C59_past_refuted"
   ],
   "note": "Proved: as long as nothing is set while an event is outstanding, one kind of setting is used, times are to come and fit 64 bits and the callback leaves the trigger alone, the trigger refines a one-shot timer and nothing fails (C59_timer_partial); the timer's target in cycles (C59_target); exactly one call at the target (C59_once_partial); silence after deactivate in any state (C59_deactivated_partial); relative settings before the start (C59_before_start_partial); time triggers left alone (C59_time_partial). False: set after deactivate with an event outstanding, relative then absolute, aligned with delay 0, deactivate before the start, setting in the callback, absolute times in the past (the _refuted theorems). hasFired answers yes exactly after the callback was called, in every history."
  },
  {
   "property": "C60",
   "status": "partial",
   "theorems": [
    "C60_refines_partial",
    "C60_refused",
    "C60_peek_partial",
    "C60_keeps_partial",
    "C60_pieces",
    "C60_poke_stops_refuted",
    "C60_throwing",
    "C60_dmi_dead_refuted",
    "C60_dmi_poke_refuted",
    "C60_dmi_after_clean_refuted",
    "C60_dmi_checkpoint_refuted",
    "C60_dmi_outside_refuted",
    "C60_wrap_refuted",
    "C60_empty_refuted"
   ],
   "note": "Proved: over every history of calls (non-empty, not wrapping), each call returns what a byte array with DMIs specifies, with counts and notifications, and undefined behaviour occurs exactly when a DMI is used inside its block after the memory's lines were deleted; written bytes are read back by any route until overwritten; peeks over several blocks agree byte by byte; tryPoke hands any implementer consecutive pieces within blocks; calls that return false change nothing, for all arguments; throwing calls agree with trying ones. Refuted: an invalidated DMI can never be replaced; it still peeks and pokes; after a clean a DMI is valid but dangling; a DMI write is missing from the next delta checkpoint; getDMI outside the window throws; wrapping accesses pass the checks; empty accesses are inconsistent; a poke refused halfway has already changed memory (for implementers that refuse a block)."
  },
  {
   "property": "C61",
   "status": "partial",
   "theorems": [
    "C61_value",
    "C61_accepted",
    "C61_alphabet",
    "C61_safe_partial",
    "C61_ends",
    "C61_end_pos",
    "C61_end_pos_refuted",
    "C61_overflow_refuted",
    "C61_fraction_refuted",
    "C61_fraction_zero_refuted",
    "C61_fraction_place_refuted",
    "C61_crash_refuted",
    "C61_radix_refuted"
   ],
   "note": "Proved: every text spelling a well-formed, unambiguous number below 2^64 (fractions of at most nine digits, none 0, each worth a whole number) is read as exactly its value, with any separators; conversely every accepted text spells a number of the documented form and, for fractions of at most nine digits, has the value of its parts (digits of fractions rounded down) modulo 2^64; no other characters are accepted; the recursion ends and, with recursion allowed, end_pos is npos; without a point the call only returns or throws. Refuted: overflow of the suffix multiplication or the sum wraps; binary suffixes truncate fractions; a 0 in a fraction is refused; the tenth fraction digit is mis-scaled; 33 fraction digits divide by zero and two points fail an assertion; 019 is read as 1+9; end_pos without recursion."
  },
  {
   "property": "C62",
   "status": "partial",
   "theorems": [
    "C62_unsigned",
    "C62_unsigned_fits",
    "C62_signed_partial",
    "C62_small_partial",
    "C62_small_refuted",
    "C62_int64_min_refuted",
    "C62_wrap_refuted",
    "C62_minus_refuted"
   ],
   "note": "Proved: unsigned casts return exactly the value of a well-formed number below 2^64 that fits and refuse one that does not, and never return a value that does not fit; int64_t and int32_t casts are exact with either sign and refuse what does not fit, the smallest int64_t excepted; int16_t and int8_t casts are exact in range and refuse beyond twice the range. Refuted: int16_t and int8_t accept values up to one bit too many and return them wrapped; reading the smallest int64_t is undefined; values that wrapped in 64 bits are accepted; a lone minus sign is 0."
  },
  {
   "property": "C63",
   "status": "partial",
   "theorems": [
    "C63_glob",
    "C63_latest",
    "C63_others",
    "C63_unset",
    "C63_set_works",
    "C63_set_reports",
    "C63_cannot_fail_refuted",
    "C63_bracket_refuted",
    "C63_walk_refuted",
    "C63_exists_refuted",
    "C63_handle_refuted"
   ],
   "note": "C63_latest, C63_others, C63_unset, C63_glob, C63_set_works, C63_set_reports hold for all histories, patterns of regular names and readable paths. Refuted: set can fail when a beginning of the path has a value; names with brackets cannot be read; walking by getChild, exists() on inner nodes, and values given through a node handle deviate."
  },
  {
   "property": "C64",
   "status": "partial",
   "theorems": [
    "C64_report_true",
    "C64_report_whole",
    "C64_marks",
    "C64_is_read",
    "C64_is_read_only",
    "C64_exists_refuted",
    "C64_unrequire_refuted",
    "C64_overwrite_refuted",
    "C64_shadow_refuted",
    "C64_twice_refuted"
   ],
   "note": "C64_marks (exact effect of one read), C64_report_true, C64_report_whole (from an empty tree, no read that covers the path), C64_is_read, C64_is_read_only, counters below 2^32. Refuted: exists(), hasValue() and unrequire() count as reads; a value set after the last read counts as read; overridden values are marked too; a path can be reported twice."
  },
  {
   "property": "C65",
   "status": "partial",
   "theorems": [
    "C65_merge",
    "C65_merge_works",
    "C65_copy",
    "C65_copy_reads",
    "C65_copy_works",
    "C65_copy_refuted",
    "C65_self_assign_refuted",
    "C65_assign",
    "C65_failed_merge_refuted"
   ],
   "note": "C65_merge, C65_merge_works, C65_copy, C65_copy_reads, C65_copy_works, C65_assign for trees built by any history. Refuted: not every tree can be copied, self assignment empties the tree, a failed merge leaves a partly merged tree."
  },
  {
   "property": "C66",
   "status": "partial",
   "theorems": [
    "C66_required",
    "C66_required_only",
    "C66_unrequire",
    "C66_hidden_refuted",
    "C66_optional_refuted",
    "C66_unrequire_others_refuted",
    "C66_unrequire_below_refuted"
   ],
   "note": "C66_required (no later call whose path begins with names covering the path, no unrequire, fewer than 2^32-1 calls before), C66_required_only, C66_unrequire. Refuted: a longer path set later hides a requirement; setting again as optional has no effect; unrequire reaches other paths through patterns and misses older nodes below the path."
  },
  {
   "property": "C67",
   "status": "partial",
   "theorems": [
    "C67_deliver_partial",
    "C67_local_partial",
    "C67_look_partial",
    "C67_list_refuted",
    "C67_private_refuted",
    "C67_child_refuted",
    "C67_global_child_refuted"
   ],
   "note": "Proved for every history of building trees, registering, deregistering and posting with one name per registration, without private nodes, without children of the virtual global node and without constructors that take the parent; with such constructors still for registrations below the virtual global node. Refuted: lists of names registered before the source exists reach it never; private subtrees are skipped when registering but not when attaching; constructors given the parent lead to repeated calls of global observers; a source directly below the virtual global node is not told of later global registrations. Destruction of nodes and observers that call back are not modelled."
  },
  {
   "property": "C68",
   "status": "partial",
   "theorems": [
    "C68_accept_partial",
    "C68_refused_partial",
    "C68_ensure_list_refuted",
    "C68_malformed_refuted",
    "C68_ensure_global_refuted"
   ],
   "note": "Acceptance proved exactly for the same histories as C67; a refused call of that kind changes nothing. Refuted: asking for a possible source refuses a list of several names that sources can generate and any registration on the virtual global node; a malformed list is refused but the observer stays registered on the node."
  },
  {
   "property": "C69",
   "status": "partial",
   "theorems": [
    "C69_register_partial",
    "C69_deregister_partial",
    "C69_attach_refuted"
   ],
   "note": "Callbacks and counts proved for registrations and deregistrations, for the same histories as C67. Refuted: attaching a source below an observed node calls no callback, so the number of observers changes unreported."
  },
  {
   "property": "C70",
   "status": "proved",
   "theorems": [
    "C70_names"
   ],
   "note": "Proved for every text; an empty last field reads as the empty name, which matches all notifications."
  },
  {
   "property": "C71",
   "status": "partial",
   "theorems": [
    "C71_child",
    "C71_own_name",
    "C71_path",
    "C71_location",
    "C71_unique",
    "C71_unique_refuted",
    "C71_privacy",
    "C71_private_refuted"
   ],
   "note": "Proved: getChild and hasChild follow the route of names and the privacy level; each name means the first child that answers to it; a child is found by its name and aliases; location; privacy level as the number of makeSubtreePrivate calls modulo 2^32. Refuted: unnamed nodes of a group share a location, and getChild can go through a parent of another privacy level to a private sibling."
  },
  {
   "property": "C72",
   "status": "partial",
   "theorems": [
    "C72_found",
    "C72_texts",
    "C72_texts_refuted",
    "C72_once",
    "C72_path",
    "C72_example_refuted",
    "C72_deepest_refuted"
   ],
   "note": "Proved: which nodes are found, no node twice without going up, getChild paths are found, the texts as a permutation and in the order of the pattern if at most one wildcard lies behind the first named part. Refuted: the order of texts for three parts, the last documented example, and getDeepestMatchingPath giving a path that leads to a node."
  },
  {
   "property": "C73",
   "status": "partial",
   "theorems": [
    "C73_matches",
    "C73_inverse_refuted",
    "C73_up_refuted"
   ],
   "note": "Proved for patterns whose parts are not empty. Refuted: that it is the inverse of findChildren (nodes known by group only; a trailing dot throws), and that a leading dot is refused as documented."
  },
  {
   "property": "C74",
   "status": "partial",
   "theorems": [
    "C74_add",
    "C74_added",
    "C74_tree",
    "C74_groups",
    "C74_two_parents_refuted",
    "C74_names",
    "C74_underscores_refuted"
   ],
   "note": "Proved: when addChild succeeds and what it changes, the way up, groups, what the checks of names guarantee. Refuted: that a refused addChild changes nothing (a node with a parent becomes child of both before the critical error), and that double underscores are refused."
  },
  {
   "property": "C75",
   "status": "partial",
   "theorems": [
    "C75_new",
    "C75_counts",
    "C75_whole_range_refuted",
    "C75_labels",
    "C75_labels_refuted",
    "C75_largest",
    "C75_cumulative",
    "C75_enum",
    "C75_enum_one_refuted"
   ],
   "note": "Proved for every accepted histogram but the one over all 64-bit numbers with bins of one value, and for names and cumulative text if the upper value plus the width does not pass 2^64. Refuted: that one histogram has no bin and throws on every value; names of bins near 2^64 wrap; an enumeration of one constant is refused."
  },
  {
   "property": "C76",
   "status": "partial",
   "theorems": [
    "C76_time",
    "C76_settled",
    "C76_release",
    "C76_query",
    "C76_quiet",
    "C76_allocate",
    "C76_available",
    "C76_start",
    "C76_stop",
    "C76_cycle_zero_refuted"
   ],
   "note": "Proved for all histories of a unit, with cycle numbers that do not wrap and hash codes of the enum types that differ: sum of the reported values plus unreported times is the time spent; settled after a query or with no timer in use; the values a release and a query add; nothing else adds; a timer given out is fresh; allocation succeeds below 10000 timers in use; exact conditions of startState, endState, release. Refuted: leaving a state started in cycle zero by starting another one (assertion on the start time). The real EnumT hash truncation to 32 bits and the text of the histograms are not covered here."
  },
  {
   "property": "C77",
   "status": "partial",
   "theorems": [
    "C77_calls",
    "C77_on_time",
    "C77_only_sent",
    "C77_once",
    "C77_accepted",
    "C77_received_now",
    "C77_progress",
    "C77_once_refuted",
    "C77_far_refuted"
   ],
   "note": "Proved for all histories of sends and scheduler moves, for delays below 2^32 cycles and clocks with a period: the exact number of handler calls per port and tick; ticks that are over; no call without a send; at most one call per tick for ports with a delay; exact acceptance of a send; no due signal blocks the scheduler; dataReceivedThisCycle. The scheduler is abstracted to unique events that fire at their tick and phase. Refuted: at most one call per tick for ports without delay; keeping delays of 2^32 cycles or more."
  },
  {
   "property": "C78",
   "status": "proved",
   "theorems": [
    "C78_accepted",
    "C78_runs",
    "C78_windows",
    "C78_count"
   ],
   "note": "Proved for fewer than 2^64 checkpoints; which checkpoints a commit hands over is an argument, the pipeline threads are taken as having run and kept the order of rows."
  },
  {
   "property": "C79",
   "status": "partial",
   "theorems": [
    "C79_open",
    "C79_loads",
    "C79_replay",
    "C79_early",
    "C79_count_early_refuted"
   ],
   "note": "Proved for databases after the teardown; C79_early says what is offered before it, C79_count_early_refuted shows that the counts differ then. Assumes that each delta was taken relative to the checkpoint before it in the same commit."
  },
  {
   "property": "C80",
   "status": "partial",
   "theorems": [
    "C80_squash",
    "C80_when",
    "C80_load_partial",
    "C80_batches",
    "C80_after_delete_refuted",
    "C80_new_head_count_refuted",
    "C80_new_head"
   ],
   "note": "C80_squash, C80_when (fewer than 2^32 checkpoints) and C80_batches are for squashes without a new head, in all histories with such squashes. C80_load_partial has the conditions of C38. C80_new_head describes one squash with a new head after such a history and loads of that head; histories that go on after it are not covered, because the counters are too high then (C80_new_head_count_refuted). A squash after deleting a checkpoint that is still needed ends the program (C80_after_delete_refuted). The later destruction of saved checkpoints is not modelled."
  },
  {
   "property": "C81",
   "status": "partial",
   "theorems": [
    "C81_window",
    "C81_end",
    "C81_last_tick_refuted",
    "C81_cumulative",
    "C81_counter",
    "C81_windows_add",
    "C81_early",
    "C81_destroyed",
    "C81_count_refuted",
    "C81_free_refuted"
   ],
   "note": "Proved for all expression trees and histories with ticks below 2^64: the open window, the ended window (ended before tick 2^64-1), accumulation, exact counts and additivity below 2^53, refused early reads, destroyed nodes. Partial: counts at 2^53 and above can lose events (C81_count_refuted), a window ended at tick 2^64-1 goes on counting (C81_last_tick_refuted), and an instance of a free expression without setContext cannot be started (C81_free_refuted). Not modelled: parsing, snapshot loggers, the state left by a start or end that throws."
  },
  {
   "property": "C82",
   "status": "partial",
   "theorems": [
    "C82_construct",
    "C82_construct_within",
    "C82_construct_strict",
    "C82_sound",
    "C82_exact",
    "C82_convert",
    "C82_add_refuted",
    "C82_construct_refuted",
    "C82_convert_refuted",
    "C82_reference_refuted"
   ],
   "note": "Proved for all integer types of 8 to 64 bits: construction with sensible bounds, value within bounds after any construction, soundness of any series of operations, exactness when the distance of the bounds fits the promoted type and operands can be negated, conversions that fit. Partial: += is undefined for a negative int32_t or int64_t with default bounds (C82_add_refuted), lower bounds are truncated (C82_construct_refuted), conversion to a narrower unsigned type can break the bounds (C82_convert_refuted), built-in operators bypass them (C82_reference_refuted)."
  },
  {
   "property": "C83",
   "status": "partial",
   "theorems": [
    "C83_refines",
    "C83_marks",
    "C83_joint",
    "C83_monitored",
    "C83_observers",
    "C83_set",
    "C83_set_only",
    "C83_time",
    "C83_threshold_refuted",
    "C83_late_refuted",
    "C83_clear_refuted",
    "C83_time_refuted",
    "C83_bool_refuted",
    "C83_monitor_refuted",
    "C83_monitor_reset_refuted",
    "C83_copy_refuted"
   ],
   "note": "Proved for all sequences of calls on a state with at most 2^32-1 markers per value and no monitor that resets the state while it is called: agreement with a description by sets (C83_refines), counts (C83_marks), transitions by markers (C83_joint), monitors that look on (C83_monitored), observers (C83_observers), isSet (C83_set, C83_set_only; the latter without interfering monitors). The tracker's accounts are proved for runs where the value changes by setValue only (C83_time). Eight documented or expected statements are refuted: the meaning of the threshold, later markers, isClear, time after transitions by markers and resets, the initial value of a bool state, when monitors are called, monitors that reset, observers and markers of copies."
  },
  {
   "property": "C84",
   "status": "partial",
   "theorems": [
    "C84_text",
    "C84_unique",
    "C84_child",
    "C84_stable",
    "C84_assign",
    "C84_copy_refuted",
    "C84_reset_refuted",
    "C84_wrap_refuted",
    "C84_assign_refuted"
   ],
   "note": "Proved for all sequences of constructions, copies and resets: comparison is comparison of texts (C84_text), texts do not change (C84_stable), an assignment of an earlier tag gives its text (C84_assign). For constructions alone, fewer than 2^32 - 1 of them: uniqueness of tags and texts (C84_unique), numbers and texts of children (C84_child). Uniqueness in general is refuted for copies, a reset and the wrap at 2^32; an assignment can make a tag its own parent (C84_assign_refuted). Destruction of tags is not modelled."
  },
  {
   "property": "C85",
   "status": "partial",
   "theorems": [
    "C85_pointers",
    "C85_known",
    "C85_longest",
    "C85_write_refuted"
   ],
   "note": "Proved for all sequences of interned strings: pointers and strings (C85_pointers), what is known and counted (C85_known; the count for fewer than 2^32 - 1 strings), the longest length for strings below 2^32 characters (C85_longest). The pointers are not const, and a write through one breaks the property (C85_write_refuted). dumpStrings and static initialisation are not modelled."
  },
  {
   "property": "C86",
   "status": "partial",
   "theorems": [
    "C86_refines",
    "C86_last",
    "C86_archive",
    "C86_locked",
    "C86_born",
    "C86_write_refuted",
    "C86_stale_refuted",
    "C86_moved_refuted"
   ],
   "note": "Proved: refinement of optional values for all sequences, last assignment, archives, locking. Refuted: a locked value cannot be overwritten (references), comparison with an invalid right side, validity after move assignment. Construction of an object from itself and operator<< are not described."
  }
 ]
}