{
 "claims": [
  {
   "property": "C01",
   "status": "proved",
   "theorems": [
    "C01_store_is_a_map",
    "C01_no_internal_errors"
   ],
   "note": "Any hash function, any history with maintenance, crashes and reopenings before; C01_no_internal_errors: never an error except the documented rejections."
  },
  {
   "property": "C02",
   "status": "proved",
   "theorems": [
    "C02_value_was_set_under_this_key",
    "C02_other_keys_untouched"
   ],
   "note": "For an arbitrary 128-bit hash function, so including full collisions."
  },
  {
   "property": "C03",
   "status": "proved",
   "theorems": [
    "C03_splits_invisible",
    "C03_split_preserves_content"
   ],
   "note": "History-level (results independent of splits) and per split."
  },
  {
   "property": "C04",
   "status": "proved",
   "theorems": [
    "C04_compaction_step_invisible",
    "C04_calls_see_no_compaction"
   ],
   "note": "At every position of the background compactor."
  },
  {
   "property": "C05",
   "status": "proved",
   "theorems": [
    "C05_merge_preserves_content"
   ],
   "note": ""
  },
  {
   "property": "C06",
   "status": "partial",
   "theorems": [
    "C06_merge_returns_or_deadlocks_partial",
    "C06_merge_returns_refuted",
    "C06_merge_returns_partial"
   ],
   "note": "REFUTED by the code: merging two small shards re-locks the write lock it holds (router.rs). What holds: without earlier crashes the deadlock is the only way not to return (C06_merge_returns_or_deadlocks_partial), and it returns if there are at most two shards, or fewer than two can be spared, or no two neighbours are both within the fill level (C06_merge_returns_partial)."
  },
  {
   "property": "C07",
   "status": "proved",
   "theorems": [
    "C07_clear_empties"
   ],
   "note": ""
  },
  {
   "property": "C08",
   "status": "proved",
   "theorems": [
    "C08_reopen_same_content"
   ],
   "note": "For clean histories in which every shard has the room stated in the theorem."
  },
  {
   "property": "C09",
   "status": "proved",
   "theorems": [
    "C09_crash_during_call",
    "C09_crash_during_call_and_recovery"
   ],
   "note": "Process crash: every prefix of the micro effects of the call (each mmap store, each byte of a pwrite, each rename/unlink), also followed by crashes during recovery."
  },
  {
   "property": "C10",
   "status": "proved",
   "theorems": [
    "C10_crash_during_maintenance",
    "C10_crash_during_split"
   ],
   "note": ""
  },
  {
   "property": "C11",
   "status": "partial",
   "theorems": [
    "C11_crash_during_creation_refuted",
    "C11_crash_during_clear_refuted",
    "C11_crash_during_clear_partial",
    "C11_crash_during_creation_partial",
    "C11_part_of_the_entries_refuted",
    "C11_crash_during_clear_stale_value_refuted"
   ],
   "note": "Proved: after a crash at any point of clear with no compaction under way (any order of deletion, any number of further crashed or failed openings), an open that succeeds shows every key with its last value or none; after crashes during creation an open that succeeds shows an empty store. REFUTED: open may fail (zero-magic file, incomplete set of shards); it may succeed with a part of the entries gone (treeify does not check that the shards cover all keys); with a compaction under way an overwritten value may come back."
  },
  {
   "property": "C12",
   "status": "proved",
   "theorems": [
    "C12_open_keeps_covering_shards",
    "C12_order_irrelevant"
   ],
   "note": "For arbitrary directories."
  },
  {
   "property": "C13",
   "status": "proved",
   "theorems": [
    "C13_one_home_shard",
    "C13_reachable_one_home_shard"
   ],
   "note": ""
  },
  {
   "property": "C14",
   "status": "partial",
   "theorems": [
    "C14_presplit_covers",
    "C14_huge_expectation_refuted",
    "C14_step_in_floating_point"
   ],
   "note": "Proved for settings up to 65536*29491 expected keys; REFUTED above (the step becomes 0: panic). C14_step_in_floating_point: the code's f64 computation of the step (IEEE binary64, Flocq) gives, for every usize, the step the model uses."
  },
  {
   "property": "C15",
   "status": "proved",
   "theorems": [
    "C15_iter_returns_all",
    "C15_iter_raw_returns_all",
    "C15_iteration_is_determined"
   ],
   "note": "Every reachable store (any history with crashes and reopening); iter() and iter_raw()."
  },
  {
   "property": "C16",
   "status": "partial",
   "theorems": [
    "C16_cookie_resumes_partial",
    "C16_cookie_at_the_end_refuted"
   ],
   "note": "Proved after any number of items; the end position is refuted for every store: the cookie of an exhausted iterator starts over (shard_selector & 0xffff wraps 65536 to 0, store.rs:137)."
  },
  {
   "property": "C17",
   "status": "partial",
   "theorems": [
    "C17_items_are_current",
    "C17_next_never_fails",
    "C17_other_rows_partial",
    "C17_insert_hides_a_key_refuted",
    "C17_compaction_hides_a_key_refuted"
   ],
   "note": "Refuted: one insertion that splits the shard, or a background compaction, between two next() calls hides an untouched key of the row the iterator stands in. Proved: next() never fails or returns stale pairs; keys of all other rows are returned, whatever calls, splits and compactions happen in between (merging excluded)."
  },
  {
   "property": "C18",
   "status": "partial",
   "theorems": [
    "C18_spaces_are_disjoint",
    "C18_list_space_is_disjoint",
    "C18_queues_and_big_values_refuted"
   ],
   "note": "Reply-level noninterference for plain, typed, queue/big spaces from any reachable store; lists through C24 (other lists with other 64-bit hashes). Queues and big values of the same key are one space in the code: C18_queues_and_big_values_refuted; typed lists vs untyped lists: C33_untyped_list_refuted."
  },
  {
   "property": "C19",
   "status": "proved",
   "theorems": [
    "C19_rejected_changes_nothing",
    "C19_within_limits_accepted"
   ],
   "note": "Acceptance is proved under the explicit room conditions of Limits.v (see C37)."
  },
  {
   "property": "C20",
   "status": "partial",
   "theorems": [
    "C20_rejected_list_call_partial",
    "C20_list_len_refuted",
    "C20_promoting_refuted",
    "C20_rejected_push_partial",
    "C20_queue_len_refuted"
   ],
   "note": "Items are never changed by a rejected call (partial); REFUTED for list_len (a rejected item is counted for ever) and set_in_list_promoting (a rejected value removes the item)."
  },
  {
   "property": "C21",
   "status": "proved",
   "theorems": [
    "C21_statistics_exact"
   ],
   "note": "Clean histories (no crash)."
  },
  {
   "property": "C22",
   "status": "partial",
   "theorems": [
    "C22_bytes_meaningful_partial",
    "C22_num_entries_refuted"
   ],
   "note": "Bytes: proved as _partial; number of entries REFUTED (a crash between the slot store and the counter update leaves the counter off)."
  },
  {
   "property": "C23",
   "status": "proved",
   "theorems": [
    "C23_list_is_an_ordered_map"
   ],
   "note": "Any history of calls on any lists (with other hashes), other collections, maintenance, reopening and crashes outside the list; the conditions on a call are list_room and lcall_accepts of ListSpec.v."
  },
  {
   "property": "C24",
   "status": "proved",
   "theorems": [
    "C24_lists_are_independent",
    "C24_distinct_hashes_are_needed"
   ],
   "note": "Including crashes inside calls on other lists."
  },
  {
   "property": "C25",
   "status": "proved",
   "theorems": [
    "C25_compacting_changes_nothing"
   ],
   "note": "The float comparison of the ratio is an arbitrary predicate, so for every parameter."
  },
  {
   "property": "C26",
   "status": "partial",
   "theorems": [
    "C26_replace_in_list_partial",
    "C26_compare_and_swap_refuted"
   ],
   "note": "REFUTED by the code: lists.rs:166 compares the expected value with the index suffix of the item."
  },
  {
   "property": "C27",
   "status": "partial",
   "theorems": [
    "C27_crash_during_adding_partial",
    "C27_list_histories_with_crashes_partial",
    "C27_crash_during_remove_refuted",
    "C27_crash_then_panic_refuted"
   ],
   "note": "Partial: crashes during calls that add or read (before or after, list_len may overcount); REFUTED for removals: items that are members but not iterated, later removals hiding other items, counter underflow."
  },
  {
   "property": "C28",
   "status": "proved",
   "theorems": [
    "C28_queue_is_a_deque",
    "C28_queues_are_independent"
   ],
   "note": "Each queue, along histories with any other calls, other queues, reopenings, maintenance. The guard (queue_guard) keeps record counters inside 64 bits and admits remove_from_queue; crashes inside calls on this queue are C30."
  },
  {
   "property": "C29",
   "status": "partial",
   "theorems": [
    "C29_remove_by_index_partial",
    "C29_sole_element_refuted"
   ],
   "note": "Proved for elements that are not the sole element; C29_sole_element_refuted shows the real code leaves a stale record (Finding 2)."
  },
  {
   "property": "C30",
   "status": "partial",
   "theorems": [
    "C30_crash_partial",
    "C30_queue_histories_with_crashes_partial",
    "C30_queue_len_refuted",
    "C30_extend_refuted"
   ],
   "note": "Sequence before/after proved for push/pop; queue_len after a crash and extend are refuted by machine-checked counterexamples."
  },
  {
   "property": "C31",
   "status": "partial",
   "theorems": [
    "C31_big_values_partial",
    "C31_empty_value_refuted"
   ],
   "note": "Non-empty values; C31_empty_value_refuted: set_big(k, \"\") then get_big(k) = None."
  },
  {
   "property": "C32",
   "status": "partial",
   "theorems": [
    "C32_typed_store_is_a_map",
    "C32_type_ids_do_not_interfere",
    "C32_typed_big_values_partial",
    "C32_empty_big_value_refuted"
   ],
   "note": "Codec abstract with dec(enc x) = Some x. Big values of typed stores: non-empty encodings only (as C31), hence one theorem is _partial; the excluded case is refuted by C32_empty_big_value_refuted (a store of units: set_big, then get_big returns None)."
  },
  {
   "property": "C33",
   "status": "partial",
   "theorems": [
    "C33_typed_list_is_an_ordered_map",
    "C33_typed_deque_is_a_deque",
    "C33_keys_are_distinct",
    "C33_type_ids_do_not_interfere",
    "C33_untyped_list_refuted"
   ],
   "note": "C33_untyped_list_refuted: a typed list shares its data with the untyped list whose key has the same bytes."
  },
  {
   "property": "C34",
   "status": "proved",
   "theorems": [
    "C34_linearizable",
    "C34_typed_linearizable"
   ],
   "note": "Plain and typed calls, on the machine of Conc.v whose steps are the micro effects of the operations (locks as in the code, acquired in one step per operation; begin_compaction, end of compaction and split each one step; sequentially consistent memory). Example: ExConc.ex_run (three clients, a compaction, two splits)."
  },
  {
   "property": "C35",
   "status": "proved",
   "theorems": [
    "C35_get_or_create_is_atomic",
    "C35_replace_is_atomic"
   ],
   "note": "Any number of threads; other calls on other keys and reads of the key are allowed. Example: ExConc.ex_run, ex_duel."
  },
  {
   "property": "C36",
   "status": "partial",
   "theorems": [
    "C36_popping_is_atomic_refuted",
    "C36_pop_finds_items_refuted"
   ],
   "note": "Popping is not atomic with respect to concurrent set_in_list (an old value is returned, the new one removed) and finds nothing during a concurrent compaction: two counterexample theorems. What does hold for concurrent pops is C50."
  },
  {
   "property": "C37",
   "status": "partial",
   "theorems": [
    "C37_insert_returns_partial",
    "C37_insert_returns_refuted",
    "C37_insert_with_room_returns_partial"
   ],
   "note": "Refuted in general (C37_insert_returns_refuted): if all entries of a full shard have their selectors in one half, the split recurses for ever. C37_insert_returns_partial: a sufficient condition (headroom); C37_insert_with_room_returns_partial: a condition on the stored entries of one selector and min_compaction_threshold only (and files below 4 GiB). Hypotheses met: C37_example."
  },
  {
   "property": "C38",
   "status": "proved",
   "theorems": [
    "C38_hash_layout"
   ],
   "note": ""
  },
  {
   "property": "C39",
   "status": "proved",
   "theorems": [
    "C39_descriptor_roundtrip",
    "C39_large_offset_corrupts"
   ],
   "note": "C39_large_offset_corrupts shows the bound on the offset is necessary."
  },
  {
   "property": "C40",
   "status": "partial",
   "theorems": [
    "C40_lock_in_range",
    "C40_lock_count_refuted"
   ],
   "note": "Proved for settings up to 2^31; above, the code overflows (C40_lock_count_refuted)."
  },
  {
   "property": "C41",
   "status": "partial",
   "theorems": [
    "C41_bad_shard_refused",
    "C41_bad_shard_cleared",
    "C41_foreign_compaction_file_refuted"
   ],
   "note": "Proved for shard files; REFUTED for compaction targets, which are never validated."
  },
  {
   "property": "C42",
   "status": "partial",
   "theorems": [
    "C42_flushed_content_survives_partial",
    "C42_flush_during_compaction_refuted",
    "C42_compaction_after_flush_refuted",
    "C42_split_after_flush_refuted",
    "C42_overwrite_after_flush_refuted"
   ],
   "note": "Proved: if no compaction is in progress when flush returns, every outcome of a power cut right after it reopens with the same content. Refuted: flush does not sync the target of a running compaction; compaction and split move flushed data to never-synced files; an unflushed overwrite can destroy the flushed value."
  },
  {
   "property": "C43",
   "status": "proved",
   "theorems": [
    "C43_stats_report"
   ],
   "note": "State machine of stats.rs (rings, counters, histogram)."
  },
  {
   "property": "C44",
   "status": "partial",
   "theorems": [
    "C44_shard_names_read_back",
    "C44_names_distinct",
    "C44_noncanonical_name_refuted"
   ],
   "note": "Also: other, non-canonical, strings parse to the same span (C44_noncanonical_name_refuted)."
  },
  {
   "property": "C45",
   "status": "partial",
   "theorems": [
    "C45_no_sync_is_skipped_partial",
    "C45_one_sync_at_a_time",
    "C45_relaxed_load_refuted"
   ],
   "note": "Proved for a sequentially consistent load of the delay flag; with the Relaxed load of the code a stale `true` lets a call return unsynced (refuted). Errors of sync_data are not modelled."
  },
  {
   "property": "C46",
   "status": "partial",
   "theorems": [
    "C46_accepted_writes_survive_reopening_refuted",
    "C46_accepted_writes_survive_reopening_partial"
   ],
   "note": "C46_accepted_writes_survive_reopening_partial: as long as there is room for what is written (room: per selector, from the stored entries and min_compaction_threshold alone; files below 4 GiB), opening succeeds and the value is there, whatever happens in between on other keys. Refuted in general: C46_accepted_writes_survive_reopening_refuted (a shard of one selector is split into itself). Hypotheses met: C46_example (splits, a compaction stopped in the middle, reopening)."
  },
  {
   "property": "C47",
   "status": "partial",
   "theorems": [
    "C47_any_cookie_partial",
    "C47_any_cookie_refuted"
   ],
   "note": "Refuted: a cookie with entry index >= 512 panics (index out of bounds in read_at). Proved for all other cookies."
  },
  {
   "property": "C48",
   "status": "proved",
   "theorems": [
    "C48_crash_linearizable"
   ],
   "note": "On the machine of Conc.v; the crash may also fall inside begin_compaction and split (cdies). Example: ExConc.ex_crash."
  },
  {
   "property": "C49",
   "status": "proved",
   "theorems": [
    "C49_list_calls_are_linearizable",
    "C49_crash_keeps_values"
   ],
   "note": "Proved for the calls that hold the list lock throughout plus get_from_list; the remaining calls are C50."
  },
  {
   "property": "C50",
   "status": "proved",
   "theorems": [
    "C50_every_list_call_is_explained",
    "C50_draining_loses_and_repeats_nothing"
   ],
   "note": "Proved for every mix of list calls (discard_list only together with the weaker reading of get_from_list: rd = false). Calls within the size limits; index room for the number of calls made."
  },
  {
   "property": "C51",
   "status": "partial",
   "theorems": [
    "C51_iterating_while_compacting_refuted",
    "C51_promoting_is_atomic_refuted",
    "C51_iterating_while_adding_partial",
    "C51_iterating_while_creating_is_atomic_partial",
    "C51_iterating_while_setting_is_atomic_refuted",
    "C51_length_is_atomic_refuted"
   ],
   "note": "The full claim is false of the code: four counterexample theorems (iteration during compaction, get during promotion, iteration during two sets mixes old and new values, list_len counts an item that a later get does not find). Proved for every schedule: while nothing is removed or moved, an iteration returns exactly the keys of one moment in order, with values of the time of the call; with get_or_create_in_list as the only writer all calls are linearizable, iteration and peeks included (list_len excepted). Missing: nothing that is true and known to us; _partial because the writers are restricted."
  },
  {
   "property": "C52",
   "status": "proved",
   "theorems": [
    "C52_queue_calls_are_linearizable",
    "C52_nothing_lost_or_repeated"
   ],
   "note": "All queue calls except remove_from_queue (which loses pushed elements even sequentially, C29). That iteration and peeks return only elements that were in the queue during the call is proved for runs without extend_queue, which publishes its range only after storing the elements and so may reuse indices a reader still looks at; in runs with extend_queue only the order of the indices is claimed for the two reading calls."
  },
  {
   "property": "C53",
   "status": "partial",
   "theorems": [
    "C53_looking_while_adding_is_atomic_partial",
    "C53_peek_is_atomic_refuted",
    "C53_iteration_is_atomic_refuted"
   ],
   "note": "The full claim is false of the code (two counterexample theorems: both calls read the index range first and then walk over it without the lock). Proved for every schedule: as long as no call takes elements out of the queue, all its calls, iteration and peeks included, are linearizable. What holds beside pops is part of C52."
  },
  {
   "property": "C54",
   "status": "proved",
   "theorems": [
    "C54_no_deadlock",
    "C54_no_endless_run",
    "C54_ends_idle",
    "C54_calls_return",
    "C54_some_thread_goes_on"
   ],
   "note": "Theorems over the machine of Locking.v, whose client programs are derived from the modelled calls (call_prog). The unbounded retry of insert is any finite number of attempts, so termination of that loop itself is not claimed here (C37). C54_some_thread_goes_on says the same of the operational machine of Conc.v: while a thread is inside a call or a compaction is going on, some thread can step."
  },
  {
   "property": "C55",
   "status": "partial",
   "theorems": [
    "C55_no_compaction_thread_refuted",
    "C55_flush_aggregation_refuted",
    "C55_merge_refuted"
   ],
   "note": "Refuted three times: num_compaction_threads = 0 is accepted and the first wait for a compaction never ends; with flush_aggregation one writer and one background compaction deadlock (the writer asks for the files lock again while holding it, behind the compaction's upgrade); a merge that locks a node it holds (see C06)."
  },
  {
   "property": "C56",
   "status": "partial",
   "theorems": [
    "C56_merge_without_compactions_partial",
    "C56_crash_in_second_half_partial",
    "C56_merge_loses_entry_refuted",
    "C56_merge_detaches_file_refuted"
   ],
   "note": "Proved: if no shard is being compacted when the write lock of the root is granted, the second half of the call keeps all contents (also at every crash point), whatever was counted in the first half and whatever happened in between. Refuted otherwise, twice: (a) the call opens the shard anew and continues its compaction beside the background thread; both count the same row, the next row is never copied, its entries are gone; (b) it opens the old file just before the background thread renames the new one over it, and goes on with a nameless file: later writes are accepted and lost at reopening."
  },
  {
   "property": "C57",
   "status": "partial",
   "theorems": [
    "C57_clear_beside_compactions_partial",
    "C57_clear_fails_only_then_partial",
    "C57_clear_fails_refuted",
    "C57_failed_clear_detaches_file_refuted"
   ],
   "note": "Proved for any number of compactions and any interleaving: if clear returns Ok, the store is empty and follows the map of its later history (dropping the old shards waits for their compactions, so none is left); if it fails, the error is an I/O error and a compaction has finished meanwhile. Refuted: (a) the compaction finishes between the listing of the directory and the removal: clear returns an error, the entries remain; (b) the failed clear has removed a shard file that the store still uses: later writes are accepted and lost at reopening."
  },
  {
   "property": "C58",
   "status": "proved",
   "theorems": [
    "C58_reopen_after_closing"
   ],
   "note": "Full statement: drop of a shard waits for its compaction and ignores its error, the lock file is released last. The proof shows that compactions of different shards do not influence each other, effect by effect."
  },
  {
   "property": "C59",
   "status": "partial",
   "theorems": [
    "C59_errors_lose_nothing_partial",
    "C59_failed_call_partial",
    "C59_typed_store_partial",
    "C59_lists_partial",
    "C59_queues_partial",
    "C59_big_values_partial",
    "C59_failed_merge_refuted",
    "C59_failed_compaction_refuted"
   ],
   "note": "Proved for plain, typed, list, queue and big-value calls: any number of calls may fail at a read, at any byte of a write, at creating or sizing the files of a split, or at its first rename; a failing call took effect or not (what a crash during it may leave), everything else is as specified. Missing: failures of the second rename and the removal in a split, and of sizing the target of a compaction. Refuted: (a) merge_small_shards fails when it opens the shards anew: the merged files are in the directory, the old ones in memory; later updates are accepted and lost at reopening; (b) a background compaction that ends with an error: the first merge (split, stats) returns the error, the second ignores the half-made target, and updates made there are gone."
  },
  {
   "property": "C60",
   "status": "proved",
   "theorems": [
    "C60_merges_only_what_it_may"
   ],
   "note": "The fill level is the number of keys (EXPECTED_CAPACITY as f32 * max_fill_level, computed by the caller of the model). After a crash the counters the decision rests on may be off (C22), so the theorem is about histories without crashes."
  },
  {
   "property": "C61",
   "status": "partial",
   "theorems": [
    "C61_iterating_over_a_changing_queue",
    "C61_iterating_over_a_changing_list_partial",
    "C61_compacting_hides_items_refuted"
   ],
   "note": "Queues: all of it (C61_iterating_over_a_changing_queue: next never fails, what it returns is in the queue then, strictly in index order, and an element that is there at every call of next is returned before the end). Lists: next never fails and returns members; for every set of items that were there at the first call and that no call in between takes out or moves (remove, pop, promoting, a compact_list that returned true, discard; clear and crashes excluded), they are returned in the order of the list, each once, and all of them before the end. Refuted: after compact_list in between, an item that is in the list all the time is never returned. Hypotheses met: C61_queue_example, C61_list_example."
  },
  {
   "property": "C62",
   "status": "partial",
   "theorems": [
    "C62_queue_size_hint_upper_bound_partial",
    "C62_list_size_hint_upper_bound_partial",
    "C62_size_hint_lower_bound_refuted"
   ],
   "note": "The upper bound holds for lists and queues, whatever happens between the calls; the lower bound is wrong when there are holes (C62_size_hint_lower_bound_refuted: two announced as the exact number, one left, with nothing happening in between). That execution also meets the hypotheses of the upper bound."
  },
  {
   "property": "C63",
   "status": "partial",
   "theorems": [
    "C63_big_values_with_crashes_partial",
    "C63_crash_leaves_old_or_new_refuted",
    "C63_crash_leaves_nothing_refuted"
   ],
   "note": "C63_big_values_with_crashes_partial: along every history with crashes (values below 2^62 bytes, no queue with the same key). Refuted: C63_crash_leaves_old_or_new_refuted (a value of 66001 bytes: only the last 721 bytes are left), C63_crash_leaves_nothing_refuted. Hypotheses met: C63_example."
  },
  {
   "property": "C64",
   "status": "partial",
   "theorems": [
    "C64_concurrent_big_values_partial",
    "C64_set_big_is_atomic_refuted",
    "C64_get_big_is_atomic_refuted",
    "C64_get_big_returns_pieces_partial"
   ],
   "note": "C64_concurrent_big_values_partial: set_big is two atomic steps, remove_big one; at rest the value is the concatenation of whole values. C64_get_big_returns_pieces_partial: a get_big that overlaps anything returns only pieces of values given to set_big for this key before it returned. Not covered: which pieces. Refuted: C64_set_big_is_atomic_refuted (two overlapping set_big join their values), C64_get_big_is_atomic_refuted (get_big returns the first piece of a value being removed). Hypotheses met: C64_example, C64_pieces_example."
  },
  {
   "property": "C65",
   "status": "partial",
   "theorems": [
    "C65_derived_statistics",
    "C65_advice_refuted",
    "C65_after_crash_refuted"
   ],
   "note": "C65_derived_statistics: all four figures for every never interrupted store. Refuted: C65_after_crash_refuted (they panic because of C22), C65_advice_refuted (the advice ignores expected_number_of_keys, merge_small_shards does nothing). The f64 computation of calc_step is covered by C14_step_in_floating_point. Hypotheses met: C65_example."
  },
  {
   "property": "C66",
   "status": "partial",
   "theorems": [
    "C66_concurrent_items_are_current",
    "C66_untouched_keys_are_returned_partial",
    "C66_compaction_hides_a_key_refuted",
    "C66_iterating_ends",
    "C66_next_waits_for_running_threads"
   ],
   "note": {
    "note": "Proved on the concurrent machine (Conc.v) with iterators beside the threads, one step per slot read. Refuted without the condition on moved rows: a compaction between two reads moves an untouched key to a slot already passed (C66_compaction_hides_a_key_refuted)."
   }
  },
  {
   "property": "C67",
   "status": "partial",
   "theorems": [
    "C67_other_files_are_left_alone",
    "C67_reserved_prefixes_refuted"
   ],
   "note": {
    "note": "C67_other_files_are_left_alone: from any directory without hard links between the store's and other files. Refuted: C67_reserved_prefixes_refuted (a user's file top_secret is deleted at opening, shard_zoo-list makes it panic). Hypotheses met: C67_example (with a split)."
   }
  },
  {
   "property": "C68",
   "status": "proved",
   "theorems": [
    "C68_one_store_per_directory"
   ],
   "note": {
    "note": "Processes, the flock on the i-node of .lock, and threads that run the model's programs effect by effect (OneOpen.v). Assumes that flock works and that nobody else removes .lock. Hypotheses met: C68_example."
   }
  },
  {
   "property": "C69",
   "status": "proved",
   "theorems": [
    "C69_set_status",
    "C69_replace_status",
    "C69_get_or_create_status"
   ],
   "note": {
    "note": "C69_set_status, C69_replace_status, C69_get_or_create_status. Hypotheses met: C69_example (a replacement with a wrong expectation during a background compaction)."
   }
  },
  {
   "property": "C70",
   "status": "proved",
   "theorems": [
    "C70_sequential_use_goes_on",
    "C70_iteration",
    "C70_one_home_shard",
    "C70_statistics_exact",
    "C70_reopening",
    "C70_merging",
    "C70_clearing"
   ],
   "note": "Stores: live (histories, concurrent runs, crashes), live_clean without crashes for the statistics. Background compactions may still be running. Hypotheses met: C70_example (42 events, a split and a compaction)."
  },
  {
   "property": "C71",
   "status": "proved",
   "theorems": [
    "C71_reads_change_nothing"
   ],
   "note": "Proved for every reachable store, crashes included."
  },
  {
   "property": "C72",
   "status": "partial",
   "theorems": [
    "C72_iteration_skips_nothing",
    "C72_get_says_what_is_there",
    "C72_failed_reads_change_nothing",
    "C72_failed_call_loses_value_refuted"
   ],
   "note": "Iterations and get proved for any codec; the last sentence is refuted: pop removes an element that it then fails to decode, set stores the new value and fails on the old one (C72_failed_call_loses_value_refuted)."
  },
  {
   "property": "C73",
   "status": "proved",
   "theorems": [
    "C73_no_endless_run",
    "C73_every_call_returns"
   ],
   "note": "Machine of Conc.v (any number of threads, calls of every kind); iteration by other threads, clear and merging are not part of it. Includes deadlock freedom (C54) for that machine."
  },
  {
   "property": "C74",
   "status": "partial",
   "theorems": [
    "C74_mini_candy_is_a_map_partial",
    "C74_example",
    "C74_long_value_refuted",
    "C74_crowded_refuted"
   ],
   "note": "C74_mini_candy_is_a_map_partial: within the stated limits. Refuted outside: C74_long_value_refuted (a value of 65536 bytes is accepted and comes back empty: lengths are cut to 16 bits), C74_crowded_refuted (513 keys with the same 22 bits: a span of one selector is split into itself, its file is truncated while it is read, 512 entries are lost without an error). Hypotheses met: C74_example (600 keys in one row, seven splits). Errors of system calls of mini-candy are not modelled."
  }
 ]
}