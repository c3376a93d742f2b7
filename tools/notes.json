{
 "C01": {
  "note": "Any hash function, any history with maintenance, crashes and reopenings before; C01_no_internal_errors: never an error except the documented rejections."
 },
 "C02": {
  "note": "For an arbitrary 128-bit hash function, so including full collisions."
 },
 "C03": {
  "note": "History-level (results independent of splits) and per split."
 },
 "C04": {
  "note": "At every position of the background compactor."
 },
 "C05": {
  "note": ""
 },
 "C06": {
  "note": "REFUTED by the code: merging two small shards re-locks the write lock it holds (router.rs). What holds: without earlier crashes the deadlock is the only way not to return (C06_merge_returns_or_deadlocks_partial), and it returns if there are at most two shards, or fewer than two can be spared, or no two neighbours are both within the fill level (C06_merge_returns_partial)."
 },
 "C07": {
  "note": ""
 },
 "C08": {
  "note": "For clean histories in which every shard has the room stated in the theorem."
 },
 "C09": {
  "note": "Process crash: every prefix of the micro effects of the call (each mmap store, each byte of a pwrite, each rename/unlink), also followed by crashes during recovery."
 },
 "C10": {
  "note": ""
 },
 "C11": {
  "note": "Proved: after a crash at any point of clear with no compaction under way (any order of deletion, any number of further crashed or failed openings), an open that succeeds shows every key with its last value or none; after crashes during creation an open that succeeds shows an empty store. REFUTED: open may fail (zero-magic file, incomplete set of shards); it may succeed with a part of the entries gone (treeify does not check that the shards cover all keys); with a compaction under way an overwritten value may come back."
 },
 "C12": {
  "note": "For arbitrary directories."
 },
 "C13": {
  "note": ""
 },
 "C14": {
  "note": "Proved for settings up to 65536*29491 expected keys; REFUTED above (the step becomes 0: panic). C14_step_in_floating_point: the code's f64 computation of the step (IEEE binary64, Flocq) gives, for every usize, the step the model uses."
 },
 "C19": {
  "note": "Acceptance is proved under the explicit room conditions of Limits.v (see C37)."
 },
 "C21": {
  "note": "Clean histories (no crash)."
 },
 "C22": {
  "note": "Bytes: proved as _partial; number of entries REFUTED (a crash between the slot store and the counter update leaves the counter off)."
 },
 "C20": {
  "note": "Items are never changed by a rejected call (partial); REFUTED for list_len (a rejected item is counted for ever) and set_in_list_promoting (a rejected value removes the item)."
 },
 "C23": {
  "note": "Any history of calls on any lists (with other hashes), other collections, maintenance, reopening and crashes outside the list; the conditions on a call are list_room and lcall_accepts of ListSpec.v."
 },
 "C24": {
  "note": "Including crashes inside calls on other lists."
 },
 "C25": {
  "note": "The float comparison of the ratio is an arbitrary predicate, so for every parameter."
 },
 "C26": {
  "note": "REFUTED by the code: lists.rs:166 compares the expected value with the index suffix of the item."
 },
 "C27": {
  "note": "Partial: crashes during calls that add or read (before or after, list_len may overcount); REFUTED for removals: items that are members but not iterated, later removals hiding other items, counter underflow."
 },
 "C37": {
  "note": "Refuted in general (C37_insert_returns_refuted): if all entries of a full shard have their selectors in one half, the split recurses for ever. C37_insert_returns_partial: a sufficient condition (headroom); C37_insert_with_room_returns_partial: a condition on the stored entries of one selector and min_compaction_threshold only (and files below 4 GiB). Hypotheses met: C37_example."
 },
 "C38": {
  "note": ""
 },
 "C39": {
  "note": "C39_large_offset_corrupts shows the bound on the offset is necessary."
 },
 "C40": {
  "note": "Proved for settings up to 2^31; above, the code overflows (C40_lock_count_refuted)."
 },
 "C41": {
  "note": "Proved for shard files; REFUTED for compaction targets, which are never validated."
 },
 "C43": {
  "note": "State machine of stats.rs (rings, counters, histogram)."
 },
 "C44": {
  "note": "Also: other, non-canonical, strings parse to the same span (C44_noncanonical_name_refuted)."
 },
 "C46": {
  "note": "C46_accepted_writes_survive_reopening_partial: as long as there is room for what is written (room: per selector, from the stored entries and min_compaction_threshold alone; files below 4 GiB), opening succeeds and the value is there, whatever happens in between on other keys. Refuted in general: C46_accepted_writes_survive_reopening_refuted (a shard of one selector is split into itself). Hypotheses met: C46_example (splits, a compaction stopped in the middle, reopening)."
 },
 "C28": {
  "note": "Each queue, along histories with any other calls, other queues, reopenings, maintenance. The guard (queue_guard) keeps record counters inside 64 bits and admits remove_from_queue; crashes inside calls on this queue are C30."
 },
 "C29": {
  "note": "Proved for elements that are not the sole element; C29_sole_element_refuted shows the real code leaves a stale record (Finding 2)."
 },
 "C30": {
  "note": "Sequence before/after proved for push/pop; queue_len after a crash and extend are refuted by machine-checked counterexamples."
 },
 "C31": {
  "note": "Non-empty values; C31_empty_value_refuted: set_big(k, \"\") then get_big(k) = None."
 },
 "C32": {
  "note": "Codec abstract with dec(enc x) = Some x. Big values of typed stores: non-empty encodings only (as C31), hence one theorem is _partial; the excluded case is refuted by C32_empty_big_value_refuted (a store of units: set_big, then get_big returns None)."
 },
 "C33": {
  "note": "C33_untyped_list_refuted: a typed list shares its data with the untyped list whose key has the same bytes."
 },
 "C18": {
  "note": "Reply-level noninterference for plain, typed, queue/big spaces from any reachable store; lists through C24 (other lists with other 64-bit hashes). Queues and big values of the same key are one space in the code: C18_queues_and_big_values_refuted; typed lists vs untyped lists: C33_untyped_list_refuted."
 },
 "C15": {
  "note": "Every reachable store (any history with crashes and reopening); iter() and iter_raw()."
 },
 "C16": {
  "note": "Proved after any number of items; the end position is refuted for every store: the cookie of an exhausted iterator starts over (shard_selector & 0xffff wraps 65536 to 0, store.rs:137)."
 },
 "C17": {
  "note": "Refuted: one insertion that splits the shard, or a background compaction, between two next() calls hides an untouched key of the row the iterator stands in. Proved: next() never fails or returns stale pairs; keys of all other rows are returned, whatever calls, splits and compactions happen in between (merging excluded)."
 },
 "C47": {
  "note": "Refuted: a cookie with entry index >= 512 panics (index out of bounds in read_at). Proved for all other cookies."
 },
 "C45": {
  "note": "Proved for a sequentially consistent load of the delay flag; with the Relaxed load of the code a stale `true` lets a call return unsynced (refuted). Errors of sync_data are not modelled."
 },
 "C42": {
  "note": "Proved: if no compaction is in progress when flush returns, every outcome of a power cut right after it reopens with the same content. Refuted: flush does not sync the target of a running compaction; compaction and split move flushed data to never-synced files; an unflushed overwrite can destroy the flushed value."
 },
 "C34": {
  "note": "Plain and typed calls, on the machine of Conc.v whose steps are the micro effects of the operations (locks as in the code, acquired in one step per operation; begin_compaction, end of compaction and split each one step; sequentially consistent memory). Example: ExConc.ex_run (three clients, a compaction, two splits)."
 },
 "C35": {
  "note": "Any number of threads; other calls on other keys and reads of the key are allowed. Example: ExConc.ex_run, ex_duel."
 },
 "C48": {
  "note": "On the machine of Conc.v; the crash may also fall inside begin_compaction and split (cdies). Example: ExConc.ex_crash."
 },
 "C36": {
  "note": "Popping is not atomic with respect to concurrent set_in_list (an old value is returned, the new one removed) and finds nothing during a concurrent compaction: two counterexample theorems. What does hold for concurrent pops is C50."
 },
 "C50": {
  "note": "Proved for every mix of list calls (discard_list only together with the weaker reading of get_from_list: rd = false). Calls within the size limits; index room for the number of calls made."
 },
 "C51": {
  "note": "The full claim is false of the code: four counterexample theorems (iteration during compaction, get during promotion, iteration during two sets mixes old and new values, list_len counts an item that a later get does not find). Proved for every schedule: while nothing is removed or moved, an iteration returns exactly the keys of one moment in order, with values of the time of the call; with get_or_create_in_list as the only writer all calls are linearizable, iteration and peeks included (list_len excepted). Missing: nothing that is true and known to us; _partial because the writers are restricted."
 },
 "C49": {
  "note": "Proved for the calls that hold the list lock throughout plus get_from_list; the remaining calls are C50."
 },
 "C52": {
  "note": "All queue calls except remove_from_queue (which loses pushed elements even sequentially, C29). That iteration and peeks return only elements that were in the queue during the call is proved for runs without extend_queue, which publishes its range only after storing the elements and so may reuse indices a reader still looks at; in runs with extend_queue only the order of the indices is claimed for the two reading calls."
 },
 "C53": {
  "note": "The full claim is false of the code (two counterexample theorems: both calls read the index range first and then walk over it without the lock). Proved for every schedule: as long as no call takes elements out of the queue, all its calls, iteration and peeks included, are linearizable. What holds beside pops is part of C52."
 },
 "C54": {
  "note": "Theorems over the machine of Locking.v, whose client programs are derived from the modelled calls (call_prog). The unbounded retry of insert is any finite number of attempts, so termination of that loop itself is not claimed here (C37). C54_some_thread_goes_on says the same of the operational machine of Conc.v: while a thread is inside a call or a compaction is going on, some thread can step."
 },
 "C55": {
  "note": "Refuted three times: num_compaction_threads = 0 is accepted and the first wait for a compaction never ends; with flush_aggregation one writer and one background compaction deadlock (the writer asks for the files lock again while holding it, behind the compaction's upgrade); a merge that locks a node it holds (see C06)."
 },
 "C56": {
  "note": "Proved: if no shard is being compacted when the write lock of the root is granted, the second half of the call keeps all contents (also at every crash point), whatever was counted in the first half and whatever happened in between. Refuted otherwise, twice: (a) the call opens the shard anew and continues its compaction beside the background thread; both count the same row, the next row is never copied, its entries are gone; (b) it opens the old file just before the background thread renames the new one over it, and goes on with a nameless file: later writes are accepted and lost at reopening."
 },
 "C57": {
  "note": "Proved for any number of compactions and any interleaving: if clear returns Ok, the store is empty and follows the map of its later history (dropping the old shards waits for their compactions, so none is left); if it fails, the error is an I/O error and a compaction has finished meanwhile. Refuted: (a) the compaction finishes between the listing of the directory and the removal: clear returns an error, the entries remain; (b) the failed clear has removed a shard file that the store still uses: later writes are accepted and lost at reopening."
 },
 "C58": {
  "note": "Full statement: drop of a shard waits for its compaction and ignores its error, the lock file is released last. The proof shows that compactions of different shards do not influence each other, effect by effect."
 },
 "C59": {
  "note": "Proved for plain, typed, list, queue and big-value calls: any number of calls may fail at a read, at any byte of a write, at creating or sizing the files of a split, or at its first rename; a failing call took effect or not (what a crash during it may leave), everything else is as specified. Missing: failures of the second rename and the removal in a split, and of sizing the target of a compaction. Refuted: (a) merge_small_shards fails when it opens the shards anew: the merged files are in the directory, the old ones in memory; later updates are accepted and lost at reopening; (b) a background compaction that ends with an error: the first merge (split, stats) returns the error, the second ignores the half-made target, and updates made there are gone."
 },
 "C60": {
  "note": "The fill level is the number of keys (EXPECTED_CAPACITY as f32 * max_fill_level, computed by the caller of the model). After a crash the counters the decision rests on may be off (C22), so the theorem is about histories without crashes."
 },
 "C61": {
  "note": "Queues: all of it (C61_iterating_over_a_changing_queue: next never fails, what it returns is in the queue then, strictly in index order, and an element that is there at every call of next is returned before the end). Lists: next never fails and returns members; for every set of items that were there at the first call and that no call in between takes out or moves (remove, pop, promoting, a compact_list that returned true, discard; clear and crashes excluded), they are returned in the order of the list, each once, and all of them before the end. Refuted: after compact_list in between, an item that is in the list all the time is never returned. Hypotheses met: C61_queue_example, C61_list_example."
 },
 "C62": {
  "note": "The upper bound holds for lists and queues, whatever happens between the calls; the lower bound is wrong when there are holes (C62_size_hint_lower_bound_refuted: two announced as the exact number, one left, with nothing happening in between). That execution also meets the hypotheses of the upper bound."
 },
 "C63": {
  "note": "C63_big_values_with_crashes_partial: along every history with crashes (values below 2^62 bytes, no queue with the same key). Refuted: C63_crash_leaves_old_or_new_refuted (a value of 66001 bytes: only the last 721 bytes are left), C63_crash_leaves_nothing_refuted. Hypotheses met: C63_example."
 },
 "C64": {
  "note": "C64_concurrent_big_values_partial: set_big is two atomic steps, remove_big one; at rest the value is the concatenation of whole values. C64_get_big_returns_pieces_partial: a get_big that overlaps anything returns only pieces of values given to set_big for this key before it returned. Not covered: which pieces. Refuted: C64_set_big_is_atomic_refuted (two overlapping set_big join their values), C64_get_big_is_atomic_refuted (get_big returns the first piece of a value being removed). Hypotheses met: C64_example, C64_pieces_example."
 },
 "C65": {
  "note": "C65_derived_statistics: all four figures for every never interrupted store. Refuted: C65_after_crash_refuted (they panic because of C22), C65_advice_refuted (the advice ignores expected_number_of_keys, merge_small_shards does nothing). The f64 computation of calc_step is covered by C14_step_in_floating_point. Hypotheses met: C65_example."
 },
 "C66": {
  "note": {
   "note": "Proved on the concurrent machine (Conc.v) with iterators beside the threads, one step per slot read. Refuted without the condition on moved rows: a compaction between two reads moves an untouched key to a slot already passed (C66_compaction_hides_a_key_refuted)."
  }
 },
 "C67": {
  "note": {
   "note": "C67_other_files_are_left_alone: from any directory without hard links between the store's and other files. Refuted: C67_reserved_prefixes_refuted (a user's file top_secret is deleted at opening, shard_zoo-list makes it panic). Hypotheses met: C67_example (with a split)."
  }
 },
 "C68": {
  "note": {
   "note": "Processes, the flock on the i-node of .lock, and threads that run the model's programs effect by effect (OneOpen.v). Assumes that flock works and that nobody else removes .lock. Hypotheses met: C68_example."
  }
 },
 "C69": {
  "note": {
   "note": "C69_set_status, C69_replace_status, C69_get_or_create_status. Hypotheses met: C69_example (a replacement with a wrong expectation during a background compaction)."
  }
 },
 "C70": {
  "note": "Stores: live (histories, concurrent runs, crashes), live_clean without crashes for the statistics. Background compactions may still be running. Hypotheses met: C70_example (42 events, a split and a compaction)."
 },
 "C71": {
  "note": "Proved for every reachable store, crashes included."
 },
 "C72": {
  "note": "Iterations and get proved for any codec; the last sentence is refuted: pop removes an element that it then fails to decode, set stores the new value and fails on the old one (C72_failed_call_loses_value_refuted)."
 },
 "C73": {
  "note": "Machine of Conc.v (any number of threads, calls of every kind); iteration by other threads, clear and merging are not part of it. Includes deadlock freedom (C54) for that machine."
 },
 "C74": {
  "note": "C74_mini_candy_is_a_map_partial: within the stated limits. Refuted outside: C74_long_value_refuted (a value of 65536 bytes is accepted and comes back empty: lengths are cut to 16 bits), C74_crowded_refuted (513 keys with the same 22 bits: a span of one selector is split into itself, its file is truncated while it is read, 512 entries are lost without an error). Hypotheses met: C74_example (600 keys in one row, seven splits). Errors of system calls of mini-candy are not modelled."
 }
}