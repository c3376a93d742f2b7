{"id": "C01", "title": "The store is a map", "statement": "For any history of get/contains/set/replace/get_or_create/remove calls on one store, every return value is the one a plain key-to-value map would give: get returns the last value set and not removed, set returns CreatedNew or PrevValue(old), replace honours its expected value and never creates, get_or_create never overwrites, remove returns the removed value; keys not named by a call are unaffected.", "quantifier": "all configurations, all hash functions, all finite histories of calls with keys/values within the size limits (and within the per-selector capacity needed for inserts to terminate, C37), with background compaction steps placed anywhere between calls", "why_tests_cant": "the histories, the hash-collision patterns and the split/compaction points are unbounded", "anchors": ["src/store.rs: get, set, replace, get_or_create, remove, insert_internal", "src/shard.rs: insert, try_replace, get, remove", "src/router.rs: insert, shared_op"]}
{"id": "C02", "title": "Hash collisions never confuse keys", "statement": "Two different keys never see each other's value, even if their 64-bit hashes (or any part of them) coincide; a lookup returns only a value that was set under exactly that key.", "quantifier": "every hash function (adversarial ones included), every pair of keys, every history", "why_tests_cant": "SipHash collisions cannot be produced on demand; only a few masks are tried by the whitebox test", "anchors": ["src/shard.rs: ShardRow::lookup, get, try_replace, remove", "src/hashing.rs: PartedHash"]}
{"id": "C03", "title": "Shard splits are invisible", "statement": "When a shard is split because it is full, no key is lost, duplicated or altered: every lookup and the set of iterated pairs are the same before and after.", "quantifier": "every shard content and every split point reachable without the degenerate one-selector split (C37)", "why_tests_cant": "needs every distribution of entries over rows and halves", "anchors": ["src/shard.rs: Shard::split", "src/router.rs: ShardRouter::insert"]}
{"id": "C04", "title": "Background compaction is invisible at every moment", "statement": "While a shard is being compacted in the background, and after it finished, every get/set/remove/replace behaves as if no compaction existed, whatever row the compactor has reached.", "quantifier": "every interleaving of API calls with the compactor's per-row steps, every shard content", "why_tests_cant": "the interleavings with the compactor's progress are unbounded and timing dependent", "anchors": ["src/shard.rs: do_compaction, background_compact, begin_compaction, operate_on_row, operate_on_row_mut"]}
{"id": "C05", "title": "Merging small shards preserves the content", "statement": "Whenever merge_small_shards returns, the store holds exactly the pairs it held before, and true is returned iff the number of shards changed.", "quantifier": "every store content and tree shape, every fill level", "why_tests_cant": "tree shapes and row fill patterns are unbounded", "anchors": ["src/router.rs: _merge, merge_small_shards", "src/shard.rs: Shard::merge"]}
{"id": "C06", "title": "merge_small_shards always returns", "statement": "A call to merge_small_shards always terminates (true/false), for every store.", "quantifier": "every tree of shards, every fill level", "why_tests_cant": "a deadlock shows only on particular (unbalanced) trees", "anchors": ["src/router.rs: _merge"]}
{"id": "C07", "title": "clear empties the store", "statement": "After clear returns, no key of any kind exists, statistics report zero entries, and the store works as a fresh one.", "quantifier": "every store state", "why_tests_cant": "every prior state, including stores in the middle of a compaction", "anchors": ["src/store.rs: clear", "src/router.rs: clear"]}
{"id": "C08", "title": "Reopening gives back the same content", "statement": "Dropping the store (with no operation in progress) and opening the directory again with the same configuration gives a store with exactly the same pairs, and all later operations behave as on the original.", "quantifier": "every reachable store state", "why_tests_cant": "every reachable directory content", "anchors": ["src/store.rs: open", "src/router.rs: load, new, treeify", "src/shard.rs: open"]}
{"id": "C09", "title": "A process crash loses at most the operation in progress", "statement": "If the process dies at any instant during set/replace/get_or_create/remove (including in the middle of a file write, a split or a compaction the call triggered), reopening succeeds and the store holds either exactly the content before the call or exactly the content after it.", "quantifier": "every state, every call, every crash instant (between any two stores to the mapped header, bytes written to the file, or directory operations)", "why_tests_cant": "crash instants cannot be enumerated by killing a process", "anchors": ["src/shard.rs: write_kv, insert, try_replace, remove, split, do_compaction, open", "src/router.rs: load"]}
{"id": "C10", "title": "A crash during maintenance changes nothing", "statement": "If the process dies at any instant during a background compaction, a split, a shard merge, or during the recovery performed by open itself, reopening succeeds and the content is unchanged; any number of crashes in a row is fine.", "quantifier": "every state, every crash instant, any number of repeated crashes", "why_tests_cant": "crash-during-recovery sequences are unbounded", "anchors": ["src/shard.rs: do_compaction, split, merge, open", "src/router.rs: load, consolidate_ranges"]}
{"id": "C11", "title": "A crash during store creation or clear leaves an openable store", "statement": "If the process dies during the very first open (including with expected_number_of_keys set) or during clear, the directory can be opened again and gives a usable store. After an interrupted clear it shows the old content or nothing, after an interrupted creation nothing.", "quantifier": "every crash instant of open on an empty directory and of clear, every order in which clear deletes the files, any number of further failed or interrupted openings", "why_tests_cant": "needs every crash instant", "anchors": ["src/router.rs: create_initial_shards, clear, treeify", "src/shard.rs: open"]}
{"id": "C12", "title": "Recovery keeps exactly the covering shards", "statement": "Among the shard files found on disk, open keeps precisely those not contained in another one and deletes the rest, so an unfinished split or merge is undone or completed, never mixed.", "quantifier": "every finite set of ranges, in any directory order", "why_tests_cant": "sets of ranges and orders are unbounded", "anchors": ["src/router.rs: consolidate_ranges, load"]}
{"id": "C13", "title": "Every key has exactly one home shard after opening", "statement": "From the shard files of any tree of splits, open rebuilds a router that sends each selector to the one shard whose span contains it, and never fails an internal assertion.", "quantifier": "every binary splitting of the selector space", "why_tests_cant": "tree shapes are unbounded", "anchors": ["src/router.rs: treeify, shared_op"]}
{"id": "C14", "title": "Pre-splitting covers the whole key space", "statement": "For any expected_number_of_keys, a new store is created with a power-of-two number of equal shards that together cover every selector exactly once.", "quantifier": "every value of expected_number_of_keys", "why_tests_cant": "the parameter is a 64-bit number; only a few values are tried", "anchors": ["src/router.rs: calc_step, calc_num_shards, create_initial_shards"]}
{"id": "C15", "title": "iter returns every pair exactly once", "statement": "On a store that is not being modified, iter yields each user key with its current value exactly once, yields nothing else (no list, queue or typed internals), and terminates.", "quantifier": "every store state", "why_tests_cant": "every content, tree and row layout", "anchors": ["src/store.rs: CandyStoreIterator::next, iter"]}
{"id": "C16", "title": "Iteration can be resumed from a cookie", "statement": "Taking cookie() after any number of items and iterating from it on an unmodified store yields exactly the items not yet returned, in the same order.", "quantifier": "every store state, every position, including the end", "why_tests_cant": "positions and layouts are unbounded", "anchors": ["src/store.rs: CandyStoreIterator::cookie, from_cookie"]}
{"id": "C17", "title": "Modifying while iterating never hides untouched keys", "statement": "If keys are inserted or removed while an iterator is live, every key that exists throughout and is not modified is still returned by the iterator.", "quantifier": "every store, every modification between any two next() calls", "why_tests_cant": "interleavings of modification and iteration are unbounded", "anchors": ["src/store.rs: CandyStoreIterator (doc comment), next", "src/shard.rs: split, do_compaction"]}
{"id": "C18", "title": "Key spaces are disjoint", "statement": "Operations on plain keys, typed keys, lists, queues and big values never touch each other's data, whatever bytes the user puts in keys.", "quantifier": "all byte strings used as keys, all histories", "why_tests_cant": "all byte strings", "anchors": ["src/store.rs: *_NAMESPACE, make_user_key", "src/lists.rs: make_list_key, make_item_key, ChainKey", "src/queues.rs: make_queue_key, make_queue_item_key", "src/typed.rs: make_key"]}
{"id": "C19", "title": "Rejected plain operations change nothing", "statement": "set/replace/get_or_create with an over-long key or value, or an entry that cannot fit in a shard, return the corresponding error and leave the store exactly as it was; everything within limits is accepted.", "quantifier": "all keys, values and configurations", "why_tests_cant": "boundary values for every configuration", "anchors": ["src/store.rs: ensure_sizes, insert_internal", "src/lib.rs: MAX_KEY_SIZE, MAX_VALUE_SIZE"]}
{"id": "C20", "title": "Rejected collection operations change nothing", "statement": "set_in_list / push_to_queue_* / get_or_create_in_list that return an error leave the list or queue (its elements and its length) exactly as it was.", "quantifier": "all lists, queues, keys and values", "why_tests_cant": "all sizes", "anchors": ["src/lists.rs: _insert_to_list", "src/queues.rs: _push_to_queue"]}
{"id": "C21", "title": "Statistics account for every entry and byte", "statement": "Without crashes, stats().num_entries() is exactly the number of stored raw entries, and occupied bytes are exactly the live bytes plus the wasted bytes.", "quantifier": "every reachable store state", "why_tests_cant": "all histories with splits and compactions", "anchors": ["src/store.rs: stats", "src/shard.rs: write_kv, try_replace, remove, get_stats", "src/stats.rs: Stats"]}
{"id": "C22", "title": "Statistics stay meaningful after a crash", "statement": "After any crash and reopen, wasted bytes never exceed occupied bytes and num_entries() is still the number of stored entries.", "quantifier": "every crash instant", "why_tests_cant": "every crash instant", "anchors": ["src/shard.rs: insert, do_compaction, ShardStats::num_items"]}
{"id": "C23", "title": "A list is an insertion-ordered map", "statement": "For any history of set_in_list, replace_in_list (no expected value), get_or_create_in_list, get_from_list, remove_from_list, pop_list_head/tail, peek_list_head/tail, iter_list (both directions), list_len and discard_list, results are those of an ordered map: new items go to the tail, updates keep their place, removals keep the order of the rest.", "quantifier": "all histories over any number of lists whose keys have distinct hashes; item keys may collide arbitrarily", "why_tests_cant": "unbounded histories, holes, and hash collisions of items", "anchors": ["src/lists.rs: _insert_to_list, owned_remove_from_list, get_from_list_at_index, ListIterator"]}
{"id": "C24", "title": "Lists are independent of each other", "statement": "An operation on one list never changes what can be observed of another list.", "quantifier": "all pairs of lists whose keys have distinct hashes, all histories", "why_tests_cant": "all pairs and histories", "anchors": ["src/lists.rs: make_item_key, ChainKey"]}
{"id": "C25", "title": "Compacting a list changes nothing observable", "statement": "compact_list_if_needed keeps the elements, their order and their values, whatever the parameters.", "quantifier": "every list state, every parameter values", "why_tests_cant": "every pattern of holes", "anchors": ["src/lists.rs: compact_list_if_needed"]}
{"id": "C26", "title": "replace_in_list is compare-and-swap", "statement": "replace_in_list with an expected value replaces the item iff its current value equals the expected value, and reports WrongValue(current) otherwise.", "quantifier": "every list, item, value and expected value", "why_tests_cant": "a value that accidentally matches is never tried", "anchors": ["src/lists.rs: _insert_to_list (InsertMode::Replace)"]}
{"id": "C27", "title": "A crash never leaves a list inconsistent", "statement": "If the process dies during a list operation, then after reopening membership (get_from_list) and iteration (iter_list) agree, and later operations on one item never make another item disappear.", "quantifier": "every list state, every list operation, every crash instant", "why_tests_cant": "every crash instant and every continuation", "anchors": ["src/lists.rs: _insert_to_list, owned_remove_from_list"]}
{"id": "C28", "title": "A queue is a double-ended queue", "statement": "For any history of push head/tail, extend, pop head/tail, peek head/tail, iteration both ways, queue_len and discard, results are those of a deque.", "quantifier": "all histories over any number of queues", "why_tests_cant": "unbounded histories", "anchors": ["src/queues.rs: _push_to_queue, _pop_queue, extend_queue, QueueIterator"]}
{"id": "C29", "title": "Removing from a queue by index", "statement": "remove_from_queue(idx) removes exactly the element that was pushed with that index (None if gone), and leaves the rest of the queue and all later operations as a deque without that element.", "quantifier": "every queue state and index", "why_tests_cant": "every combination of holes and ends", "anchors": ["src/queues.rs: remove_from_queue"]}
{"id": "C30", "title": "A crash never corrupts a queue", "statement": "If the process dies during push/pop, after reopening the queue's iteration is the sequence before or after that operation, and queue_len agrees with the number of elements.", "quantifier": "every queue state, every crash instant", "why_tests_cant": "every crash instant", "anchors": ["src/queues.rs: _push_to_queue, _pop_queue"]}
{"id": "C31", "title": "Big values round-trip", "statement": "After set_big(k, v), get_big(k) returns exactly v; set_big returns whether k existed; remove_big makes it disappear.", "quantifier": "all keys and all values of any length", "why_tests_cant": "values of every length, chunk boundaries", "anchors": ["src/store.rs: set_big, get_big, remove_big"]}
{"id": "C32", "title": "Typed store round-trips", "statement": "A CandyTypedStore<K,V> behaves as a map from K to V for every key and value whose codec round-trips, and maps with different key type ids never interfere.", "quantifier": "all codecs with decode(encode x) = x, all keys/values, all histories", "why_tests_cant": "all types and values", "anchors": ["src/typed.rs: CandyTypedStore, make_key"]}
{"id": "C33", "title": "Typed collections are separated by type id", "statement": "Typed lists and deques of different list-key types (TYPE_ID) never share data, and each behaves as the untyped collection on encoded keys.", "quantifier": "all codecs and type ids", "why_tests_cant": "all types", "anchors": ["src/typed.rs: CandyTypedList::make_list_key, CandyTypedDeque"]}
{"id": "C34", "title": "Concurrent plain operations are linearizable", "statement": "With any number of threads calling get/set/replace/get_or_create/remove, with splits and background compactions interleaved, the results are those of executing the calls one at a time in some order consistent with real time.", "quantifier": "every number of threads, every interleaving", "why_tests_cant": "interleavings cannot be enumerated by tests", "anchors": ["src/shard.rs: operate_on_row, operate_on_row_mut, insert", "src/router.rs: insert"]}
{"id": "C35", "title": "get_or_create and replace are atomic", "statement": "Of any number of concurrent get_or_create calls on an absent key exactly one gets CreatedNew; of concurrent replace calls with the same expected value on a key holding it at most one succeeds unless it re-creates that value.", "quantifier": "every number of threads, every interleaving", "why_tests_cant": "races", "anchors": ["src/store.rs: get_or_create, replace (docs: done atomically)", "src/shard.rs: try_replace"]}
{"id": "C36", "title": "Popping a list is atomic", "statement": "pop_list_head/tail running concurrently with set_in_list/remove_from_list on the same list behaves as if executed atomically: the value returned is the value removed.", "quantifier": "every interleaving", "why_tests_cant": "races", "anchors": ["src/lists.rs: owned_pop_list_head, owned_pop_list_tail"]}
{"id": "C37", "title": "Inserting always terminates", "statement": "set/replace/get_or_create of an entry within the documented limits always returns.", "quantifier": "all store states, hash functions and configurations", "why_tests_cant": "non-termination needs many keys in one selector", "anchors": ["src/router.rs: insert", "src/shard.rs: split"]}
{"id": "C38", "title": "Hash layout", "statement": "Every key gets a signature different from the empty-slot marker, a selector below 65536 and a row below 64, each taken from the documented bits of the hash.", "quantifier": "all 128-bit hash values", "why_tests_cant": "2^128 values", "anchors": ["src/hashing.rs: PartedHash::from_hash, shard_selector, row_selector, signature"]}
{"id": "C39", "title": "Entry descriptors round-trip", "statement": "The packed 64-bit descriptor of an entry gives back exactly its key length, value length and file offset for every admissible entry.", "quantifier": "all key lengths up to 0x3fff, value lengths up to 0xffff, offsets below 4 GiB", "why_tests_cant": "2^62 combinations", "anchors": ["src/shard.rs: write_kv, read_kv"]}
{"id": "C40", "title": "List locks are always in range", "statement": "For every max_concurrent_list_ops setting the lock chosen for a list exists, and the same list always uses the same lock.", "quantifier": "all configuration values and hashes", "why_tests_cant": "all 32-bit values", "anchors": ["src/store.rs: open (keyed_locks)", "src/lists.rs: lock_list"]}
{"id": "C41", "title": "Foreign files are refused", "statement": "Opening a shard file whose magic, version or size is wrong is refused with an error (or, if clear_on_unsupported_version is set, starts that shard empty); it is never interpreted as data.", "quantifier": "all file headers and sizes", "why_tests_cant": "all byte contents", "anchors": ["src/shard.rs: open"]}
{"id": "C42", "title": "flush makes earlier writes durable", "statement": "After flush() returns, every set/remove completed before it survives a machine crash.", "quantifier": "every store state including during background compaction", "why_tests_cant": "needs power-cut at arbitrary moments", "anchors": ["src/store.rs: flush", "src/shard.rs: flush"]}
{"id": "C43", "title": "Statistics ring and histogram", "statement": "stats() reports the number of splits and compactions since the last clear, the most recent min(8,n) of those that happened since the previous stats() or clear(), in order, and every written entry is counted in exactly one size bucket.", "quantifier": "all event sequences, all sizes", "why_tests_cant": "all sequences", "anchors": ["src/stats.rs: CyclicArr, add_entry"]}
{"id": "C44", "title": "Shard file names identify their span", "statement": "The span parsed from a shard file's name is the span it was written for, and different spans have different names.", "quantifier": "all spans within the selector space", "why_tests_cant": "2^32 spans", "anchors": ["src/shard.rs: open, split, merge (format!)", "src/router.rs: load (from_str_radix)"]}
{"id": "C45", "title": "Flush aggregation never skips a sync", "statement": "With flush_aggregation enabled, when a modifying call returns, a file sync that started after its write has completed.", "quantifier": "every number of threads, every interleaving", "why_tests_cant": "races", "anchors": ["src/shard.rs: flush_aggregation"]}
{"id": "C46", "title": "Every accepted write survives reopening", "statement": "If set returned success, then after dropping the store and opening the directory again the value is there.", "quantifier": "all configurations, hash functions, histories of accepted calls without crashes", "why_tests_cant": "the loss needs selectors clustered in one half of a shard; it depends on the hash values of all keys ever inserted", "anchors": ["src/router.rs:split_shard", "src/shard.rs:split", "src/router.rs:load"]}
{"id": "C47", "title": "Iterating from any cookie is safe", "statement": "iter_from_cookie with any 64-bit number returns an iterator that never panics or fails, ends, and only returns pairs that are in the store.", "quantifier": "every store state, every 64-bit cookie (also one taken before the store was modified)", "why_tests_cant": "2^64 cookies times unbounded store layouts", "anchors": ["src/store.rs: iter_from_cookie, CandyStoreIterator::from_cookie, next", "src/shard.rs: read_at"]}
{"id": "C48", "title": "A crash during concurrent calls loses nothing that was acknowledged", "statement": "If the process is killed at any moment while any number of threads are making calls and compactions and splits are running, the store opened afterwards holds exactly the plain keys of some linearization of the calls made: every call that returned has taken effect, every call in progress has taken effect completely or not at all.", "quantifier": "every number of threads, every interleaving, every crash point", "why_tests_cant": "crash points times interleavings", "anchors": ["src/shard.rs: insert, remove, background_compact, split", "src/router.rs: insert, load_existing_dir"]}
{"id": "C49", "title": "Concurrent list updates are linearizable", "statement": "Any number of threads calling set_in_list, replace_in_list, get_or_create_in_list, remove_from_list, compact_list_if_needed and either get_from_list or discard_list on one list (and anything at all on other keys, lists and queues) get the results of an insertion-ordered map on which every call acts at one moment between its invocation and its return; when no call is in progress the store shows exactly that list; after a crash at any moment get_from_list returns for every key its value in such an ordering.", "quantifier": "every list key, configuration, history, number of threads, interleaving, compaction and split schedule, crash point", "why_tests_cant": "interleavings of multi-step operations (lock, read header, write item, write header) with each other and with shard maintenance", "anchors": ["src/lists.rs: owned_set_in_list, owned_remove_from_list, owned_compact_list_if_needed, owned_discard_list", "src/store.rs: lock_list / keyed_locks"]}
{"id": "C50", "title": "Every mix of list calls keeps the list consistent", "statement": "Any number of threads making any list calls on one list, including set_in_list_promoting, pops, peeks, iteration and list_len: the list passes through a sequence of states in which every updating call takes effect at one moment (set_in_list_promoting in two: the removal, then the set); no call fails; a pop removes exactly the item whose key it returns, with a value that the item had at some moment during the call, so no item is popped twice; peek and iteration return only pairs that were in the list at some moment during the call; list_len is within one of the length at some moment during the call; when no call is in progress the store shows exactly the list.", "quantifier": "every list key, configuration, history, number of threads, interleaving, compaction and split schedule", "why_tests_cant": "races between operations that read the list in several steps without holding its lock", "anchors": ["src/lists.rs: ListIterator, owned_pop_list_head, owned_pop_list_tail, owned_set_in_list_promoting, owned_list_len"]}
{"id": "C51", "title": "Reading a list while it is being changed is atomic", "statement": "iter_list, get_from_list, list_len and peeks running concurrently with other calls on the list return what they would return at one moment during the call (an existing item is found, none is repeated, values belong together). What does hold of the code: as long as items are only added or given new values, an iteration returns exactly the keys of one moment, in order, each with a value it had during the call; as long as items come in by get_or_create_in_list only, it is atomic.", "quantifier": "every interleaving", "why_tests_cant": "races", "anchors": ["src/lists.rs: ListIterator::next, owned_compact_list_if_needed, owned_set_in_list_promoting"]}
{"id": "C52", "title": "Concurrent queue calls are linearizable", "statement": "Any number of threads push to, pop from, extend and discard a queue, and ask for its length and range, at the same time: their results are those of a double-ended queue on which every call takes effect at one moment between its call and its return. Iteration and peeks return only elements that were in the queue at some moment during the call, iteration in index order. Producers and consumers together lose no element and receive none twice. When no call is in progress the store shows exactly that queue.", "quantifier": "every queue key, configuration, history, number of threads, interleaving, compaction and split schedule", "why_tests_cant": "producer/consumer races over a shared head/tail record, interleaved with shard splits and compactions", "anchors": ["src/queues.rs: _owned_push_to_queue, pop_queue, extend_queue, discard_queue, fetch_queue, iter_queue"]}
{"id": "C53", "title": "Peeking at and iterating over a queue are atomic", "statement": "peek_queue_head, peek_queue_tail and iter_queue return what they would return at one moment during the call, also while other threads push and pop (a queue that is never empty is never reported empty). What does hold of the code: they are atomic as long as no call takes elements out of the queue.", "quantifier": "every interleaving", "why_tests_cant": "races between reading the index range and reading the elements", "anchors": ["src/queues.rs: peek_queue_head_with_idx, QueueIterator"]}
{"id": "C54", "title": "Calls never deadlock and always return", "statement": "Whatever any number of threads call at the same time (reads, writes, list and queue calls, iteration, flush, statistics, clear, merging), at every moment each thread that is inside a call can go on or waits for one that can; and if no new calls are made, every schedule ends, with all calls returned and all compactions finished. (With at least one compaction thread, without flush_aggregation, and without the merges of C06.)", "quantifier": "every number of threads and of compaction threads (at least one), every interleaving, every outcome of every read, every point at which a background compaction fails, every fairness policy of the locks that makes a reader wait only behind a writer", "why_tests_cant": "a deadlock needs one particular interleaving of several threads with a background compaction", "anchors": ["src/router.rs: shared_op, insert, clear, call_on_all_shards, _merge, merge_small_shards", "src/shard.rs: operate_on_row, operate_on_row_mut, begin_compaction, background_compact, wait_for_compaction, split, merge, CompactionThreadPool", "src/lists.rs, src/queues.rs: keyed locks"]}
{"id": "C55", "title": "Calls return in every configuration", "statement": "The same for every configuration and for every merge: also with num_compaction_threads = 0, also with the feature flush_aggregation.", "quantifier": "every configuration and every interleaving", "why_tests_cant": "the deadlock with flush_aggregation needs a writer that syncs at the very moment at which the background compaction of its shard finishes", "anchors": ["src/lib.rs: Config::num_compaction_threads", "src/shard.rs: flush_aggregation, flush, background_compact", "src/router.rs: _merge"]}
{"id": "C56", "title": "merge_small_shards loses nothing when other threads write", "statement": "While one thread calls merge_small_shards, others may complete writes, and these may start compactions: when it has returned, every key has the value last stored under it, and what is written afterwards survives reopening. (Proved for the case that no shard is being compacted when the root lock is granted; refuted otherwise.)", "quantifier": "every history, every calls between the counting of the shards and the merging, every interleaving with compaction threads, every crash point", "why_tests_cant": "the loss needs a write by another thread in a window of the call, and a compaction thread at one particular row or between two system calls", "anchors": ["src/router.rs: merge_small_shards, _merge, load", "src/shard.rs: Shard::open, do_compaction, background_compact"]}
{"id": "C57", "title": "clear empties the store whatever compactions are under way", "statement": "clear succeeds and leaves an empty store also while shards are being compacted in the background, whatever the schedule; when it has returned no compaction of the old shards is left, and the store is the map of what is stored from then on. (Proved whenever clear succeeds, and that it fails only if one of the compactions finished in the meantime; refuted in that case: clear then returns an error, entries remain, and later writes may be lost.)", "quantifier": "every history, any number of compactions at any points, every interleaving of their effects with those of clear, every order in which the directory is listed, every later history", "why_tests_cant": "depends on the moment at which a background thread renames a file", "anchors": ["src/router.rs: clear, create_initial_shards", "src/shard.rs: begin_compaction, background_compact, Drop for Shard"]}
{"id": "C58", "title": "Closing and reopening in one process loses nothing", "statement": "A store may be dropped at any moment, also while any number of compactions are running in the background, and its directory opened again, by the same process or another: whether these compactions ran to their ends or stopped with an error, all entries are there, and later writes are kept.", "quantifier": "every history, every set of running compactions, every interleaving of their effects, every points at which they stop, every configuration of the reopened store with the same hash seed, every later history", "why_tests_cant": "depends on how the compaction threads of different shards interleave while drop waits for them, and on where each of them stops", "anchors": ["src/store.rs: CandyStore (order of the fields), CandyStore::open", "src/shard.rs: Drop for Shard, wait_for_compaction, background_compact, Shard::open"]}
{"id": "C59", "title": "An I/O error loses nothing", "statement": "A call that fails with an I/O error (disk full, too many open files, a read error) loses nothing: the failing call took effect or not, all other entries are intact, and later calls work normally, also after further errors, crashes and reopening. (Proved for errors in reads, writes and file creation during calls, including the splits they cause; refuted for merge_small_shards and background compactions.)", "quantifier": "every history with any number of failing calls, each failing at any of its system calls, on every kind of key; maintenance, crashes and reopening in between", "why_tests_cant": "the errors must be injected at every system call of every operation in every state, and the damage shows up only in later calls or after reopening", "anchors": ["src/shard.rs: MmapFile::write_kv, MmapFile::create, Shard::split, Shard::merge, Shard::background_compact, Shard::wait_for_compaction", "src/router.rs: ShardRouter::insert, merge_small_shards"]}
{"id": "C60", "title": "merge_small_shards merges only what it may", "statement": "When merge_small_shards(level) returns on a store that was never interrupted, it has merged only neighbouring shards that each held at most the given number of keys; every shard holding more is still there; and unless it merged nothing, the remaining shards have room (at the expected fill) for all keys in the store and for expected_number_of_keys. The number of shards never grows.", "quantifier": "every store reached without a crash by any sequence of calls, background work, merges, clears and reopenings; every fill level; every configuration", "why_tests_cant": "which shards may go depends on the whole tree of shards and on the distribution of the keys; tests look at a few trees", "anchors": ["src/router.rs: ShardRouter::merge_small_shards, ShardRouter::_merge, calc_num_shards, calc_step", "src/shard.rs: Shard::get_stats, ShardStats::num_items, Shard::merge"]}
{"id": "C61", "title": "Iterating over a list or queue that is being changed", "statement": "While a list or queue is being iterated, it can be read and changed between two calls of next. Every call of next succeeds and returns an entry that is in the collection at that moment; entries come in the order of the collection and none twice; and an entry that is in the collection all the time is returned before next returns None. (Proved for queues, and for the items of a list that are not moved or taken out in between; refuted for lists when compact_list runs in between.)", "quantifier": "every store history before; every sequence of calls of next, forwards or backwards, with any calls on any keys, maintenance, crashes with recovery and reopening between them", "why_tests_cant": "the outcome depends on how the range fixed at the first call relates to every later change of the indices; tests iterate over lists nobody changes", "anchors": ["src/lists.rs: ListIterator::next, iter_list, iter_list_backwards, get_from_list_at_index", "src/queues.rs: QueueIterator::next, iter_queue, iter_queue_backwards"]}
{"id": "C62", "title": "size_hint of the list and queue iterators", "statement": "The bounds given by size_hint of an iterator over a list or queue are bounds on the number of entries it will still return, as the Iterator contract asks. (The upper bound is proved, whatever happens later; the lower bound is refuted: holes count.)", "quantifier": "every store history, every position in an iteration, every further history and further calls of next", "why_tests_cant": "a violation needs holes in the index range, left by removals in a particular pattern", "anchors": ["src/lists.rs: ListIterator::size_hint", "src/queues.rs: QueueIterator::size_hint"]}
{"id": "C63", "title": "Crashes during set_big and remove_big", "statement": "If the process dies during set_big or remove_big, then after reopening get_big returns the old value or the new one (nothing for remove_big); later calls behave normally. (Refuted as stated: a part of the old value, or nothing, may be left. Proved: what is left is the old value, a rest of the old value after whole pieces of 65280 bytes, nothing, or all of the new value, never a mixture; and everything works from there, also after rejected and empty values.)", "quantifier": "every history of calls on any keys, with crashes at every point of every call, recovery, reopening, maintenance, rejected and empty values", "why_tests_cant": "the crash point ranges over every write of two loops, and what is left depends on all earlier crashes", "anchors": ["src/store.rs: set_big, get_big, remove_big", "src/queues.rs: discard_queue, extend_queue"]}
{"id": "C64", "title": "Concurrent set_big, get_big and remove_big", "statement": "Calls of set_big, get_big and remove_big on the same key made by several threads act one at a time: get_big returns a value that was given to one set_big. (Refuted: overlapping set_big calls join their values, and a get_big that overlaps a removal returns a part of the value. Proved: set_big acts as a removal followed by an appending; whenever no call is in progress the value is the concatenation of whole values appended since the last removal.)", "quantifier": "every history, any number of threads, every schedule of their calls, with splits and compactions running", "why_tests_cant": "the interleavings of the lock sections of several calls are unbounded; the bad ones are rare in a test", "anchors": ["src/store.rs: set_big, get_big, remove_big", "src/queues.rs: discard_queue, extend_queue, iter_queue, QueueIterator::next"]}
{"id": "C65", "title": "Derived statistics", "statement": "total_occupied_bytes, average_entry_size, required_num_shards and should_merge_small_shards agree with the contents: the average is the floor of total entry bytes over the number of entries (0 when empty), the required number of shards is the least power of two with room for all keys, and merging is advised exactly when there are more than twice as many shards. (Refuted: after a crash they may panic; the advice may be given for ever although merge_small_shards does nothing.)", "quantifier": "every store that was never interrupted, for every contents", "why_tests_cant": "the figures must be right for every history of updates, removals, splits and compactions; the number of shards needed goes through floating point and integer logarithms", "anchors": ["src/stats.rs: total_occupied_bytes, average_entry_size, required_num_shards, should_merge_small_shards", "src/router.rs: calc_step, calc_num_shards"]}
{"id": "C66", "title": "Iterating while other threads use the store", "statement": "While any number of threads make any calls and shards are split and compacted in the background, any number of iterators (iter, iter_raw, iter_from_cookie and its raw form) may go over the store: no next() fails or panics, and every key that a next() returns has, at the moment it is returned, exactly the value it is returned with - there is one linearization of all the calls, each between its call and its return, that agrees with every item of every iterator. A key that exists at the beginning and that no thread touches is returned by every new iterator that reaches the end, unless the key's row is moved to another file (compaction) or its shard is split while the iterator stands in the middle of that row. However the threads run meanwhile, an iteration ends after finitely many steps, and an iterator never waits for anything but a thread that can go on.", "quantifier": "every live store, every number of threads and iterators, every sequence of calls and every interleaving of the steps of threads, compaction workers, splits and single slot reads of the iterators", "why_tests_cant": "the iterator takes and drops the locks for every slot, so between two reads any update, compaction or split may take place; a test sees a handful of the interleavings", "anchors": ["src/store.rs:102-199 CandyStoreIterator::next", "src/shard.rs:759-769 read_at", "src/router.rs:280-295 shared_op", "src/shard.rs:905-957 begin_compaction"]}
{"id": "C67", "title": "Other files in the directory are left alone", "statement": "Files in the store's directory that are not the store's (names with none of its prefixes) are never created, removed, renamed or changed by opening, by any call, maintenance, clear or recovery, whatever its outcome and wherever it is interrupted. (Refuted for other users' files that happen to begin with a prefix of the store: they are deleted, or make the opening panic.)", "quantifier": "every initial directory, every history with crashes at any point, every failing or interrupted opening, clear and merge", "why_tests_cant": "holds for all histories and crash points, including directories with half-finished work of earlier crashes", "anchors": ["src/router.rs: load, clear, merge_small_shards", "src/shard.rs: open, split, merge, background_compact"]}
{"id": "C68", "title": "One open store per directory", "statement": "At most one process has the directory open at a time: while one has it, every attempt to open it is refused and changes nothing; no file of the directory changes but by that process; after it has dropped the store or died at any moment, an attempt succeeds.", "quantifier": "any number of processes, any interleaving of openings, calls, background threads, closings and deaths", "why_tests_cant": "the lock must hold against every interleaving and every point of death, and no operation of a store (clear, recovery) may remove the lock file", "anchors": ["src/store.rs: CandyStore::open, _lockfile", "src/router.rs: clear", "src/shard.rs: Drop for Shard"]}
{"id": "C69", "title": "Status helper methods", "statement": "was_created, was_replaced, failed, is_key_missing, is_wrong_value, already_exists and value() tell the truth: each is true exactly when the key was absent, present, or present with another value than the expected one before the call, and after the call the key has the value they imply.", "quantifier": "every store with any history (crashes, splits, compactions), every key, value and expectation", "why_tests_cant": "must hold for every contents and every internal state of the store", "anchors": ["src/store.rs: ReplaceStatus, SetStatus, GetOrCreateStatus"]}
{"id": "C70", "title": "After concurrent use the store is as after use by one thread", "statement": "Once no call is in progress, after any concurrent use (and, where crashes are allowed, after crashes): the store is a map and every later history of calls of one thread is a history of that map; iterating returns every key once with its value; every hash selector has exactly one shard; the statistics are exact, i.e. no concurrent update of a counter was lost; reopening and merge_small_shards keep all entries, clear removes them all.", "quantifier": "every store that arises by any sequence of sequential histories and concurrent runs of any number of threads under any schedule, with splits and background compactions, and (except for the statistics) crashes at any point", "why_tests_cant": "lost counter updates or a damaged shard tree depend on the interleaving of many threads and show up much later", "anchors": ["src/store.rs: stats, iter, merge_small_shards, clear, open", "src/router.rs: shared_op, split_shard, compact_shard", "src/shard.rs: insert, remove, flush, ShardHeader counters"]}
{"id": "C71", "title": "Calls that only read change nothing", "statement": "get, contains, get_big, the reading calls of lists and queues (get_from_list, iteration, peek, len, range) and their typed forms leave every entry of every kind and the number of entries as they were, whether they succeed or fail.", "quantifier": "every store after any history of calls, maintenance, reopenings and crashes, every reading call with any arguments", "why_tests_cant": "a test sees only the keys it looks at; a read that repairs or touches another record shows up in particular states only (e.g. after a crash in a list operation)", "anchors": ["src/store.rs: get, contains, iter", "src/lists.rs: get_from_list, iter_list, peek_list_head, list_len", "src/queues.rs: iter_queue, peek_queue_head, queue_len, queue_range", "src/typed.rs"]}
{"id": "C72", "title": "Stored bytes that do not decode are reported, not skipped", "statement": "A typed iteration that succeeds yields exactly one item for each stored element, in order; a typed get yields a value only if the stored bytes decode to it, and 'none' only if nothing is stored; otherwise the call fails. A failed read changes nothing; a failed call should change nothing.", "quantifier": "every codec (no round trip assumed), every store, key and type id", "why_tests_cant": "tests use well-behaved encodings and the types they wrote; the claim is for any bytes, e.g. those written with another type", "anchors": ["src/typed.rs: from_bytes, CandyTypedStore, CandyTypedList, CandyTypedDeque"]}
{"id": "C73", "title": "Concurrent calls return, whatever the scheduler does", "statement": "From any moment of any concurrent use: if no further calls are made, then after finitely many steps every call in progress has returned and every background compaction has ended, in whatever order the threads run; until then some thread can always go on. So there is no endless retrying after splits and no livelock between calls, splits and compactions.", "quantifier": "every store that arises by any use, any number of threads, any calls of every kind, every schedule (fair or not), every intermediate state, while files stay below 4 GiB and no shard of a single selector has to be split", "why_tests_cant": "an endless run under some schedule is not observed by running; the bound on the number of steps depends on data", "anchors": ["src/router.rs: shared_op, split_shard (retry loop)", "src/shard.rs: insert, begin_compaction, background compaction", "src/lists.rs, src/queues.rs: loops under the keyed locks"]}
{"id": "C74", "title": "mini-candy is a map", "statement": "mini-candy, the minimal store of the workspace (mini-candy/src/main.rs), answers every sequence of set, get, remove and iter calls on a new store as a map does: get returns the last value set and not removed since, remove tells whether the key was there, iter returns every pair that is there exactly once; set always returns true, whatever splits it takes, and no call fails. This holds for keys and values below 64 KiB, less than 4 GiB written in total, and at most 512 keys at the same time that share the 22 hash bits that choose shard and row.", "quantifier": "every 64-bit hash function, every sequence of calls, every key and value within the sizes", "why_tests_cant": "Splits depend on which keys share a row, and on the order of sets, removals and splits; the failing cases need 513 keys that agree on 22 bits of their hashes. Only a proof for every hash function and every sequence covers all of them.", "anchors": ["mini-candy/src/main.rs: ShardFile::{open,read,write,get,set,remove,iter}", "mini-candy/src/main.rs: Store::{open,get,remove,split,set,iter}", "mini-candy/src/main.rs: PartedHash"]}
