# Formal model of candystore — design

## What is modelled and how

| file | code | contents |
|---|---|---|
| `Base.v` | `src/lib.rs`, `src/shard.rs` constants | bytes, results (`Ok`/`Err`, with panics, hangs and deadlocks as errors), little-endian integers, constants |
| `SipHash.v`, `Hashing.v` | `src/hashing.rs` | SipHash-2-4-128 and `PartedHash`; every theorem quantifies over an arbitrary 128-bit hash function (a field of the configuration), SipHash is only an instance used in examples |
| `Fs.v` | the file system | a directory of inodes; a shard file is its header fields, 64 rows x 512 slots (signature, descriptor) and its data bytes. Every store to the mmap, every byte of a pwrite, every rename/unlink/create is one *micro effect*; an operation is a tree of micro effects (`prog`). `run` executes it, `crash_at n` stops it after n effects (process crash: the page cache survives) |
| `Shard.v`, `Router.v`, `Store.v` | `src/shard.rs`, `src/router.rs`, `src/store.rs` | row lookup and insertion, write buffer, compaction (background and synchronous), split, merge, opening and recovery, clear, iteration, statistics, function by function |
| `Kv.v`, `Lists.v`, `Queues.v` | `src/store.rs`, `src/lists.rs`, `src/queues.rs` | public operations as programs over the raw operations get / insert / remove / get_by_hash / lock / unlock |
| `Api.v`, `Hist.v` | all public calls | the calls as data and histories: calls, maintenance, background compaction steps, crashes at every micro effect, reopening |
| `TypedApi.v` | `src/typed.rs` | typed stores, lists, deques over an abstract codec with `dec (enc x) = Some x` |
| `Names.v`, `StatsRing.v` | shard file names, `src/stats.rs` | pure functions / state machine |
| `Mini.v` | `mini-candy/src/main.rs` | the minimal store of the workspace, a program of its own |
| `FlushAgg.v`, `Durable.v` | `flush_aggregation`, `flush` | lock protocol; power cut = any content for a file written since its last sync |
| `Conc.v` | threads | machine whose steps are the micro effects of any number of client threads and of the background compactors, with the locks of the code |
| `Locking.v` | every operation, the compaction pool | what each thread locks, waits for and hands over, with the data left out: all choices that depend on data are arbitrary |
| `Races.v` | router.rs: `clear`, `merge_small_shards`; store.rs: `open`; shard.rs: `background_compact` | these calls interleaved, effect by effect, with compaction threads; closing (`Drop for Shard`) |
| `Faults.v` | every call | I/O errors: where a call may fail, what it leaves in memory and on disk |

Proof layers: (1) file/row representation invariant and its preservation by every micro effect (crash-Hoare
logic `wpc`: `Wpc.v`, `FileRep.v`, `RowOps.v`, `Compact.v`, `Inv.v`); (2) shard operations refine a finite map
(`ShardOps.v`, `Insert.v`, `Split.v`, `Merge.v`, `Create.v`); (3) router/store refine one finite map of raw keys
(`StoreRefine.v`, `Refine.v`, `HistInv.v`); (4) recovery from every crash state (`Open.v`, `OpenAny.v`); (5) lists,
queues, big and typed values as programs over the abstract map, with a weakest precondition `kwp` that also gives an
invariant for every crash point (`KvSpec.v`, `ListRep.v`/`ListProg.v`/`ListHist.v`, `QueueRep.v`/`QueueProg.v`/
`QueueHist.v`, `Typed.v`); (6) concurrency: an invariant of the machine (`ConcInv.v`, `ConcStep.v`, `ConcRow.v`,
`ConcStruct.v`, `ConcMain.v`) that gives each raw operation a linearization point, and on top of it proofs for whole
calls (`ConcLin.v`, `ConcSeq.v`, `ConcLock.v`, `ConcSess.v`, `ConcList*.v`, `ConcQueue*.v`).
Specifications that a reader compares with the English text are small and separate: `Spec.v`, `PlainSpec.v`,
`ListSpec.v`, `QueueSpec.v`, `TypedSpec.v`, `ConcSpec.v`, `LockSpec.v`. Theorems are in `Thm*.v` (and `Durable.v`, `FlushAgg.v`,
`IterMod.v`, `Names.v`, `StatsRing.v`), witnesses that their hypotheses can be met and counterexamples in `Ex*.v`.

## Trusted base

* Coq 8.16.1's kernel, including its `vm_compute` reduction machine (used for the concrete examples and the
  counterexamples).
* Axioms: `Print Assumptions` of every property theorem except `C14_step_in_floating_point` answers "Closed under the
  global context". That theorem (f64 rounding, with Flocq) rests on the standard library's real numbers:
  `ClassicalDedekindReals.sig_not_dec`, `ClassicalDedekindReals.sig_forall_dec`,
  `FunctionalExtensionality.functional_extensionality_dep`, `Classical_Prop.classic`. The closure of all
  compiled files contains the seven parameters of `Coq.ssr.ssrunder` (`Under_rel.Under_rel`, `Under_rel_from_rel`,
  `Under_relE`, `Over_rel`, `over_rel`, `over_rel_done`, `under_rel_done`), which the standard library's ssreflect
  plugin, loaded by std++, declares through a sealed module; no theorem here uses them. No axiom, functor, module type
  or kernel switch of our own.
* std++ (maps, lists, tactics) is used as a library of proved theorems.
* The faithfulness of the model, i.e. the reading of `/repo` recorded in the comments of the model files.

Not modelled, or modelled with a simplification:

* memory ordering and torn stores: a store to the mmap is atomic and sequentially consistent (except the `Relaxed`
  load of C45, which is modelled as such); a pwrite is split into bytes;
* machine crashes, except in `Durable.v` (where directory operations are taken to be durable at once);
* I/O errors and a full disk, except in `Faults.v` (errors of calls at reads, writes, file creation and the first rename of a split; of merging and of background compactions for counterexamples); `mlock`, permissions, the lock file of `open` (except in `OneOpen.v`), wall-clock durations;
* `f64`/`f32` arithmetic: the ratio test of `compact_list_if_needed` is an arbitrary predicate, the fill level of
  `merge_small_shards` is given as the integer it is converted to. The step computation of pre-splitting is exact in
  `Router.v`; `FloatStep.v` proves that the f64 computation of the code gives the same value for every usize (the comment
  at `calc_step` in `Router.v`, which claims this only below 2^45, is older);
* the `databuf` codec (abstract, with the round-trip law as hypothesis);
* the size of the compaction pool, except in `Locking.v`; panics in its threads; allocation failures;
* in `Conc.v`: the locks of one raw operation are taken in one step; begin_compaction, the end of a compaction and a
  split are each one step (justified by the exclusive lock they hold); `clear`, `merge_small_shards`, iteration and
  statistics are not steps of that machine.

## Plan per property

"Refuted" means: the code violates the English statement, a theorem ending in `_refuted` proves that on a concrete
execution of the modelled code, and the other theorems of the property state what does hold.

* C01 map, C02 collisions, C19 rejected calls: simulation of the store by a finite map along every history (`ThmStore.v`).
* C03 splits, C04 compaction, C05 merging, C07 clear, C08 reopening: the same abstract map before and after
  (`ThmStore.v`).
* C06 merging returns, C46 accepted writes survive: refuted (`ExStore.v`, `OpenAny.v`); `ThmMerge.v` has conditions under which merging returns.
* C60 what is merged: the specification of merging (`Merge.v`) again with the list of spans as it gets coarser (`MergeShape.v`,
  `ThmMerge.v`).
* C11 crash during creation/clear: refuted (`ExStore.v`, `ExInterrupt.v`); what holds is in `ThmInterrupt.v`: an invariant of the
  file system ("every shard file holds only entries of the old map, and there is no compaction target") kept by every effect of
  clear and open, and enough for get.
* C09, C10 crashes: crash-Hoare logic over every micro effect, with recovery (`ThmStore.v`).
* C12, C13, C14 recovery, one home shard, pre-splitting: pure functions on spans (`ThmRouter.v`, `OpenAny.v`);
  C14 refuted for huge settings.
* C15–C17, C47 iteration: an iterator enumerates the slots; cookies; modification between two `next` calls
  (`ThmIter.v`, `IterMod.v`, `ExIter.v`). C16 (end cookie), C17, C47 refuted in part.
* C61, C62 iterating over a list or queue that changes: `CollIter.v` has `next` call by call; induction over the calls, with the
  positions of the items as an invariant (`IterQueue.v`, `IterList.v`, `ExCollIter.v`). Both refuted in part.
* C18 key spaces: injectivity of the raw keys plus noninterference of replies (`ThmSpace.v`).
* C20 rejected collection calls, C21/C22 statistics: accounting invariant; C20, C22 refuted in part.
* C23–C27 lists: representation invariant of the item chain (`ThmList.v`, `ExList.v`). C26, C27 refuted in part.
* C28–C30 queues, C31 big values: representation of a queue by range and elements (`ThmQueue.v`, `ExQueue.v`).
  C29–C31 refuted in part.
* C63 crashes in big values: the pieces that are left as an invariant of every raw operation (`BigCrash.v`, `ExBigCrash.v`); C64 concurrent
  big values: the critical sections of `ConcSess.v`, with the list of appended values as the state (`ConcBig.v`, `ThmConcBig.v`, `ExConcBig.v`);
  what an overlapping get_big returns by an invariant on the stored pieces and the rest of each program (`ConcBigGet.v`, `ThmConcBigGet.v`).
  Both refuted in part.
* C65 derived statistics: from C21 and the arithmetic of calc_step (`ThmStats.v`).
* C66 iterating beside threads: iterators as extra threads of the machine of Conc.v, one step per slot read (`ConcIter.v`); soundness by the linearization of ConcLin.v, completeness by an invariant on the entry the iterator has yet to reach (`ConcWalk.v`, `ConcSlots.v`).
* C67 other files: a structural predicate on programs (every effect is on a name of the store and on an i-node of its
  own, whatever the earlier effects returned), shown for every program of the model (`Foreign.v`, `ThmForeign.v`).
* C68 one store per directory: processes, the lock on the i-node of ".lock", threads running the model's programs effect
  by effect; the lock file is never replaced because of C67's predicate (`OneOpen.v`).
* C69 status helpers: one call is one step of the map (`ThmStatus.v`).
* C70 after concurrent use: the invariant of the machine of Conc.v at rest is the invariant of the sequential proofs, counters included (`ThmLive.v`, `ExLive.v`).
* C73 every call returns: a well-founded measure on the states of the machine of Conc.v that every step makes smaller: (splits still possible, the work left to each client ordered by the subterm relation of its program, number of compactions, rows left to each) lexicographically (`ConcEnd.v`, `ThmConcEnd.v`, `ExConcEnd.v`).
* C74 mini-candy is a map: function-by-function model of mini-candy/src/main.rs (`Mini.v`); invariant: every row represents the part of the map that belongs to it, the spans tile the selectors (`MiniShard.v`, `ThmMini.v`, `ExMini.v`). Errors of its system calls are not modelled.
* C71 reads: the frame lemma of the interpreter (`kwp_frame`) with the set of written keys empty, for every reading call (`ThmReads.v`). C72 undecodable bytes: an arbitrary codec, no round trip assumed (`ThmReads.v`).
* C32, C33 typed collections: codec-parametric theorems on top of the untyped ones (`ThmTyped.v`).
* C34, C35, C48 concurrent plain calls, C49–C51 concurrent lists, C52, C53 concurrent queues: the machine of `Conc.v`;
  C36 refuted; C51, C53 refuted in general and proved while nothing is taken out (`ConcReads.v`: a read that returns the result of a state
  seen since its call is linearizable; `ConcListAdd.v`, `ConcQueueAdd.v`).
* C54 no deadlock, every call returns: an order on the locks, the waits for the compaction pool and the upgrades, kept as
  an invariant of `Locking.v` (`LockInv.v`, `LockLive.v`); a waiting thread waits for one that is later in the order
  (`LockFree.v`, `ThmLocking.v`); a well-founded measure for termination. C55: the three configurations outside it are
  refuted (`ExLocking.v`).
* C56, C57, C58 merging, clearing and reopening against compaction threads: the crash-point logic applied to the
  second half of `merge_small_shards` alone; for `clear`, an invariant over the three phases (before the listing, removing,
  creating), in the last of which the compactions only write files without a name; for closing, a non-interference
  argument: each compaction does what it would do alone (`ThmRaces.v`).
  The races that lose data are executed in `ExRaces.v`.
* C59 I/O errors: a weakest precondition for "stops at a failing system call" (`FaultInv.v`) shows that the store
  invariant still holds for the old or the new map; the specifications for crashes during a call are reused. Two
  refutations are executed in `ExFaults.v`.
* C37 termination of insert and C46 accepted writes survive, where they hold: capacity conditions on the stored entries alone (`ThmDurable.v`).
* C37 termination of insert, C40 lock range, C41 foreign files, C44 names: pure functions / counterexamples.
* C38 hash layout, C39 descriptors, C43 statistics ring: pure functions.
* C42 flush: `Durable.v`; C45 flush aggregation: transition system of `FlushAgg.v`.

## Wrong programs

`tools/mutate.py` applies an edit to the model in a scratch copy, rebuilds everything that depends on it and reports
the theorems that fail; results are in `seeded/LOG.jsonl`.
