(** Who waits for whom: the locks, the compaction pool and the waits of every operation, with
    what is read and written left out.

    Each operation is the sequence of its lock acquisitions and releases, of its waits for a
    compaction and of its hand-overs to the compaction pool. Whatever depends on data (which path
    through the tree, which shard, whether a split or a compaction is needed, what a read
    returned) is an arbitrary choice, so the machine has at least the executions of the code.

    Simplifications: locks of objects that only the acting thread can reach (a shard or a node
    under construction) are left out; an input or output error ends a raw operation only after it
    has released what it took (in the code the guards are dropped on the way out, in the same order);
    the [?] after the wait for a failed compaction counts as such an error; a
    panic of a thread is not modelled; the unbounded retry of [insert] (router.rs:348) is any finite number
    of attempts, chosen in advance; starting and stopping the store are not operations here. *)
From Verif Require Import Base Hashing Fs Shard Router Store Kv Api.

(** ** Locks *)
(** A shard object: the start of its span and a number telling apart the shards that have had it. *)
Notation sid := (N * N)%type.
Inductive lock :=
| LKeyed (i : N)                          (* keyed_locks, store.rs:106 *)
| LNode (d : nat) (top : bool) (id : N)   (* ShardRouter::node, router.rs:73: depth in the tree, top or bottom child *)
| LHandle (s : sid)                       (* Shard::compaction_handle, shard.rs:344 *)
| LFiles (s : sid)                        (* Shard::files, shard.rs:341 *)
| LRow (s : sid) (r : nat)                (* Shard::row_locks, shard.rs:342 *)
| LAgg (s : sid)                          (* Shard::sync_agg_mutex, shard.rs:346 *)
| LStats (i : N).                         (* last_split_stats, last_compaction_stats, stats.rs:140-141 *)
Global Instance lock_eq_dec : EqDecision lock.
Proof. solve_decision. Defined.
(** Shared, upgradable, exclusive; a mutex is a lock that is only taken exclusively. *)
Inductive lmode := Sh | Upg | Ex.
Global Instance lmode_eq_dec : EqDecision lmode.
Proof. solve_decision. Defined.
(** parking_lot's RwLock: several readers, with at most one upgradable reader. *)
Definition compat (m m' : lmode) : bool :=
  match m, m' with Sh, Sh | Sh, Upg | Upg, Sh => true | _, _ => false end.

(** ** What a thread still has to do *)
Inductive lprog : Type :=
| PEnd                                             (* nothing: between calls, or a worker without a job *)
| PAcq (l : lock) (m : lmode) (k : lprog)          (* acquire *)
| PRel (l : lock) (k : lprog)                      (* drop the guard *)
| PUp (l : lock) (k : lprog)                       (* upgradable -> exclusive *)
| PDown (l : lock) (k : lprog)                     (* and back *)
| PChoice {X : Type} (k : X -> lprog)              (* something that depends on data *)
| PTake (s : sid) (k : lprog)                      (* if let Some(h) = handle_guard.take() { h.wait() } *)
| PWait (j : nat) (k : lprog)                      (* h.wait(), shard.rs:254-256 *)
| PBegin (s : sid) (kskip kgo : lprog)             (* the tests of begin_compaction, shard.rs:914-928 *)
| PWaitPast (j : nat) (k : lprog)                  (* the wait in begin_compaction, shard.rs:926 *)
| PSubmit (s : sid) (k : lprog)                    (* files_guard.1 = Some(..), submit, shard.rs:943-954 *)
| PClear (s : sid) (k : lprog)                     (* files.0 = files.1.take(), shard.rs:975 *)
| PDone (j : nat).                                 (* handle_tx.send(res), shard.rs:291 *)

Record lthr := LT {
  t_worker : bool;                (* a thread of the compaction pool *)
  t_job : option nat;             (* ... and the job it runs *)
  t_held : list (lock * lmode);   (* guards, the latest first *)
  t_prog : lprog
}.
Record lstate := LS {
  s_ths : list lthr;
  s_tgt : gset sid;               (* shards whose files.1 is Some *)
  s_handle : gmap sid nat;        (* compaction_handle *)
  s_jobs : list sid;              (* the shard of every job ever submitted *)
  s_queue : list nat;             (* the channel of the pool, shard.rs:279 *)
  s_done : gset nat               (* jobs whose result has been sent *)
}.

(** ** The operations *)
(** [operate_on_row], shard.rs:714-732. *)
Definition read_row (s : sid) (r : nat) (k : lprog) : lprog :=
  PAcq (LFiles s) Sh (PAcq (LRow s r) Sh (PRel (LRow s r) (PRel (LFiles s) k))).
(** [flush_aggregation], shard.rs:814-842: the files lock is taken again by [flush], shard.rs:532.
    The first [try_lock] is left out: it never blocks. *)
Definition flush_agg (s : sid) (k : lprog) : lprog :=
  PAcq (LAgg s) Ex (PChoice (fun skip : bool =>
    if skip then PRel (LAgg s) k
    else PAcq (LFiles s) Sh (PRel (LFiles s) (PRel (LAgg s) k)))).
(** [operate_on_row_mut], shard.rs:734-757, around the closures of [insert] and [remove]; [fa] is
    the feature flush_aggregation with a delay configured (shard.rs:885-889, 1024-1028, 1063-1067). *)
Definition write_row (fa : bool) (s : sid) (r : nat) (k : lprog) : lprog :=
  PAcq (LFiles s) Sh (PAcq (LRow s r) Ex (PRel (LRow s r)
    (if fa then PChoice (fun changed : bool => if changed then flush_agg s (PRel (LFiles s) k) else PRel (LFiles s) k)
     else PRel (LFiles s) k))).
(** [begin_compaction], shard.rs:905-957; the choice is the test of the write offset, shard.rs:909-912. *)
Definition begin_prog (s : sid) (k : lprog) : lprog :=
  let leave := PRel (LFiles s) (PRel (LHandle s) k) in
  PAcq (LHandle s) Ex (PAcq (LFiles s) Ex (PChoice (fun already : bool =>
    if already then leave else PBegin s leave (PSubmit s leave)))).
(** [wait_for_compaction], shard.rs:897-903; also the drop of a shard, shard.rs:1089-1093. *)
Definition wait_compaction (s : sid) (k : lprog) : lprog :=
  PAcq (LHandle s) Ex (PTake s (PRel (LHandle s) k)).
(** [get_stats], shard.rs:1076-1086. *)
Definition get_stats_prog (s : sid) (k : lprog) : lprog :=
  wait_compaction s (PAcq (LFiles s) Sh (PRel (LFiles s) k)).
(** [split], shard.rs:536-632, and the drop of the shard that was split, router.rs:370. *)
Definition split_prog (s : sid) (k : lprog) : lprog :=
  PAcq (LHandle s) Ex (PTake s (PAcq (LFiles s) Ex
    (PAcq (LStats 0) Ex (PRel (LStats 0) (PRel (LFiles s) (PRel (LHandle s) (wait_compaction s k))))))).

(** The nodes on the way to a leaf, from the root: which child, and which object. *)
Notation lpath := (list (bool * N)).
Fixpoint down (d : nat) (p : lpath) (k : lprog) : lprog :=
  match p with [] => k | (t, i) :: p => PAcq (LNode d t i) Sh (down (S d) p k) end.
Fixpoint up (d : nat) (p : lpath) (k : lprog) : lprog :=
  match p with [] => k | (t, i) :: p => up (S d) p (PRel (LNode d t i) k) end.
(** [shared_op], router.rs:280-295. *)
Definition shared_prog (p : lpath) (f : lprog -> lprog) (k : lprog) : lprog :=
  down 0 p (f (up 0 p k)).

(** How one [ShardRouter::insert] goes (router.rs:341-394): *)
Inductive irun :=
| ILeaf (s : sid) (row : nat) (c : bool)             (* at a leaf, and it fits; c: a compaction is due *)
| IDown (top : bool) (id : N) (r : irun)             (* at a vertex: go to a child *)
| ISplit (s : sid) (row : nat) (c : bool) (already : bool) (r : irun).
                                                     (* at a leaf that must be split; already: someone did; try again *)
Fixpoint ins_prog (fa : bool) (d : nat) (top : bool) (id : N) (r : irun) (k : lprog) : lprog :=
  let n := LNode d top id in
  match r with
  | ILeaf s row c => PAcq n Sh (write_row fa s row ((if c then begin_prog s else fun k => k) (PRel n k)))
  | IDown top' id' r => PAcq n Sh (ins_prog fa (S d) top' id' r (PRel n k))
  | ISplit s row c already r =>
    PAcq n Sh (write_row fa s row ((if c then begin_prog s else fun k => k) (PRel n
      (PAcq n Ex ((if already then fun k => k else split_prog s) (PRel n (ins_prog fa d top id r k)))))))
  end.

(** A call of the key-value, list, queue, typed or big-value API (Api.v): its raw operations with
    their locks; [h] is the keyed lock it holds. A raw operation may fail (None), which ends the call
    and drops the guard. *)
Definition fail_prog (h : option N) : lprog :=
  match h with Some i => PRel (LKeyed i) PEnd | None => PEnd end.
Fixpoint tr {A} (fa : bool) (h : option N) (p : kprog A) : lprog :=
  match p with
  | KRet _ => PEnd
  | KFail _ => fail_prog h
  | KVis o k =>
    match o in kop X return (X -> kprog A) -> lprog with
    | KGet _ => fun k => PChoice (fun x : lpath * sid * nat => let '(p, s, r) := x in
        shared_prog p (read_row s r) (PChoice (fun y => match y with Some y => tr fa h (k y) | None => fail_prog h end)))
    | KByHash _ => fun k => PChoice (fun x : lpath * sid * nat => let '(p, s, r) := x in
        shared_prog p (read_row s r) (PChoice (fun y => match y with Some y => tr fa h (k y) | None => fail_prog h end)))
    | KRem _ => fun k => PChoice (fun x : lpath * sid * nat => let '(p, s, r) := x in
        shared_prog p (write_row fa s r) (PChoice (fun y => match y with Some y => tr fa h (k y) | None => fail_prog h end)))
    | KIns _ _ _ => fun k => PChoice (fun x : N * irun => let '(id, r) := x in
        ins_prog fa 0 false id r (PChoice (fun y => match y with Some y => tr fa h (k y) | None => fail_prog h end)))
    | KLock i => fun k => PAcq (LKeyed i) Ex (tr fa (Some i) (k tt))
    | KUnlock i => fun k => PRel (LKeyed i) (tr fa None (k tt))
    end k
  end.

(** One [next] of the iterator over the store, store.rs:157-199: shards one after the other, in
    each some rows read. *)
Fixpoint read_rows (s : sid) (rs : list nat) (k : lprog) : lprog :=
  match rs with [] => k | r :: rs => read_row s r (read_rows s rs k) end.
Fixpoint next_prog (l : list (lpath * sid * list nat)) (k : lprog) : lprog :=
  match l with
  | [] => k
  | (p, s, rs) :: l => shared_prog p (read_rows s rs) (next_prog l k)
  end.

(** [call_on_all_shards], router.rs:327-339. *)
Inductive lshape := SLeaf (id : N) (s : sid) | SVertex (id : N) (b t : lshape).
Fixpoint on_all (f : sid -> lprog -> lprog) (d : nat) (top : bool) (x : lshape) (k : lprog) : lprog :=
  match x with
  | SLeaf id s => PAcq (LNode d top id) Sh (f s (PRel (LNode d top id) k))
  | SVertex id b t => PAcq (LNode d top id) Sh
      (on_all f (S d) false b (on_all f (S d) true t (PRel (LNode d top id) k)))
  end.
(** [flush], store.rs:256-259, shard.rs:530-534. *)
Definition flush_prog (x : lshape) : lprog :=
  on_all (fun s k => PAcq (LFiles s) Sh (PRel (LFiles s) k)) 0 false x PEnd.
(** Both statistics locks, one after the other: stats.rs:194-195, 218-227. *)
Definition both_stats (k : lprog) : lprog :=
  PAcq (LStats 0) Ex (PRel (LStats 0) (PAcq (LStats 1) Ex (PRel (LStats 1) k))).
(** [stats], store.rs:490-504. *)
Definition stats_prog (x : lshape) : lprog := on_all get_stats_prog 0 false x (both_stats PEnd).
(** Dropping the shards of a tree. *)
Fixpoint drop_all (l : list sid) (k : lprog) : lprog :=
  match l with [] => k | s :: l => wait_compaction s (drop_all l k) end.
(** [clear], router.rs:297-325, store.rs:262-267: the old tree is dropped under the root's lock. *)
Definition clear_prog (id : N) (old : list sid) : lprog :=
  PAcq (LNode 0 false id) Ex (drop_all old (PRel (LNode 0 false id) (both_stats PEnd))).

(** How one [_merge] goes (router.rs:396-457). *)
Inductive mout := MBotFull | MTopFull | MNoRoom | MMerged.
Inductive mrun :=
| MStop                                        (* shards_to_remove is 0 *)
| MLeaves (bid tid : N) (b t : sid) (o : mout)
| MLeafVertex (bid tid : N) (r : mrun) (z : bool)  (* z: nothing left to remove when it goes on *)
| MVertexLeaf (bid tid : N) (r : mrun) (z : bool)
| MVertices (bid tid : N) (r1 r2 : mrun) (z o : bool).
Fixpoint merged (r : mrun) : bool :=
  match r with
  | MLeaves _ _ _ _ MMerged => true
  | MVertices _ _ r1 r2 z o => merged r1 && merged r2 && negb z && o
  | _ => false
  end.
(** Where a merged node is to be merged further with a node whose guard is still held
    (router.rs:434, 441, 451, 452), the lock is requested a second time. *)
Fixpoint merge_prog (d : nat) (r : mrun) (k : lprog) : lprog :=
  let both bid tid (f : lprog -> lprog) :=
    PAcq (LNode d false bid) Ex (PAcq (LNode d true tid) Ex
      (f (PRel (LNode d true tid) (PRel (LNode d false bid) k)))) in
  let again n k := PAcq n Ex (PRel n k) in
  match r with
  | MStop => k
  | MLeaves bid tid b t o => both bid tid (fun k =>
      get_stats_prog b (match o with
      | MBotFull => k
      | _ => get_stats_prog t (match o with
        | MTopFull => k
        | _ => PAcq (LFiles b) Ex (PAcq (LFiles t) Ex (PRel (LFiles t) (PRel (LFiles b) k)))
        end)
      end))
  | MLeafVertex bid tid r z => both bid tid (fun k =>
      merge_prog (S d) r (if merged r && negb z then again (LNode d false bid) k else k))
  | MVertexLeaf bid tid r z => both bid tid (fun k =>
      merge_prog (S d) r (if merged r && negb z then again (LNode d true tid) k else k))
  | MVertices bid tid r1 r2 z o => both bid tid (fun k =>
      merge_prog (S d) r1 (merge_prog (S d) r2
        (match merged r1, merged r2 with
         | true, false => if z then k else again (LNode d true tid) k
         | false, true => if z then k else again (LNode d false bid) k
         | _, _ => k
         end)))
  end.
(** [merge_small_shards], router.rs:459-498. [r] is None when there is nothing to do. *)
Definition merge_small_prog (x : lshape) (id : N) (r : option mrun) (old : list sid) (y : lshape) : lprog :=
  on_all get_stats_prog 0 false x
    (match r with
     | None => PEnd
     | Some r => PAcq (LNode 0 false id) Ex (merge_prog 1 r (drop_all old (PRel (LNode 0 false id)
         (on_all (fun _ k => k) 0 false y PEnd))))
     end).

(** The calls a client can make; [mr] tells which courses of a merge are considered. *)
Inductive op_prog (fa : bool) (cfg : config) (mr : mrun -> Prop) : lprog -> Prop :=
| op_call (c : call) : op_prog fa cfg mr (tr fa None (call_prog cfg c))
| op_next l : op_prog fa cfg mr (next_prog l PEnd)
| op_flush x : op_prog fa cfg mr (flush_prog x)
| op_stats x : op_prog fa cfg mr (stats_prog x)
| op_clear id old : op_prog fa cfg mr (clear_prog id old)
| op_merge_not x id old y : op_prog fa cfg mr (merge_small_prog x id None old y)
| op_merge x id r old y : mr r -> op_prog fa cfg mr (merge_small_prog x id (Some r) old y).

(** [background_compact], shard.rs:959-978, with [do_compaction], shard.rs:481-528: the rows one by
    one from row 0; it may fail before any row or at the end, leaving files.1 as it is. *)
Fixpoint job_rows (s : sid) (j : nat) (n : nat) : lprog :=
  PChoice (fun fails : bool =>
    if fails then PRel (LFiles s) (PDone j)
    else match n with
    | O => PAcq (LStats 1) Ex (PRel (LStats 1) (PUp (LFiles s) (PClear s (PDown (LFiles s) (PRel (LFiles s) (PDone j))))))
    | S n => PAcq (LRow s (NUM_ROWS - S n)) Ex (PRel (LRow s (NUM_ROWS - S n)) (job_rows s j n))
    end).
Definition job_prog (s : sid) (j : nat) : lprog := PAcq (LFiles s) Upg (job_rows s j NUM_ROWS).

(** ** Steps *)
(** Nobody holds the lock in a mode that excludes [m]. *)
Definition grantable (st : lstate) (l : lock) (m : lmode) : Prop :=
  forall b t m', s_ths st !! b = Some t -> (l, m') ∈ t_held t -> compat m m' = true.
(** A waiting policy: which requests that could be granted are refused for now. *)
Notation policy := (lstate -> nat -> bool).
Definition put (st : lstate) (a : nat) (t : lthr) (h : list (lock * lmode)) (p : lprog) : lstate :=
  LS (<[a := LT (t_worker t) (t_job t) h p]> (s_ths st)) (s_tgt st) (s_handle st) (s_jobs st) (s_queue st) (s_done st).
Definition with_handle (st : lstate) (x : gmap sid nat) : lstate :=
  LS (s_ths st) (s_tgt st) x (s_jobs st) (s_queue st) (s_done st).

Inductive lstep (pol : policy) (st : lstate) (a : nat) : lstate -> Prop :=
| St_acq w j h l m k : s_ths st !! a = Some (LT w j h (PAcq l m k)) ->
    grantable st l m -> (m <> Ex -> pol st a = false) ->
    lstep pol st a (put st a (LT w j h PEnd) ((l, m) :: h) k)
| St_rel w j h l m k : s_ths st !! a = Some (LT w j ((l, m) :: h) (PRel l k)) ->
    lstep pol st a (put st a (LT w j h PEnd) h k)
| St_up w j h l k : s_ths st !! a = Some (LT w j ((l, Upg) :: h) (PUp l k)) ->
    (forall b t m', b <> a -> s_ths st !! b = Some t -> (l, m') ∉ t_held t) ->
    lstep pol st a (put st a (LT w j h PEnd) ((l, Ex) :: h) k)
| St_down w j h l k : s_ths st !! a = Some (LT w j ((l, Ex) :: h) (PDown l k)) ->
    lstep pol st a (put st a (LT w j h PEnd) ((l, Upg) :: h) k)
| St_choice w j h X (k : X -> lprog) x : s_ths st !! a = Some (LT w j h (PChoice k)) ->
    lstep pol st a (put st a (LT w j h PEnd) h (k x))
| St_take_none w j h s k : s_ths st !! a = Some (LT w j h (PTake s k)) -> s_handle st !! s = None ->
    lstep pol st a (put st a (LT w j h PEnd) h k)
| St_take w j h s k i : s_ths st !! a = Some (LT w j h (PTake s k)) -> s_handle st !! s = Some i ->
    lstep pol st a (put (with_handle st (delete s (s_handle st))) a (LT w j h PEnd) h (PWait i k))
| St_wait w j h i k : s_ths st !! a = Some (LT w j h (PWait i k)) -> i ∈ s_done st ->
    lstep pol st a (put st a (LT w j h PEnd) h k)
| St_begin_skip w j h s k1 k2 : s_ths st !! a = Some (LT w j h (PBegin s k1 k2)) ->
    s ∈ s_tgt st -> (forall i, s_handle st !! s = Some i -> i ∉ s_done st) ->
    lstep pol st a (put st a (LT w j h PEnd) h k1)
| St_begin_err w j h s k1 k2 i : s_ths st !! a = Some (LT w j h (PBegin s k1 k2)) ->
    s ∈ s_tgt st -> s_handle st !! s = Some i -> i ∈ s_done st ->
    lstep pol st a (put (with_handle st (delete s (s_handle st))) a (LT w j h PEnd) h k1)
| St_begin_go w j h s k1 k2 : s_ths st !! a = Some (LT w j h (PBegin s k1 k2)) ->
    s ∉ s_tgt st -> s_handle st !! s = None ->
    lstep pol st a (put st a (LT w j h PEnd) h k2)
| St_begin_wait w j h s k1 k2 i : s_ths st !! a = Some (LT w j h (PBegin s k1 k2)) ->
    s ∉ s_tgt st -> s_handle st !! s = Some i ->
    lstep pol st a (put (with_handle st (delete s (s_handle st))) a (LT w j h PEnd) h (PWaitPast i k2))
| St_wait_past w j h i k : s_ths st !! a = Some (LT w j h (PWaitPast i k)) -> i ∈ s_done st ->
    lstep pol st a (put st a (LT w j h PEnd) h k)
| St_submit w j h s k : s_ths st !! a = Some (LT w j h (PSubmit s k)) ->
    lstep pol st a (LS (<[a := LT w j h k]> (s_ths st)) ({[s]} ∪ s_tgt st)
                       (<[s := length (s_jobs st)]> (s_handle st)) (s_jobs st ++ [s])
                       (s_queue st ++ [length (s_jobs st)]) (s_done st))
| St_clear w j h s k : s_ths st !! a = Some (LT w j h (PClear s k)) ->
    lstep pol st a (LS (<[a := LT w j h k]> (s_ths st)) (s_tgt st ∖ {[s]})
                       (s_handle st) (s_jobs st) (s_queue st) (s_done st))
| St_done w j h i : s_ths st !! a = Some (LT w j h (PDone i)) ->
    lstep pol st a (LS (<[a := LT w None h PEnd]> (s_ths st)) (s_tgt st)
                       (s_handle st) (s_jobs st) (s_queue st) ({[i]} ∪ s_done st))
| St_job i q s : s_ths st !! a = Some (LT true None [] PEnd) -> s_queue st = i :: q -> s_jobs st !! i = Some s ->
    lstep pol st a (LS (<[a := LT true (Some i) [] (job_prog s i)]> (s_ths st)) (s_tgt st)
                       (s_handle st) (s_jobs st) q (s_done st)).
(** An idle client makes a call. *)
Inductive lcall_starts (fa : bool) (cfg : config) (mr : mrun -> Prop) (st : lstate) (a : nat) : lstate -> Prop :=
| Sc p : s_ths st !! a = Some (LT false None [] PEnd) -> op_prog fa cfg mr p ->
    lcall_starts fa cfg mr st a (put st a (LT false None [] PEnd) [] p).

(** [nc] idle clients and [nw] idle workers (Config::num_compaction_threads). *)
Definition lstart (nc nw : nat) : lstate :=
  LS (replicate nc (LT false None [] PEnd) ++ replicate nw (LT true None [] PEnd)) ∅ ∅ [] [] ∅.
(** The states reached by any interleaving of calls and steps. *)
Inductive lreach (fa : bool) (cfg : config) (mr : mrun -> Prop) (pol : policy) (nc nw : nat) : lstate -> Prop :=
| lr_start : lreach fa cfg mr pol nc nw (lstart nc nw)
| lr_call st a st' : lreach fa cfg mr pol nc nw st -> lcall_starts fa cfg mr st a st' -> lreach fa cfg mr pol nc nw st'
| lr_step st a st' : lreach fa cfg mr pol nc nw st -> lstep pol st a st' -> lreach fa cfg mr pol nc nw st'.
