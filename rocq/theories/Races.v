(** Maintenance calls that meet a compaction thread.

    [clear] and [merge_small_shards] hold the write lock of the root (router.rs:298, 480), but a
    compaction thread (shard.rs:959-977) takes no node lock: it only uses the shard's own [files]
    lock and row locks, which the shards opened anew by these calls do not share
    (shard.rs:409-413).  So the micro effects of the two interleave freely.

    Simplification: as in Fs.v, memory is sequentially consistent. *)
From Verif Require Import Base Hashing Fs Shard Router Store Limits Kv Api Hist.

(** Two programs side by side; the schedule says whose turn it is, and for how many effects. A
    turn of a program that is done is skipped. *)
Fixpoint take {A} (n : nat) (p : prog A) (w : fs) : fs * prog A :=
  match n with
  | O => (w, p)
  | S n =>
    match p with
    | Ret _ | Fail _ => (w, p)
    | Vis e k => let '(w', x) := run_eff e w in take n (k x) w'
    end
  end.
Fixpoint par {A B} (sched : list (bool * nat)) (p : prog A) (q : prog B) (w : fs) : fs * prog A * prog B :=
  match sched with
  | [] => (w, p, q)
  | (true, n) :: sched => let '(w, p) := take n p w in par sched p q w
  | (false, n) :: sched => let '(w, q) := take n q w in par sched p q w
  end.

(** [background_compact] for the shard [sh], shard.rs:959-977: all rows, the rename, and what the
    shard becomes. This is the program that [wait_compaction] waits for. *)
Definition job (cfg : config) (sh : shard) : prog shard := wait_compaction cfg sh.

(** The two halves of [merge_small_shards], router.rs:459-498: the statistics are collected
    under read locks (router.rs:463-476) ... *)
Definition merge_first (cfg : config) (r : router) : prog (router * (N * N)) :=
  do! (r, sts) <- router_stats cfg r;
  do! items <- lift (sum_items sts);
  do! needed <- lift (calc_num_shards (N.max items (c_expected cfg)));
  Ret (r, (len sts, needed)).
(** ... and the rest runs under the write lock of the root (router.rs:479-497), which may be
    granted much later. *)
Definition merge_second (cfg : config) (r : router) (starting needed max_fill : N) : prog (router * bool) :=
  if starting <=? needed then Ret (r, false)
  else
    do! _ <- merge_vertex cfg r max_fill (starting - needed);
    do! shards <- load cfg;
    do! r' <- lift (treeify shards);
    Ret (r', negb (len (leaves r') =? starting)).
Lemma merge_halves cfg r max_fill w :
  run (merge_small_shards cfg r max_fill) w =
  run (do! (r, (starting, needed)) <- merge_first cfg r; merge_second cfg r starting needed max_fill) w.
Proof.
  unfold merge_small_shards, merge_first.
  assert (forall {A B C} (p : prog A) (f : A -> prog B) (g : B -> prog C) w,
    run (pbind (pbind p f) g) w = run (pbind p (fun x => pbind (f x) g)) w) as Ha.
  { clear. intros A B C p f g. induction p as [| |X e k IH]; intros w; cbn; [done..|]. destruct (run_eff e w). apply IH. }
  assert (forall {A B} (p : prog A) (f g : A -> prog B) w,
    (forall x w, run (f x) w = run (g x) w) -> run (pbind p f) w = run (pbind p g) w) as He.
  { clear. intros A B p f g w H. revert w. induction p as [| |X e k IH]; intros w; cbn; [apply H|done|]. destruct (run_eff e w). apply IH. }
  rewrite Ha. apply He. intros [r1 sts] w1. rewrite Ha. apply He. intros items w2. rewrite Ha. apply He. intros needed w3.
  reflexivity.
Qed.

(** ** Executions *)
(** The program has come to its end, with this result. *)
Definition ended {A} (p : prog A) : option (res A) :=
  match p with Ret a => Some (Ok a) | Fail e => Some (Err e) | Vis _ _ => None end.

(** [merge_small_shards(max_fill)] on [s]; between its halves another thread completes the call
    [o], after which a shard is being compacted; then the second half and the compaction thread
    run side by side to their ends (the old tree is dropped after the new one is made, and dropping
    a shard waits for its compaction, router.rs:488-492, shard.rs:1089-1093).
    [merge_small_shards] returns [b], leaving the store [s']. *)
Inductive merge_meets (cfg : config) (s : store) (max_fill : N) (o : op) : store -> bool -> Prop :=
| Merge_meets s1 n m s2 x sh sched w r' b p q j :
  exec s (merge_first cfg (st_root s)) = (s1, Ok (n, m)) ->
  step_op cfg s1 o = (s2, Ok x) ->
  sh ∈ leaves (st_root s2) -> sh_tgt sh <> None ->
  par sched (merge_second cfg (st_root s2) n m max_fill) (job cfg sh) (st_fs s2) = (w, p, q) ->
  ended p = Some (Ok (r', b)) -> ended q = Some j ->
  merge_meets cfg s max_fill o (Store r' w) b.

(** Any number of compaction threads beside a program: at each step, one of them performs one
    effect. *)
Definition step1 {A} (p : prog A) (w : fs) : option (fs * prog A) :=
  match p with
  | Ret _ | Fail _ => None
  | Vis e k => let '(w', x) := run_eff e w in Some (w', k x)
  end.
Inductive race_step {A} : fs * prog A * list (prog shard) -> fs * prog A * list (prog shard) -> Prop :=
| Race_main w p js w' p' : step1 p w = Some (w', p') -> race_step (w, p, js) (w', p', js)
| Race_job w p js i q w' q' :
  js !! i = Some q -> step1 q w = Some (w', q') -> race_step (w, p, js) (w', p, <[i := q']> js).

(** The compactions that are under way. *)
Definition compacting (s : store) : list shard :=
  List.filter (fun sh => match sh_tgt sh with Some _ => true | None => false end) (leaves (st_root s)).
Definition jobs (cfg : config) (s : store) : list (prog shard) := map (job cfg) (compacting s).

(** [clear] on [s], beside the compactions that are under way, whatever the schedule; [js] is what
    remains of them when it returns [y]. If all goes well, the new tree is installed, and the old
    one is dropped (router.rs:322), and [drop] of a shard waits for the end of its compaction,
    whatever it is (shard.rs:1089-1093), so that all have ended. Otherwise the old tree remains.
    [read_dir] lists the directory in any order. Simplification: it lists it in one step. *)
Definition clear_in (ord : list fname -> list fname) (cfg : config) : prog router :=
  do! w <- snap;
  do! _ <- clear_files (ord (dir_names w));
  do! shards <- create_initial_shards cfg;
  lift (treeify shards).
Lemma clear_in_id cfg : clear_in id cfg = router_clear cfg.
Proof. reflexivity. Qed.
Inductive clear_meets (cfg : config) (s : store) : store -> res unit -> list (prog shard) -> Prop :=
| Clear_ok ord w r js :
  (forall l, ord l ≡ₚ l) ->
  rtc race_step (st_fs s, clear_in ord cfg, jobs cfg s) (w, Ret r, js) ->
  (forall q, q ∈ js -> ended q <> None) ->
  clear_meets cfg s (Store r w) (Ok tt) js
| Clear_err ord w e js :
  (forall l, ord l ≡ₚ l) ->
  rtc race_step (st_fs s, clear_in ord cfg, jobs cfg s) (w, Fail e, js) ->
  clear_meets cfg s (Store (st_root s) w) (Err e) js.

(** ** Closing *)
(** Dropping the store drops the shards (store.rs:101-110), in which [drop] waits for the end of the
    shard's compaction and ignores its result (shard.rs:1089-1093); the lock file is released last
    ([_lockfile] comes after [root]), so that nobody can open the directory before. Here [w] is any state
    of the directory while the compactions run to their ends: each is at its end, or (its thread
    ended with an I/O error, or the process died) somewhere before. *)
Definition closes (cfg : config) (s : store) (w : fs) : Prop :=
  exists js, rtc race_step (st_fs s, Ret tt, jobs cfg s) (w, Ret tt, js).
