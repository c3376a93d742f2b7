(** I/O errors: a system call made by an operation fails (disk full, too many open files, a
    read error), the operation returns the error and the store goes on being used.

    What a failing call leaves behind is described per operation, because an error leaves the
    in-memory state as it is at that point, which is not part of a [prog]. *)
From Verif Require Import Base Hashing HashingProofs Fs Shard Router RouterPure Wpc Spec FileRep RowOps
  Compact Inv ShardOps Split Insert Open Merge Create Store Limits StoreRefine Kv Api Hist KvSpec.

(** ** Failing system calls *)
(** The calls of an insert that may fail: reading an entry (any snapshot of the model stands for
    the reads that use it), one byte of the pwrite of an entry (shard.rs:243: a short write), and
    opening the target of a compaction (shard.rs:175-180).  [mmap]-ed memory is written without
    system calls.  Not covered here: a failure of [set_len]/[posix_fallocate] on that target. *)
Definition io_insert {X} (e : eff X) : Prop :=
  match e with
  | ESnap => True
  | EUpd _ (UPut _ _) => True
  | ECreate _ _ => True
  | _ => False
  end.
(** The calls of a split: the same, [set_len] and [posix_fallocate] on the two new files
    (shard.rs:181, 158), and the first rename (shard.rs:617-620).  Not covered: the second rename
    and the removal of the old file (shard.rs:621-626). *)
Definition io_split {X} (e : eff X) : Prop :=
  match e with
  | ESnap => True
  | EUpd _ (UPut _ _) => True
  | EUpd _ (ULen _) => True
  | EUpd _ UFalloc => True
  | ECreate _ _ => True
  | ERename (FBottom _ _) _ => True
  | _ => False
  end.

(** [stops F p w w']: started with the files [w], [p] comes to a call of the kind [F], which
    fails; the files are then [w']. *)
Fixpoint stops {A} (F : forall X, eff X -> Prop) (p : prog A) (w w' : fs) : Prop :=
  match p with
  | Ret _ | Fail _ => False
  | Vis e k => (F _ e /\ w' = w) \/ stops F (k (snd (run_eff e w))) (fst (run_eff e w)) w'
  end.

(** ** A failing insert *)
(** At one leaf, router.rs:341-394: the error comes from [Shard::insert], or from the split it
    asks for (after the wait for a compaction, shard.rs:537-540), or the split succeeded -- the
    leaf is now a vertex -- and the error comes from the retry in one of the halves. *)
Inductive leaf_fault (cfg : config) (ph : phash) (k v : bytes) (mode : ins_mode)
  : shard -> fs -> router -> fs -> Prop :=
| lf_insert sh w w' :
    stops (@io_insert) (shard_insert cfg sh ph k v mode) w w' ->
    leaf_fault cfg ph k v mode sh w (RLeaf sh) w'
| lf_split sh w sh1 w1 sh2 w2 w' :
    run (shard_insert cfg sh ph k v mode) w = (w1, Ok (sh1, SSplit)) ->
    run (wait_compaction cfg sh1) w1 = (w2, Ok sh2) ->
    stops (@io_split) (shard_split cfg sh2) w2 w' ->
    leaf_fault cfg ph k v mode sh w (RLeaf sh2) w'
| lf_bottom sh w sh1 w1 b t w2 r' w' :
    run (shard_insert cfg sh ph k v mode) w = (w1, Ok (sh1, SSplit)) ->
    run (shard_split cfg sh1) w1 = (w2, Ok (b, t)) ->
    ph_selector ph < sh_end b ->
    leaf_fault cfg ph k v mode b w2 r' w' ->
    leaf_fault cfg ph k v mode sh w (RVertex r' (RLeaf t)) w'
| lf_top sh w sh1 w1 b t w2 r' w' :
    run (shard_insert cfg sh ph k v mode) w = (w1, Ok (sh1, SSplit)) ->
    run (shard_split cfg sh1) w1 = (w2, Ok (b, t)) ->
    sh_end b <= ph_selector ph ->
    leaf_fault cfg ph k v mode t w2 r' w' ->
    leaf_fault cfg ph k v mode sh w (RVertex (RLeaf b) r') w'.

(** The tree: [shared_op], router.rs:280-295. *)
Fixpoint tree_fault (P : shard -> router -> fs -> Prop) (r : router) (sel : N) (r' : router) (w' : fs) : Prop :=
  match r with
  | RLeaf sh => P sh r' w'
  | RVertex b t =>
    if sel <? rend b
    then exists b', r' = RVertex b' t /\ tree_fault P b sel b' w'
    else exists t', r' = RVertex b t' /\ tree_fault P t sel t' w'
  end.
(** [insert_internal], store.rs:334-359, after its size checks. *)
Definition insert_fault (cfg : config) (s : store) (k v : bytes) (mode : ins_mode) (s' : store) : Prop :=
  ins_err cfg k v = None /\
  tree_fault (fun sh r' w' => leaf_fault cfg (hashk cfg k) k v mode sh (st_fs s) r' w')
    (st_root s) (ph_selector (hashk cfg k)) (st_root s') (st_fs s').

(** ** A failing call: one of its raw operations fails. Reads and removals make no system calls
    but reads of entries (a removal: before it changes anything, shard.rs:1050-1074). *)
Inductive kfaults {A} (cfg : config) : kprog A -> store -> store -> Prop :=
| kf_insert key v mode k s s' : insert_fault cfg s key v mode s' -> kfaults cfg (KVis (KIns key v mode) k) s s'
| kf_get key k s : kfaults cfg (KVis (KGet key) k) s s
| kf_remove key k s : kfaults cfg (KVis (KRem key) k) s s
| kf_hash ph k s : kfaults cfg (KVis (KByHash ph) k) s s
| kf_later X (o : kop X) k s s1 x s' :
    run_kop cfg o s = (s1, Ok x) -> kfaults cfg (k x) s1 s' -> kfaults cfg (KVis o k) s s'.

(** ** Histories with I/O errors *)
Inductive fevent :=
| FDo (e : event)       (* what happens in a history without errors (Hist.v) *)
| FFail (c : call).     (* a call returns an I/O error *)
Inductive fstep : config -> store -> fevent -> config -> store -> Prop :=
| fs_do cfg s e cfg' s' : hstep cfg s e cfg' s' -> fstep cfg s (FDo e) cfg' s'
| fs_fail cfg s c s' : kfaults cfg (call_prog cfg c) s s' -> fstep cfg s (FFail c) cfg s'.
(** What the caller of a failing call may assume is what it may assume after a crash during
    that call: see the specifications of [ECrash (ACall c)]. *)
Definition as_crash (e : fevent) : event :=
  match e with FDo e => e | FFail c => ECrash (ACall c) end.
Inductive fhist (G : config -> store -> event -> Prop)
  : config -> store -> list fevent -> config -> store -> Prop :=
| fh_nil cfg s : fhist G cfg s [] cfg s
| fh_cons cfg s e cfg1 s1 es cfg' s' :
    G cfg s (as_crash e) -> fstep cfg s e cfg1 s1 -> fhist G cfg1 s1 es cfg' s' -> fhist G cfg s (e :: es) cfg' s'.
(** A history with errors, seen by a specification (compare [trace] in Hist.v). *)
Inductive ftrace {A} (T : config -> A -> event -> config -> A -> Prop)
  : config -> A -> list fevent -> config -> A -> Prop :=
| ft_nil cfg a : ftrace T cfg a [] cfg a
| ft_do cfg a e cfg1 a1 es cfg' a' :
    cfg_step cfg e cfg1 -> T cfg a e cfg1 a1 -> ftrace T cfg1 a1 es cfg' a' -> ftrace T cfg a (FDo e :: es) cfg' a'
| ft_fail cfg a c a1 es cfg' a' :
    T cfg a (ECrash (ACall c)) cfg a1 -> ftrace T cfg a1 es cfg' a' -> ftrace T cfg a (FFail c :: es) cfg' a'.

(** ** Failing maintenance *)
(** All calls that may fail. *)
Definition io_any {X} (e : eff X) : Prop :=
  match e with
  | ESnap => True
  | EUpd _ (UPut _ _) => True
  | EUpd _ (ULen _) => True
  | EUpd _ UFalloc => True
  | ECreate _ _ => True
  | ERename _ _ => True
  | ERemove _ => True
  | _ => False
  end.
(** merge_small_shards returns an error, router.rs:459-498: the waits for compactions (in
    [get_stats]) were done; the error comes from [_merge] or from [load]; the tree in memory is
    replaced only afterwards (router.rs:488). *)
Definition merge_fault (cfg : config) (s : store) (max_fill : N) (s' : store) : Prop :=
  exists sts w1, run (router_stats cfg (st_root s)) (st_fs s) = (w1, Ok (st_root s', sts)) /\
    stops (@io_any) (merge_small_shards cfg (st_root s') max_fill) w1 (st_fs s').
(** The compaction thread of the leaf of [sel] ends with an error (a row it copies cannot be
    written, or the final rename fails, shard.rs:961-964): the source and the target of the
    compaction stay as they are ([files.1] is not taken), and nobody continues it. *)
Definition bg_fault (cfg : config) (s : store) (sel : N) (s' : store) : Prop :=
  st_root s' = st_root s /\
  exists m, (m = MBgRow sel \/ m = MBgFinish sel) /\ stops (@io_any) (maint_prog cfg m (st_root s)) (st_fs s) (st_fs s').
(** From then on inserts, reads and removals go on as during a compaction.  The first split,
    [stats] or merge of that shard takes the handle of the thread and returns its error
    (shard.rs:537-540, 897-903), changing nothing; the second one finds no handle and uses
    the source ([files.0]) alone. *)
Fixpoint no_target (r : router) (sel : N) : router :=
  match r with
  | RLeaf sh => RLeaf (Shard (sh_start sh) (sh_end sh) (sh_ino sh) None)
  | RVertex b t => if sel <? rend b then RVertex (no_target b sel) t else RVertex b (no_target t sel)
  end.
Definition merge_after_bg_fault (cfg : config) (s : store) (sel : N) (max_fill : N) : store * res bool :=
  store_merge cfg (Store (no_target (st_root s) sel) (st_fs s)) max_fill.
