(** Histories of a store: calls, maintenance, reopening and crashes in any order. *)
From Verif Require Import Base Hashing Fs Shard Router Store Kv Api Spec Limits.

(** ** Capacity along a call: whenever the program inserts an entry that passes the size
    checks, the store has room for it. *)
Fixpoint kfits {A} (cfg : config) (p : kprog A) (s : store) : Prop :=
  match p with
  | KRet _ | KFail _ => True
  | KVis o k =>
    match o with
    | KIns key v _ => ins_err cfg key v = None -> forall M, content cfg s M -> headroom cfg s M key v
    | _ => True
    end /\
    match run_kop cfg o s with
    | (s', Ok x) => kfits cfg (k x) s'
    | (_, Err _) => True
    end
  end.

(** ** Crashes *)
(** The files if the process dies during one raw operation, after [n] micro steps. *)
Definition kop_dies {X} (cfg : config) (o : kop X) (s : store) (n : nat) : fs :=
  match o with
  | KIns k v mode => crash_at n (insert_prog cfg (st_root s) k v mode) (st_fs s)
  | KRem k => crash_at n (remove_prog cfg (st_root s) k) (st_fs s)
  | _ => st_fs s
  end.
(** [kdies cfg p s w]: the process may die while running [p], leaving the files [w]. *)
Inductive kdies {A} (cfg : config) : kprog A -> store -> fs -> Prop :=
| kd_now p s : kdies cfg p s (st_fs s)
| kd_inside X (o : kop X) k s n : kdies cfg (KVis o k) s (kop_dies cfg o s n)
| kd_later X (o : kop X) k s s' x w :
    run_kop cfg o s = (s', Ok x) -> kdies cfg (k x) s' w -> kdies cfg (KVis o k) s w.

(** ** Maintenance: a row of background compaction or its end (shard.rs), statistics (which
    wait for the compactions), merging of small shards. *)
Inductive maint := MBgRow (sel : N) | MBgFinish (sel : N) | MStats | MMerge (max_fill : N).
Definition maint_prog (cfg : config) (m : maint) (r : router) : prog (router * unit) :=
  match m with
  | MBgRow sel => on_leaf r sel (fun sh => do! sh' <- bg_row cfg sh; Ret (RLeaf sh', tt))
  | MBgFinish sel => on_leaf r sel (fun sh => do! sh' <- bg_finish sh; Ret (RLeaf sh', tt))
  | MStats => do! (r, l) <- router_stats cfg r; Ret (r, tt)
  | MMerge mf => do! (r, b) <- merge_small_shards cfg r mf; Ret (r, tt)
  end.

(** What the process was doing when it died. *)
Inductive activity := ANothing | ACall (c : call) | AMaint (m : maint).
Definition dies (cfg : config) (s : store) (a : activity) (w : fs) : Prop :=
  match a with
  | ANothing => w = st_fs s
  | ACall c => kdies cfg (call_prog cfg c) s w
  | AMaint m => exists n, w = crash_at n (maint_prog cfg m (st_root s)) (st_fs s)
  end.

(** Opening the directory again; the process may die during the recovery any number of times. *)
Inductive recovers (cfg : config) : fs -> store -> Prop :=
| rec_done w w' s : disk_room w -> store_open cfg w = (w', Ok s) -> recovers cfg w s
| rec_again w cfg1 n s :
    disk_room w -> c_hash cfg1 = c_hash cfg -> recovers cfg (crash_at n (router_new cfg1) w) s ->
    recovers cfg w s.

(** ** Histories *)
Inductive event :=
| ECall (c : call) (r : res reply)   (* a call and what it returned *)
| EMaint (m : maint)
| EClear
| EReopen                            (* drop the store, open the directory *)
| ECrash (a : activity).             (* the process dies, the directory is opened *)

Inductive hstep : config -> store -> event -> config -> store -> Prop :=
| h_call cfg s c s' r : krun cfg (call_prog cfg c) s = (s', r) -> hstep cfg s (ECall c r) cfg s'
| h_maint cfg s m s' : exec s (maint_prog cfg m (st_root s)) = (s', Ok tt) -> hstep cfg s (EMaint m) cfg s'
| h_clear cfg s s' : store_clear cfg s = (s', Ok tt) -> hstep cfg s EClear cfg s'
| h_reopen cfg s cfg' w' s' : c_hash cfg' = c_hash cfg -> store_open cfg' (st_fs s) = (w', Ok s') ->
    hstep cfg s EReopen cfg' s'
| h_crash cfg s a w cfg' s' : dies cfg s a w -> c_hash cfg' = c_hash cfg -> recovers cfg' w s' ->
    hstep cfg s (ECrash a) cfg' s'.

(** [hist G]: every step satisfies the guard [G]. *)
Inductive hist (G : config -> store -> event -> Prop)
  : config -> store -> list event -> config -> store -> Prop :=
| hist_nil cfg s : hist G cfg s [] cfg s
| hist_cons cfg s e cfg1 s1 es cfg' s' :
    G cfg s e -> hstep cfg s e cfg1 s1 -> hist G cfg1 s1 es cfg' s' -> hist G cfg s (e :: es) cfg' s'.

(** The settings change only when the store is reopened, and then not the hash key. *)
Definition cfg_step (cfg : config) (e : event) (cfg' : config) : Prop :=
  match e with EReopen | ECrash _ => c_hash cfg' = c_hash cfg | _ => cfg' = cfg end.
(** A history seen by a specification: [T cfg a e cfg' a'] says that the event [e] may take the
    abstract state [a] to [a']. *)
Inductive trace {A} (T : config -> A -> event -> config -> A -> Prop)
  : config -> A -> list event -> config -> A -> Prop :=
| tr_nil cfg a : trace T cfg a [] cfg a
| tr_cons cfg a e cfg1 a1 es cfg' a' :
    cfg_step cfg e cfg1 -> T cfg a e cfg1 a1 -> trace T cfg1 a1 es cfg' a' -> trace T cfg a (e :: es) cfg' a'.

(** ** The capacity conditions on a step *)
Definition maint_fits (cfg : config) (s : store) (m : maint) : Prop :=
  match m with
  | MBgRow sel | MBgFinish sel => sel < 65536
  | MStats => True
  | MMerge _ => (forall M, content cfg s M -> fits_4G M /\ items_ok M) /\ cfg_ok cfg
  end.
Definition fits (cfg : config) (s : store) (e : event) : Prop :=
  match e with
  | ECall c _ | ECrash (ACall c) => kfits cfg (call_prog cfg c) s
  | EMaint m | ECrash (AMaint m) => maint_fits cfg s m
  | EClear => cfg_ok cfg
  | EReopen => disk_room (st_fs s)
  | ECrash ANothing => True
  end.
(** No crash in the history. *)
Definition no_crash (e : event) : Prop := match e with ECrash _ => False | _ => True end.

(** A store that was just created: opened in a directory without any store file. *)
Definition fresh_dir (w : fs) : Prop :=
  (forall a b, fs_dir w !! FShard a b = None /\ fs_dir w !! FCompact a b = None) /\
  (forall a b i, fs_dir w !! a = Some i -> fs_dir w !! b = Some i -> a = b) /\
  (forall a i, fs_dir w !! a = Some i -> is_Some (fs_files w !! i) /\ i < fs_next w).
Definition created (cfg : config) (s : store) : Prop :=
  cfg_ok cfg /\ exists w w', fresh_dir w /\ store_open cfg w = (w', Ok s).
