(** Several threads on one store: a machine whose steps are the micro effects.

    A raw operation (Kv.v) of a client thread runs in these stages, each one or more steps:
    - routing and locking: the read locks of the nodes on the path (router.rs:285, 349), the read
      lock of the shard's files and the lock of the row (shard.rs:719-720, 739-740), read mode
      for [get] and [get_by_hash], write mode for [insert] and [remove];
    - the section under the row lock, one micro effect per step;
    - for an insert that found much waste: [begin_compaction] (shard.rs:1044-1046), still under
      the node's read lock, taking the files lock in write mode;
    - for an insert that found no room: the split under the node's write lock (router.rs:361-387)
      and another attempt.
    A compaction runs in a worker thread of its own (shard.rs:953-976): it copies the rows one by
    one, each under the row's lock in write mode, one micro effect per step, then renames the file
    and swaps the files under the files lock in write mode.

    Simplifications: the locks of one operation are acquired in one step (an acquisition that
    waits half-way only excludes more of the other threads' steps, so the machine has more
    executions than the code); [begin_compaction], the end of a compaction (rename and swap) and
    a split each are one step, which is justified for the other threads by the exclusive lock
    held (a crash in the middle of them is covered by Hist.v, and by [cdies] below); a compaction
    never waits for a worker of the pool to be free; memory is sequentially consistent;
    [clear], [merge_small_shards], iteration and statistics are not steps of this machine. *)
From Verif Require Import Base Hashing Fs Shard Router Store Kv Limits Api.

(** ** Raw operations as data *)
Inductive rop :=
| RoGet (k : bytes) | RoIns (k v : bytes) (mode : ins_mode) | RoRem (k : bytes) | RoByHash (ph : phash).
Inductive rval := VOpt (v : option bytes) | VIns (st : ins_status) | VList (l : list kv).

Definition rop_hash (cfg : config) (o : rop) : phash :=
  match o with RoGet k | RoIns k _ _ | RoRem k => hashk cfg k | RoByHash ph => ph end.
Definition rop_write (o : rop) : bool :=
  match o with RoIns _ _ _ | RoRem _ => true | _ => false end.

(** ** Sections under the row lock *)
(** [insert], shard.rs:980-1042: the closure given to [operate_on_row_mut]; the second component
    is [should_compact]. [shard_insert] is this followed by [begin_compaction]
    ([shard_insert_pieces] in ConcSeq.v). *)
Definition insert_sect (cfg : config) (sh : shard) (ph : phash) (k v : bytes) (mode : ins_mode)
  : prog (ins_status * option N) :=
  do! w <- snap;
  do! (i, f) <- lift (row_file w sh (ph_row ph));
  match sh_tgt sh with
  | Some _ => do! st <- insert_row i f ph k v mode; Ret (st, None)
  | None =>
    if c_min_compact cfg <=? f_wasted f then
      do! st <- insert_row i f ph k v mode; Ret (st, Some (f_woff f))
    else if c_max_shard cfg <? f_woff f + (len k + len v) then Ret (SSplit, None)
    else do! st <- insert_row i f ph k v mode; Ret (st, None)
  end.
(** The sections of the four raw operations: shard.rs:771-811, 980-1042, 1050-1074. *)
Definition sect (cfg : config) (sh : shard) (o : rop) : prog (rval * option N) :=
  match o with
  | RoGet k => do! w <- snap; do! x <- lift (shard_get w sh (hashk cfg k) k); Ret (VOpt x, None)
  | RoIns k v mode => do! (st, c) <- insert_sect cfg sh (hashk cfg k) k v mode; Ret (VIns st, c)
  | RoRem k => do! x <- shard_remove sh (hashk cfg k) k; Ret (VOpt x, None)
  | RoByHash ph => do! w <- snap; do! l <- lift (shard_get_by_hash w sh ph); Ret (VList l, None)
  end.
(** Copying one row, shard.rs:495-518; [compact_row] is this followed by [UCut]. *)
Definition bg_sect (cfg : config) (src t : ino) (first : bool) (r : nat) : prog unit :=
  do! fsrc <- get_file src; compact_slots cfg fsrc t r first 0 (row_of fsrc r).

(** ** Threads *)
Inductive thr :=
| TIdle                                                  (* a client between calls *)
| TProg (p : kprog reply)                                (* inside a call *)
| TOp (o : rop) (k : rval -> kprog reply)                (* about to route and lock *)
| TRow (o : rop) (k : rval -> kprog reply) (sh : shard) (p : prog (rval * option N))
                                                         (* holding the row lock *)
| TAfter (o : rop) (k : rval -> kprog reply) (s e : N) (v : rval) (woff : N)
                                                         (* before [begin_compaction] *)
| TSplit (o : rop) (k : rval -> kprog reply) (s e : N)   (* [SplitNeeded] from this shard *)
| TBg (s : N)                                            (* compaction worker of the shard at s *)
| TBgRow (s : N) (sh : shard) (t : ino) (r : nat) (p : prog unit)   (* ... copying row r *)
| TDead.                                                 (* a worker that is done *)

Record cstate := CS {
  c_root : router;
  c_fs : fs;
  c_ths : list thr;
  c_lk : gmap N nat          (* keyed locks (lists.rs:141-143) and their holders *)
}.

(** ** Locks held, read off the thread states *)
(** The row lock of a shard: start of the shard, row, write mode. *)
Definition row_lock (cfg : config) (T : thr) : option (N * nat * bool) :=
  match T with
  | TRow o _ sh _ => Some (sh_start sh, ph_row (rop_hash cfg o), rop_write o)
  | TBgRow s _ _ r _ => Some (s, r, true)
  | _ => None
  end.
Definition clash (a b : N * nat * bool) : bool :=
  let '(s, r, w) := a in let '(s', r', w') := b in
  (s =? s') && (r =? r')%nat && (w || w').
Definition row_free (cfg : config) (ths : list thr) (l : N * nat * bool) : bool :=
  forallb (fun T => match row_lock cfg T with Some l' => negb (clash l l') | None => true end) ths.
(** The files lock of the shard at [s] is held in read mode. *)
Definition holds_files (s : N) (T : thr) : bool :=
  match T with
  | TRow _ _ sh _ => sh_start sh =? s
  | TBgRow s' _ _ _ _ => s' =? s
  | _ => false
  end.
Definition files_free (ths : list thr) (s : N) : bool := forallb (fun T => negb (holds_files s T)) ths.
(** The node of the shard at [s] is locked in read mode. *)
Definition holds_node (s : N) (T : thr) : bool :=
  match T with
  | TRow _ _ sh _ => sh_start sh =? s
  | TAfter _ _ s' _ _ _ => s' =? s
  | _ => false
  end.
Definition node_free (ths : list thr) (s : N) : bool := forallb (fun T => negb (holds_node s T)) ths.

(** Replace the leaf holding selector [sel]. *)
Fixpoint put_leaf (r : router) (sel : N) (n : router) : router :=
  match r with
  | RLeaf _ => n
  | RVertex b t => if sel <? rend b then RVertex (put_leaf b sel n) t else RVertex b (put_leaf t sel n)
  end.

(** Where a client goes on when its section returned [v]: another attempt after a split, or the
    rest of the call. *)
Definition go_on (o : rop) (k : rval -> kprog reply) (s e : N) (v : rval) : thr :=
  match v with VIns SSplit => TSplit o k s e | _ => TProg (k v) end.

(** ** Steps *)
Inductive cevent := EvCall (a : nat) (c : call) | EvRet (a : nat) (r : res reply).

Definition set_thr (c : cstate) (a : nat) (T : thr) : cstate :=
  CS (c_root c) (c_fs c) (<[a := T]> (c_ths c)) (c_lk c).

Definition unlock_all (lk : gmap N nat) (a : nat) : gmap N nat := filter (fun x => snd x <> a) lk.

(** One step of a client inside a call, between raw operations. *)
Definition prog_step (cfg : config) (c : cstate) (a : nat) (p : kprog reply) : option (cstate * option cevent) :=
  match p with
  | KRet y => Some (set_thr c a TIdle, Some (EvRet a (Ok y)))
  | KFail e => Some (CS (c_root c) (c_fs c) (<[a := TIdle]> (c_ths c)) (unlock_all (c_lk c) a),
                     Some (EvRet a (Err e)))
  | KVis o k =>
    match o in kop X return (X -> kprog reply) -> option (cstate * option cevent) with
    | KGet key => fun k =>
      Some (set_thr c a (TOp (RoGet key) (fun v => match v with VOpt x => k x | _ => KFail EPanic end)), None)
    | KIns key v mode => fun k =>
      match ins_err cfg key v with
      | Some e => Some (set_thr c a (TProg (KFail e)), None)
      | None => Some (set_thr c a (TOp (RoIns key v mode)
                  (fun v => match v with VIns x => k x | _ => KFail EPanic end)), None)
      end
    | KRem key => fun k =>
      Some (set_thr c a (TOp (RoRem key) (fun v => match v with VOpt x => k x | _ => KFail EPanic end)), None)
    | KByHash ph => fun k =>
      if ph_sig ph =? INVALID_SIG then Some (set_thr c a (TProg (KFail EPanic)), None)
      else Some (set_thr c a (TOp (RoByHash ph) (fun v => match v with VList x => k x | _ => KFail EPanic end)), None)
    | KLock i => fun k =>
      match c_lk c !! i with
      | Some _ => None
      | None => Some (CS (c_root c) (c_fs c) (<[a := TProg (k tt)]> (c_ths c)) (<[i := a]> (c_lk c)), None)
      end
    | KUnlock i => fun k =>
      Some (CS (c_root c) (c_fs c) (<[a := TProg (k tt)]> (c_ths c)) (delete i (c_lk c)), None)
    end k
  end.

(** The other threads. *)
Definition others_of (c : cstate) (a : nat) : list thr := delete a (c_ths c).

(** One step of thread [a]; None if it is blocked or has nothing to do. *)
Definition thr_step (cfg : config) (c : cstate) (a : nat) : option (cstate * option cevent) :=
  match c_ths c !! a with
  | None | Some TIdle | Some TDead => None
  | Some (TProg p) => prog_step cfg c a p
  | Some (TOp o k) =>
    (* router.rs:280-295, 349-358; shard.rs:714-757 *)
    let sh := route (c_root c) (ph_selector (rop_hash cfg o)) in
    if row_free cfg (others_of c a) (sh_start sh, ph_row (rop_hash cfg o), rop_write o)
    then Some (set_thr c a (TRow o k sh (sect cfg sh o)), None)
    else None
  | Some (TRow o k sh p) =>
    match p with
    | Ret (v, None) => Some (set_thr c a (go_on o k (sh_start sh) (sh_end sh) v), None)
    | Ret (v, Some woff) => Some (set_thr c a (TAfter o k (sh_start sh) (sh_end sh) v woff), None)
    | Fail e => Some (set_thr c a (TProg (KFail e)), None)
    | Vis e kk =>
      let '(w, x) := run_eff e (c_fs c) in
      Some (CS (c_root c) w (<[a := TRow o k sh (kk x)]> (c_ths c)) (c_lk c), None)
    end
  | Some (TAfter o k s e v woff) =>
    (* [begin_compaction], shard.rs:905-957 *)
    let sh := route (c_root c) s in
    if files_free (others_of c a) s then
      match run (begin_compaction cfg sh woff) (c_fs c) with
      | (w, Ok sh') =>
        Some (CS (put_leaf (c_root c) s (RLeaf sh')) w
                 (<[a := go_on o k s e v]> (c_ths c) ++
                  match sh_tgt sh, sh_tgt sh' with None, Some _ => [TBg s] | _, _ => [] end)
                 (c_lk c), None)
      | (w, Err er) => Some (CS (c_root c) w (<[a := TProg (KFail er)]> (c_ths c)) (c_lk c), None)
      end
    else None
  | Some (TSplit o k s e) =>
    (* router.rs:361-387: if the node is still a leaf, split it; then try again *)
    let sel := ph_selector (rop_hash cfg o) in
    let sh := route (c_root c) sel in
    if (sh_start sh =? s) && (sh_end sh =? e) then
      match sh_tgt sh with
      | Some _ => None                       (* shard.rs:537-540: waits for the compaction *)
      | None =>
        if node_free (others_of c a) s then
          match run (shard_split cfg sh) (c_fs c) with
          | (w, Ok (b, t)) =>
            Some (CS (put_leaf (c_root c) sel (RVertex (RLeaf b) (RLeaf t))) w
                     (<[a := TOp o k]> (c_ths c)) (c_lk c), None)
          | (w, Err er) => Some (CS (c_root c) w (<[a := TProg (KFail er)]> (c_ths c)) (c_lk c), None)
          end
        else None
      end
    else Some (set_thr c a (TOp o k), None)
  | Some (TBg s) =>
    let sh := route (c_root c) s in
    match sh_tgt sh with
    | None => None
    | Some (t, first) =>
      match fs_files (c_fs c) !! t with
      | None => None
      | Some ft =>
        if (NUM_ROWS <=? f_cut ft)%nat then
          (* shard.rs:966-975 *)
          if files_free (others_of c a) s then
            match run (finish_compaction sh t) (c_fs c) with
            | (w, Ok sh') => Some (CS (put_leaf (c_root c) s (RLeaf sh')) w (<[a := TDead]> (c_ths c)) (c_lk c), None)
            | (w, Err er) => Some (CS (c_root c) w (<[a := TDead]> (c_ths c)) (c_lk c), None)
            end
          else None
        else
          (* shard.rs:490-495 *)
          if row_free cfg (others_of c a) (s, f_cut ft, true)
          then Some (set_thr c a (TBgRow s sh t (f_cut ft) (bg_sect cfg (sh_ino sh) t first (f_cut ft))), None)
          else None
      end
    end
  | Some (TBgRow s sh t r p) =>
    match p with
    | Ret tt =>
      (* shard.rs:520-524 *)
      Some (CS (put_leaf (c_root c) s (RLeaf (Shard (sh_start sh) (sh_end sh) (sh_ino sh) (Some (t, false)))))
               (fst (run_eff (EUpd t UCut) (c_fs c))) (<[a := TBg s]> (c_ths c)) (c_lk c), None)
    | Fail e => Some (set_thr c a TDead, None)
    | Vis e kk =>
      let '(w, x) := run_eff e (c_fs c) in
      Some (CS (c_root c) w (<[a := TBgRow s sh t r (kk x)]> (c_ths c)) (c_lk c), None)
    end
  end.

(** What the scheduler chooses: a client starts a call, or a thread makes a step. *)
Inductive choice := ChCall (a : nat) (c : call) | ChRun (a : nat).
Definition cstep (cfg : config) (c : cstate) (h : choice) : option (cstate * option cevent) :=
  match h with
  | ChCall a x =>
    match c_ths c !! a with
    | Some TIdle => Some (set_thr c a (TProg (call_prog cfg x)), Some (EvCall a x))
    | _ => None
    end
  | ChRun a => thr_step cfg c a
  end.

(** [crun cfg P c hs es c']: the schedule [hs] takes [c] to [c'], calls and returns are the
    events [es], and [P] holds of every state on the way (the first and the last included). *)
Inductive crun (cfg : config) (P : cstate -> Prop) : cstate -> list choice -> list cevent -> cstate -> Prop :=
| crun_nil c : P c -> crun cfg P c [] [] c
| crun_step c h c1 e hs es c' :
    P c -> cstep cfg c h = Some (c1, e) -> crun cfg P c1 hs es c' ->
    crun cfg P c (h :: hs) (option_list e ++ es) c'.

(** [n] idle client threads on a store, and a worker for every compaction that is going on. *)
Definition workers (r : router) : list thr :=
  flat_map (fun sh => match sh_tgt sh with Some _ => [TBg (sh_start sh)] | None => [] end) (leaves r).
Definition conc (s : store) (n : nat) : cstate :=
  CS (st_root s) (st_fs s) (replicate n TIdle ++ workers (st_root s)) ∅.

(** The files the process may leave behind if it is killed: those of the moment, or, if a thread
    is about to make one of the steps that stand for a sequence of effects, those after some of
    these effects. *)
Inductive cdies (cfg : config) (c : cstate) : fs -> Prop :=
| cd_now : cdies cfg c (c_fs c)
| cd_begin a o k s e v woff n :
    c_ths c !! a = Some (TAfter o k s e v woff) -> files_free (others_of c a) s = true ->
    cdies cfg c (crash_at n (begin_compaction cfg (route (c_root c) s) woff) (c_fs c))
| cd_split a o k s e n :
    c_ths c !! a = Some (TSplit o k s e) ->
    let sh := route (c_root c) (ph_selector (rop_hash cfg o)) in
    sh_start sh = s -> sh_end sh = e -> sh_tgt sh = None -> node_free (others_of c a) s = true ->
    cdies cfg c (crash_at n (shard_split cfg sh) (c_fs c)).

(** ** Capacity: no file is about to exceed 4 GiB, and no shard of a single selector has to be
    split (see Limits.v for the same conditions on sequential calls). *)
Definition calm (c : cstate) : Prop :=
  (forall sh f, In sh (leaves (c_root c)) -> fs_files (c_fs c) !! sh_ino sh = Some f ->
     match sh_tgt sh with
     | None => f_woff f + 81920 < 2 ^ 32
     | Some (t, _) => forall ft, fs_files (c_fs c) !! t = Some ft -> f_woff f + f_woff ft + 81920 < 2 ^ 32
     end) /\
  (forall a o k s e, c_ths c !! a = Some (TSplit o k s e) -> s + 1 < e).
