(** [src/shard.rs]: one shard file, its operations, compaction, split, merge, open. *)
From Verif Require Import Base Hashing Fs.

(** The part of [InternalConfig] (src/store.rs:31-44) the model uses. [c_hash] is
    SipHasher24 keyed with [hash_seed]; all theorems hold for any function here. *)
Record config := Config {
  c_hash : bytes -> N * N;
  c_max_shard : N;        (* max_shard_size : u32 *)
  c_min_compact : N;      (* min_compaction_threashold : u32 *)
  c_expected : N;         (* expected_number_of_keys *)
  c_list_ops : N;         (* max_concurrent_list_ops : u32 *)
  c_trunc_up : bool;
  c_clear_bad : bool      (* clear_on_unsupported_version *)
}.

(** [PartedHash::new], hashing.rs:31-33 *)
Definition hashk (cfg : config) (k : bytes) : phash := from_hash (c_hash cfg k).

(** shard.rs:125-138 *)
Inductive ins_status :=
| SAdded | SReplaced (v : bytes) | SNoKey | SSplit | SExists (v : bytes).
Inductive ins_mode :=
| MSet | MReplace (expected : option bytes) | MGetOrCreate.
Global Instance ins_status_eq_dec : EqDecision ins_status.
Proof. solve_decision. Defined.
Global Instance ins_mode_eq_dec : EqDecision ins_mode.
Proof. solve_decision. Defined.

(** [struct Shard], shard.rs:337-343: span, current file, compaction target with the
    [first_row] flag of the running [do_compaction] (shard.rs:488,524).
    Locks are not part of the sequential model. *)
Record shard := Shard {
  sh_start : N; sh_end : N;
  sh_ino : ino;
  sh_tgt : option (ino * bool)
}.

(** ** Reading and writing entries *)

Definition pack_desc (klen vlen off : N) : N :=
  N.lor (N.lor (N.shiftl klen 48) (N.shiftl vlen 32)) off.
Definition desc_klen (d : N) : N := N.shiftr d 48.
Definition desc_vlen (d : N) : N := N.land (N.shiftr d 32) 65535.
Definition desc_off (d : N) : N := N.land d 4294967295.

Fixpoint read_bytes (data : gmap N byte) (off : N) (n : nat) : bytes :=
  match n with
  | O => []
  | S n => default x00 (data !! off) :: read_bytes data (off + 1) n
  end.

(** [read_kv], shard.rs:211-226 (the debug_assert is kept as a panic; statistics dropped). *)
Definition read_kv (f : file) (d : N) : res kv :=
  let klen := desc_klen d in
  let vlen := desc_vlen d in
  let off := desc_off d in
  if 16384 <=? klen then Err EPanic else
  if f_len f <? HEADER_SIZE + off + (klen + vlen) then Err EIo else
  let buf := read_bytes (f_data f) off (N.to_nat (klen + vlen)) in
  Ok (take (N.to_nat klen) buf, drop (N.to_nat klen) buf).

(** pwrite, one byte at a time (shard.rs:243): a crash may leave any prefix. *)
Fixpoint put_bytes (i : ino) (off : N) (l : bytes) : prog unit :=
  match l with
  | [] => Ret tt
  | b :: l => do! _ <- upd i (UPut off b); put_bytes i (off + 1) l
  end.

(** [write_kv], shard.rs:229-247. *)
Definition write_kv (i : ino) (k v : bytes) : prog N :=
  do! off <- eff1 (EAlloc i (len k + len v));
  do! _ <- put_bytes i off (k ++ v);
  Ret (pack_desc (len k) (len v) off).

(** [MmapFile::new], shard.rs:154-173. *)
Definition mmap_new (i : ino) : prog unit :=
  do! _ <- upd i UFalloc;
  do! _ <- upd i UMagic;
  upd i UVersion.

Definition initial_len (cfg : config) : N :=
  HEADER_SIZE + (if c_trunc_up cfg then c_max_shard cfg else 0).

(** [MmapFile::create], shard.rs:175-191. *)
Definition mmap_create (cfg : config) (n : fname) : prog ino :=
  do! i <- eff1 (ECreate n true);
  do! _ <- upd i (ULen (initial_len cfg));
  do! _ <- mmap_new i;
  Ret i.

(** ** Row access *)

Definition row_of (f : file) (r : nat) : list slot := default [] (f_rows f !! r).

(** The file holding row [r]: [operate_on_row] and [operate_on_row_mut], shard.rs:714-757. *)
Definition src_file (w : fs) (sh : shard) : res (ino * file) :=
  match fs_files w !! sh_ino sh with
  | Some f => Ok (sh_ino sh, f)
  | None => Err EIo
  end.
Definition row_file (w : fs) (sh : shard) (r : nat) : res (ino * file) :=
  match sh_tgt sh with
  | Some (t, _) =>
    match fs_files w !! t with
    | Some ft => if (r <? f_cut ft)%nat then Ok (t, ft) else src_file w sh
    | None => Err EIo
    end
  | None => src_file w sh
  end.

(** [ShardRow::lookup] (shard.rs:47-55) driven by the [while let] loops of
    [get], [try_replace] and [remove]: scan the columns in increasing order, read each
    entry whose signature matches, stop at the first one with the wanted key.  Returns
    the column and value found, and whether another key with this signature was met. *)
Fixpoint scan_row (f : file) (sig : N) (k : bytes) (c : nat) (coll : bool) (row : list slot)
  : res (option (nat * bytes) * bool) :=
  match row with
  | [] => Ok (None, coll)
  | s :: row =>
    if s_sig s =? sig then
      dor (k', v') <- read_kv f (s_desc s);
      if bool_decide (k = k') then Ok (Some (c, v'), coll)
      else scan_row f sig k (S c) true row
    else scan_row f sig k (S c) coll row
  end.

(** First empty slot: [row.lookup(INVALID_SIG, 0)], shard.rs:1012-1013. *)
Fixpoint find_free (c : nat) (row : list slot) : option nat :=
  match row with
  | [] => None
  | s :: row => if s_sig s =? INVALID_SIG then Some c else find_free (S c) row
  end.

(** ** Read-only operations: pure functions of the file system *)

(** [get], shard.rs:794-811. *)
Definition shard_get (w : fs) (sh : shard) (ph : phash) (k : bytes) : res (option bytes) :=
  dor (_, f) <- row_file w sh (ph_row ph);
  dor (found, _) <- scan_row f (ph_sig ph) k 0 false (row_of f (ph_row ph));
  Ok (snd <$> found).

(** [get_by_hash], shard.rs:771-792. *)
Fixpoint collect_sig (f : file) (sig : N) (row : list slot) : res (list kv) :=
  match row with
  | [] => Ok []
  | s :: row =>
    if s_sig s =? sig then
      dor x <- read_kv f (s_desc s);
      dor l <- collect_sig f sig row;
      Ok (x :: l)
    else collect_sig f sig row
  end.
Definition shard_get_by_hash (w : fs) (sh : shard) (ph : phash) : res (list kv) :=
  dor (_, f) <- row_file w sh (ph_row ph);
  collect_sig f (ph_sig ph) (row_of f (ph_row ph)).

(** [read_at], shard.rs:759-769; indexing past the row is a panic. *)
Definition shard_read_at (w : fs) (sh : shard) (r c : nat) : res (option kv) :=
  dor (_, f) <- row_file w sh r;
  match row_of f r !! c with
  | None => Err EPanic
  | Some s =>
    if s_sig s =? INVALID_SIG then Ok None
    else dor x <- read_kv f (s_desc s); Ok (Some x)
  end.

(** ** Compaction *)

(** Copy the live slots of one source row, shard.rs:498-518. *)
Fixpoint compact_slots (cfg : config) (fsrc : file) (t : ino) (r : nat) (first : bool)
         (col : nat) (row : list slot) : prog unit :=
  match row with
  | [] => Ret tt
  | s :: row =>
    if s_sig s =? INVALID_SIG then compact_slots cfg fsrc t r first col row
    else
      do! (k, v) <- lift (read_kv fsrc (s_desc s));
      do! ft <- get_file t;
      do! _ <- assert_p (first ||
                         match row_of ft r !! col with
                         | Some s' => s_sig s' =? INVALID_SIG | None => false end);
      let ph := hashk cfg k in
      do! _ <- assert_p (ph_row ph =? r)%nat;
      do! d <- write_kv t k v;
      do! _ <- assert_p (col <? ROW_WIDTH)%nat;
      do! _ <- upd t (UDesc r col d);
      do! _ <- upd t (USig r col (ph_sig ph));
      do! _ <- upd t UIns;
      compact_slots cfg fsrc t r first (S col) row
  end.

(** One iteration of the loop of [do_compaction], shard.rs:490-524, for row [r]. *)
Definition compact_row (cfg : config) (src t : ino) (first : bool) (r : nat) : prog unit :=
  do! fsrc <- get_file src;
  do! _ <- compact_slots cfg fsrc t r first 0 (row_of fsrc r);
  upd t UCut.

(** [do_compaction], shard.rs:481-528. *)
Fixpoint do_compaction (cfg : config) (fuel : nat) (src t : ino) (first : bool) : prog unit :=
  match fuel with
  | O => Fail EHang
  | S n =>
    do! ft <- get_file t;
    if (NUM_ROWS <=? f_cut ft)%nat then Ret tt
    else
      do! _ <- compact_row cfg src t first (f_cut ft);
      do_compaction cfg n src t false
  end.
Definition COMPACT_FUEL : nat := S NUM_ROWS.

(** End of [background_compact], shard.rs:966-976: rename and swap. *)
Definition finish_compaction (sh : shard) (t : ino) : prog shard :=
  do! _ <- rename (FCompact (sh_start sh) (sh_end sh)) (FShard (sh_start sh) (sh_end sh));
  Ret (Shard (sh_start sh) (sh_end sh) t None).

(** The background thread handles one more row. *)
Definition bg_row (cfg : config) (sh : shard) : prog shard :=
  match sh_tgt sh with
  | None => Ret sh
  | Some (t, first) =>
    do! ft <- get_file t;
    if (NUM_ROWS <=? f_cut ft)%nat then Ret sh
    else
      do! _ <- compact_row cfg (sh_ino sh) t first (f_cut ft);
      Ret (Shard (sh_start sh) (sh_end sh) (sh_ino sh) (Some (t, false)))
  end.

(** The background thread finishes, if all rows are done. *)
Definition bg_finish (sh : shard) : prog shard :=
  match sh_tgt sh with
  | None => Ret sh
  | Some (t, _) =>
    do! ft <- get_file t;
    if (NUM_ROWS <=? f_cut ft)%nat then finish_compaction sh t else Ret sh
  end.

(** [wait_for_compaction] (shard.rs:897-903) and the wait in [split] (shard.rs:537-540):
    the background thread runs to its end. *)
Definition wait_compaction (cfg : config) (sh : shard) : prog shard :=
  match sh_tgt sh with
  | None => Ret sh
  | Some (t, first) =>
    do! _ <- do_compaction cfg COMPACT_FUEL (sh_ino sh) t first;
    finish_compaction sh t
  end.

(** [begin_compaction], shard.rs:905-957. With a target present the compaction thread is
    running (it could only have ended by an error, for which see Faults.v), so nothing is done. *)
Definition begin_compaction (cfg : config) (sh : shard) (min_woff : N) : prog shard :=
  do! f <- get_file (sh_ino sh);
  if f_woff f <? min_woff then Ret sh
  else match sh_tgt sh with
  | Some _ => Ret sh
  | None =>
    do! t <- mmap_create cfg (FCompact (sh_start sh) (sh_end sh));
    do! _ <- upd t UCut0;
    Ret (Shard (sh_start sh) (sh_end sh) (sh_ino sh) (Some (t, true)))
  end.

(** ** Insert and remove *)

(** [insert] (shard.rs:980-1048) with [try_replace] (shard.rs:842-895) inlined.
    [row_op] is the part run under the row lock. *)
Definition insert_row (i : ino) (f : file) (ph : phash) (k v : bytes) (mode : ins_mode)
  : prog ins_status :=
  let r := ph_row ph in
  let row := row_of f r in
  do! (found, _) <- lift (scan_row f (ph_sig ph) k 0 false row);
  match found with
  | Some (c, old) =>
    let do_replace :=
      if bool_decide (v = old) then Ret (SReplaced old)
      else
        do! d <- write_kv i k v;
        do! _ <- upd i (UDesc r c d);
        do! _ <- upd i (UWaste (len k + len old));
        Ret (SReplaced old) in
    match mode with
    | MGetOrCreate => Ret (SExists old)
    | MSet => do_replace
    | MReplace None => do_replace
    | MReplace (Some ex) => if bool_decide (ex = old) then do_replace else Ret (SExists old)
    end
  | None =>
    match mode with
    | MReplace _ => Ret SNoKey
    | _ =>
      match find_free 0 row with
      | Some c =>
        do! d <- write_kv i k v;
        do! _ <- upd i (UDesc r c d);
        do! _ <- upd i (USig r c (ph_sig ph));
        do! _ <- upd i UIns;
        Ret SAdded
      | None => Ret SSplit
      end
    end
  end.

Definition shard_insert (cfg : config) (sh : shard) (ph : phash) (k v : bytes) (mode : ins_mode)
  : prog (shard * ins_status) :=
  do! w <- snap;
  do! (i, f) <- lift (row_file w sh (ph_row ph));
  match sh_tgt sh with
  | Some _ =>
    do! st <- insert_row i f ph k v mode; Ret (sh, st)
  | None =>
    if c_min_compact cfg <=? f_wasted f then
      do! st <- insert_row i f ph k v mode;
      do! sh' <- begin_compaction cfg sh (f_woff f);
      Ret (sh', st)
    else if c_max_shard cfg <? f_woff f + (len k + len v) then Ret (sh, SSplit)
    else do! st <- insert_row i f ph k v mode; Ret (sh, st)
  end.

(** [remove], shard.rs:1050-1074. *)
Definition shard_remove (sh : shard) (ph : phash) (k : bytes) : prog (option bytes) :=
  do! w <- snap;
  do! (i, f) <- lift (row_file w sh (ph_row ph));
  let r := ph_row ph in
  do! (found, _) <- lift (scan_row f (ph_sig ph) k 0 false (row_of f r));
  match found with
  | None => Ret None
  | Some (c, old) =>
    do! _ <- upd i (USig r c INVALID_SIG);
    do! _ <- upd i URem;
    do! _ <- upd i (UWaste (len k + len old));
    Ret (Some old)
  end.

(** ** Split: shard.rs:536-632 *)
Fixpoint split_slots (cfg : config) (fsrc : file) (mid : N) (b t : ino) (r : nat)
         (bcol tcol : nat) (row : list slot) : prog unit :=
  match row with
  | [] => Ret tt
  | s :: row =>
    if s_sig s =? INVALID_SIG then split_slots cfg fsrc mid b t r bcol tcol row
    else
      do! (k, v) <- lift (read_kv fsrc (s_desc s));
      let ph := hashk cfg k in
      do! _ <- assert_p (ph_row ph =? r)%nat;
      let to_b := ph_selector ph <? mid in
      let i := if to_b then b else t in
      let col := if to_b then bcol else tcol in
      do! ft <- get_file i;
      do! _ <- assert_p match row_of ft r !! col with
                        | Some s' => s_sig s' =? INVALID_SIG | None => false end;
      do! d <- write_kv i k v;
      do! _ <- upd i (UDesc r col d);
      do! _ <- upd i (USig r col (ph_sig ph));
      do! _ <- upd i UIns;
      split_slots cfg fsrc mid b t r
                  (if to_b then S bcol else bcol) (if to_b then tcol else S tcol) row
  end.

Fixpoint split_rows (cfg : config) (fsrc : file) (mid : N) (b t : ino) (r : nat)
         (rows : list (list slot)) : prog unit :=
  match rows with
  | [] => Ret tt
  | row :: rows =>
    do! _ <- split_slots cfg fsrc mid b t r 0 0 row;
    split_rows cfg fsrc mid b t (S r) rows
  end.

Definition shard_split (cfg : config) (sh : shard) : prog (shard * shard) :=
  do! sh <- wait_compaction cfg sh;
  let s := sh_start sh in
  let e := sh_end sh in
  let mid := (s + e) / 2 in
  do! b <- mmap_create cfg (FBottom s mid);
  do! t <- mmap_create cfg (FTop mid e);
  do! fsrc <- get_file (sh_ino sh);
  do! _ <- split_rows cfg fsrc mid b t 0 (f_rows fsrc);
  do! _ <- rename (FBottom s mid) (FShard s mid);
  do! _ <- rename (FTop mid e) (FShard mid e);
  do! _ <- remove_file (FShard s e);
  Ret (Shard s mid b None, Shard mid e t None).

(** ** Merge: shard.rs:634-712 *)

(** Returns the next free column, or None if the row overflows (shard.rs:668-672). *)
Fixpoint merge_slots (cfg : config) (fsrc : file) (t : ino) (r : nat) (col : nat)
         (row : list slot) : prog (option nat) :=
  match row with
  | [] => Ret (Some col)
  | s :: row =>
    if s_sig s =? INVALID_SIG then merge_slots cfg fsrc t r col row
    else
      do! (k, v) <- lift (read_kv fsrc (s_desc s));
      let ph := hashk cfg k in
      do! _ <- assert_p (ph_row ph =? r)%nat;
      if (ROW_WIDTH <=? col)%nat then Ret None
      else
        do! ft <- get_file t;
        do! _ <- assert_p match row_of ft r !! col with
                          | Some s' => s_sig s' =? INVALID_SIG | None => false end;
        do! d <- write_kv t k v;
        do! _ <- upd t (UDesc r col d);
        do! _ <- upd t (USig r col (ph_sig ph));
        do! _ <- upd t UIns;
        merge_slots cfg fsrc t r (S col) row
  end.

Fixpoint merge_rows (cfg : config) (fb ft : file) (t : ino) (r : nat) (n : nat)
  : prog bool :=
  match n with
  | O => Ret true
  | S n =>
    do! c1 <- merge_slots cfg fb t r 0 (row_of fb r);
    match c1 with
    | None => Ret false
    | Some c =>
      do! c2 <- merge_slots cfg ft t r c (row_of ft r);
      match c2 with
      | None => Ret false
      | Some _ => merge_rows cfg fb ft t (S r) n
      end
    end
  end.

Definition shard_merge (cfg : config) (b t : shard) : prog (option shard) :=
  let s := sh_start b in
  let e := sh_end t in
  do! m <- mmap_create cfg (FMerge s e);
  do! fb <- get_file (sh_ino b);
  do! ft <- get_file (sh_ino t);
  do! ok <- merge_rows cfg fb ft m 0 NUM_ROWS;
  if ok : bool then
    do! _ <- rename (FMerge s e) (FShard s e);
    do! _ <- remove_file (FShard (sh_start b) (sh_end b));
    do! _ <- remove_file (FShard (sh_start t) (sh_end t));
    Ret (Some (Shard s e m None))
  else
    do! _ <- remove_file (FMerge s e);
    Ret None.

(** ** Statistics: shard.rs:323-335, 1076-1086 *)
Record shard_stats := ShardStats {
  ss_woff : N; ss_wasted : N; ss_ins : N; ss_rem : N
}.
Definition shard_get_stats (cfg : config) (sh : shard) : prog (shard * shard_stats) :=
  do! sh <- wait_compaction cfg sh;
  do! f <- get_file (sh_ino sh);
  Ret (sh, ShardStats (f_woff f) (f_wasted f) (f_ins f) (f_rem f)).

(** [num_items], shard.rs:332-334; the subtraction panics on underflow in a debug build
    (wraps in a release build). *)
Definition num_items (st : shard_stats) : res N :=
  if ss_ins st <? ss_rem st then Err EPanic else Ok (ss_ins st - ss_rem st).

(** ** Open: shard.rs:354-451 *)
Definition meta_ok (f : file) : bool :=
  (16 <=? f_len f) && bool_decide (f_magic f = SHARD_FILE_MAGIC)
  && (f_version f =? SHARD_FILE_VERSION).

Definition shard_open (cfg : config) (s e : N) (truncate : bool) : prog shard :=
  do! i <- eff1 (ECreate (FShard s e) truncate);
  do! f <- get_file i;
  (* first check: magic and version *)
  do! size <-
    (if f_len f =? 0 then Ret 0
     else if meta_ok f then Ret (f_len f)
     else if c_clear_bad cfg then do! _ <- upd i UTrunc; Ret 0
     else Fail EBadMagic);
  (* second check: size *)
  do! size <-
    (if (negb (size =? 0)) && (size <? HEADER_SIZE) then
       if c_clear_bad cfg then do! _ <- upd i UTrunc; Ret 0 else Fail ECorruptSize
     else Ret size);
  do! _ <- (if size =? 0 then upd i (ULen (initial_len cfg)) else Ret tt);
  do! _ <- mmap_new i;
  if truncate then
    do! _ <- eff1 (ERemove (FCompact s e));
    Ret (Shard s e i None)
  else
    do! w <- snap;
    match fs_dir w !! FCompact s e with
    | None => Ret (Shard s e i None)
    | Some t =>
      do! _ <- mmap_new t;
      do! _ <- do_compaction cfg COMPACT_FUEL i t true;
      do! _ <- rename (FCompact s e) (FShard s e);
      Ret (Shard s e t None)
    end.
