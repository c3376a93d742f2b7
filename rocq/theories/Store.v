(** [src/store.rs]: the public key-value API and the iterator. *)
From Verif Require Import Base Hashing Fs Shard Router.

(** A running store: the router (in memory) and the file system. *)
Record store := Store { st_root : router; st_fs : fs }.

(** Number of splits one insert may need before the model gives up with [EHang]:
    a span of 65536 selectors can be halved 16 times. *)
Definition SPLIT_FUEL : nat := 17.

(** Run a program that returns a new router. If it fails the router is kept. *)
Definition exec {A} (s : store) (p : prog (router * A)) : store * res A :=
  match run p (st_fs s) with
  | (w, Ok (r, a)) => (Store r w, Ok a)
  | (w, Err e) => (Store (st_root s) w, Err e)
  end.

(** ** Raw operations *)

(** [get_raw], store.rs:290-294 *)
Definition get_raw (cfg : config) (s : store) (k : bytes) : res (option bytes) :=
  let ph := hashk cfg k in
  shard_get (st_fs s) (route (st_root s) (ph_selector ph)) ph k.

(** [get_by_hash], store.rs:284-288 *)
Definition get_by_hash (cfg : config) (s : store) (ph : phash) : res (list kv) :=
  if ph_sig ph =? INVALID_SIG then Err EPanic
  else shard_get_by_hash (st_fs s) (route (st_root s) (ph_selector ph)) ph.

(** [remove_raw], store.rs:317-321 *)
Definition remove_prog (cfg : config) (r : router) (k : bytes) : prog (router * option bytes) :=
  let ph := hashk cfg k in
  do! x <- shard_remove (route r (ph_selector ph)) ph k;
  Ret (r, x).
Definition remove_raw (cfg : config) (s : store) (k : bytes) : store * res (option bytes) :=
  exec s (remove_prog cfg (st_root s) k).

(** [insert_internal], store.rs:334-359 *)
Definition insert_prog (cfg : config) (r : router) (k v : bytes) (mode : ins_mode)
  : prog (router * ins_status) :=
  if MAX_TOTAL_KEY_SIZE <? len k then Fail (EKeyTooLong (len k)) else
  if MAX_TOTAL_VALUE_SIZE <? len v then Fail (EValueTooLong (len v)) else
  if c_max_shard cfg <? len k + len v then Fail (ECannotFit (len k + len v) (c_max_shard cfg))
  else router_insert cfg SPLIT_FUEL r (hashk cfg k) k v mode.
Definition insert_raw (cfg : config) (s : store) (k v : bytes) (mode : ins_mode)
  : store * res ins_status :=
  exec s (insert_prog cfg (st_root s) k v mode).

(** ** Statuses: store.rs:46-99, and the conversions of set_raw/replace_raw/get_or_create_raw
    (store.rs:361-369, 393-406, 437-449). [unreachable!()] is a panic. *)
Inductive set_status := PrevValue (v : bytes) | CreatedNew.
Inductive replace_status := RPrevValue (v : bytes) | RWrongValue (v : bytes) | RDoesNotExist.
Inductive goc_status := GExisting (v : bytes) | GCreated (v : bytes).
Global Instance set_status_eq_dec : EqDecision set_status.
Proof. solve_decision. Defined.
Global Instance replace_status_eq_dec : EqDecision replace_status.
Proof. solve_decision. Defined.
Global Instance goc_status_eq_dec : EqDecision goc_status.
Proof. solve_decision. Defined.

Definition to_set_status (st : ins_status) : res set_status :=
  match st with
  | SAdded => Ok CreatedNew
  | SReplaced v | SExists v => Ok (PrevValue v)
  | SNoKey | SSplit => Err EPanic
  end.
Definition to_replace_status (st : ins_status) : res replace_status :=
  match st with
  | SReplaced v => Ok (RPrevValue v)
  | SExists v => Ok (RWrongValue v)
  | SNoKey => Ok RDoesNotExist
  | SAdded | SSplit => Err EPanic
  end.
Definition to_goc_status (def : bytes) (st : ins_status) : res goc_status :=
  match st with
  | SAdded => Ok (GCreated def)
  | SExists v => Ok (GExisting v)
  | SReplaced _ | SNoKey | SSplit => Err EPanic
  end.

(** ** Public operations on plain keys *)

(** [ensure_sizes], store.rs:269-277 *)
Definition ensure_sizes (k v : bytes) : res unit :=
  if MAX_KEY_SIZE <? len k then Err (EKeyTooLong (len k)) else
  if MAX_VALUE_SIZE <? len v then Err (EValueTooLong (len v)) else Ok tt.
(** [make_user_key], store.rs:279-282 *)
Definition user_key (k : bytes) : bytes := k ++ [USER_NS].

Inductive op :=
| OGet (k : bytes) | OContains (k : bytes) | ORemove (k : bytes)
| OSet (k v : bytes) | OReplace (k v : bytes) (expected : option bytes)
| OGetOrCreate (k v : bytes).

Inductive out :=
| RGet (v : option bytes) | RContains (b : bool) | RRemove (v : option bytes)
| RSet (s : set_status) | RReplace (s : replace_status) | RGetOrCreate (s : goc_status).
Global Instance out_eq_dec : EqDecision out.
Proof. solve_decision. Defined.

(** store.rs:298-332, 379-391, 408-435, 457-473 *)
Definition step_op (cfg : config) (s : store) (o : op) : store * res out :=
  match o with
  | OGet k => (s, dor v <- get_raw cfg s (user_key k); Ok (RGet v))
  | OContains k => (s, dor v <- get_raw cfg s (user_key k); Ok (RContains (bool_decide (is_Some v))))
  | ORemove k =>
    let '(s', x) := remove_raw cfg s (user_key k) in (s', dor v <- x; Ok (RRemove v))
  | OSet k v =>
    match ensure_sizes k v with
    | Err e => (s, Err e)
    | Ok _ =>
      let '(s', x) := insert_raw cfg s (user_key k) v MSet in
      (s', dor st <- x; dor o <- to_set_status st; Ok (RSet o))
    end
  | OReplace k v ex =>
    match ensure_sizes k v with
    | Err e => (s, Err e)
    | Ok _ =>
      let '(s', x) := insert_raw cfg s (user_key k) v (MReplace ex) in
      (s', dor st <- x; dor o <- to_replace_status st; Ok (RReplace o))
    end
  | OGetOrCreate k v =>
    match ensure_sizes k v with
    | Err e => (s, Err e)
    | Ok _ =>
      let '(s', x) := insert_raw cfg s (user_key k) v MGetOrCreate in
      (s', dor st <- x; dor o <- to_goc_status v st; Ok (RGetOrCreate o))
    end
  end.

(** ** Opening and clearing: store.rs:206-252, 262-267. The lock file is modelled in OneOpen.v only.
    The number of keyed locks is modelled in Kv.v ([num_keyed_locks]). *)
Definition store_open (cfg : config) (w : fs) : fs * res store :=
  match run (router_new cfg) w with
  | (w', Ok r) => (w', Ok (Store r w'))
  | (w', Err e) => (w', Err e)
  end.
Definition store_clear (cfg : config) (s : store) : store * res unit :=
  exec s (do! r <- router_clear cfg; Ret (r, tt)).
Definition store_merge (cfg : config) (s : store) (max_fill : N) : store * res bool :=
  exec s (merge_small_shards cfg (st_root s) max_fill).

(** ** Background compaction steps on the shard holding selector [sel] *)
Definition store_bg_row (cfg : config) (s : store) (sel : N) : store * res unit :=
  exec s (on_leaf (st_root s) sel (fun sh => do! sh' <- bg_row cfg sh; Ret (RLeaf sh', tt))).
Definition store_bg_finish (s : store) (sel : N) : store * res unit :=
  exec s (on_leaf (st_root s) sel (fun sh => do! sh' <- bg_finish sh; Ret (RLeaf sh', tt))).

(** ** Iteration: store.rs:115-200 *)
Record iter_state := Iter { it_sel : N; it_row : nat; it_col : nat; it_raw : bool }.
Definition iter_new (raw : bool) : iter_state := Iter 0 0 0 raw. (* store.rs:124-132 *)

(** [cookie], store.rs:136-140, and [from_cookie], store.rs:143-151. *)
Definition cookie (it : iter_state) : N :=
  N.lor (N.lor (N.shiftl (N.land (it_sel it) 65535) 32)
               (N.shiftl (N.land (N.of_nat (it_row it)) 65535) 16))
        (N.land (N.of_nat (it_col it)) 65535).
Definition from_cookie (c : N) (raw : bool) : iter_state :=
  Iter (N.land (N.shiftr c 32) 65535) (N.to_nat (N.land (N.shiftr c 16) 65535))
       (N.to_nat (N.land c 65535)) raw.

(** What [next] does with an entry: store.rs:173-178. *)
Definition iter_pick (raw : bool) (x : kv) : option kv :=
  if raw then Some x
  else if ends_with (fst x) [USER_NS]
       then Some (take (length (fst x) - 1) (fst x), snd x)
       else None.

(** The [while self.row_idx < NUM_ROWS] loop inside one shard (store.rs:160-183). Returns the
    entry found (if any) and the next (row, column). *)
Definition SCAN_FUEL : nat := N.to_nat 32769. (* 64*512 + 1 *)
Fixpoint scan_shard (fuel : nat) (w : fs) (sh : shard) (raw : bool) (r c : nat)
  : res (option kv * nat * nat) :=
  match fuel with
  | O => Err EHang
  | S n =>
    if (r <? NUM_ROWS)%nat then
      let '(r', c') := if (ROW_WIDTH <=? S c)%nat then (S r, O) else (r, S c) in
      dor x <- shard_read_at w sh r c;
      match x with
      | None => scan_shard n w sh raw r' c'
      | Some x =>
        match iter_pick raw x with
        | Some y => Ok (Some y, r', c')
        | None => scan_shard n w sh raw r' c'
        end
      end
    else Ok (None, O, O)
  end.

(** [next], store.rs:157-199; [fuel] bounds the number of shards visited. *)
Fixpoint iter_next (fuel : nat) (s : store) (it : iter_state) : res (option kv * iter_state) :=
  match fuel with
  | O => Err EHang
  | S n =>
    if it_sel it <? END_OF_SHARDS then
      let sh := route (st_root s) (it_sel it) in
      dor (x, r, c) <- scan_shard SCAN_FUEL (st_fs s) sh (it_raw it) (it_row it) (it_col it);
      match x with
      | Some y => Ok (Some y, Iter (sh_start sh) r c (it_raw it))
      | None => iter_next n s (Iter (sh_end sh) r c (it_raw it))
      end
    else Ok (None, it)
  end.
Definition ITER_FUEL : nat := N.to_nat 65537.

(** Collect everything an iterator yields (at most [fuel] items). *)
Fixpoint iter_collect (fuel : nat) (s : store) (it : iter_state) : res (list kv) :=
  match fuel with
  | O => Err EHang
  | S n =>
    dor (x, it') <- iter_next ITER_FUEL s it;
    match x with
    | None => Ok []
    | Some y => dor l <- iter_collect n s it'; Ok (y :: l)
    end
  end.

(** ** [stats], store.rs:490-504, the fields derived from the shards. *)
Record stats := Stats {
  t_shards : N; t_occupied : N; t_wasted : N; t_ins : N; t_rem : N
}.
Definition add_stats (a : stats) (b : shard_stats) : stats :=
  Stats (t_shards a + 1) (t_occupied a + ss_woff b) (t_wasted a + ss_wasted b)
        (t_ins a + ss_ins b) (t_rem a + ss_rem b).
Definition store_stats (cfg : config) (s : store) : store * res stats :=
  exec s (do! (r, l) <- router_stats cfg (st_root s);
          Ret (r, fold_left add_stats l (Stats 0 0 0 0 0))).
(** [Stats::num_entries] and [data_bytes], stats.rs:44-52. *)
Definition num_entries (t : stats) : res N :=
  if t_ins t <? t_rem t then Err EPanic else Ok (t_ins t - t_rem t).
Definition data_bytes (t : stats) : res N :=
  if t_occupied t <? t_wasted t then Err EPanic else Ok (t_occupied t - t_wasted t).
