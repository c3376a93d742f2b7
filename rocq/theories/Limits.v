(** When an operation is within the capacity of the store.  These conditions speak about
    the observable content (what [get_raw] returns for every key) and about the sizes of the
    shard files; they are hypotheses of the theorems. *)
From Verif Require Import Base Hashing Fs Shard Router Store Spec.

(** [m] is the content of the store: all raw entries, including the internal ones of typed
    keys, lists and queues. *)
Definition content (cfg : config) (s : store) (m : kvmap) : Prop :=
  forall k, get_raw cfg s k = Ok (m !! k).

(** [es] are distinct stored entries satisfying [P]. *)
Definition stored (m : kvmap) (P : bytes -> Prop) (es : list kv) : Prop :=
  NoDup (map fst es) /\ forall k v, (k, v) ∈ es -> m !! k = Some v /\ P k.
Definition total (es : list kv) : N := foldr (fun x a => kvsize x + a) 0 es.

Definition same_selector (cfg : config) (k k' : bytes) : Prop :=
  ph_selector (hashk cfg k') = ph_selector (hashk cfg k).
Definition same_row (cfg : config) (k k' : bytes) : Prop :=
  same_selector cfg k k' /\ ph_row (hashk cfg k') = ph_row (hashk cfg k).

(** The size errors of [insert_internal], store.rs:342-353. *)
Definition ins_err (cfg : config) (k v : bytes) : option err :=
  if MAX_TOTAL_KEY_SIZE <? len k then Some (EKeyTooLong (len k)) else
  if MAX_TOTAL_VALUE_SIZE <? len v then Some (EValueTooLong (len v)) else
  if c_max_shard cfg <? len k + len v then Some (ECannotFit (len k + len v) (c_max_shard cfg))
  else None.

(** Space in the files of the shard an operation on [k] reaches: the offset of an entry is
    stored in 32 bits (shard.rs:86-97), so no file may grow beyond 4 GiB; a shard under
    compaction has two files. *)
Definition files_room (s : store) (sh : shard) (n : N) : Prop :=
  forall f, fs_files (st_fs s) !! sh_ino sh = Some f ->
    match sh_tgt sh with
    | None => f_woff f + n < 2 ^ 32
    | Some (t, _) => forall ft, fs_files (st_fs s) !! t = Some ft -> f_woff f + f_woff ft + n < 2 ^ 32
    end.

(** A shard covering a single selector cannot be split further: it must not be out of space
    while having too little waste to be compacted. *)
Definition single_ok (cfg : config) (s : store) (sh : shard) (n : N) : Prop :=
  sh_end sh = sh_start sh + 1 -> sh_tgt sh = None ->
  forall f, fs_files (st_fs s) !! sh_ino sh = Some f ->
    c_min_compact cfg <= f_wasted f \/ f_woff f + n <= c_max_shard cfg.

(** The store can take the entry (k, v):
    - fewer than 512 stored keys have the selector and the row of a new key [k];
    - the stored entries with the selector of [k], and the new one, fit in one shard;
    - the files of the shard are not about to exceed 4 GiB. *)
Record headroom (cfg : config) (s : store) (m : kvmap) (k v : bytes) : Prop := Headroom {
  hr_row : m !! k = None -> forall es, stored m (same_row cfg k) es -> (length es < ROW_WIDTH)%nat;
  hr_sel : forall es, stored m (same_selector cfg k) es -> total es + (len k + len v) <= c_max_shard cfg;
  hr_files : files_room s (route (st_root s) (ph_selector (hashk cfg k))) (len k + len v);
  hr_single : single_ok cfg s (route (st_root s) (ph_selector (hashk cfg k))) (len k + len v)
}.

(** The conditions under which a shard and its unfinished compaction can be recovered. *)
Definition disk_room (w : fs) : Prop :=
  forall a b i t f ft, fs_dir w !! FShard a b = Some i -> fs_dir w !! FCompact a b = Some t ->
    fs_files w !! i = Some f -> fs_files w !! t = Some ft -> f_woff f + f_woff ft < 2 ^ 32.

(** Everything stored fits below 4 GiB (needed by merging, which does not look at sizes). *)
Definition fits_4G (m : kvmap) : Prop := forall es, stored m (fun _ => True) es -> total es < 2 ^ 32.

(** router.rs:167-171: beyond this the number of initial shards is not representable. *)
Definition cfg_ok (cfg : config) : Prop := c_expected cfg <= END_OF_SHARDS * EXPECTED_CAPACITY.
Definition items_ok (m : kvmap) : Prop := N.of_nat (size m) <= END_OF_SHARDS * EXPECTED_CAPACITY.
