(** Collections are programs over the raw operations of the store.  Each raw operation is
    one step; the state between two steps is a possible crash point, and the steps of
    different threads may interleave (subject to the keyed locks). *)
From Verif Require Import Base Hashing Fs Shard Router Store.

Inductive kop : Type -> Type :=
| KGet (k : bytes) : kop (option bytes)                        (* get_raw, store.rs:290 *)
| KIns (k v : bytes) (mode : ins_mode) : kop ins_status         (* insert_internal, store.rs:334 *)
| KRem (k : bytes) : kop (option bytes)                        (* remove_raw, store.rs:317 *)
| KByHash (ph : phash) : kop (list kv)                         (* get_by_hash, store.rs:284 *)
| KLock (i : N) : kop unit                                     (* lock_list, lists.rs:141-143 *)
| KUnlock (i : N) : kop unit.                                  (* drop of the guard *)

Inductive kprog (A : Type) : Type :=
| KRet (a : A)
| KFail (e : err)
| KVis {X} (o : kop X) (k : X -> kprog A).
Global Arguments KRet {_} _.
Global Arguments KFail {_} _.
Global Arguments KVis {_ _} _ _.

Fixpoint kbind {A B} (p : kprog A) (f : A -> kprog B) : kprog B :=
  match p with
  | KRet a => f a
  | KFail e => KFail e
  | KVis o k => KVis o (fun x => kbind (k x) f)
  end.
Notation "'dok' x <- a ; b" := (kbind a (fun x => b))
  (at level 200, x pattern, a at level 100, b at level 200, right associativity).
Definition kop1 {X} (o : kop X) : kprog X := KVis o KRet.
Definition klift {A} (r : res A) : kprog A :=
  match r with Ok a => KRet a | Err e => KFail e end.

(** ** Execution on the concrete store *)
Definition run_kop {X} (cfg : config) (o : kop X) (s : store) : store * res X :=
  match o in kop X return store * res X with
  | KGet k => (s, get_raw cfg s k)
  | KIns k v mode => insert_raw cfg s k v mode
  | KRem k => remove_raw cfg s k
  | KByHash ph => (s, get_by_hash cfg s ph)
  | KLock _ => (s, Ok tt)
  | KUnlock _ => (s, Ok tt)
  end.

Fixpoint krun {A} (cfg : config) (p : kprog A) (s : store) : store * res A :=
  match p with
  | KRet a => (s, Ok a)
  | KFail e => (s, Err e)
  | KVis o k =>
    match run_kop cfg o s with
    | (s', Ok x) => krun cfg (k x) s'
    | (s', Err e) => (s', Err e)
    end
  end.

(** The store after [n] raw operations of the program. *)
Fixpoint kcrash {A} (cfg : config) (n : nat) (p : kprog A) (s : store) : store :=
  match n with
  | O => s
  | S n =>
    match p with
    | KRet _ | KFail _ => s
    | KVis o k =>
      match run_kop cfg o s with
      | (s', Ok x) => kcrash cfg n (k x) s'
      | (s', Err _) => s'
      end
    end
  end.

(** ** Derived raw operations *)
(** set_raw, store.rs:361-369 *)
Definition kset (k v : bytes) : kprog set_status :=
  dok st <- kop1 (KIns k v MSet); klift (to_set_status st).
(** replace_raw, store.rs:393-406 *)
Definition kreplace (k v : bytes) (ex : option bytes) : kprog replace_status :=
  dok st <- kop1 (KIns k v (MReplace ex)); klift (to_replace_status st).
(** get_or_create_raw, store.rs:437-449 *)
Definition kgoc (k v : bytes) : kprog goc_status :=
  dok st <- kop1 (KIns k v MGetOrCreate); klift (to_goc_status v st).

(** ** Keyed locks: store.rs:229-246, lists.rs:141-143 *)
(** [num_keyed_locks]: [1 << 32] on a u32 overflows (panic in a debug build). *)
Definition num_keyed_locks (cfg : config) : res N :=
  let n := N.max (c_list_ops cfg) 4 in
  if is_pow2 n then Ok n
  else if 32 <=? N.log2 n + 1 then Err EPanic else Ok (2 ^ (N.log2 n + 1)).
Definition lock_idx (cfg : config) (ph : phash) : N :=
  match num_keyed_locks cfg with
  | Ok n => N.land (ph_sig ph) (n - 1)
  | Err _ => 0
  end.

(** Run [p] holding the keyed lock of [ph]. On an error the guard is dropped by unwinding;
    the explicit unlock is only on the normal path of the model. *)
Definition klocked {A} (cfg : config) (ph : phash) (p : kprog A) : kprog A :=
  dok _ <- kop1 (KLock (lock_idx cfg ph));
  dok a <- p;
  dok _ <- kop1 (KUnlock (lock_idx cfg ph));
  KRet a.

(** ** u64 arithmetic of the index records: overflow panics (debug build) *)
Definition U64 : N := 2 ^ 64.
Definition inc64 (n : N) : res N := if n + 1 <? U64 then Ok (n + 1) else Err EPanic.
Definition dec64 (n : N) : res N := if n =? 0 then Err EPanic else Ok (n - 1).
Definition sub64 (a b : N) : res N := if a <? b then Err EPanic else Ok (a - b).

(** [struct List] (lists.rs:13-19) and [struct Queue] (queues.rs:11-17): three u64. *)
Record lrec := LRec { l_head : N; l_tail : N; l_num : N }.
Definition enc_rec (r : lrec) : bytes :=
  u64_bytes (l_head r) ++ u64_bytes (l_tail r) ++ u64_bytes (l_num r).
(** [bytemuck::from_bytes]: panics if the size is wrong (the alignment requirement, which
    the allocator satisfies for 24-byte vectors, is not modelled). *)
Definition dec_rec (b : bytes) : res lrec :=
  if (length b =? 24)%nat
  then Ok (LRec (le_N (take 8 b)) (le_N (take 8 (drop 8 b))) (le_N (drop 16 b)))
  else Err EPanic.
Definition dec_u64 (b : bytes) : res N :=
  if (length b =? 8)%nat then Ok (le_N b) else Err EPanic.
Definition FIRST_IDX : N := 9223372036854775808. (* lists.rs:128, queues.rs:97 *)
