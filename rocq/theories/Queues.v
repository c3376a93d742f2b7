(** [src/queues.rs] and the big-value API of [src/store.rs] as programs over the raw operations. *)
From Verif Require Import Base Hashing Fs Shard Router Store Kv Lists.

Section queues.
Context (cfg : config).

(** make_queue_key, queues.rs:99-106: the hash (used only to choose the lock) is that of the
    bare key, the record key carries the namespace. *)
Definition queue_key (qk : bytes) : bytes := qk ++ [QUEUE_NS].
Definition queue_ph (qk : bytes) : phash := hashk cfg qk.
(** make_queue_item_key, queues.rs:107-112 *)
Definition qitem_key (qk : bytes) (idx : N) : bytes := qk ++ u64_bytes idx ++ [QITEM_NS].

(** _push_to_queue, queues.rs:114-151; [at_head] is QueuePos::Head *)
Definition push_to_queue (qk v : bytes) (at_head : bool) : kprog N :=
  klocked cfg (queue_ph qk) (
  dok st <- kgoc (queue_key qk) (enc_rec (LRec FIRST_IDX (FIRST_IDX + 1) 1));
  dok idx <- match st with
  | GCreated _ => KRet FIRST_IDX
  | GExisting qb =>
    dok q <- klift (dec_rec qb);
    dok (idx, head, tail) <-
      (if at_head
       then dok h <- klift (dec64 (l_head q)); KRet (h, h, l_tail q)
       else dok t <- klift (inc64 (l_tail q)); KRet (l_tail q, l_head q, t));
    dok num <- klift (inc64 (l_num q));
    dok _ <- kset (queue_key qk) (enc_rec (LRec head tail num));
    KRet idx
  end;
  dok _ <- kset (qitem_key qk idx) v;
  KRet idx).

(** The loops of _pop_queue, queues.rs:181-204; [n] = tail - head. Returns the result and the
    new record. *)
Fixpoint pop_loop (qk : bytes) (at_head : bool) (n : nat) (q : lrec)
  : kprog (option (N * bytes) * lrec) :=
  match n with
  | O => KRet (None, q)
  | S n =>
    let idx := if at_head then l_head q else l_tail q - 1 in
    let q' := if at_head then LRec (l_head q + 1) (l_tail q) (l_num q)
              else LRec (l_head q) (l_tail q - 1) (l_num q) in
    dok x <- kop1 (KRem (qitem_key qk idx));
    match x with
    | Some v =>
      dok num <- klift (dec64 (l_num q'));
      KRet (Some (idx, v), LRec (l_head q') (l_tail q') num)
    | None => pop_loop qk at_head n q'
    end
  end.

(** _pop_queue, queues.rs:171-213 *)
Definition pop_queue (qk : bytes) (at_head : bool) : kprog (option (N * bytes)) :=
  klocked cfg (queue_ph qk) (
  dok qb <- kop1 (KGet (queue_key qk));
  match qb with
  | None => KRet None
  | Some qb =>
    dok q <- klift (dec_rec qb);
    dok (x, q') <- pop_loop qk at_head (N.to_nat (l_tail q - l_head q)) q;
    dok _ <- (if l_head q' =? l_tail q'
              then dok _ <- kop1 (KRem (queue_key qk)); KRet tt
              else dok _ <- kset (queue_key qk) (enc_rec q'); KRet tt);
    KRet x
  end).

(** remove_from_queue, queues.rs:255-286 *)
Definition remove_from_queue (qk : bytes) (idx : N) : kprog (option bytes) :=
  klocked cfg (queue_ph qk) (
  dok x <- kop1 (KRem (qitem_key qk idx));
  match x with
  | None => KRet None
  | Some v =>
    dok qb <- kop1 (KGet (queue_key qk));
    match qb with
    | None => KRet (Some v)
    | Some qb =>
      dok q <- klift (dec_rec qb);
      dok head <- (if l_head q =? idx then klift (inc64 (l_head q)) else KRet (l_head q));
      dok idx1 <- klift (inc64 idx);
      dok tail <- (if l_tail q =? idx1 then klift (dec64 (l_tail q)) else KRet (l_tail q));
      dok num <- klift (dec64 (l_num q));
      dok _ <- (if head =? tail
                then dok _ <- kop1 (KRem (queue_key qk)); KRet tt
                else dok _ <- kset (queue_key qk) (enc_rec (LRec head tail num)); KRet tt);
      KRet (Some v)
    end
  end).

(** discard_queue, queues.rs:289-305 *)
Fixpoint rem_items (qk : bytes) (l : list N) : kprog unit :=
  match l with
  | [] => KRet tt
  | i :: l => dok _ <- kop1 (KRem (qitem_key qk i)); rem_items qk l
  end.
Definition discard_queue (qk : bytes) : kprog bool :=
  klocked cfg (queue_ph qk) (
  dok qb <- kop1 (KGet (queue_key qk));
  match qb with
  | None => KRet false
  | Some qb =>
    dok q <- klift (dec_rec qb);
    dok _ <- rem_items qk (idx_seq (l_head q) (l_tail q));
    dok _ <- kop1 (KRem (queue_key qk));
    KRet true
  end).

(** fetch_queue, queues.rs:307-316 *)
Definition fetch_queue (qk : bytes) : kprog (option lrec) :=
  klocked cfg (queue_ph qk) (
  dok qb <- kop1 (KGet (queue_key qk));
  match qb with
  | None => KRet None
  | Some qb => dok q <- klift (dec_rec qb); KRet (Some q)
  end).

(** extend_queue, queues.rs:326-363 *)
Fixpoint extend_items (qk : bytes) (items : list bytes) (tail num : N) : kprog (N * N) :=
  match items with
  | [] => KRet (tail, num)
  | v :: items =>
    dok _ <- kset (qitem_key qk tail) v;
    dok tail' <- klift (inc64 tail);
    dok num' <- klift (inc64 num);
    extend_items qk items tail' num'
  end.
Definition goc_value (s : goc_status) : bytes :=
  match s with GExisting v => v | GCreated v => v end.
Definition extend_queue (qk : bytes) (items : list bytes) : kprog (N * N) :=
  klocked cfg (queue_ph qk) (
  dok st <- kgoc (queue_key qk) (enc_rec (LRec FIRST_IDX FIRST_IDX 0));
  dok q <- klift (dec_rec (goc_value st));
  dok (tail, num) <- extend_items qk items (l_tail q) (l_num q);
  dok _ <- kset (queue_key qk) (enc_rec (LRec (l_head q) tail num));
  KRet (l_tail q, tail)).

(** QueueIterator, queues.rs:45-85, collected *)
Fixpoint iter_qitems (qk : bytes) (l : list N) : kprog (list (N * bytes)) :=
  match l with
  | [] => KRet []
  | i :: l =>
    dok x <- kop1 (KGet (qitem_key qk i));
    match x with
    | None => iter_qitems qk l
    | Some v => dok ys <- iter_qitems qk l; KRet ((i, v) :: ys)
    end
  end.
Definition iter_queue (fwd : bool) (qk : bytes) : kprog (list (N * bytes)) :=
  dok q <- fetch_queue qk;
  match q with
  | None => KRet []
  | Some q => iter_qitems qk (idx_order fwd (l_head q) (l_tail q))
  end.

(** peek_queue_head_with_idx / peek_queue_tail_with_idx, queues.rs:366-407 *)
Fixpoint peek_qitems (qk : bytes) (l : list N) : kprog (option (N * bytes)) :=
  match l with
  | [] => KRet None
  | i :: l =>
    dok x <- kop1 (KGet (qitem_key qk i));
    match x with
    | None => peek_qitems qk l
    | Some v => KRet (Some (i, v))
    end
  end.
Definition peek_queue (fwd : bool) (qk : bytes) : kprog (option (N * bytes)) :=
  dok q <- fetch_queue qk;
  match q with
  | None => KRet None
  | Some q => peek_qitems qk (idx_order fwd (l_head q) (l_tail q))
  end.

(** queue_len, queue_range: queues.rs:441-454 *)
Definition queue_len (qk : bytes) : kprog N :=
  dok q <- fetch_queue qk;
  KRet (match q with None => 0 | Some q => l_num q end).
Definition queue_range (qk : bytes) : kprog (N * N) :=
  dok q <- fetch_queue qk;
  KRet (match q with None => (FIRST_IDX, FIRST_IDX) | Some q => (l_head q, l_tail q) end).

(** ** Big values: store.rs:527-558 *)
(** [slice.chunks(n)]; [fuel] >= number of chunks *)
Fixpoint chunks (fuel : nat) (n : nat) (l : bytes) : list bytes :=
  match fuel with
  | O => []
  | S f => match l with [] => [] | _ => take n l :: chunks f n (drop n l) end
  end.
Definition set_big (k v : bytes) : kprog bool :=
  dok existed <- discard_queue k;
  dok _ <- extend_queue k (chunks (length v) (N.to_nat MAX_VALUE_SIZE) v);
  KRet existed.
Definition get_big (k : bytes) : kprog (option bytes) :=
  dok l <- iter_queue true k;
  KRet (match l with [] => None | _ => Some (concat (map snd l)) end).
Definition remove_big (k : bytes) : kprog bool := discard_queue k.

End queues.
