(** [src/lists.rs] as programs over the raw operations. *)
From Verif Require Import Base Hashing Fs Shard Router Store Kv.

Section lists.
Context (cfg : config).

(** make_list_key, lists.rs:130-133 *)
Definition list_key (lk : bytes) : bytes := lk ++ [LIST_NS].
Definition list_ph (lk : bytes) : phash := hashk cfg (list_key lk).
(** make_item_key, lists.rs:135-139; also [suffix] of lists.rs:489-491 *)
Definition item_suffix (ph : phash) : bytes := u64_bytes ph ++ [ITEM_NS].
Definition item_key (ph : phash) (ik : bytes) : bytes := ik ++ item_suffix ph.
(** ChainKey, lists.rs:43-49 (packed) *)
Definition chain_key (ph : phash) (idx : N) : bytes := u64_bytes ph ++ u64_bytes idx ++ [CHAIN_NS].

(** lists.rs:118-125 *)
Inductive ilist_status :=
| ICreated (v : bytes) | IDoesNotExist | IWrongValue (v : bytes)
| IExistingValue (v : bytes) | IReplaced (v : bytes).

(** _insert_to_list, lists.rs:145-244 *)
Definition insert_to_list (lk ik v : bytes) (mode : ins_mode) : kprog ilist_status :=
  let lph := list_ph lk in
  let ikey := item_key lph ik in
  let iph := hashk cfg ikey in
  klocked cfg lph (
  dok existing <- kop1 (KGet ikey);
  match existing with
  | Some ev =>
    dok (old, suffix) <- klift (cut_tail 8 ev);
    let do_replace :=
      dok _ <- kreplace ikey (v ++ suffix) None;
      KRet (IReplaced old) in
    match mode with
    | MGetOrCreate => KRet (IExistingValue old)
    | MReplace (Some ex) =>
      (* lists.rs:166 compares the expected value with the index suffix *)
      if bool_decide (ex = suffix) then do_replace else KRet (IWrongValue old)
    | MReplace None => do_replace
    | MSet => do_replace
    end
  | None =>
    match mode with
    | MReplace _ => KRet IDoesNotExist
    | _ =>
      dok res <- kgoc (list_key lk) (enc_rec (LRec FIRST_IDX (FIRST_IDX + 1) 1));
      match res with
      | GCreated _ =>
        dok _ <- kset (chain_key lph FIRST_IDX) (u64_bytes iph);
        dok _ <- kset ikey (v ++ u64_bytes FIRST_IDX);
        KRet (ICreated v)
      | GExisting lb =>
        dok l <- klift (dec_rec lb);
        let idx := l_tail l in
        dok tail <- klift (inc64 (l_tail l));
        dok num <- klift (inc64 (l_num l));
        dok _ <- kset (list_key lk) (enc_rec (LRec (l_head l) tail num));
        dok _ <- kset (chain_key lph idx) (u64_bytes iph);
        dok _ <- kset ikey (v ++ u64_bytes idx);
        KRet (ICreated v)
      end
    end
  end).

(** owned_get_from_list, lists.rs:391-403 *)
Definition get_from_list (lk ik : bytes) : kprog (option bytes) :=
  dok x <- kop1 (KGet (item_key (list_ph lk) ik));
  match x with
  | None => KRet None
  | Some v => dok (old, _) <- klift (cut_tail 8 v); KRet (Some old)
  end.

(** owned_remove_from_list, lists.rs:419-471 *)
Definition remove_from_list (lk ik : bytes) : kprog (option bytes) :=
  let lph := list_ph lk in
  let ikey := item_key lph ik in
  klocked cfg lph (
  dok existing <- kop1 (KGet ikey);
  match existing with
  | None => KRet None
  | Some ev =>
    dok (old, suffix) <- klift (cut_tail 8 ev);
    let idx := le_N suffix in
    dok lb <- kop1 (KGet (list_key lk));
    dok _ <- match lb with
    | None => KRet tt
    | Some lb =>
      dok l <- klift (dec_rec lb);
      dok num <- klift (dec64 (l_num l));
      dok idx1 <- (if l_head l =? idx then KRet 0 else klift (inc64 idx));
      dok (head, tail) <-
        (if l_head l =? idx then dok h <- klift (inc64 (l_head l)); KRet (h, l_tail l)
         else if l_tail l =? idx1 then dok t <- klift (dec64 (l_tail l)); KRet (l_head l, t)
         else KRet (l_head l, l_tail l));
      if head =? tail
      then dok _ <- kop1 (KRem (list_key lk)); KRet tt
      else dok _ <- kset (list_key lk) (enc_rec (LRec head tail num)); KRet tt
    end;
    dok _ <- kop1 (KRem (chain_key lph idx));
    dok _ <- kop1 (KRem ikey);
    KRet (Some old)
  end).

(** owned_set_in_list, lists.rs:292-307 *)
Definition set_in_list (lk ik v : bytes) (promote : bool) : kprog set_status :=
  dok _ <- (if promote then dok _ <- remove_from_list lk ik; KRet tt else KRet tt);
  dok st <- insert_to_list lk ik v MSet;
  match st with
  | ICreated _ => KRet CreatedNew
  | IReplaced v => KRet (PrevValue v)
  | _ => KFail EPanic
  end.
(** owned_replace_in_list, lists.rs:331-344 *)
Definition replace_in_list (lk ik v : bytes) (ex : option bytes) : kprog replace_status :=
  dok st <- insert_to_list lk ik v (MReplace ex);
  match st with
  | IDoesNotExist => KRet RDoesNotExist
  | IReplaced v => KRet (RPrevValue v)
  | IWrongValue v => KRet (RWrongValue v)
  | _ => KFail EPanic
  end.
(** owned_get_or_create_in_list, lists.rs:366-377 *)
Definition get_or_create_in_list (lk ik v : bytes) : kprog goc_status :=
  dok st <- insert_to_list lk ik v MGetOrCreate;
  match st with
  | IExistingValue v => KRet (GExisting v)
  | ICreated v => KRet (GCreated v)
  | _ => KFail EPanic
  end.

(** get_from_list_at_index, lists.rs:473-504, with truncate = false; the truncated key and
    value are computed by [trunc_item]. *)
Fixpoint find_item (suffix idxb : bytes) (l : list kv) : option kv :=
  match l with
  | [] => None
  | (k, v) :: l =>
    if ends_with k suffix && ends_with v idxb then Some (k, v) else find_item suffix idxb l
  end.
Definition get_at_index (lph : phash) (idx : N) : kprog (option (phash * bytes * bytes)) :=
  dok c <- kop1 (KGet (chain_key lph idx));
  match c with
  | None => KRet None
  | Some b =>
    dok iph <- klift (dec_u64 b);
    dok l <- kop1 (KByHash iph);
    match find_item (item_suffix lph) (u64_bytes idx) l with
    | Some (k, v) => KRet (Some (iph, k, v))
    | None => KRet None
    end
  end.
Definition trunc_item (k v : bytes) : kprog kv :=
  dok (v', _) <- klift (cut_tail 8 v);
  dok (k', _) <- klift (cut_tail 9 k);
  KRet (k', v').

(** compact_list_if_needed, lists.rs:514-582. [min_length] is params.min_length and
    [few_holes span holes] stands for [(holes as f64) < (span as f64) * min_holes_ratio]. *)
Fixpoint compact_items (lph : phash) (n : nat) (idx new_idx : N) : kprog N :=
  match n with
  | O => KRet new_idx
  | S n =>
    dok x <- get_at_index lph idx;
    match x with
    | None => compact_items lph n (idx + 1) new_idx
    | Some (iph, k, v) =>
      dok _ <- kset (chain_key lph new_idx) (u64_bytes iph);
      dok (v', _) <- klift (cut_tail 8 v);
      dok _ <- kset k (v' ++ u64_bytes new_idx);
      dok _ <- kop1 (KRem (chain_key lph idx));
      dok new_idx' <- klift (inc64 new_idx);
      compact_items lph n (idx + 1) new_idx'
    end
  end.
Definition compact_list (few_holes : N -> N -> bool) (min_length : N) (lk : bytes) : kprog bool :=
  let lph := list_ph lk in
  klocked cfg lph (
  dok lb <- kop1 (KGet (list_key lk));
  match lb with
  | None => KRet false
  | Some lb =>
    dok l <- klift (dec_rec lb);
    dok span <- klift (sub64 (l_tail l) (l_head l));
    if span <? min_length then KRet false
    else
      dok holes <- klift (sub64 span (l_num l));
      if few_holes span holes then KRet false
      else
        dok new_idx <- compact_items lph (N.to_nat span) (l_head l) (l_tail l);
        dok _ <-
          (if l_tail l =? new_idx
           then dok _ <- kop1 (KRem (list_key lk)); KRet tt
           else dok _ <- kset (list_key lk)
                              (enc_rec (LRec (l_tail l) new_idx (new_idx - l_tail l)));
                KRet tt);
        KRet true
  end).

(** ListIterator, lists.rs:74-107: the range is read under the lock at the first [next]. *)
Definition list_range (lk : bytes) : kprog (option (N * N)) :=
  klocked cfg (list_ph lk) (
  dok lb <- kop1 (KGet (list_key lk));
  match lb with
  | None => KRet None
  | Some lb => dok l <- klift (dec_rec lb); KRet (Some (l_head l, l_tail l))
  end).

(** The indices visited by an iterator over head..tail. *)
Definition idx_seq (h t : N) : list N := map (fun i => h + N.of_nat i) (seq 0 (N.to_nat (t - h))).
Definition idx_order (fwd : bool) (h t : N) : list N :=
  if fwd then idx_seq h t else rev (idx_seq h t).

Fixpoint iter_items (lph : phash) (l : list N) : kprog (list kv) :=
  match l with
  | [] => KRet []
  | idx :: l =>
    dok x <- get_at_index lph idx;
    match x with
    | None => iter_items lph l
    | Some (_, k, v) =>
      dok y <- trunc_item k v;
      dok ys <- iter_items lph l;
      KRet (y :: ys)
    end
  end.
(** iter_list(..).collect() and iter_list_backwards(..).collect(), lists.rs:589-620 *)
Definition iter_list (fwd : bool) (lk : bytes) : kprog (list kv) :=
  dok r <- list_range lk;
  match r with
  | None => KRet []
  | Some (h, t) => iter_items (list_ph lk) (idx_order fwd h t)
  end.

(** owned_peek_list_head / tail, lists.rs:659-677 *)
Fixpoint peek_items (lph : phash) (l : list N) : kprog (option kv) :=
  match l with
  | [] => KRet None
  | idx :: l =>
    dok x <- get_at_index lph idx;
    match x with
    | None => peek_items lph l
    | Some (_, k, v) => dok y <- trunc_item k v; KRet (Some y)
    end
  end.
Definition peek_list (fwd : bool) (lk : bytes) : kprog (option kv) :=
  dok r <- list_range lk;
  match r with
  | None => KRet None
  | Some (h, t) => peek_items (list_ph lk) (idx_order fwd h t)
  end.

(** owned_pop_list_head / tail, lists.rs:685-709 *)
Fixpoint pop_items (lk : bytes) (l : list N) : kprog (option kv) :=
  match l with
  | [] => KRet None
  | idx :: l =>
    dok x <- get_at_index (list_ph lk) idx;
    match x with
    | None => pop_items lk l
    | Some (_, k, v) =>
      dok y <- trunc_item k v;
      dok removed <- remove_from_list lk (fst y);
      match removed with
      | Some _ => KRet (Some y)
      | None => pop_items lk l
      end
    end
  end.
Definition pop_list (fwd : bool) (lk : bytes) : kprog (option kv) :=
  dok r <- list_range lk;
  match r with
  | None => KRet None
  | Some (h, t) => pop_items lk (idx_order fwd h t)
  end.

(** owned_discard_list, lists.rs:629-651 *)
Fixpoint discard_items (lph : phash) (l : list N) : kprog unit :=
  match l with
  | [] => KRet tt
  | idx :: l =>
    dok x <- get_at_index lph idx;
    match x with
    | None => discard_items lph l
    | Some (_, k, _) =>
      dok _ <- kop1 (KRem (chain_key lph idx));
      dok _ <- kop1 (KRem k);
      discard_items lph l
    end
  end.
Definition discard_list (lk : bytes) : kprog bool :=
  klocked cfg (list_ph lk) (
  dok lb <- kop1 (KGet (list_key lk));
  match lb with
  | None => KRet false
  | Some lb =>
    dok l <- klift (dec_rec lb);
    dok _ <- discard_items (list_ph lk) (idx_seq (l_head l) (l_tail l));
    dok _ <- kop1 (KRem (list_key lk));
    KRet true
  end).

(** owned_list_len, lists.rs:715-723 *)
Definition list_len (lk : bytes) : kprog N :=
  dok lb <- kop1 (KGet (list_key lk));
  match lb with
  | None => KRet 0
  | Some lb => dok l <- klift (dec_rec lb); KRet (l_num l)
  end.

End lists.
