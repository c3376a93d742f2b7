(** [src/router.rs]: the tree of shards, loading, splitting, merging. *)
From Verif Require Import Base Hashing Fs Shard.

(** [ShardNode] / [ShardRouter], router.rs:53-76. The [span] stored in a router is the
    span of its node and never changes, so it is computed here. *)
Inductive router :=
| RLeaf (sh : shard)
| RVertex (b t : router).

(** router.rs:59-67 *)
Fixpoint rstart (r : router) : N :=
  match r with RLeaf sh => sh_start sh | RVertex b _ => rstart b end.
Fixpoint rend (r : router) : N :=
  match r with RLeaf sh => sh_end sh | RVertex _ t => rend t end.
Definition rlen (r : router) : N := rend r - rstart r.

Fixpoint leaves (r : router) : list shard :=
  match r with RLeaf sh => [sh] | RVertex b t => leaves b ++ leaves t end.

(** ** [consolidate_ranges], router.rs:10-34 *)
Definition range := (N * N)%type.

(** The comparison of router.rs:16-22: by start, then by end descending. *)
Definition range_leb (a b : range) : bool :=
  if fst a =? fst b then snd b <=? snd a else fst a <=? fst b.

(** [sort_by] as insertion sort. *)
Fixpoint insert_range (x : range) (l : list range) : list range :=
  match l with
  | [] => [x]
  | y :: l' => if range_leb x y then x :: l else y :: insert_range x l'
  end.
Definition sort_ranges (l : list range) : list range := foldr insert_range [] l.

(** The loop of router.rs:24-32; [prev] is [ranges[i-1]]. *)
Fixpoint consolidate_go (prev : range) (rest : list range) : list range * list range :=
  match rest with
  | [] => ([], [])
  | x :: rest =>
    if (fst prev <=? fst x) && (snd x <=? snd prev)
    then let '(kept, removed) := consolidate_go prev rest in (kept, x :: removed)
    else let '(kept, removed) := consolidate_go x rest in (x :: kept, removed)
  end.
Definition consolidate_ranges (l : list range) : list range * list range :=
  match sort_ranges l with
  | [] => ([], [])
  | x :: rest => let '(kept, removed) := consolidate_go x rest in (x :: kept, removed)
  end.

(** ** Loading: router.rs:100-165 *)
Fixpoint load_scan (names : list fname) : prog (list range) :=
  match names with
  | [] => Ret []
  | n :: names =>
    match n with
    | FBottom _ _ | FTop _ _ | FMerge _ _ =>
      do! _ <- remove_file n; load_scan names
    | FShard s e =>
      do! _ <- check ((s <? e) && (e <=? END_OF_SHARDS)) EBadSpan;
      do! l <- load_scan names;
      Ret ((s, e) :: l)
    | FCompact _ _ | FOther _ => load_scan names
    end
  end.

Fixpoint remove_ranges (l : list range) : prog unit :=
  match l with
  | [] => Ret tt
  | (s, e) :: l => do! _ <- remove_file (FShard s e); remove_ranges l
  end.

Fixpoint open_ranges (cfg : config) (truncate : bool) (l : list range) : prog (list shard) :=
  match l with
  | [] => Ret []
  | (s, e) :: l =>
    do! sh <- shard_open cfg s e truncate;
    do! shs <- open_ranges cfg truncate l;
    Ret (sh :: shs)
  end.

(** [read_dir]: the names in the directory, in some fixed order (the result does not
    depend on it, because the ranges are sorted). *)
Definition dir_names (w : fs) : list fname := map fst (map_to_list (fs_dir w)).

Definition load (cfg : config) : prog (list shard) :=
  do! w <- snap;
  do! found <- load_scan (dir_names w);
  let '(keep, drop) := consolidate_ranges found in
  do! _ <- remove_ranges drop;
  open_ranges cfg false keep.

(** ** Pre-splitting: router.rs:167-198 *)

(** [calc_step], router.rs:167-171. The f64 computation is taken as exact rational
    division; that the two agree for every [usize] is C14_step_in_floating_point (FloatStep.v).
    [ilog2] of 0 panics. *)
Definition calc_step (num_items : N) : res N :=
  let q := if num_items <=? EXPECTED_CAPACITY then END_OF_SHARDS
           else (END_OF_SHARDS * EXPECTED_CAPACITY) / num_items in
  if q =? 0 then Err EPanic else Ok (2 ^ N.log2 q).
Definition calc_num_shards (num_items : N) : res N :=
  dor step <- calc_step num_items; Ok (END_OF_SHARDS / step).

(** The spans of the [while] loop of router.rs:185-195. *)
Fixpoint initial_spans (fuel : nat) (start step : N) : list range :=
  match fuel with
  | O => []
  | S n =>
    if start <? END_OF_SHARDS
    then (start, start + step) :: initial_spans n (start + step) step
    else []
  end.
Definition create_initial_shards (cfg : config) : prog (list shard) :=
  do! step <- lift (calc_step (c_expected cfg));
  open_ranges cfg true (initial_spans (N.to_nat (END_OF_SHARDS / step) + 1) 0 step).

(** ** [treeify], router.rs:218-278 *)
Definition is_pow2 (n : N) : bool := negb (n =? 0) && (2 ^ N.log2 n =? n).

Fixpoint starts_sorted (l : list router) : bool :=
  match l with
  | x :: (y :: _) as l' => (rstart x <? rstart y) && starts_sorted l'
  | _ => true
  end.

(** One pass of the inner loop (router.rs:256-271): after merging at [i], [i] is not
    advanced. [fuel] = number of nodes. *)
Fixpoint treeify_pass (fuel : nat) (unit : N) (nodes : list router) : list router :=
  match fuel with
  | O => nodes
  | S n =>
    match nodes with
    | x :: y :: rest =>
      if (rlen x =? unit) && (rlen y =? unit)
      then treeify_pass n unit (RVertex x y :: rest)
      else x :: treeify_pass n unit (y :: rest)
    | _ => nodes
    end
  end.

Fixpoint treeify_loop (fuel : nat) (unit : N) (nodes : list router) : res (list router) :=
  if END_OF_SHARDS <=? unit then Ok nodes
  else match fuel with
  | O => Err EHang
  | S n => treeify_loop n (unit * 2) (treeify_pass (length nodes) unit nodes)
  end.

Definition min_unit (nodes : list router) : N :=
  fold_left (fun u n => if rlen n <? u then rlen n else u) nodes END_OF_SHARDS.

Definition treeify (shards : list shard) : res router :=
  let nodes := map RLeaf shards in
  let unit := min_unit nodes in
  (* router.rs:233-252 *)
  if negb (starts_sorted nodes) then Err EPanic else
  if negb (is_pow2 unit) then Err EPanic else
  if (length nodes =? 0)%nat then Err EPanic else
  if (length nodes =? 1)%nat && negb (unit =? END_OF_SHARDS) then Err EPanic else
  dor nodes <- treeify_loop 17 unit nodes;
  match nodes with
  | [n] => Ok n
  | _ => Err EPanic
  end.

(** [ShardRouter::new], router.rs:81-98. *)
Definition router_new (cfg : config) : prog router :=
  do! shards <- load cfg;
  do! shards <- match shards with
                | [] => create_initial_shards cfg
                | _ => Ret shards
                end;
  lift (treeify shards).

(** ** Routing: [shared_op], router.rs:280-295 *)
Fixpoint route (r : router) (sel : N) : shard :=
  match r with
  | RLeaf sh => sh
  | RVertex b t => if sel <? rend b then route b sel else route t sel
  end.

(** Run an operation on the leaf for [sel], keeping the leaf's new in-memory state. *)
Fixpoint on_leaf {A} (r : router) (sel : N) (f : shard -> prog (router * A)) : prog (router * A) :=
  match r with
  | RLeaf sh => f sh
  | RVertex b t =>
    if sel <? rend b
    then do! (b', a) <- on_leaf b sel f; Ret (RVertex b' t, a)
    else do! (t', a) <- on_leaf t sel f; Ret (RVertex b t', a)
  end.

(** ** [insert], router.rs:341-394. [fuel] bounds the number of splits; the code has no
    bound, so running out of fuel is [EHang]. *)
Fixpoint leaf_insert (cfg : config) (fuel : nat) (ph : phash) (k v : bytes) (mode : ins_mode)
         (sh : shard) : prog (router * ins_status) :=
  do! (sh, st) <- shard_insert cfg sh ph k v mode;
  match st with
  | SSplit =>
    match fuel with
    | O => Fail EHang
    | S n =>
      do! (b, t) <- shard_split cfg sh;
      if ph_selector ph <? sh_end b
      then do! (b', st) <- leaf_insert cfg n ph k v mode b; Ret (RVertex b' (RLeaf t), st)
      else do! (t', st) <- leaf_insert cfg n ph k v mode t; Ret (RVertex (RLeaf b) t', st)
    end
  | _ => Ret (RLeaf sh, st)
  end.

Definition router_insert (cfg : config) (fuel : nat) (r : router) (ph : phash) (k v : bytes)
           (mode : ins_mode) : prog (router * ins_status) :=
  on_leaf r (ph_selector ph) (leaf_insert cfg fuel ph k v mode).

(** ** [clear], router.rs:297-325 *)
Fixpoint clear_files (names : list fname) : prog unit :=
  match names with
  | [] => Ret tt
  | n :: names =>
    match n with
    | FShard _ _ | FCompact _ _ | FBottom _ _ | FTop _ _ =>
      do! _ <- remove_file n; clear_files names
    | FMerge _ _ | FOther _ => clear_files names
    end
  end.
Definition router_clear (cfg : config) : prog router :=
  do! w <- snap;
  do! _ <- clear_files (dir_names w);
  do! shards <- create_initial_shards cfg;
  lift (treeify shards).

(** ** [call_on_all_shards(get_stats)], router.rs:327-339 *)
Fixpoint router_stats (cfg : config) (r : router) : prog (router * list shard_stats) :=
  match r with
  | RLeaf sh => do! (sh, st) <- shard_get_stats cfg sh; Ret (RLeaf sh, [st])
  | RVertex b t =>
    do! (b, l1) <- router_stats cfg b;
    do! (t, l2) <- router_stats cfg t;
    Ret (RVertex b t, l1 ++ l2)
  end.

(** ** Merging: router.rs:396-498 *)

(** The (Leaf, Leaf) arm, router.rs:411-431. *)
Definition merge_leaves (cfg : config) (b t : shard) (max_fill rem : N)
  : prog (option shard * N) :=
  if rem =? 0 then Ret (None, rem)
  else
    do! (b, sb) <- shard_get_stats cfg b;
    do! nb <- lift (num_items sb);
    if max_fill <? nb then Ret (None, rem)
    else
      do! (t, st) <- shard_get_stats cfg t;
      do! nt <- lift (num_items st);
      if max_fill <? nt then Ret (None, rem)
      else
        do! m <- shard_merge cfg b t;
        match m with
        | Some sh => Ret (Some sh, rem - 1)
        | None => Ret (None, rem)
        end.

(** [_merge(bottom, top)] for the vertex [RVertex bottom top]. It holds the write locks of
    both children (router.rs:407-408) while recursing; the recursive calls of
    router.rs:434, 441, 451 and 452 pass [bottom] or [top] again, whose lock is held by this
    very thread, so unless nothing remains to be removed (router.rs:403-405) they never return. *)
Fixpoint merge_vertex (cfg : config) (r : router) (max_fill rem : N) : prog (option shard * N) :=
  match r with
  | RLeaf _ => Ret (None, rem)
  | RVertex bottom top =>
    if rem =? 0 then Ret (None, rem)
    else
      let self_lock (rem : N) := if rem =? 0 then Ret (None, rem) else Fail EDeadlock in
      match bottom, top with
      | RLeaf b, RLeaf t => merge_leaves cfg b t max_fill rem
      | RLeaf _, RVertex _ _ =>
        do! (m, rem) <- merge_vertex cfg top max_fill rem;
        match m with
        | Some _ => self_lock rem
        | None => Ret (None, rem)
        end
      | RVertex _ _, RLeaf _ =>
        do! (m, rem) <- merge_vertex cfg bottom max_fill rem;
        match m with
        | Some _ => self_lock rem
        | None => Ret (None, rem)
        end
      | RVertex _ _, RVertex _ _ =>
        do! (m1, rem) <- merge_vertex cfg bottom max_fill rem;
        do! (m2, rem) <- merge_vertex cfg top max_fill rem;
        match m1, m2 with
        | Some m1, Some m2 => merge_leaves cfg m1 m2 max_fill rem
        | Some _, None | None, Some _ => self_lock rem
        | None, None => Ret (None, rem)
        end
      end
  end.

Fixpoint sum_items (l : list shard_stats) : res N :=
  match l with
  | [] => Ok 0
  | st :: l => dor n <- num_items st; dor m <- sum_items l; Ok (n + m)
  end.

(** [merge_small_shards], router.rs:459-498. [max_fill] is
    [(EXPECTED_CAPACITY as f32 * max_fill_level) as usize]; the argument check of
    router.rs:460 is done by the caller of the model. *)
Definition merge_small_shards (cfg : config) (r : router) (max_fill : N) : prog (router * bool) :=
  do! (r, sts) <- router_stats cfg r;
  do! items <- lift (sum_items sts);
  let starting := len sts in
  do! needed <- lift (calc_num_shards (N.max items (c_expected cfg)));
  if starting <=? needed then Ret (r, false)
  else
    do! _ <- merge_vertex cfg r max_fill (starting - needed);
    do! shards <- load cfg;
    do! r' <- lift (treeify shards);
    Ret (r', negb (len (leaves r') =? starting)).
