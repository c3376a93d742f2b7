(** mini-candy (mini-candy/src/main.rs), the "minimal implementation for educational purposes" of
    the workspace: a single-threaded store, its own program, which shares no code with [src/].
    System calls that fail are not modelled here. *)
From Verif Require Import Base.

(** main.rs:14-16 and [size_of::<ShardHeader>()], main.rs:39-62: 64 * (512 * 4 + 512 * 8). *)
Definition MINI_WIDTH : nat := 512.
Definition MINI_ROWS : nat := 64.
Definition MINI_HEADER : N := 393216.
(** main.rs:191 *)
Definition MINI_MAX_SHARD : N := 65536.

(** [Descriptor], main.rs:39-45; a slot is a signature with its descriptor (main.rs:47-51). *)
Record mdesc := MDesc { d_off : N; d_klen : N; d_vlen : N }.
Notation mslot := (N * mdesc)%type.
Definition free_slot : mslot := (0, MDesc 0 0 0).

(** [ShardFile], main.rs:58-63: the mapped header and the bytes of the file behind it.  The file
    cursor is at its end ([open], main.rs:80, and only [write] moves it). *)
Record mshard := MShard { ms_start : N; ms_end : N; ms_rows : list (list mslot); ms_data : bytes }.
Notation mini := (list mshard).

(** [ShardFile::open], main.rs:71-94: it truncates, so a shard always starts empty. *)
Definition mini_open (s e : N) : mshard :=
  MShard s e (replicate MINI_ROWS (replicate MINI_WIDTH free_slot)) [].

(** ... also the shard that has this file open under the same name (its mapping then shows zeroes).
    main.rs:77 *)
Definition mini_trunc (s e : N) (sh : mshard) : mshard :=
  if (ms_start sh =? s) && (ms_end sh =? e) then mini_open s e else sh.

(** [read_exact_at] behind the header.  Simplification: reads that begin inside the header (after
    an offset was cut to 32 bits) are an error here. *)
Definition mini_read_at (data : bytes) (off n : N) : res bytes :=
  if n =? 0 then Ok []
  else if (MINI_HEADER <=? off) && (off + n <=? MINI_HEADER + len data)
  then Ok (take (N.to_nat n) (drop (N.to_nat (off - MINI_HEADER)) data))
  else Err EIo.
(** main.rs:100-107 *)
Definition mini_read (data : bytes) (d : mdesc) : res kv :=
  dor k <- mini_read_at data (d_off d) (d_klen d);
  dor v <- mini_read_at data (d_off d + d_klen d) (d_vlen d);
  Ok (k, v).
(** main.rs:108-118: the casts cut to 32 and 16 bits. *)
Definition mini_write (data k v : bytes) : mdesc * bytes :=
  (MDesc ((MINI_HEADER + len data) mod 2 ^ 32) (len k mod 2 ^ 16) (len v mod 2 ^ 16), data ++ k ++ v).

(** The loops of [get], [set] and [remove] over the slots with the signature, main.rs:122-130,
    136-145, 162-171: the first one whose key is this one. *)
Fixpoint mini_find (data : bytes) (sg : N) (key : bytes) (row : list mslot) : res (option (nat * bytes)) :=
  match row with
  | [] => Ok None
  | (s, d) :: row =>
    if s =? sg
    then dor (k, v) <- mini_read data d;
         if decide (k = key) then Ok (Some (0%nat, v))
         else dor o <- mini_find data sg key row; Ok (option_map (fun '(i, v) => (S i, v)) o)
    else dor o <- mini_find data sg key row; Ok (option_map (fun '(i, v) => (S i, v)) o)
  end.
(** main.rs:147-154 *)
Fixpoint mini_free (row : list mslot) : option nat :=
  match row with
  | [] => None
  | (s, _) :: row => if s =? 0 then Some 0%nat else option_map S (mini_free row)
  end.

Section hash.
(** [SipHasher24::new().hash], main.rs:25: any function to 64 bits. *)
Context (h : bytes -> N).
(** main.rs:27-33, 34-36, 37-39 *)
Definition mini_sig (k : bytes) : N :=
  let s := h k mod 2 ^ 32 in if s =? 0 then 305419896 else s. (* 0x12345678 *)
Definition mini_row (k : bytes) : nat := N.to_nat ((h k / 2 ^ 32) mod 64).
Definition mini_sel (k : bytes) : N := h k / 2 ^ 48.

(** [header_row], main.rs:96-98 *)
Definition header_row (sh : mshard) (k : bytes) : list mslot := default [] (ms_rows sh !! mini_row k).
Definition put_slot (sh : mshard) (k : bytes) (i : nat) (x : mslot) (data : bytes) : mshard :=
  MShard (ms_start sh) (ms_end sh) (alter (fun row => <[i := x]> row) (mini_row k) (ms_rows sh)) data.

(** main.rs:120-132 *)
Definition shard_get (sh : mshard) (key : bytes) : res (option bytes) :=
  dor o <- mini_find (ms_data sh) (mini_sig key) key (header_row sh key);
  Ok (option_map snd o).
(** main.rs:134-157 *)
Definition shard_set (sh : mshard) (key val : bytes) : res (mshard * bool) :=
  dor o <- mini_find (ms_data sh) (mini_sig key) key (header_row sh key);
  let '(d, data) := mini_write (ms_data sh) key val in
  match o with
  | Some (i, _) => Ok (put_slot sh key i (mini_sig key, d) data, true)
  | None =>
    match mini_free (header_row sh key) with
    | Some i => Ok (put_slot sh key i (mini_sig key, d) data, true)
    | None => Ok (sh, false)
    end
  end.
(** main.rs:159-173: only the signature is cleared. *)
Definition shard_remove (sh : mshard) (key : bytes) : res (mshard * bool) :=
  dor o <- mini_find (ms_data sh) (mini_sig key) key (header_row sh key);
  match o with
  | Some (i, _) => Ok (put_slot sh key i free_slot (ms_data sh), true)
  | None => Ok (sh, false)
  end.
(** main.rs:175-184 *)
Definition shard_iter (sh : mshard) : list (res kv) :=
  map (fun '(_, d) => mini_read (ms_data sh) d) (filter (fun x : mslot => x.1 <> 0) (concat (ms_rows sh))).

(** The shard of a key: main.rs:205-209, 215-219, 255-256. *)
Fixpoint shard_of (s : mini) (key : bytes) : option nat :=
  match s with
  | [] => None
  | sh :: s => if mini_sel key <? ms_end sh then Some 0%nat else option_map S (shard_of s key)
  end.
(** main.rs:193-201 *)
Definition store_open : mini := [mini_open 0 MINI_MAX_SHARD].
(** main.rs:203-211 *)
Definition store_get (s : mini) (key : bytes) : res (option bytes) :=
  match shard_of s key ≫= (s !!.) with
  | Some sh => shard_get sh key
  | None => Err EPanic
  end.
(** main.rs:213-221 *)
Definition store_remove (s : mini) (key : bytes) : res (mini * bool) :=
  match shard_of s key with
  | Some i =>
    match s !! i with
    | Some sh => dor (sh', b) <- shard_remove sh key; Ok (<[i := sh']> s, b)
    | None => Err EPanic
    end
  | None => Err EPanic
  end.

(** [sort_by] on the ends (stable), main.rs:246. *)
Fixpoint put_by_end (x : mshard) (l : mini) : mini :=
  match l with
  | [] => [x]
  | y :: l => if ms_end y <=? ms_end x then y :: put_by_end x l else x :: y :: l
  end.
Definition sort_by_end (l : mini) : mini := foldl (fun acc x => put_by_end x acc) [] l.

(** The loop of main.rs:234-242; the results of [set] are ignored. *)
Fixpoint split_items (mid : N) (items : list (res kv)) (b t : mshard) : res (mshard * mshard) :=
  match items with
  | [] => Ok (b, t)
  | x :: items =>
    dor (k, v) <- x;
    if mini_sel k <? mid
    then dor (b', _) <- shard_set b k v; split_items mid items b' t
    else dor (t', _) <- shard_set t k v; split_items mid items b t'
  end.
(** main.rs:223-248.  The iteration reads the removed shard, whose file is truncated if one of the
    new ones has its name; the same holds for the shards that stay. *)
Definition store_split (s : mini) (i : nat) : res mini :=
  match s !! i with
  | None => Err EPanic
  | Some sh =>
    let mid := (ms_start sh + ms_end sh) / 2 in
    let again x := mini_trunc mid (ms_end sh) (mini_trunc (ms_start sh) mid x) in
    dor (b, t) <- split_items mid (shard_iter (again sh)) (mini_open (ms_start sh) mid) (mini_open mid (ms_end sh));
    Ok (sort_by_end (map again (delete i s) ++ [b; t]))
  end.
(** main.rs:250-265: the loop, with fuel (running out means that it does not end). *)
Fixpoint store_set (fuel : nat) (s : mini) (key val : bytes) : res (mini * bool) :=
  match fuel with
  | O => Err EHang
  | S fuel =>
    match shard_of s key with
    | None => Err EPanic
    | Some i =>
      match s !! i with
      | None => Err EPanic
      | Some sh =>
        dor (sh', ok) <- shard_set sh key val;
        if (ok : bool) then Ok (<[i := sh']> s, true)
        else dor s' <- store_split s i; store_set fuel s' key val
      end
    end
  end.
Definition MINI_FUEL : nat := 100.
(** main.rs:267-269 *)
Definition store_iter (s : mini) : list (res kv) := concat (map shard_iter s).

(** What a program does with it. *)
Inductive mcall := MSet (k v : bytes) | MGet (k : bytes) | MRemove (k : bytes) | MIter.
Inductive mreply := MBool (b : bool) | MVal (v : option bytes) | MPairs (l : list (res kv)).
Definition mini_call (s : mini) (c : mcall) : res (mini * mreply) :=
  match c with
  | MSet k v => dor (s', b) <- store_set MINI_FUEL s k v; Ok (s', MBool b)
  | MGet k => dor v <- store_get s k; Ok (s, MVal v)
  | MRemove k => dor (s', b) <- store_remove s k; Ok (s', MBool b)
  | MIter => Ok (s, MPairs (store_iter s))
  end.
Fixpoint mini_run (s : mini) (cs : list mcall) : res (mini * list mreply) :=
  match cs with
  | [] => Ok (s, [])
  | c :: cs => dor (s1, r) <- mini_call s c; dor (s2, rs) <- mini_run s1 cs; Ok (s2, r :: rs)
  end.
End hash.

(** ** Specification: a map. *)
Definition mini_content (m : gmap bytes bytes) (c : mcall) : gmap bytes bytes :=
  match c with MSet k v => <[k := v]> m | MRemove k => delete k m | _ => m end.
Definition mini_answers (m : gmap bytes bytes) (c : mcall) (r : mreply) : Prop :=
  match c with
  | MSet _ _ => r = MBool true
  | MGet k => r = MVal (m !! k)
  | MRemove k => r = MBool (bool_decide (is_Some (m !! k)))
  | MIter => exists l, r = MPairs (map Ok l) /\ l ≡ₚ map_to_list m
  end.
Fixpoint mini_spec (m : gmap bytes bytes) (cs : list mcall) (rs : list mreply) : Prop :=
  match cs, rs with
  | [], [] => True
  | c :: cs, r :: rs => mini_answers m c r /\ mini_spec (mini_content m c) cs rs
  | _, _ => False
  end.
(** The sizes that fit the descriptors: keys and values below 64 KiB, files below 4 GiB. *)
Definition call_bytes (c : mcall) : N := match c with MSet k v => len k + len v | _ => 0 end.
Definition mini_sized (c : mcall) : Prop :=
  match c with MSet k v => len k < 2 ^ 16 /\ len v < 2 ^ 16 | _ => True end.
Definition total_bytes (cs : list mcall) : N := foldr (fun c n => call_bytes c + n) 0 cs.
(** At most 512 keys share the 22 bits of the hash that choose shard and row: the 16 highest bits, and
    the 6 bits from bit 32. *)
Definition mini_roomy (h : bytes -> N) (m : gmap bytes bytes) : Prop :=
  forall sel row : N, (size (filter (fun x : kv => (h x.1 / 2 ^ 48 = sel /\ (h x.1 / 2 ^ 32) mod 64 = row)%N) m) <= 512)%nat.
