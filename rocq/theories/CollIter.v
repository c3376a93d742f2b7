(** The iterators over lists and queues call by call ([Lists.v] and [Queues.v] have them collected). *)
From Verif Require Import Base Hashing Fs Shard Router Store Kv Lists Queues Api Hist.

(** [ListIterator], lists.rs:66-72, and [QueueIterator], queues.rs:33-38: the field [range] is None before
    the first [next] that finds the collection, then the indices still to be visited. The model has the
    indices in the order of visiting (for [fwd = false] the Rust range is consumed with next_back). *)
Definition citer := option (list N).

(** [size_hint], lists.rs:109-115, queues.rs:87-93; a [Range]'s own size_hint is its exact length. *)
Definition size_hint (it : citer) : N * option N :=
  match it with None => (0, None) | Some l => (len l, Some (len l)) end.

(** [QueueIterator::next], queues.rs:45-85: the loop, queues.rs:59-84 *)
Fixpoint queue_scan (qk : bytes) (l : list N) : kprog (list N * option (N * bytes)) :=
  match l with
  | [] => KRet ([], None)
  | i :: l =>
    dok x <- kop1 (KGet (qitem_key qk i));
    match x with
    | None => queue_scan qk l
    | Some v => KRet (l, Some (i, v))
    end
  end.
Definition queue_next (cfg : config) (qk : bytes) (fwd : bool) (it : citer) : kprog (citer * option (N * bytes)) :=
  dok it <- (match it with
    | Some l => KRet (Some l)
    | None =>
      dok q <- fetch_queue cfg qk;
      KRet (match q with Some q => Some (idx_order fwd (l_head q) (l_tail q)) | None => None end)
    end);
  match it with
  | None => KRet (None, None)
  | Some l => dok (l, y) <- queue_scan qk l; KRet (Some l, y)
  end.

(** [ListIterator::next], lists.rs:77-107: the loop, lists.rs:89-106 *)
Fixpoint list_scan (lph : phash) (l : list N) : kprog (list N * option kv) :=
  match l with
  | [] => KRet ([], None)
  | i :: l =>
    dok x <- get_at_index lph i;
    match x with
    | None => list_scan lph l
    | Some (_, k, v) => dok y <- trunc_item k v; KRet (l, Some y)
    end
  end.
Definition list_next (cfg : config) (lk : bytes) (fwd : bool) (it : citer) : kprog (citer * option kv) :=
  dok it <- (match it with
    | Some l => KRet (Some l)
    | None =>
      dok r <- list_range cfg lk;
      KRet (match r with Some (h, t) => Some (idx_order fwd h t) | None => None end)
    end);
  match it with
  | None => KRet (None, None)
  | Some l => dok (l, y) <- list_scan (list_ph cfg lk) l; KRet (Some l, y)
  end.

(** One call of [next]: what happened since the one before, the store at the call, what it returned,
    and the iterator afterwards. *)
Record round (A : Type) := Round {
  r_events : list event; r_cfg : config; r_store : store; r_item : option A; r_iter : citer
}.
Arguments r_events {A} _.
Arguments r_cfg {A} _.
Arguments r_store {A} _.
Arguments r_item {A} _.
Arguments r_iter {A} _.
Arguments Round {A} _ _ _ _ _.

(** Calls of [next] with a history between them. *)
Inductive iteration {A : Type} (G : config -> store -> event -> Prop) (next : config -> citer -> kprog (citer * option A))
  : config -> store -> citer -> list (round A) -> config -> store -> citer -> Prop :=
| it_stop cfg s it : iteration G next cfg s it [] cfg s it
| it_next cfg s it es cfg1 s1 s2 it1 y l cfg' s' it' :
    hist G cfg s es cfg1 s1 -> krun cfg1 (next cfg1 it) s1 = (s2, Ok (it1, y)) ->
    iteration G next cfg1 s2 it1 l cfg' s' it' ->
    iteration G next cfg s it (Round es cfg1 s1 y it1 :: l) cfg' s' it'.
(** The items returned. *)
Definition returned {A : Type} (l : list (round A)) : list A := omap r_item l.
