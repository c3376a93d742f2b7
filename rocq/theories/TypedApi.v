(** Model of [src/typed.rs]: typed wrappers.  Every method encodes its arguments, makes one call of
    the untyped API (Api.v) and decodes the reply. *)
From Verif Require Import Base Hashing Fs Shard Router Store Kv Lists Queues Api.

(** A pair of databuf's [Encode] and [DecodeOwned] (the crate is not modelled): [dec] is None if
    the bytes cannot be decoded.  The model's [Codec] stands for [T::to_bytes::<LE>] and
    [T::from_bytes::<LE>], typed.rs:44-46.  The generic [Q] with [K: Borrow<Q>] is taken to be [K]
    itself (its encoding is that of K). *)
Record codec (A : Type) := Codec { enc : A -> bytes; dec : bytes -> option A }.
Global Arguments Codec {_} _ _.
Global Arguments enc {_} _ _.
Global Arguments dec {_} _ _.
(** from_bytes, typed.rs:44-46 *)
Definition from_bytes {A} (c : codec A) (b : bytes) : res A :=
  match dec c b with Some a => Ok a | None => Err EDecode end.
Definition decode_opt {A} (c : codec A) (o : option bytes) : res (option A) :=
  match o with None => Ok None | Some b => dor a <- from_bytes c b; Ok (Some a) end.

(** ** CandyTypedStore<K, V>, typed.rs:57-228 *)
Inductive tcall (K V : Type) :=
| TContains (k : K) | TGet (k : K) | TReplace (k : K) (v : V) (expected : option V) | TSet (k : K) (v : V)
| TGetOrCreate (k : K) (v : V) | TRemove (k : K)
| TGetBig (k : K) | TSetBig (k : K) (v : V) | TRemoveBig (k : K).
Global Arguments TContains {_ _} _. Global Arguments TGet {_ _} _. Global Arguments TReplace {_ _} _ _ _.
Global Arguments TSet {_ _} _ _. Global Arguments TGetOrCreate {_ _} _ _. Global Arguments TRemove {_ _} _.
Global Arguments TGetBig {_ _} _. Global Arguments TSetBig {_ _} _ _. Global Arguments TRemoveBig {_ _} _.
Inductive treply (V : Type) := TBool (b : bool) | TOpt (v : option V) | TVal (v : V).
Global Arguments TBool {_} _. Global Arguments TOpt {_} _. Global Arguments TVal {_} _.

Section typed_store.
Context {K V : Type} (ck : codec K) (cv : codec V) (tid : N). (* [tid] is K::TYPE_ID *)
(** make_key (typed.rs:86-94) is [typed_key tid (enc ck k)].
    The calls made by contains (97), get (105), replace (118), set (142), get_or_create (160),
    remove (179), get_big (192), set_big (205), remove_big (220). *)
Definition tstore_call (c : tcall K V) : call :=
  match c with
  | TContains k => CTyped tid (OContains (enc ck k))
  | TGet k => CTyped tid (OGet (enc ck k))
  | TReplace k v ex => CTyped tid (OReplace (enc ck k) (enc cv v) (enc cv <$> ex))
  | TSet k v => CTyped tid (OSet (enc ck k) (enc cv v))
  | TGetOrCreate k v => CTyped tid (OGetOrCreate (enc ck k) (enc cv v))
  | TRemove k => CTyped tid (ORemove (enc ck k))
  | TGetBig k => CBig (typed_key tid (enc ck k)) BGet
  | TSetBig k v => CBig (typed_key tid (enc ck k)) (BSet (enc cv v))
  | TRemoveBig k => CBig (typed_key tid (enc ck k)) BRemove
  end.
(** What they make of the reply. The last case does not occur. *)
Definition tstore_decode (y : reply) : res (treply V) :=
  match y with
  | YOut (RContains b) => Ok (TBool b)
  | YOut (RGet v) | YOut (RRemove v) => dor x <- decode_opt cv v; Ok (TOpt x)
  | YOut (RSet CreatedNew) => Ok (TOpt None)
  | YOut (RSet (PrevValue v)) => dor x <- from_bytes cv v; Ok (TOpt (Some x))
  | YOut (RReplace RDoesNotExist) => Ok (TOpt None)
  | YOut (RReplace (RPrevValue v)) => dor x <- from_bytes cv v; Ok (TOpt (Some x))
  | YOut (RReplace (RWrongValue _)) => Ok (TOpt None)
  | YOut (RGetOrCreate st) => dor x <- from_bytes cv (goc_value st); Ok (TVal x)
  | YOpt v => dor x <- decode_opt cv v; Ok (TOpt x)
  | YBool b => Ok (TBool b)
  | _ => Err EPanic
  end.
Definition tstore_reply (r : res reply) : res (treply V) :=
  match r with Ok y => tstore_decode y | Err e => Err e end.
End typed_store.

(** ** CandyTypedList<L, K, V>, typed.rs:230-547 *)
(** make_list_key, typed.rs:259-266: no namespace; [tid] is L::TYPE_ID *)
Definition typed_list_key {L} (cl : codec L) (tid : N) (l : L) : bytes := enc cl l ++ u32_bytes tid.

Inductive tlcall (K V : Type) :=
| TLContains (ik : K) | TLGet (ik : K) | TLSet (ik : K) (v : V) | TLSetPromoting (ik : K) (v : V)
| TLGetOrCreate (ik : K) (v : V) | TLReplace (ik : K) (v : V) (expected : option V) | TLRemove (ik : K)
| TLIter (fwd : bool) | TLDiscard | TLCompact (few_holes : N -> N -> bool) (min_length : N)
| TLPop (fwd : bool) | TLPeek (fwd : bool) | TLLen.
Global Arguments TLContains {_ _} _. Global Arguments TLGet {_ _} _. Global Arguments TLSet {_ _} _ _.
Global Arguments TLSetPromoting {_ _} _ _. Global Arguments TLGetOrCreate {_ _} _ _.
Global Arguments TLReplace {_ _} _ _ _. Global Arguments TLRemove {_ _} _.
Global Arguments TLIter {_ _} _. Global Arguments TLDiscard {_ _}. Global Arguments TLCompact {_ _} _ _.
Global Arguments TLPop {_ _} _. Global Arguments TLPeek {_ _} _. Global Arguments TLLen {_ _}.
Inductive tlreply (K V : Type) :=
| TLBool (b : bool) | TLOpt (v : option V) | TLVal (v : V) | TLItem (x : option (K * V)) | TLItems (l : list (K * V)) | TLNum (n : N).
Global Arguments TLBool {_ _} _. Global Arguments TLOpt {_ _} _. Global Arguments TLVal {_ _} _.
Global Arguments TLItem {_ _} _. Global Arguments TLItems {_ _} _. Global Arguments TLNum {_ _} _.

Section typed_list.
Context {K V : Type} (ck : codec K) (cv : codec V).
(** The calls made by contains (269), get (287), _set (305), get_or_create (360), replace (381),
    remove (412), iter (431), iter_backwards (450), discard (471), compact_if_needed (480),
    pop_tail (493), pop_head (505), peek_tail (517), peek_head (529), len (541). *)
Definition tlist_call (c : tlcall K V) : lcall :=
  match c with
  | TLContains ik | TLGet ik => LGet (enc ck ik)
  | TLSet ik v => LSet (enc ck ik) (enc cv v)
  | TLSetPromoting ik v => LSetPromoting (enc ck ik) (enc cv v)
  | TLGetOrCreate ik v => LGetOrCreate (enc ck ik) (enc cv v)
  | TLReplace ik v ex => LReplace (enc ck ik) (enc cv v) (enc cv <$> ex)
  | TLRemove ik => LRemove (enc ck ik)
  | TLIter fwd => LIter fwd
  | TLDiscard => LDiscard
  | TLCompact few n => LCompact few n
  | TLPop fwd => LPop fwd
  | TLPeek fwd => LPeek fwd
  | TLLen => LLen
  end.
Definition decode_item (x : kv) : res (K * V) :=
  dor k <- from_bytes ck (fst x); dor v <- from_bytes cv (snd x); Ok (k, v).
(** iter yields a Result per item; the model's iteration stops at the first error. *)
Fixpoint decode_items (l : list kv) : res (list (K * V)) :=
  match l with [] => Ok [] | x :: l => dor a <- decode_item x; dor l' <- decode_items l; Ok (a :: l') end.
Definition tlist_decode (c : tlcall K V) (y : reply) : res (tlreply K V) :=
  match y with
  | YSet CreatedNew => Ok (TLOpt None)
  | YSet (PrevValue v) => dor x <- from_bytes cv v; Ok (TLOpt (Some x))
  | YReplace RDoesNotExist => Ok (TLOpt None)
  | YReplace (RPrevValue v) => dor x <- from_bytes cv v; Ok (TLOpt (Some x))
  | YReplace (RWrongValue _) => Ok (TLOpt None)
  | YGoc st => dor x <- from_bytes cv (goc_value st); Ok (TLVal x)
  | YOpt v =>
    match c with
    | TLContains _ => Ok (TLBool (match v with Some _ => true | None => false end))
    | _ => dor x <- decode_opt cv v; Ok (TLOpt x)
    end
  | YItem None => Ok (TLItem None)
  | YItem (Some x) => dor a <- decode_item x; Ok (TLItem (Some a))
  | YItems l => dor l' <- decode_items l; Ok (TLItems l')
  | YBool b => Ok (TLBool b)
  | YNum n => Ok (TLNum n)
  | _ => Err EPanic
  end.
Definition tlist_reply (c : tlcall K V) (r : res reply) : res (tlreply K V) :=
  match r with Ok y => tlist_decode c y | Err e => Err e end.
End typed_list.

(** ** CandyTypedDeque<L, V>, typed.rs:549-742; the key is that of a typed list *)
Inductive tqcall (V : Type) :=
| TQPush (at_head : bool) (v : V) | TQPop (at_head : bool) | TQPeek (fwd : bool) | TQIter (fwd : bool) | TQLen | TQRange.
Global Arguments TQPush {_} _ _. Global Arguments TQPop {_} _. Global Arguments TQPeek {_} _.
Global Arguments TQIter {_} _. Global Arguments TQLen {_}. Global Arguments TQRange {_}.
Inductive tqreply (V : Type) :=
| TQUnit | TQElem (x : option (N * V)) | TQElems (l : list (N * V)) | TQNum (n : N) | TQRng (r : N * N).
Global Arguments TQUnit {_}. Global Arguments TQElem {_} _. Global Arguments TQElems {_} _.
Global Arguments TQNum {_} _. Global Arguments TQRng {_} _.
Section typed_deque.
Context {V : Type} (cv : codec V).
(** The calls made by push_head (578), push_tail (594), pop_*_with_idx (610-640),
    peek_*_with_idx (650-686), iter (696), iter_backwards (711), len (727), range (735); the
    variants without index drop it. *)
Definition tqueue_call (c : tqcall V) : qcall :=
  match c with
  | TQPush h v => QPush h (enc cv v)
  | TQPop h => QPop h
  | TQPeek f => QPeek f
  | TQIter f => QIter f
  | TQLen => QLen
  | TQRange => QRange
  end.
(** In an iteration a value that cannot be decoded is a panic ([unwrap], typed.rs:706, 723). *)
Fixpoint decode_elems (l : list (N * bytes)) : res (list (N * V)) :=
  match l with
  | [] => Ok []
  | (i, b) :: l => match dec cv b with None => Err EPanic | Some v => dor l' <- decode_elems l; Ok ((i, v) :: l') end
  end.
Definition tqueue_decode (c : tqcall V) (y : reply) : res (tqreply V) :=
  match y with
  | YNum n => match c with TQPush _ _ => Ok TQUnit | _ => Ok (TQNum n) end
  | YElem None => Ok (TQElem None)
  | YElem (Some (i, b)) => dor v <- from_bytes cv b; Ok (TQElem (Some (i, v)))
  | YElems l => dor l' <- decode_elems l; Ok (TQElems l')
  | YRange r => Ok (TQRng r)
  | _ => Err EPanic
  end.
Definition tqueue_reply (c : tqcall V) (r : res reply) : res (tqreply V) :=
  match r with Ok y => tqueue_decode c y | Err e => Err e end.
End typed_deque.
