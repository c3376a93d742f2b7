(** The specification of the typed wrappers, in terms of typed keys and values. *)
From Verif Require Import Base Hashing Fs Shard Router Store Kv Lists Queues Api Hist Spec Limits ListSpec QueueSpec TypedApi.

(** Decoding an encoding gives the value back. *)
Definition round_trips {A} (c : codec A) : Prop := forall a, dec c (enc c a) = Some a.

(** ** CandyTypedStore<K, V>: a finite map from K to V *)
Section store.
Context {K V : Type} `{Countable K} `{EqDecision V} (ck : codec K) (cv : codec V) (tid : N).
(** The limits: the encoded key with 4 bytes of type id and 1 of namespace is at most 16383
    bytes, the encoded value at most 65535, both together at most a shard. *)
Definition trejected (cfg : config) (k : K) (v : V) : option err :=
  let nk := len (enc ck k) + 5 in
  let nv := len (enc cv v) in
  if MAX_TOTAL_KEY_SIZE <? nk then Some (EKeyTooLong nk) else
  if MAX_TOTAL_VALUE_SIZE <? nv then Some (EValueTooLong nv) else
  if c_max_shard cfg <? nk + nv then Some (ECannotFit (nk + nv) (c_max_shard cfg)) else None.
Definition tspec (cfg : config) (m : gmap K V) (c : tcall K V) : gmap K V * res (treply V) :=
  match c with
  | TContains k => (m, Ok (TBool (bool_decide (is_Some (m !! k)))))
  | TGet k => (m, Ok (TOpt (m !! k)))
  | TRemove k => (delete k m, Ok (TOpt (m !! k)))
  | TSet k v =>
    match trejected cfg k v with Some e => (m, Err e) | None => (<[k := v]> m, Ok (TOpt (m !! k))) end
  | TReplace k v ex =>
    match trejected cfg k v with
    | Some e => (m, Err e)
    | None =>
      match m !! k with
      | None => (m, Ok (TOpt None))
      | Some cur =>
        if match ex with None => true | Some x => bool_decide (x = cur) end
        then (<[k := v]> m, Ok (TOpt (Some cur))) else (m, Ok (TOpt None))
      end
    end
  | TGetOrCreate k v =>
    match trejected cfg k v with
    | Some e => (m, Err e)
    | None => match m !! k with None => (<[k := v]> m, Ok (TVal v)) | Some cur => (m, Ok (TVal cur)) end
    end
  | TGetBig _ | TSetBig _ _ | TRemoveBig _ => (m, Ok (TBool false)) (* see [tbig_step] *)
  end.
(** The small values.  Only calls through this wrapper use this type id (the guard): [c] is the
    method called. Other calls do not change the map. *)
Definition small (c : tcall K V) : Prop := match c with TGetBig _ | TSetBig _ _ | TRemoveBig _ => False | _ => True end.
Definition tstore_step (cfg : config) (m : gmap K V) (e : event) (cfg' : config) (m' : gmap K V) : Prop :=
  match e with
  | ECall (CTyped tid' o) r =>
    if tid' =? tid then
      forall c, small c -> CTyped tid o = tstore_call ck cv tid c ->
        m' = fst (tspec cfg m c) /\ tstore_reply cv r = snd (tspec cfg m c)
    else m' = m
  | ECrash (ACall (CTyped tid' o)) =>
    if tid' =? tid then
      forall c, small c -> CTyped tid o = tstore_call ck cv tid c -> m' = m \/ m' = fst (tspec cfg m c)
    else m' = m
  | EClear => m' = ∅
  | _ => m' = m
  end.
(** All typed calls have proper (32-bit) type ids, those with this type id are made by this wrapper. *)
Definition through_tstore (c : call) : Prop :=
  match c with
  | CTyped tid' o => tid' < 2 ^ 32 /\ (tid' = tid -> exists c, small c /\ CTyped tid o = tstore_call ck cv tid c)
  | _ => True
  end.
Definition tstore_guard (cfg : config) (s : store) (e : event) : Prop :=
  fits cfg s e /\ match e with ECall c _ | ECrash (ACall c) => through_tstore c | _ => True end.

(** The big value of the key [k]. *)
Definition tbig_spec (m : option V) (c : tcall K V) (y : treply V) (m' : option V) : Prop :=
  match c with
  | TSetBig _ v => y = TBool (bool_decide (is_Some m)) /\ m' = Some v
  | TGetBig _ => y = TOpt m /\ m' = m
  | TRemoveBig _ => y = TBool (bool_decide (is_Some m)) /\ m' = None
  | _ => False
  end.
Definition big_key (k : K) : bytes := typed_key tid (enc ck k).
Definition tbig_step (k : K) (cfg : config) (m : option V) (e : event) (cfg' : config) (m' : option V) : Prop :=
  match e with
  | ECall (CBig kb b) r =>
    if bool_decide (kb = big_key k) then
      forall c, CBig kb b = tstore_call ck cv tid c -> exists y, tstore_reply cv r = Ok y /\ tbig_spec m c y m'
    else m' = m
  | EClear => m' = None
  | _ => m' = m
  end.
Definition tbig_guard (k : K) (cfg : config) (s : store) (e : event) : Prop :=
  big_guard (big_key k) cfg s e /\
  match e with ECall (CBig kb b) _ => kb = big_key k -> exists c, CBig kb b = tstore_call ck cv tid c | _ => True end.
End store.

(** ** CandyTypedList<L, K, V>: an insertion-ordered map *)
Section list.
Context {K V : Type} `{EqDecision K} (ck : codec K) (cv : codec V).
Implicit Types (l : list (K * V)).
Definition tl_get l (ik : K) : option V := snd <$> List.find (fun x => bool_decide (fst x = ik)) l.
Definition tl_update l (ik : K) (v : V) : list (K * V) := map (fun x => if bool_decide (fst x = ik) then (ik, v) else x) l.
Definition tl_remove l (ik : K) : list (K * V) := List.filter (fun x => negb (bool_decide (fst x = ik))) l.
Definition tl_set l (ik : K) (v : V) : list (K * V) :=
  match tl_get l ik with Some _ => tl_update l ik v | None => l ++ [(ik, v)] end.
Definition tl_direct (fwd : bool) l : list (K * V) := if fwd then l else rev l.
Definition tl_spec l (c : tlcall K V) (y : tlreply K V) (l' : list (K * V)) : Prop :=
  match c with
  | TLContains ik => l' = l /\ y = TLBool (match tl_get l ik with Some _ => true | None => false end)
  | TLGet ik => l' = l /\ y = TLOpt (tl_get l ik)
  | TLSet ik v => l' = tl_set l ik v /\ y = TLOpt (tl_get l ik)
  | TLSetPromoting ik v => l' = tl_remove l ik ++ [(ik, v)] /\ y = TLOpt None
  | TLGetOrCreate ik v =>
    match tl_get l ik with
    | Some old => l' = l /\ y = TLVal old
    | None => l' = l ++ [(ik, v)] /\ y = TLVal v
    end
  | TLReplace ik v None =>
    y = TLOpt (tl_get l ik) /\ l' = tl_update l ik v
  | TLReplace ik v (Some ex) => (* see C26 *)
    (length (enc cv ex) = 8%nat /\ y = TLOpt (tl_get l ik) /\ l' = tl_update l ik v) \/ (l' = l /\ y = TLOpt None)
  | TLRemove ik => l' = tl_remove l ik /\ y = TLOpt (tl_get l ik)
  | TLIter fwd => l' = l /\ y = TLItems (tl_direct fwd l)
  | TLDiscard => l' = [] /\ exists b, y = TLBool b /\ (l <> [] -> b = true)
  | TLCompact _ _ => l' = l /\ exists b, y = TLBool b
  | TLPop fwd => y = TLItem (head (tl_direct fwd l)) /\
    match head (tl_direct fwd l) with Some (ik, _) => l' = tl_remove l ik | None => l' = l end
  | TLPeek fwd => l' = l /\ y = TLItem (head (tl_direct fwd l))
  | TLLen => l' = l /\ y = TLNum (len l)
  end.
Definition tlist_step (lk : bytes) (cfg : config) l (e : event) (cfg' : config) (l' : list (K * V)) : Prop :=
  match e with
  | ECall (CList lk' b) r =>
    if bool_decide (lk' = lk) then
      forall c, b = tlist_call ck cv c -> exists y, tlist_reply ck cv c r = Ok y /\ tl_spec l c y l'
    else l' = l
  | EClear => l' = []
  | _ => l' = l
  end.
(** The calls on this list are made by the wrapper; else as for untyped lists. *)
Definition tlist_guard (lk : bytes) (cfg : config) (s : store) (e : event) : Prop :=
  list_guard lk cfg s e /\
  match e with ECall (CList lk' b) _ => lk' = lk -> exists c, b = tlist_call ck cv c | _ => True end.
End list.

(** ** CandyTypedDeque<L, V>: a double-ended queue *)
Section deque.
Context {V : Type} (cv : codec V).
Implicit Types (q : list (N * V)).
Definition tq_end (at_head : bool) q : option (N * V) := if at_head then head q else last q.
Definition tq_rest (at_head : bool) q : list (N * V) := if at_head then tl q else removelast q.
Definition tq_spec q (c : tqcall V) (y : tqreply V) (q' : list (N * V)) : Prop :=
  match c with
  | TQPush at_head v => y = TQUnit /\ exists i, q' = if at_head then (i, v) :: q else q ++ [(i, v)]
  | TQPop at_head => y = TQElem (tq_end at_head q) /\ q' = tq_rest at_head q
  | TQPeek fwd => q' = q /\ y = TQElem (tq_end fwd q)
  | TQIter fwd => q' = q /\ y = TQElems (if fwd then q else rev q)
  | TQLen => q' = q /\ y = TQNum (len q)
  | TQRange => q' = q /\ exists a b, y = TQRng (a, b) /\ Forall (fun x : N * V => a <= fst x < b) q
  end.
Definition tqueue_step (qk : bytes) (cfg : config) q (e : event) (cfg' : config) (q' : list (N * V)) : Prop :=
  match e with
  | ECall (CQueue qk' b) r =>
    if bool_decide (qk' = qk) then
      forall c, b = tqueue_call cv c -> exists y, tqueue_reply cv c r = Ok y /\ tq_spec q c y q'
    else q' = q
  | EClear => q' = []
  | _ => q' = q
  end.
Definition tqueue_guard (qk : bytes) (cfg : config) (s : store) (e : event) : Prop :=
  queue_guard qk cfg s e /\
  match e with ECall (CQueue qk' b) _ => qk' = qk -> exists c, b = tqueue_call cv c | _ => True end.
End deque.
