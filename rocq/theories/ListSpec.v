(** The specification of the list API: an insertion-ordered association list. *)
From Verif Require Import Base Hashing Fs Shard Router Store Kv Lists Queues Api Hist Spec Limits.

(** The items of a list, head first: pairs of item key and value; keys are distinct. *)
Notation items := (list (bytes * bytes)).
Definition l_get (l : items) (ik : bytes) : option bytes :=
  snd <$> List.find (fun x => bool_decide (fst x = ik)) l.
(** New value, same place. *)
Definition l_update (l : items) (ik v : bytes) : items :=
  map (fun x => if bool_decide (fst x = ik) then (ik, v) else x) l.
Definition l_remove (l : items) (ik : bytes) : items :=
  List.filter (fun x => negb (bool_decide (fst x = ik))) l.
(** Update in place, or append at the tail. *)
Definition l_set (l : items) (ik v : bytes) : items :=
  match l_get l ik with Some _ => l_update l ik v | None => l ++ [(ik, v)] end.
Definition direct (fwd : bool) (l : items) : items := if fwd then l else rev l.
Definition first (l : items) : option kv := match l with [] => None | x :: _ => Some x end.

(** [list_spec l c y l']: on the list [l] the call [c] returns [y] and leaves [l']. *)
Definition list_spec (l : items) (c : lcall) (y : reply) (l' : items) : Prop :=
  match c with
  | LSet ik v =>
    l' = l_set l ik v /\ y = YSet (match l_get l ik with Some old => PrevValue old | None => CreatedNew end)
  | LSetPromoting ik v => l' = l_remove l ik ++ [(ik, v)] /\ y = YSet CreatedNew
  | LReplace ik v None =>
    match l_get l ik with
    | Some old => l' = l_update l ik v /\ y = YReplace (RPrevValue old)
    | None => l' = l /\ y = YReplace RDoesNotExist
    end
  | LReplace ik v (Some ex) => (* see C26: when it succeeds is not what the documentation says *)
    match l_get l ik with
    | Some old => (length ex = 8%nat /\ l' = l_update l ik v /\ y = YReplace (RPrevValue old)) \/
                  (l' = l /\ y = YReplace (RWrongValue old))
    | None => l' = l /\ y = YReplace RDoesNotExist
    end
  | LGetOrCreate ik v =>
    match l_get l ik with
    | Some old => l' = l /\ y = YGoc (GExisting old)
    | None => l' = l ++ [(ik, v)] /\ y = YGoc (GCreated v)
    end
  | LGet ik => l' = l /\ y = YOpt (l_get l ik)
  | LRemove ik => l' = l_remove l ik /\ y = YOpt (l_get l ik)
  | LCompact _ _ => l' = l /\ exists b, y = YBool b
  | LIter fwd => l' = l /\ y = YItems (direct fwd l)
  | LPeek fwd => l' = l /\ y = YItem (first (direct fwd l))
  | LPop fwd =>
    y = YItem (first (direct fwd l)) /\
    match first (direct fwd l) with Some (ik, _) => l' = l_remove l ik | None => l' = l end
  | LDiscard => l' = [] /\ exists b, y = YBool b /\ (l <> [] -> b = true)
  | LLen => l' = l /\ y = YNum (len l)
  end.

(** The entries a list call stores are within the limits: the record of the list, the link
    and the item (with their suffixes). *)
Definition list_accepts (cfg : config) (lk ik v : bytes) : Prop :=
  ins_err cfg (list_key lk) (replicate 24 x00) = None /\
  ins_err cfg (replicate 17 x00) (replicate 8 x00) = None /\
  ins_err cfg (ik ++ replicate 9 x00) (v ++ replicate 8 x00) = None.
Definition lcall_accepts (cfg : config) (lk : bytes) (c : lcall) : Prop :=
  match c with
  | LSet ik v | LSetPromoting ik v | LReplace ik v _ | LGetOrCreate ik v => list_accepts cfg lk ik v
  | _ => True
  end.
(** Every stored entry is within the limits of the present settings (true unless the store was
    reopened with a smaller max_shard_size). *)
Definition entries_ok (cfg : config) (M : kvmap) : Prop := forall k v, M !! k = Some v -> ins_err cfg k v = None.
(** The 64-bit indices of the list are not exhausted (they start in the middle of the range). *)
Definition index_room (key : bytes) (M : kvmap) : Prop :=
  forall b r, M !! key = Some b -> dec_rec b = Ok r -> l_tail r + l_num r + 1 < U64.
Definition list_room (cfg : config) (s : store) (lk : bytes) : Prop :=
  forall M, content cfg s M -> entries_ok cfg M /\ index_room (list_key lk) M.

(** Calls that only read. *)
Definition list_reads (c : lcall) : bool :=
  match c with LGet _ | LIter _ | LPeek _ | LLen => true | _ => false end.

(** What each event does to the list [lk]: only calls on it and clear change it. *)
Definition list_step (lk : bytes) (cfg : config) (l : items) (e : event) (cfg' : config) (l' : items) : Prop :=
  match e with
  | ECall (CList lk' c) r => if bool_decide (lk' = lk) then exists y, r = Ok y /\ list_spec l c y l' else l' = l
  | EClear => l' = []
  | _ => l' = l
  end.
(** The conditions on a history seen from the list [lk]: the capacity conditions; calls on [lk]
    are within the limits and not interrupted by a crash; other lists used have another hash. *)
Definition list_guard (lk : bytes) (cfg : config) (s : store) (e : event) : Prop :=
  fits cfg s e /\
  match e with
  | ECall (CList lk' c) _ =>
    if bool_decide (lk' = lk) then (list_reads c = false -> list_room cfg s lk) /\ lcall_accepts cfg lk c
    else list_ph cfg lk' <> list_ph cfg lk
  | ECrash (ACall (CList lk' c)) => list_ph cfg lk' <> list_ph cfg lk
  | _ => True
  end.

(** ** Lists under rejected and interrupted calls *)
(** The state seen by the specification: the items, and a number [lost] of insertions that were
    rejected or interrupted half-way: they are counted by [list_len] (see C20, C27). *)
Definition list_spec_lost (l : items) (lost : N) (c : lcall) (y : reply) (l' : items) : Prop :=
  match c with LLen => l' = l /\ y = YNum (len l + lost) | _ => list_spec l c y l' end.
(** Calls that add or read; the others remove or move items. *)
Definition adds_or_reads (c : lcall) : bool :=
  match c with LSetPromoting _ _ | LRemove _ | LPop _ | LDiscard | LCompact _ _ => false | _ => true end.
Definition list_step_lost (lk : bytes) (cfg : config) (a : items * N) (e : event) (cfg' : config) (a' : items * N) : Prop :=
  match e with
  | ECall (CList lk' c) r =>
    if bool_decide (lk' = lk) then
      match r with
      | Ok y => snd a' <= snd a /\ list_spec_lost (fst a) (snd a) c y (fst a')
      | Err _ => (* only a value that is too large is rejected *)
        snd a' <= snd a + 1 /\ ~ lcall_accepts cfg lk c /\
        (fst a' = fst a \/ exists ik v, c = LSetPromoting ik v /\ fst a' = l_remove (fst a) ik)
      end
    else a' = a
  | ECrash (ACall (CList lk' c)) =>
    if bool_decide (lk' = lk) then
      snd a' <= snd a + 1 /\ (fst a' = fst a \/ exists y, list_spec_lost (fst a) (snd a) c y (fst a'))
    else a' = a
  | EClear => a' = ([], 0)
  | _ => a' = a
  end.
(** The guard: rejected calls are allowed; crashes during calls on [lk] that add or read, too. *)
Definition list_guard_lost (lk : bytes) (cfg : config) (s : store) (e : event) : Prop :=
  fits cfg s e /\
  match e with
  | ECall (CList lk' c) _ =>
    if bool_decide (lk' = lk) then list_reads c = false -> list_room cfg s lk
    else list_ph cfg lk' <> list_ph cfg lk
  | ECrash (ACall (CList lk' c)) =>
    if bool_decide (lk' = lk) then (list_reads c = false -> list_room cfg s lk) /\ adds_or_reads c = true
    else list_ph cfg lk' <> list_ph cfg lk
  | _ => True
  end.
