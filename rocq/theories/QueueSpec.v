(** The specification of the queue API and of big values. *)
From Verif Require Import Base Hashing Fs Shard Router Store Kv Lists Queues Api Hist Spec Limits ListSpec.

(** ** Queues: double-ended queues of values labelled with strictly increasing indices. *)
Notation elems := (list (N * bytes)).
Definition q_get (q : elems) (i : N) : option bytes := snd <$> List.find (fun x => fst x =? i) q.
Definition q_remove (q : elems) (i : N) : elems := List.filter (fun x => negb (fst x =? i)) q.
(** The first element from the given end, and the rest. *)
Definition q_end (at_head : bool) (q : elems) : option (N * bytes) := if at_head then head q else last q.
Definition q_rest (at_head : bool) (q : elems) : elems := if at_head then tl q else removelast q.
Definition q_push (at_head : bool) (x : N * bytes) (q : elems) : elems := if at_head then x :: q else q ++ [x].
(** [i] is before all (after all) labels in use. *)
Definition beyond (at_head : bool) (i : N) (q : elems) : Prop :=
  Forall (fun x : N * bytes => if at_head then i < fst x else fst x < i) q.
Fixpoint number (i : N) (vs : list bytes) : elems :=
  match vs with [] => [] | v :: vs => (i, v) :: number (i + 1) vs end.

Definition queue_spec (q : elems) (c : qcall) (y : reply) (q' : elems) : Prop :=
  match c with
  | QPush at_head v => exists i, y = YNum i /\ beyond at_head i q /\ q' = q_push at_head (i, v) q
  | QExtend vs => exists i, y = YRange (i, i + len vs) /\ beyond false i q /\ q' = q ++ number i vs
  | QPop at_head => y = YElem (q_end at_head q) /\ q' = q_rest at_head q
  | QRemove i => y = YOpt (q_get q i) /\ q' = q_remove q i
  | QDiscard => q' = [] /\ exists b, y = YBool b /\ (q <> [] -> b = true)
  | QIter fwd => q' = q /\ y = YElems (if fwd then q else rev q)
  | QPeek fwd => q' = q /\ y = YElem (q_end fwd q)
  | QLen => q' = q /\ y = YNum (len q)
  | QRange => q' = q /\ exists a b, y = YRange (a, b) /\ Forall (fun x : N * bytes => a <= fst x < b) q
  end.
Definition queue_reads (c : qcall) : bool := match c with QIter _ | QPeek _ | QLen | QRange => true | _ => false end.

(** The entries a call stores are within the limits. *)
Definition queue_accepts (cfg : config) (qk v : bytes) : Prop :=
  ins_err cfg (queue_key qk) (replicate 24 x00) = None /\ ins_err cfg (qk ++ replicate 9 x00) v = None.
Definition qcall_accepts (cfg : config) (qk : bytes) (c : qcall) : Prop :=
  match c with
  | QPush _ v => queue_accepts cfg qk v
  | QExtend vs => ins_err cfg (queue_key qk) (replicate 24 x00) = None /\ Forall (queue_accepts cfg qk) vs
  | _ => True
  end.
(** How many elements a call adds. *)
Definition qcall_adds (c : qcall) : N := match c with QPush _ _ => 1 | QExtend vs => len vs | _ => 0 end.
(** The 64-bit indices of the queue, as reported by queue_range and queue_len, are not exhausted
    (they start in the middle of the range). *)
Definition queue_index_room (cfg : config) (s : store) (qk : bytes) (n : N) : Prop :=
  FIRST_IDX + n + 1 < U64 /\
  forall h t k, snd (krun cfg (queue_prog cfg qk QRange) s) = Ok (YRange (h, t)) -> snd (krun cfg (queue_prog cfg qk QLen) s) = Ok (YNum k) ->
    1 <= h /\ t + k + n + 1 < U64.
Definition queue_room (cfg : config) (s : store) (qk : bytes) (n : N) : Prop :=
  (forall M, content cfg s M -> entries_ok cfg M) /\ queue_index_room cfg s qk n.
(** remove_from_queue is not applied to the only index of the range (see C29). *)
Definition queue_not_sole (cfg : config) (s : store) (qk : bytes) (c : qcall) : Prop :=
  match c with
  | QRemove i => i < U64 /\ snd (krun cfg (queue_prog cfg qk QRange) s) <> Ok (YRange (i, i + 1))
  | _ => True
  end.

(** What each event does to the queue [qk]. *)
Definition queue_step (qk : bytes) (cfg : config) (q : elems) (e : event) (cfg' : config) (q' : elems) : Prop :=
  match e with
  | ECall (CQueue qk' c) r => if bool_decide (qk' = qk) then exists y, r = Ok y /\ queue_spec q c y q' else q' = q
  | EClear => q' = []
  | _ => q' = q
  end.
(** The conditions on a history seen from the queue [qk]; no big value has the same key (C18). *)
Definition queue_guard (qk : bytes) (cfg : config) (s : store) (e : event) : Prop :=
  fits cfg s e /\
  match e with
  | ECall (CQueue qk' c) _ =>
    qk' = qk -> (queue_reads c = false -> queue_room cfg s qk (qcall_adds c)) /\ qcall_accepts cfg qk c /\ queue_not_sole cfg s qk c
  | ECrash (ACall (CQueue qk' c)) => qk' <> qk
  | ECall (CBig k _) _ | ECrash (ACall (CBig k _)) => k <> qk
  | _ => True
  end.

(** *** With rejected pushes and crashes.  [lost] counts the pushes and pops that were rejected or
    interrupted half-way; queue_len counts them (see C20, C30). *)
Definition queue_spec_lost (q : elems) (lost : N) (c : qcall) (y : reply) (q' : elems) : Prop :=
  match c with QLen => q' = q /\ y = YNum (len q + lost) | _ => queue_spec q c y q' end.
Definition crash_safe (c : qcall) : bool := match c with QExtend _ => false | _ => true end.
(** What a crash leaves: before or after; a discard may leave a part. *)
Definition queue_crash (q : elems) (c : qcall) (q' : elems) : Prop :=
  q' = q \/ (exists y, queue_spec q c y q') \/ (c = QDiscard /\ exists gone, q = gone ++ q').
Definition queue_step_lost (qk : bytes) (cfg : config) (a : elems * N) (e : event) (cfg' : config) (a' : elems * N) : Prop :=
  match e with
  | ECall (CQueue qk' c) r =>
    if bool_decide (qk' = qk) then
      match r with
      | Ok y => snd a' <= snd a /\ queue_spec_lost (fst a) (snd a) c y (fst a')
      | Err _ => snd a' <= snd a + 1 /\ ~ qcall_accepts cfg qk c /\ fst a' = fst a
      end
    else a' = a
  | ECrash (ACall (CQueue qk' c)) =>
    if bool_decide (qk' = qk) then
      (c <> QDiscard -> snd a' <= snd a + 1) /\ queue_crash (fst a) c (fst a')
    else a' = a
  | EClear => a' = ([], 0)
  | _ => a' = a
  end.
Definition queue_guard_lost (qk : bytes) (cfg : config) (s : store) (e : event) : Prop :=
  fits cfg s e /\
  match e with
  | ECall (CQueue qk' c) _ =>
    qk' = qk -> (queue_reads c = false -> queue_room cfg s qk (qcall_adds c)) /\
                (crash_safe c = false -> qcall_accepts cfg qk c) /\ queue_not_sole cfg s qk c
  | ECrash (ACall (CQueue qk' c)) =>
    qk' = qk -> (queue_reads c = false -> queue_room cfg s qk (qcall_adds c)) /\
                crash_safe c = true /\ queue_not_sole cfg s qk c
  | ECall (CBig k _) _ | ECrash (ACall (CBig k _)) => k <> qk
  | _ => True
  end.

(** ** Big values *)
Definition big_spec (m : option bytes) (c : bcall) (y : reply) (m' : option bytes) : Prop :=
  match c with
  | BSet v => y = YBool (bool_decide (is_Some m)) /\ m' = Some v
  | BGet => y = YOpt m /\ m' = m
  | BRemove => y = YBool (bool_decide (is_Some m)) /\ m' = None
  end.
Definition big_step (k : bytes) (cfg : config) (m : option bytes) (e : event) (cfg' : config) (m' : option bytes) : Prop :=
  match e with
  | ECall (CBig k' c) r => if bool_decide (k' = k) then exists y, r = Ok y /\ big_spec m c y m' else m' = m
  | EClear => m' = None
  | _ => m' = m
  end.
(** The value is not empty (see C31), its length is below 2^62, and its pieces (of at most 65280 bytes) are
    within the limits of the settings. *)
Definition big_accepts (cfg : config) (k : bytes) (c : bcall) : Prop :=
  match c with
  | BSet v => v <> [] /\ len v < 2 ^ 62 /\ (forall w : bytes, len w <= MAX_VALUE_SIZE -> len w <= len v -> queue_accepts cfg k w)
  | _ => True
  end.
Definition big_guard (k : bytes) (cfg : config) (s : store) (e : event) : Prop :=
  fits cfg s e /\
  match e with
  | ECall (CBig k' c) _ => k' = k -> big_accepts cfg k c
  | ECrash (ACall (CBig k' c)) => k' <> k
  | ECall (CQueue qk _) _ | ECrash (ACall (CQueue qk _)) => qk <> k
  | _ => True
  end.
