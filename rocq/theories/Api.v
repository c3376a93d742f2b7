(** The public API as one type of calls.  Every call is a program over the raw operations
    (Kv.v), so all calls can be interrupted at every step and run on the same store. *)
From Verif Require Import Base Hashing Fs Shard Router Store Kv Lists Queues.

(** ** Plain keys: store.rs:298-332, 379-391, 408-435, 457-473 (the same as [step_op]) *)
Definition plain_prog (o : op) : kprog out :=
  match o with
  | OGet k => dok v <- kop1 (KGet (user_key k)); KRet (RGet v)
  | OContains k => dok v <- kop1 (KGet (user_key k)); KRet (RContains (bool_decide (is_Some v)))
  | ORemove k => dok v <- kop1 (KRem (user_key k)); KRet (RRemove v)
  | OSet k v =>
    dok _ <- klift (ensure_sizes k v); dok st <- kset (user_key k) v; KRet (RSet st)
  | OReplace k v ex =>
    dok _ <- klift (ensure_sizes k v); dok st <- kreplace (user_key k) v ex; KRet (RReplace st)
  | OGetOrCreate k v =>
    dok _ <- klift (ensure_sizes k v); dok st <- kgoc (user_key k) v; KRet (RGetOrCreate st)
  end.

(** ** Typed keys on encoded bytes: typed.rs:86-189. [tid] is [K::TYPE_ID]; the key and values
    are already encoded. The same operations as for plain keys, without [ensure_sizes]. *)
Definition typed_key (tid : N) (kb : bytes) : bytes := kb ++ u32_bytes tid ++ [TYPED_NS].
Definition typed_prog (tid : N) (o : op) : kprog out :=
  match o with
  | OGet k => dok v <- kop1 (KGet (typed_key tid k)); KRet (RGet v)
  | OContains k => dok v <- kop1 (KGet (typed_key tid k)); KRet (RContains (bool_decide (is_Some v)))
  | ORemove k => dok v <- kop1 (KRem (typed_key tid k)); KRet (RRemove v)
  | OSet k v => dok st <- kset (typed_key tid k) v; KRet (RSet st)
  | OReplace k v ex => dok st <- kreplace (typed_key tid k) v ex; KRet (RReplace st)
  | OGetOrCreate k v => dok st <- kgoc (typed_key tid k) v; KRet (RGetOrCreate st)
  end.

(** ** Calls and replies *)
Inductive lcall :=
| LSet (ik v : bytes) | LSetPromoting (ik v : bytes)
| LReplace (ik v : bytes) (expected : option bytes) | LGetOrCreate (ik v : bytes)
| LGet (ik : bytes) | LRemove (ik : bytes)
| LCompact (few_holes : N -> N -> bool) (min_length : N)
| LIter (fwd : bool) | LPeek (fwd : bool) | LPop (fwd : bool)
| LDiscard | LLen.
Inductive qcall :=
| QPush (at_head : bool) (v : bytes) | QExtend (vs : list bytes) | QPop (at_head : bool)
| QRemove (idx : N) | QDiscard | QIter (fwd : bool) | QPeek (fwd : bool) | QLen | QRange.
Inductive bcall := BSet (v : bytes) | BGet | BRemove.

Inductive call :=
| CPlain (o : op)
| CTyped (tid : N) (o : op)
| CList (lk : bytes) (c : lcall)
| CQueue (qk : bytes) (c : qcall)
| CBig (k : bytes) (c : bcall).

Inductive reply :=
| YOut (o : out) | YSet (s : set_status) | YReplace (s : replace_status) | YGoc (s : goc_status)
| YOpt (v : option bytes) | YItem (x : option kv) | YItems (l : list kv)
| YElem (x : option (N * bytes)) | YElems (l : list (N * bytes))
| YBool (b : bool) | YNum (n : N) | YRange (r : N * N).

Definition kmap {A B} (f : A -> B) (p : kprog A) : kprog B := dok a <- p; KRet (f a).

Definition list_prog (cfg : config) (lk : bytes) (c : lcall) : kprog reply :=
  match c with
  | LSet ik v => kmap YSet (set_in_list cfg lk ik v false)
  | LSetPromoting ik v => kmap YSet (set_in_list cfg lk ik v true)
  | LReplace ik v ex => kmap YReplace (replace_in_list cfg lk ik v ex)
  | LGetOrCreate ik v => kmap YGoc (get_or_create_in_list cfg lk ik v)
  | LGet ik => kmap YOpt (get_from_list cfg lk ik)
  | LRemove ik => kmap YOpt (remove_from_list cfg lk ik)
  | LCompact few n => kmap YBool (compact_list cfg few n lk)
  | LIter fwd => kmap YItems (iter_list cfg fwd lk)
  | LPeek fwd => kmap YItem (peek_list cfg fwd lk)
  | LPop fwd => kmap YItem (pop_list cfg fwd lk)
  | LDiscard => kmap YBool (discard_list cfg lk)
  | LLen => kmap YNum (list_len lk)
  end.
Definition queue_prog (cfg : config) (qk : bytes) (c : qcall) : kprog reply :=
  match c with
  | QPush h v => kmap YNum (push_to_queue cfg qk v h)
  | QExtend vs => kmap YRange (extend_queue cfg qk vs)
  | QPop h => kmap YElem (pop_queue cfg qk h)
  | QRemove i => kmap YOpt (remove_from_queue cfg qk i)
  | QDiscard => kmap YBool (discard_queue cfg qk)
  | QIter fwd => kmap YElems (iter_queue cfg fwd qk)
  | QPeek fwd => kmap YElem (peek_queue cfg fwd qk)
  | QLen => kmap YNum (queue_len cfg qk)
  | QRange => kmap YRange (queue_range cfg qk)
  end.
Definition big_prog (cfg : config) (k : bytes) (c : bcall) : kprog reply :=
  match c with
  | BSet v => kmap YBool (set_big cfg k v)
  | BGet => kmap YOpt (get_big cfg k)
  | BRemove => kmap YBool (remove_big cfg k)
  end.
Definition call_prog (cfg : config) (c : call) : kprog reply :=
  match c with
  | CPlain o => kmap YOut (plain_prog o)
  | CTyped tid o => kmap YOut (typed_prog tid o)
  | CList lk c => list_prog cfg lk c
  | CQueue qk c => queue_prog cfg qk c
  | CBig k c => big_prog cfg k c
  end.

(** The plain calls are exactly [step_op] of Store.v. *)
Lemma krun_bind {A B} cfg (p : kprog A) (f : A -> kprog B) s :
  krun cfg (kbind p f) s =
  match krun cfg p s with (s', Ok a) => krun cfg (f a) s' | (s', Err e) => (s', Err e) end.
Proof.
  revert s; induction p as [a|e|X o k IH]; intros s; cbn [kbind krun]; [done|done|].
  destruct (run_kop cfg o s) as [s' [x|e]]; [apply IH|done].
Qed.
Lemma plain_prog_step cfg s o : krun cfg (plain_prog o) s = step_op cfg s o.
Proof.
  destruct o as [k|k|k|k v|k v ex|k v]; cbn [plain_prog step_op].
  - cbn. destruct (get_raw _ _ _); done.
  - cbn. destruct (get_raw _ _ _); done.
  - cbn. destruct (remove_raw _ _ _) as [s' [x|e]]; done.
  - rewrite krun_bind. destruct (ensure_sizes k v) as [[]|e]; [|done]. cbn.
    destruct (insert_raw _ _ _ _ _) as [s' [x|e]]; [|done]. cbn. by destruct x.
  - rewrite krun_bind. destruct (ensure_sizes k v) as [[]|e]; [|done]. cbn.
    destruct (insert_raw _ _ _ _ _) as [s' [x|e]]; [|done]. cbn. by destruct x.
  - rewrite krun_bind. destruct (ensure_sizes k v) as [[]|e]; [|done]. cbn.
    destruct (insert_raw _ _ _ _ _) as [s' [x|e]]; [|done]. cbn. by destruct x.
Qed.
Lemma call_plain cfg s o :
  krun cfg (call_prog cfg (CPlain o)) s =
  let '(s', r) := step_op cfg s o in (s', dor x <- r; Ok (YOut x)).
Proof.
  cbn [call_prog]. unfold kmap. rewrite krun_bind, plain_prog_step.
  destruct (step_op cfg s o) as [s' [x|e]]; done.
Qed.
