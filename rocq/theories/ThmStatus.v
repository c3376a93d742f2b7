(** C69: the helper methods of the statuses. *)
From Verif Require Import Base Hashing HashingProofs Fs Shard Router RouterPure Wpc Spec FileRep RowOps
  Compact Inv ShardOps Split Insert Open Merge Create Store Limits StoreRefine Kv Lists Queues Api Hist KvSpec
  HistInv KeySpace PlainSpec Plain Check ThmStore ExStore.

(** ** store.rs:52-66 *)
Definition rs_was_replaced (r : replace_status) : bool := match r with RPrevValue _ => true | _ => false end.
Definition rs_failed (r : replace_status) : bool := negb (match r with RPrevValue _ => true | _ => false end).
Definition rs_is_key_missing (r : replace_status) : bool := match r with RDoesNotExist => true | _ => false end.
Definition rs_is_wrong_value (r : replace_status) : bool := match r with RWrongValue _ => true | _ => false end.
(** store.rs:73-79 *)
Definition ss_was_created (r : set_status) : bool := match r with CreatedNew => true | _ => false end.
Definition ss_was_replaced (r : set_status) : bool := match r with PrevValue _ => true | _ => false end.
(** store.rs:87-98 *)
Definition gs_was_created (r : goc_status) : bool := match r with GCreated _ => true | _ => false end.
Definition gs_already_exists (r : goc_status) : bool := match r with GExisting _ => true | _ => false end.
Definition gs_value (r : goc_status) : bytes := match r with GCreated v => v | GExisting v => v end.

(** One call on a store with any history is the call of the map. *)
Lemma step_is_spec cfg s o : reachable cfg s -> kfits cfg (call_prog cfg (CPlain o)) s ->
  exists m, (forall k, get cfg s k = Ok (m !! k)) /\ snd (step_op cfg s o) = snd (spec_op cfg m o) /\
    forall k, get cfg (fst (step_op cfg s o)) k = Ok (fst (spec_op cfg m o) !! k).
Proof.
  intros (cfg0 & s0 & es & Hc & Hh) Hf. destruct (created_plain _ _ _ _ _ Hc Hh) as (x & M & m & _ & HI & HV & _). exists m. split.
  { intros k. unfold get. by rewrite (get_raw_ok _ _ _ _ _ HI), HV. }
  apply kfits_map in Hf. destruct (kwp_krun cfg x _ _ _ _ M s HI Hf (plain_kwp cfg o M m HV)) as (M' & HI' & HQ).
  rewrite plain_prog_step in HI', HQ. destruct (step_op cfg s o) as [s' [r|e]]; cbn [fst snd] in *; destruct HQ as [HQ1 HQ2]; (split; [done|]);
    intros k; unfold get; by rewrite (get_raw_ok _ _ _ _ _ HI'), HQ2.
Qed.

(** ** C69 *)
(** The helper methods of the status a call returns tell what was there before it and what is there now. *)
Theorem C69_set_status : forall cfg s s' k v st,
  reachable cfg s -> kfits cfg (call_prog cfg (CPlain (OSet k v))) s -> step_op cfg s (OSet k v) = (s', Ok (RSet st)) ->
  (ss_was_created st = true <-> get cfg s k = Ok None) /\
  (ss_was_replaced st = true <-> exists old, get cfg s k = Ok (Some old)) /\
  ss_was_created st = negb (ss_was_replaced st) /\ get cfg s' k = Ok (Some v).
Proof.
  intros cfg s s' k v st Hr Hf E. destruct (step_is_spec cfg s _ Hr Hf) as (m & H1 & H2 & H3). rewrite E in H2, H3. cbn [fst snd spec_op] in *. rewrite H3, H1.
  destruct (rejected cfg k v); [done|]. cbn [fst snd] in *. rewrite lookup_insert. injection H2 as ->. destruct (m !! k) as [old|]; cbn; naive_solver.
Qed.
Theorem C69_replace_status : forall cfg s s' k v ex st,
  reachable cfg s -> kfits cfg (call_prog cfg (CPlain (OReplace k v ex))) s -> step_op cfg s (OReplace k v ex) = (s', Ok (RReplace st)) ->
  (rs_is_key_missing st = true <-> get cfg s k = Ok None) /\
  (rs_is_wrong_value st = true <-> exists cur e, get cfg s k = Ok (Some cur) /\ ex = Some e /\ e <> cur) /\
  (rs_was_replaced st = true <-> exists cur, get cfg s k = Ok (Some cur) /\ (ex = None \/ ex = Some cur)) /\
  rs_failed st = negb (rs_was_replaced st) /\
  (rs_was_replaced st = true -> get cfg s' k = Ok (Some v)) /\ (rs_failed st = true -> get cfg s' k = get cfg s k).
Proof.
  intros cfg s s' k v ex st Hr Hf E. destruct (step_is_spec cfg s _ Hr Hf) as (m & H1 & H2 & H3). rewrite E in H2, H3. cbn [fst snd spec_op] in *. rewrite H3, H1.
  destruct (rejected cfg k v); [done|]. destruct (m !! k) as [cur|] eqn:Em.
  - unfold expected_ok in *. destruct ex as [e|]; cbn [fst snd] in *.
    + destruct (bool_decide_reflect (e = cur)) as [->|Hne]; cbn [fst snd] in *; injection H2 as ->; rewrite ?lookup_insert, ?Em; cbn; naive_solver.
    + injection H2 as ->. rewrite lookup_insert. cbn. naive_solver.
  - cbn [fst snd] in *. injection H2 as ->. rewrite Em. cbn. naive_solver.
Qed.
Theorem C69_get_or_create_status : forall cfg s s' k v st,
  reachable cfg s -> kfits cfg (call_prog cfg (CPlain (OGetOrCreate k v))) s -> step_op cfg s (OGetOrCreate k v) = (s', Ok (RGetOrCreate st)) ->
  (gs_was_created st = true <-> get cfg s k = Ok None) /\
  (gs_already_exists st = true <-> exists old, get cfg s k = Ok (Some old)) /\
  gs_was_created st = negb (gs_already_exists st) /\ get cfg s' k = Ok (Some (gs_value st)).
Proof.
  intros cfg s s' k v st Hr Hf E. destruct (step_is_spec cfg s _ Hr Hf) as (m & H1 & H2 & H3). rewrite E in H2, H3. cbn [fst snd spec_op] in *. rewrite H3, H1.
  destruct (rejected cfg k v); [done|]. destruct (m !! k) as [cur|] eqn:Em; cbn [fst snd] in *; injection H2 as ->; rewrite ?lookup_insert, ?Em; cbn; naive_solver.
Qed.

(** ** The hypotheses are met *)
(** A store in the middle of a background compaction; the replacement expects a wrong value. *)
Definition st_op : op := OReplace (xkey 2) (xval 50 7) (Some (xval 1 0)).
Example C69_example : exists s s' st, reachable ex_cfg s /\ kfits ex_cfg (call_prog ex_cfg (CPlain st_op)) s /\
  step_op ex_cfg s st_op = (s', Ok (RReplace st)) /\ rs_is_wrong_value st = true.
Proof.
  assert (match snd (step_op ex_cfg (after ex_cfg ex_busy) st_op) with Ok (RReplace st) => rs_is_wrong_value st | _ => false end = true) as H by (by vm_cast_no_check (eq_refl true)).
  assert (kfits ex_cfg (call_prog ex_cfg (CPlain st_op)) (after ex_cfg ex_busy)) as Hf.
  { eapply kfits_by; [apply busy_reach|]. by vm_cast_no_check (eq_refl true). }
  destruct busy_reach as (_ & Hr & _). revert H Hf Hr. generalize (after ex_cfg ex_busy) as s. intros s H Hf Hr.
  destruct (step_op ex_cfg s st_op) as [s' r] eqn:E. cbn [snd] in H. destruct r as [[| | | |st|]|]; try discriminate H.
  exists s, s', st. split; [exact Hr|]. split; [exact Hf|]. split; [exact E|exact H].
Qed.
