(** C59: I/O errors. *)
From Verif Require Import Base SipHash Hashing HashingProofs Fs Shard Router RouterPure Wpc Spec FileRep RowOps
  Compact Inv ShardOps Split Insert Open Merge Create Store Limits StoreRefine Kv Lists Queues Api Hist KvSpec
  HistInv KeySpace PlainSpec Plain ListSpec ListRep ListProg ListHist ThmList QueueSpec QueueRep QueueProg QueueHist ThmQueue
  TypedApi TypedSpec Typed Check ThmStore Faults FaultInv.
Implicit Types (M : kvmap) (cfg : config) (s : store).

(** Along every history with any number of calls that fail with an I/O error, the plain keys
    are those of a map, where a failing call took effect or not.  All other calls return what
    the map returns, and in particular work normally after the error.
    Missing here and below: errors of background compactions and of merge_small_shards (see the
    refutations), of the second rename and the removal in a split, and of [set_len] and
    [posix_fallocate] for the target of a compaction. *)
Theorem C59_errors_lose_nothing_partial : forall cfg s es cfg' s',
  created cfg s -> fhist fits cfg s es cfg' s' ->
  exists m, ftrace plain_step cfg ∅ es cfg' m /\ forall k, get cfg' s' k = Ok (m !! k).
Proof.
  intros cfg s es cfg' s' Hc Hh. assert (view ∅ ∅) as Hv by (intros k; by rewrite !lookup_empty).
  destruct (fhist_lift (fun _ M m => view M m) plain_step fits plain_lifts cfg s es cfg' s' true ∅ ∅ Hh (created_ok _ _ Hc) Hv)
    as (x & M & m & H1 & H2 & H3 & _).
  exists m. split; [done|]. intros k. unfold get. by rewrite (get_raw_ok _ _ _ _ _ H2), H3.
Qed.

(** One failing plain call, after any such history: the key has its old value or the one the
    call would have given it; every other key is untouched; reads change nothing. *)
Theorem C59_failed_call_partial : forall cfg0 s0 es cfg s o s',
  created cfg0 s0 -> fhist fits cfg0 s0 es cfg s ->
  kfits cfg (call_prog cfg (CPlain o)) s -> fstep cfg s (FFail (CPlain o)) cfg s' ->
  (forall k, get cfg s' k = get cfg s k) \/
  (exists m, (forall k, get cfg s k = Ok (m !! k)) /\ forall k, get cfg s' k = Ok (fst (spec_op cfg m o) !! k)).
Proof.
  intros cfg0 s0 es cfg s o s' Hc Hh Hf Hs. assert (view ∅ ∅) as Hv by (intros k; by rewrite !lookup_empty).
  destruct (fhist_lift (fun _ M m => view M m) plain_step fits plain_lifts cfg0 s0 es cfg s true ∅ ∅ Hh (created_ok _ _ Hc) Hv)
    as (x & M & m & H1 & H2 & H3 & _).
  assert (fhist fits cfg s [FFail (CPlain o)] cfg s') as Hh' by (econstructor; [exact Hf|exact Hs|constructor]).
  destruct (fhist_lift (fun _ M m => view M m) plain_step fits plain_lifts cfg s _ cfg s' x M m Hh' H2 H3)
    as (x' & M' & m' & T1 & I1 & V1 & _).
  assert (forall k, get cfg s k = Ok (m !! k)) as E0. { intros k. unfold get. by rewrite (get_raw_ok _ _ _ _ _ H2), H3. }
  assert (forall k, get cfg s' k = Ok (m' !! k)) as E1. { intros k. unfold get. by rewrite (get_raw_ok _ _ _ _ _ I1), V1. }
  inversion T1 as [|?|? ? ? a1 ? ? ? HT Ht]; subst. inversion Ht; subst. cbn [plain_step] in HT.
  destruct HT as [-> | ->]; [left; intros k; by rewrite E0, E1|right; by exists m].
Qed.

(** The typed store. *)
Theorem C59_typed_store_partial : forall (K V : Type) (EK : EqDecision K) (CK : Countable K) (EV : EqDecision V)
    (ck : codec K) (cv : codec V) tid cfg s es cfg' s',
  round_trips ck -> round_trips cv -> tid < 2 ^ 32 ->
  created cfg s -> fhist (tstore_guard ck cv tid) cfg s es cfg' s' ->
  exists m : gmap K V, ftrace (tstore_step ck cv tid) cfg ∅ es cfg' m /\
    forall k, tstore_reply cv (reply_to cfg' s' (tstore_call ck cv tid (TGet k))) = Ok (TOpt (m !! k)).
Proof.
  intros K V EK CK EV ck cv tid cfg s es cfg' s' HK HV Ht Hc Hh.
  destruct (fhist_lift _ _ _ (tstore_lifts ck cv tid HK HV Ht) cfg s es cfg' s' true ∅ ∅ Hh (created_ok _ _ Hc)) as (x & M & m & H1 & H2 & H3 & _).
  { intros k. by rewrite !lookup_empty. }
  exists m. split; [done|]. intros k. unfold reply_to.
  destruct (kwp_krun cfg' x _ _ _ _ M s' H2 (reads_fits cfg' (call_prog cfg' (tstore_call ck cv tid (TGet k))) ltac:(done) s')
    (typed_kwp ck cv tid HK HV Ht cfg' (TGet k) M m H3 I)) as (M' & _ & H).
  destruct (snd (krun cfg' _ s')) as [y|e]; cbn [tstore_reply] in *; [by destruct H as [-> _]|by destruct H].
Qed.

(** Lists: a failing call that adds or reads took effect or not (list_len may count one item
    too many for each failure, as after a crash, see C27); failing calls elsewhere do nothing. *)
Theorem C59_lists_partial : forall lk cfg s es cfg' s',
  created cfg s -> fhist (list_guard_lost lk) cfg s es cfg' s' ->
  exists l lost, ftrace (list_step_lost lk) cfg ([], 0) es cfg' (l, lost) /\ shows_items cfg' s' lk l.
Proof.
  intros lk cfg s es cfg' s' Hc Hh.
  destruct (fhist_lift _ _ _ (list_lost_lifts lk) cfg s es cfg' s' true ∅ ([], 0) Hh (created_ok _ _ Hc)) as (x & M & [l lost] & H1 & H2 & (its & H3 & H4) & _).
  { exists []. split; [apply rep_nil|done]. }
  cbn in H3, H4. exists l, lost. split; [done|]. rewrite <- H4. by eapply rep_shows.
Qed.
Theorem C59_queues_partial : forall qk cfg s es cfg' s',
  created cfg s -> fhist (queue_guard_lost qk) cfg s es cfg' s' ->
  exists q lost, ftrace (queue_step_lost qk) cfg ([], 0) es cfg' (q, lost) /\ shows_elems cfg' s' qk q.
Proof.
  intros qk cfg s es cfg' s' Hc Hh.
  destruct (fhist_lift _ _ _ (queue_lost_lifts qk) cfg s es cfg' s' true ∅ ([], 0) Hh (created_ok _ _ Hc)) as (x & M & [q lost] & H1 & H2 & [rng H3] & _).
  { exists None. apply qrep_nil. }
  exists q, lost. split; [done|]. by eapply qrep_shows.
Qed.
(** Big values, failures being elsewhere. *)
Theorem C59_big_values_partial : forall k cfg s es cfg' s',
  created cfg s -> fhist (big_guard k) cfg s es cfg' s' ->
  exists m, ftrace (big_step k) cfg None es cfg' m /\ reply_to cfg' s' (CBig k BGet) = Ok (YOpt m).
Proof.
  intros k cfg s es cfg' s' Hc Hh.
  destruct (fhist_lift _ _ _ (big_lifts k) cfg s es cfg' s' true ∅ None Hh (created_ok _ _ Hc)) as (x & M & m & H1 & H2 & (q & rng & H3 & H4 & H5) & _).
  { exists [], None. split; [apply qrep_nil|done]. }
  exists m. split; [done|]. unfold reply_to.
  destruct (kwp_krun cfg' x _ _ _ _ M s' H2 (reads_fits cfg' (call_prog cfg' (CBig k BGet)) ltac:(cbn [call_prog big_prog]; apply kwrites_map;
     unfold get_big; apply kwrites_seq; [|done]; exact (kwrites_iter_queue cfg' k)) s') (big_kwp cfg' k M q rng BGet H3 H5 I)) as (M' & _ & H).
  change (big_prog cfg' k BGet) with (call_prog cfg' (CBig k BGet)) in H.
  destruct (snd (krun cfg' (call_prog cfg' (CBig k BGet)) s')) as [y|e]; [|done].
  destruct H as (m' & [-> ->] & _). by rewrite H4.
Qed.
