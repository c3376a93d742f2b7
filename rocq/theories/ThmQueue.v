(** The properties of queues and big values (C20, C28-C31). *)
From Verif Require Import Base Hashing HashingProofs Fs Shard Router RouterPure Wpc Spec FileRep RowOps
  Compact Inv ShardOps Split Insert Open Merge Create Store Limits StoreRefine Kv Lists Queues Api Hist KvSpec
  HistInv KeySpace ListSpec ListRep ListProg ListHist ThmList QueueSpec QueueRep QueueProg QueueHist.
Implicit Types (M : kvmap) (cfg : config) (s : store) (q : elems) (lost : N) (rng : option (N * N)) (qk : bytes).

(** The queue [qk] of the store is [q], as seen by iteration and peeking in both directions and
    by queue_len. *)
Definition shows_queue (cfg : config) (s : store) (qk : bytes) (q : elems) : Prop :=
  forall c y, queue_reads c = true -> c <> QRange -> queue_spec q c y q -> reply_to cfg s (CQueue qk c) = Ok y.
(** The same without queue_len. *)
Definition shows_elems (cfg : config) (s : store) (qk : bytes) (q : elems) : Prop :=
  forall c y, queue_reads c = true -> c <> QRange -> c <> QLen -> queue_spec q c y q -> reply_to cfg s (CQueue qk c) = Ok y.

Lemma qspec_det q c y y' q' : queue_reads c = true -> c <> QRange -> queue_spec q c y q -> queue_spec q c y' q' -> y' = y.
Proof. destruct c; try done; intros _ _ [_ ->] [_ ->]; done. Qed.
Lemma qrep_shows cfg x M s qk q lost rng : SInv cfg x M s -> qrep qk M q lost rng -> shows_elems cfg s qk q.
Proof.
  intros HI HR c y Hc Hn1 Hn2 Hs. unfold reply_to.
  destruct (kwp_krun cfg x _ _ _ _ M s HI (reads_fits cfg _ (queue_reads_writes cfg qk c Hc) s)
    (queue_kwp cfg qk M q lost rng c HR ltac:(congruence) ltac:(by destruct c))) as (M' & _ & H).
  change (queue_prog cfg qk c) with (call_prog cfg (CQueue qk c)) in H.
  destruct (snd (krun cfg (call_prog cfg (CQueue qk c)) s)) as [y'|e].
  - destruct H as (q' & lost' & rng' & _ & _ & H). f_equal. apply (qspec_det q c y y' q'); [done|done|exact Hs|]. destruct c; try done; exact H.
  - exfalso. destruct H as (_ & H & _). apply H. by destruct c.
Qed.
Lemma qrep_shows_all cfg x M s qk q rng : SInv cfg x M s -> qrep qk M q 0 rng -> shows_queue cfg s qk q.
Proof.
  intros HI HR c y Hc Hn Hs. destruct c; try (eapply qrep_shows; done).
  destruct Hs as [_ ->]. unfold reply_to. cbn [call_prog]. rewrite (read_len cfg x M s qk q 0 rng HI HR). by rewrite N.add_0_r.
Qed.
Lemma shows_elems_eq cfg s qk q q' : shows_elems cfg s qk q -> shows_elems cfg s qk q' -> q = q'.
Proof.
  intros H1 H2. pose proof (H1 (QIter true) _ eq_refl ltac:(done) ltac:(done) ltac:(by split)) as E1.
  pose proof (H2 (QIter true) _ eq_refl ltac:(done) ltac:(done) ltac:(by split)) as E2. rewrite E2 in E1. by injection E1.
Qed.
Lemma shows_weaken cfg s qk q : shows_queue cfg s qk q -> shows_elems cfg s qk q.
Proof. intros H c y H1 H2 _ H3. by apply H. Qed.

Lemma created_queue qk cfg s es cfg' s' : created cfg s -> hist (queue_guard qk) cfg s es cfg' s' ->
  exists x M q rng, trace (queue_step qk) cfg [] es cfg' q /\ SInv cfg' x M s' /\ qrep qk M q 0 rng.
Proof.
  intros Hc Hh. destruct (hist_lift _ _ _ (queue_lifts qk) cfg s es cfg' s' true ∅ [] Hh (created_ok _ _ Hc)) as (x & M & q & H1 & H2 & [rng H3] & _).
  { exists None. apply qrep_nil. }
  by exists x, M, q, rng.
Qed.
Lemma created_queue_lost qk cfg s es cfg' s' : created cfg s -> hist (queue_guard_lost qk) cfg s es cfg' s' ->
  exists x M q lost rng, trace (queue_step_lost qk) cfg ([], 0) es cfg' (q, lost) /\ SInv cfg' x M s' /\ qrep qk M q lost rng.
Proof.
  intros Hc Hh. destruct (hist_lift _ _ _ (queue_lost_lifts qk) cfg s es cfg' s' true ∅ ([], 0) Hh (created_ok _ _ Hc)) as (x & M & [q lost] & H1 & H2 & [rng H3] & _).
  { exists None. apply qrep_nil. }
  by exists x, M, q, lost, rng.
Qed.

(** ** C28 *)
(** Along every history the calls on the queue [qk] return what the calls on a double-ended queue
    return (they never fail), and at the end all reading calls show that queue. *)
Theorem C28_queue_is_a_deque : forall qk cfg s es cfg' s',
  created cfg s -> hist (queue_guard qk) cfg s es cfg' s' ->
  exists q, trace (queue_step qk) cfg [] es cfg' q /\ shows_queue cfg' s' qk q.
Proof.
  intros qk cfg s es cfg' s' Hc Hh. destruct (created_queue qk cfg s es cfg' s' Hc Hh) as (x & M & q & rng & H1 & H2 & H3).
  exists q. split; [done|by eapply qrep_shows_all].
Qed.

(** The event is not a call on the queue [qk], nor [clear]. *)
Definition not_on_queue (qk : bytes) (e : event) : Prop :=
  match e with EClear => False | ECall (CQueue qk' _) _ | ECrash (ACall (CQueue qk' _)) => qk' <> qk | _ => True end.
(** Whatever happens elsewhere, including crashes, leaves the queue as it is. *)
Theorem C28_queues_are_independent : forall qk cfg s es cfg1 s1 es' cfg' s',
  created cfg s -> hist (queue_guard qk) cfg s es cfg1 s1 ->
  hist (queue_guard qk) cfg1 s1 es' cfg' s' -> Forall (not_on_queue qk) es' ->
  exists q, shows_queue cfg1 s1 qk q /\ shows_queue cfg' s' qk q.
Proof.
  intros qk cfg s es cfg1 s1 es' cfg' s' Hc Hh1 Hh2 Hn.
  destruct (created_queue qk cfg s es cfg1 s1 Hc Hh1) as (x & M & q & rng & H1 & H2 & H3).
  destruct (hist_lift _ _ _ (queue_lifts qk) cfg1 s1 es' cfg' s' x M q Hh2 H2) as (x' & M' & q' & H4 & H5 & [rng' H6] & _).
  { by exists rng. }
  exists q. split; [by eapply qrep_shows_all|].
  assert (q' = q) as <-; [|by eapply qrep_shows_all].
  clear - H4 Hn. induction H4 as [|cfg a e cfg1 a1 es cfg' a' Hcf HT Htr IH]; [done|]. apply Forall_cons in Hn as [Hn1 Hn2].
  rewrite (IH Hn2). destruct e as [[o|tid o|lk' c|qk' c|b c] r|mt| | |act]; cbn [queue_step not_on_queue] in *; try done.
  by rewrite bool_decide_false in HT.
Qed.

(** ** C29 *)
(** remove_from_queue returns the element with that index and leaves the queue without it (and
    by C28 all later calls behave as on that queue).  Missing: the call on the only index of the
    range, after which pushed elements get lost (see [C29_sole_element_refuted]). *)
Theorem C29_remove_by_index_partial : forall qk cfg s es cfg1 s1 i s' r q,
  created cfg s -> hist (queue_guard qk) cfg s es cfg1 s1 -> queue_room cfg1 s1 qk 0 ->
  queue_not_sole cfg1 s1 qk (QRemove i) -> kfits cfg1 (call_prog cfg1 (CQueue qk (QRemove i))) s1 ->
  krun cfg1 (call_prog cfg1 (CQueue qk (QRemove i))) s1 = (s', r) ->
  shows_queue cfg1 s1 qk q ->
  r = Ok (YOpt (q_get q i)) /\ shows_queue cfg1 s' qk (q_remove q i) /\
  hist (queue_guard qk) cfg s (es ++ [ECall (CQueue qk (QRemove i)) r]) cfg1 s'.
Proof.
  intros qk cfg s es cfg1 s1 i s' r q Hc Hh Hroom Hsole Hf Hr Hq.
  destruct (created_queue qk cfg s es cfg1 s1 Hc Hh) as (x & M & q0 & rng & H1 & H2 & H3).
  assert (q0 = q) as ->.
  { eapply shows_elems_eq; [by eapply qrep_shows|by apply shows_weaken]. }
  destruct (kwp_krun cfg1 x _ _ _ _ M s1 H2 Hf (queue_kwp cfg1 qk M q 0 rng (QRemove i) H3 ltac:(intros _; by eapply qok_ok) ltac:(done))) as (M' & HI' & H).
  change (queue_prog cfg1 qk (QRemove i)) with (call_prog cfg1 (CQueue qk (QRemove i))) in *.
  rewrite Hr in HI', H. cbn [fst snd] in *. destruct r as [y|e]; [|by destruct H as (_ & H & _); destruct H].
  destruct H as (q' & lost' & rng' & H4 & H5 & H6). assert (lost' = 0) as -> by lia. cbn in H6. destruct H6 as [-> ->].
  split; [done|]. split; [by eapply qrep_shows_all|].
  clear - Hh Hroom Hsole Hf Hr. induction Hh as [cfg s|cfg s e cfg2 s2 es cfg3 s3 Hg Hs Hh IH].
  - cbn. econstructor; [|constructor; exact Hr|constructor]. split; [done|]. done.
  - cbn. econstructor; [done|done|]. by apply IH.
Qed.

(** ** C30 *)
(** A crash during any call except extend_queue leaves, after recovery, the elements before or after
    the call (a discard may leave a part of them); iteration and peeking agree.  Missing: queue_len
    (see [C30_queue_len_refuted]). *)
Theorem C30_crash_partial : forall qk cfg s es cfg1 s1 c w cfg' s',
  created cfg s -> hist (queue_guard_lost qk) cfg s es cfg1 s1 ->
  queue_guard_lost qk cfg1 s1 (ECrash (ACall (CQueue qk c))) ->
  kdies cfg1 (call_prog cfg1 (CQueue qk c)) s1 w -> c_hash cfg' = c_hash cfg1 -> recovers cfg' w s' ->
  exists q q', shows_elems cfg1 s1 qk q /\ shows_elems cfg' s' qk q' /\ queue_crash q c q'.
Proof.
  intros qk cfg s es cfg1 s1 c w cfg' s' Hc Hh Hg Hd Hh' Hrec.
  destruct (created_queue_lost qk cfg s es cfg1 s1 Hc Hh) as (x & M & q & lost & rng & H1 & H2 & H3).
  destruct (step_lift _ _ _ (queue_lost_lifts qk) cfg1 s1 (ECrash (ACall (CQueue qk c))) cfg' s' x M (q, lost))
    as (x' & M' & [q' lost'] & HT & HI' & [rng' H5] & _).
  - by econstructor.
  - done.
  - done.
  - by exists rng.
  - cbn [fst snd] in *. cbn [queue_step_lost] in HT. rewrite bool_decide_true in HT by done. destruct HT as [_ HT].
    exists q, q'. split; [by eapply qrep_shows|]. split; [by eapply qrep_shows|]. exact HT.
Qed.
(** Along every history with rejected calls and crashes, the replies are those of a deque,
    except that queue_len may report too many. *)
Theorem C30_queue_histories_with_crashes_partial : forall qk cfg s es cfg' s',
  created cfg s -> hist (queue_guard_lost qk) cfg s es cfg' s' ->
  exists q lost, trace (queue_step_lost qk) cfg ([], 0) es cfg' (q, lost) /\ shows_elems cfg' s' qk q.
Proof.
  intros qk cfg s es cfg' s' Hc Hh. destruct (created_queue_lost qk cfg s es cfg' s' Hc Hh) as (x & M & q & lost & rng & H1 & H2 & H3).
  exists q, lost. split; [done|by eapply qrep_shows].
Qed.

(** ** C20 *)
(** A push that fails leaves the elements as they were.  Missing: queue_len counts the rejected
    element (see [C20_queue_len_refuted]). *)
Theorem C20_rejected_push_partial : forall qk cfg s es cfg1 s1 c s' e,
  created cfg s -> hist (queue_guard_lost qk) cfg s es cfg1 s1 ->
  queue_guard_lost qk cfg1 s1 (ECall (CQueue qk c) (Err e)) ->
  krun cfg1 (call_prog cfg1 (CQueue qk c)) s1 = (s', Err e) ->
  exists q, shows_elems cfg1 s1 qk q /\ shows_elems cfg1 s' qk q /\ ~ qcall_accepts cfg1 qk c.
Proof.
  intros qk cfg s es cfg1 s1 c s' e Hc Hh Hg Hr.
  destruct (created_queue_lost qk cfg s es cfg1 s1 Hc Hh) as (x & M & q & lost & rng & H1 & H2 & H3).
  destruct (step_lift _ _ _ (queue_lost_lifts qk) cfg1 s1 (ECall (CQueue qk c) (Err e)) cfg1 s' x M (q, lost))
    as (x' & M' & [q' lost'] & HT & HI' & [rng' H5] & _).
  - by econstructor.
  - done.
  - done.
  - by exists rng.
  - cbn [fst snd] in *. cbn [queue_step_lost] in HT. rewrite bool_decide_true in HT by done. destruct HT as (_ & HT1 & HT2). cbn in HT2. subst q'.
    exists q. split; [by eapply qrep_shows|]. split; [by eapply qrep_shows|done].
Qed.

(** ** C31 *)
(** Along every history set_big, get_big and remove_big on the key [k] behave as one map entry.
    Missing: the empty value (see [C31_empty_value_refuted]). *)
Theorem C31_big_values_partial : forall k cfg s es cfg' s',
  created cfg s -> hist (big_guard k) cfg s es cfg' s' ->
  exists m, trace (big_step k) cfg None es cfg' m /\ reply_to cfg' s' (CBig k BGet) = Ok (YOpt m).
Proof.
  intros k cfg s es cfg' s' Hc Hh.
  destruct (hist_lift _ _ _ (big_lifts k) cfg s es cfg' s' true ∅ None Hh (created_ok _ _ Hc)) as (x & M & m & H1 & H2 & (q & rng & H3 & H4 & H5) & _).
  { exists [], None. split; [apply qrep_nil|done]. }
  exists m. split; [done|]. unfold reply_to.
  destruct (kwp_krun cfg' x _ _ _ _ M s' H2 (reads_fits cfg' (call_prog cfg' (CBig k BGet)) ltac:(cbn [call_prog big_prog]; apply kwrites_map;
     unfold get_big; apply kwrites_seq; [|done]; exact (kwrites_iter_queue cfg' k)) s') (big_kwp cfg' k M q rng BGet H3 H5 I)) as (M' & _ & H).
  change (big_prog cfg' k BGet) with (call_prog cfg' (CBig k BGet)) in H.
  destruct (snd (krun cfg' (call_prog cfg' (CBig k BGet)) s')) as [y|e]; [|done].
  destruct H as (m' & [-> ->] & _). by rewrite H4.
Qed.
