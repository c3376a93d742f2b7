(** Concurrent queue calls that only add and look (C53). *)
From Verif Require Import Base Hashing HashingProofs Fs Shard Router RouterPure Wpc Spec FileRep RowOps
  Compact Inv ShardOps Split Insert Open Merge Create Store Limits StoreRefine Kv Lists Queues Api Hist KvSpec
  HistInv KeySpace PlainSpec Plain Check ThmStore ListSpec ListRep ListProg ListHist ThmList QueueSpec QueueRep QueueProg QueueHist ThmQueue
  Conc ConcSpec ConcLocal ConcFile ConcTree
  ConcInv ConcStep ConcRow ConcStruct ConcMain ConcLin ThmConc ConcLock ConcList ThmConcList ConcSeen ConcSess ConcListAll ThmConcListAll ConcQueue ThmConcQueue
  ConcReads ConcQueueAdd.
Implicit Types (cfg : config) (s : store) (es : list cevent) (c : cstate) (n : nat) (hs : list choice) (qk : bytes) (q : elems).

(** ** C53, the part that holds *)
(** A store with any history; then any number [n] of threads make calls, with splits and
    compactions of shards running, scheduled in any way.  As long as no call takes elements out of the
    queue [qk], all calls on it, iteration and peeks included, are those of a double-ended queue on
    which every call acts at one moment between its call and its return: they are atomic.  With
    calls that take elements out this fails ([C53_peek_is_atomic_refuted],
    [C53_iteration_is_atomic_refuted]). *)
Theorem C53_looking_while_adding_is_atomic_partial : forall qk cfg0 s0 (es0 : list event) cfg s n hs es c,
  created cfg0 s0 -> hist (queue_guard qk) cfg0 s0 es0 cfg s ->
  queue_room_for cfg s qk (weight (queue_w qk) es) ->
  crun cfg calm (conc s n) hs es c -> (forall a cl, EvCall a cl ∈ es -> queue_adds cfg qk cl) ->
  exists q q' P, trace (queue_step qk) cfg0 [] es0 cfg q /\ shows_queue cfg s qk q /\
    lrun (queue_call cfg qk) q ∅ es q' P /\
    (at_rest c -> P = ∅ /\ shows_queue cfg (store_of c) qk q').
Proof.
  intros qk cfg0 s0 es0 cfg s n hs es c Hc Hh Hroom Hr Hok.
  destruct (created_queue qk _ _ _ _ _ Hc Hh) as (x & M & q & rng & H1 & H2 & H3).
  destruct (conc_run _ _ _ _ _ _ _ _ H2 Hr) as (A & os & HC & Ha & Hcalm).
  destruct (room_qbud _ _ _ _ _ _ _ _ H2 H3 Hroom) as [G1 G2].
  destruct (lin_queue_adds cfg qk M es A (q, rng) Ha Hok G1) as ([q' rng'] & P & L1 & L2); [by split|].
  exists q, q', P. split; [done|]. split; [by eapply qrep_shows_all|]. split; [exact L1|].
  intros Hq. destruct L2 as [[L2 _] L3]; [by eapply at_rest_idle|]. split; [done|]. eapply qrep_shows_all; [|exact L2].
  eapply cinv_quiet; [exact HC|exact Hcalm|by apply at_rest_quiet].
Qed.
