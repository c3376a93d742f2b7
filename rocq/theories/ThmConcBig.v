(** Concurrent set_big, get_big and remove_big (C64). *)
From Verif Require Import Base Hashing HashingProofs Fs Shard Router RouterPure Wpc Spec FileRep RowOps
  Compact Inv ShardOps Split Insert Open Merge Create Store Limits StoreRefine Kv Lists Queues Api Hist KvSpec
  HistInv KeySpace PlainSpec Plain Check ThmStore ListSpec ListRep ListProg ListHist ThmList QueueSpec QueueRep QueueProg QueueHist ThmQueue
  Conc ConcSpec ConcLocal ConcFile ConcTree
  ConcInv ConcStep ConcRow ConcStruct ConcMain ConcLin ThmConc ConcLock ConcList ThmConcList ConcSeen ConcSess ConcListAll ThmConcListAll ConcQueue
  BigCrash ConcBig.
Implicit Types (cfg : config) (s : store) (es : list cevent) (c : cstate) (n : nat) (hs : list choice) (x : bool) (k : bytes) (ws : list bytes).

Lemma bR_shows cfg x (M : kvmap) s k (B : N) ws : SInv cfg x M s -> bR k B M ws -> reply_to cfg s (CBig k BGet) = Ok (YOpt (big_put (concat ws))).
Proof.
  intros HI HR. unfold reply_to.
  destruct (kwp_krun cfg x (big_prog cfg k BGet) (fun _ => True) (fun y _ => y = YOpt (big_put (concat ws))) (fun _ _ => False) M s HI) as (M' & _ & H).
  - apply (reads_fits cfg (call_prog cfg (CBig k BGet))). cbn [call_prog big_prog]. apply kwrites_map.
    unfold get_big. apply kwrites_seq; [|done]. exact (kwrites_iter_queue cfg k).
  - cbn [big_prog]. apply kwp_map. eapply kwp_mono; [| | |by eapply cbig_get]; [done| |done]. by intros y M' _ ->.
  - change (big_prog cfg k BGet) with (call_prog cfg (CBig k BGet)) in H. by destruct (snd (krun cfg (call_prog cfg (CBig k BGet)) s)) as [y|e]; [subst|].
Qed.

(** ** C64 *)
(** A store with any history, with crashes; then any number [n] of threads make calls, with splits and
    compactions of shards running, scheduled in any way: any calls, except for queue calls with the key [k]
    and values for [k] beyond the limits.  The calls on the big value [k] are those of an object whose state
    is a list of values: remove_big empties it, set_big empties it at one moment and appends its value at
    another, both between its call and its return.  Whenever no call is in progress, get_big returns the
    concatenation of the list: the values of several set_big calls may have been joined, but each is there as
    a whole, in one place, and removed as a whole.
    Missing: the two steps of set_big are not one ([C64_set_big_is_atomic_refuted]), and nothing is said
    about a get_big that overlaps them ([C64_get_big_is_atomic_refuted]). *)
Theorem C64_concurrent_big_values_partial : forall k cfg0 s0 (es0 : list event) cfg s n hs es c,
  created cfg0 s0 -> hist (big_guard_crash k) cfg0 s0 es0 cfg s ->
  weight (big_w k) es < 2 ^ 61 ->
  crun cfg calm (conc s n) hs es c -> (forall a cl, EvCall a cl ∈ es -> big_any cfg k cl) ->
  exists m g ws ws' P, trace (big_step_crash k) cfg0 (None, false) es0 cfg (m, g) /\
    reply_to cfg s (CBig k BGet) = Ok (YOpt m) /\ m = big_put (concat ws) /\ (length ws <= 1)%nat /\
    hrun (big_seen k) (big_mid k) ws ∅ es ws' P /\
    (at_rest c -> P = ∅ /\ reply_to cfg (store_of c) (CBig k BGet) = Ok (YOpt (big_put (concat ws')))).
Proof.
  intros k cfg0 s0 es0 cfg s n hs es c Hc Hh HB Hr Hok.
  destruct (hist_lift _ _ _ (big_crash_lifts k) cfg0 s0 es0 cfg s true ∅ (None, false) Hh (created_ok _ _ Hc)) as (x & M & [m g] & H1 & H2 & H3 & _).
  { apply brep_none, lookup_empty. }
  destruct (cbig_start k M m g _ H3 HB) as (ws & K1 & K2 & K3).
  destruct (conc_run _ _ _ _ _ _ _ _ H2 Hr) as (A & os & HC & Ha & Hcalm).
  destruct (lin_big cfg k M es A ws Ha Hok K1) as (ws' & P & L1 & L2).
  exists m, g, ws, ws', P. split; [done|]. split; [rewrite K2; by eapply bR_shows|]. split; [done|]. split; [done|]. split; [done|].
  intros Hq. destruct L2 as [L2 ->]; [by eapply at_rest_idle|]. split; [done|]. eapply bR_shows; [|exact L2].
  eapply cinv_quiet; [exact HC|exact Hcalm|by apply at_rest_quiet].
Qed.
