(** Concurrent queue calls (C52). *)
From Coq Require Import Sorted.
From Verif Require Import Base Hashing HashingProofs Fs Shard Router RouterPure Wpc Spec FileRep RowOps
  Compact Inv ShardOps Split Insert Open Merge Create Store Limits StoreRefine Kv Lists Queues Api Hist KvSpec
  HistInv KeySpace PlainSpec Plain Check ThmStore ListSpec ListRep ListProg ListHist ThmList QueueSpec QueueRep QueueProg QueueHist ThmQueue
  Conc ConcSpec ConcLocal ConcFile ConcTree
  ConcInv ConcStep ConcRow ConcStruct ConcMain ConcLin ThmConc ConcLock ConcList ThmConcList ConcSeen ConcSess ConcListAll ThmConcListAll ConcQueue.
Implicit Types (cfg : config) (s : store) (es : list cevent) (c : cstate) (n : nat) (hs : list choice) (x ex : bool) (qk : bytes) (q : elems).

(** The 64-bit indices of the queue, as reported by queue_range and queue_len, suffice for [k]
    more elements (the indices start in the middle of the range). *)
Definition queue_room_for cfg s qk (k : N) : Prop :=
  (forall M, content cfg s M -> entries_ok cfg M) /\ FIRST_IDX + 2 * k + 1 < U64 /\
  forall h t m, reply_to cfg s (CQueue qk QRange) = Ok (YRange (h, t)) -> reply_to cfg s (CQueue qk QLen) = Ok (YNum m) ->
    1 + k <= h /\ t + m + 2 * k + 1 < U64.

Lemma room_qbud cfg s qk (k : N) (y : bool) (M : kvmap) q rng : SInv cfg y M s -> qrep qk M q 0 rng -> queue_room_for cfg s qk k -> entries_ok cfg M /\ qbud k (M !! queue_key qk).
Proof.
  intros HI HR (H1 & H2 & H3). split; [apply H1; by eapply SInv_content|]. split; [done|].
  pose proof (read_range _ _ _ _ _ _ _ _ HI HR) as E1. rewrite (surjective_pairing (rng_reply rng)) in E1.
  specialize (H3 _ _ _ E1 (read_len _ _ _ _ _ _ _ _ HI HR)). clear E1.
  destruct HR as [_ HR]. destruct rng as [[h t]|]; cbn [rng_reply fst snd] in *.
  - destruct HR as (-> & K1 & K2 & K3 & K4). exists h, t, (len q + 0). split; [done|]. lia.
  - by destruct HR as (-> & _).
Qed.
Lemma conc_queue qk ex cfg s n hs es c x (M : kvmap) q rng :
  SInv cfg x M s -> qrep qk M q 0 rng -> queue_room_for cfg s qk (weight (queue_w qk) es) ->
  crun cfg calm (conc s n) hs es c -> (forall a cl, EvCall a cl ∈ es -> queue_any cfg qk ex cl) ->
  exists A os q' P, CInv cfg x c A os /\ calm c /\ hrun (queue_seen qk ex) no_mid q ∅ es q' P /\ qV qk ex (a_map A) q' /\
    (at_rest c -> (exists rng', qrep qk (a_map A) q' 0 rng') /\ P = ∅).
Proof.
  intros HI HR Hroom Hr Hok. destruct (conc_run _ _ _ _ _ _ _ _ HI Hr) as (A & os & HC & Ha & Hcalm).
  destruct (room_qbud _ _ _ _ _ _ _ _ HI HR Hroom) as [H1 H2].
  destruct (lin_queue cfg qk ex M es A q Ha Hok H1) as (q' & P & L1 & L2 & L3); [by split; [exists rng|]|].
  exists A, os, q', P. split; [done|]. split; [done|]. split; [done|]. split; [done|]. intros Hq. destruct L3 as [[L3 _] L4]; [by eapply at_rest_idle|done].
Qed.

(** ** C52 *)
(** A store with any history; then any number [n] of threads make calls, with splits and
    compactions of shards running, scheduled in any way. The calls on the queue [qk] are any but
    remove_from_queue, within the limits; the others are arbitrary, except for big values with the
    key [qk]. The calls on [qk] and their results are those of a double-ended queue on which every
    call acts at one moment between its call and its return; iterating and peeking return elements
    that were in the queue at some moment since the call (if extend_queue is not used), iteration
    in the order of the indices. Whenever no call is in progress the store shows exactly that
    queue. *)
Theorem C52_queue_calls_are_linearizable : forall qk ex cfg0 s0 (es0 : list event) cfg s n hs es c,
  created cfg0 s0 -> hist (queue_guard qk) cfg0 s0 es0 cfg s ->
  queue_room_for cfg s qk (weight (queue_w qk) es) ->
  crun cfg calm (conc s n) hs es c -> (forall a cl, EvCall a cl ∈ es -> queue_any cfg qk ex cl) ->
  exists q q' P, trace (queue_step qk) cfg0 [] es0 cfg q /\ shows_queue cfg s qk q /\
    hrun (queue_seen qk ex) no_mid q ∅ es q' P /\
    (at_rest c -> P = ∅ /\ shows_queue cfg (store_of c) qk q').
Proof.
  intros qk ex cfg0 s0 es0 cfg s n hs es c Hc Hh Hroom Hr Hok.
  destruct (created_queue qk _ _ _ _ _ Hc Hh) as (x & M & q & rng & H1 & H2 & H3).
  destruct (conc_queue qk ex cfg s n hs es c x M q rng H2 H3 Hroom Hr Hok) as (A & os & q' & P & K1 & K2 & K3 & _ & K4).
  exists q, q', P. split; [done|]. split; [by eapply qrep_shows_all|]. split; [done|].
  intros Hq. destruct (K4 Hq) as [[rng' L1] ->]. split; [done|]. eapply qrep_shows_all; [|exact L1].
  eapply cinv_quiet; [exact K1|exact K2|by apply at_rest_quiet].
Qed.

(** ** Producers and consumers *)
(** The values pushed, the values popped. *)
Definition push_of (cl : call) : list bytes := match cl with CQueue _ (QPush _ v) => [v] | _ => [] end.
Definition pop_of (r : res reply) : list bytes := match r with Ok (YElem (Some (_, v))) => [v] | _ => [] end.
Fixpoint q_pushed (es : list cevent) : list bytes :=
  match es with [] => [] | EvCall _ cl :: es => push_of cl ++ q_pushed es | _ :: es => q_pushed es end.
Fixpoint q_popped (es : list cevent) : list bytes :=
  match es with [] => [] | EvRet _ r :: es => pop_of r ++ q_popped es | _ :: es => q_popped es end.
Definition push_pop (qk : bytes) (cl : call) : Prop := exists at_head, cl = CQueue qk (QPop at_head) \/ exists v, cl = CQueue qk (QPush at_head v).

(** The values in transit: pushed but not in the queue, out of the queue but not returned. *)
Definition load_of (x : nat * hphase elems) : list bytes := match snd x with HCalled cl _ => push_of cl | HDone r => pop_of r end.
Definition load (P : gmap nat (hphase elems)) : list bytes := mjoin (load_of <$> map_to_list P).
Lemma load_insert (P : gmap nat (hphase elems)) a ph : P !! a = None -> load (<[a := ph]> P) ≡ₚ load_of (a, ph) ++ load P.
Proof. intros Ha. unfold load. rewrite (mjoin_perm _ (load_of <$> (a, ph) :: map_to_list P)); [done|]. by apply fmap_Permutation, map_to_list_insert. Qed.
Lemma load_saw q (P : gmap nat (hphase elems)) : load (saw q <$> P) ≡ₚ load P.
Proof.
  unfold load. rewrite (mjoin_perm _ (load_of <$> (prod_map id (saw q) <$> map_to_list P))) by apply fmap_Permutation, map_to_list_fmap.
  rewrite <- list_fmap_compose. rewrite (list_fmap_ext (load_of ∘ prod_map id (saw q)) load_of (map_to_list P)); [done|]. by intros ? [a [cl seen|r]].
Qed.
Lemma load_delete (P : gmap nat (hphase elems)) a ph : P !! a = Some ph -> load P ≡ₚ load_of (a, ph) ++ load (delete a P).
Proof. intros Ha. rewrite <- load_insert by apply lookup_delete. by rewrite insert_delete. Qed.

Lemma flow_run qk ex q P es q' P' :
  hrun (queue_seen qk ex) no_mid q P es q' P' -> (forall a cl, EvCall a cl ∈ es -> push_pop qk cl) ->
  (forall a cl seen, P !! a = Some (HCalled cl seen) -> push_pop qk cl) ->
  map snd q ++ load P ++ q_pushed es ≡ₚ map snd q' ++ load P' ++ q_popped es.
Proof.
  induction 1 as [q P|q P a cl es q' P' Ha _ IH|q P a cl seen r q1 es q' P' Ha Hs _ IH|q P a cl seen q1 es q' P' Ha Hs _ IH|q P a r es q' P' Ha _ IH]; intros Hok HP.
  - done.
  - cbn [q_pushed q_popped]. assert (push_pop qk cl) as Hcl by (apply (Hok a), elem_of_cons; by left).
    rewrite <- IH; [|intros b c' Hin; apply (Hok b), elem_of_cons; by right|].
    + rewrite load_insert by done. change (load_of (a, HCalled cl [q])) with (push_of cl). rewrite !app_assoc. apply Permutation_app_tail.
      rewrite <- !app_assoc. apply Permutation_app_head, Permutation_app_comm.
    + intros b c' seen. destruct (decide (b = a)) as [->|Hne]; [rewrite lookup_insert; by intros [= <- <-]|rewrite lookup_insert_ne by done; apply HP].
  - pose proof (HP _ _ _ Ha) as Hcl.
    assert (HP' : forall b cl' seen', (saw q1 <$> <[a:=HDone r]> P) !! b = Some (HCalled cl' seen') -> push_pop qk cl').
    { intros b cl' seen'. rewrite lookup_fmap. destruct (decide (b = a)) as [->|Hne]; [by rewrite lookup_insert|]. rewrite lookup_insert_ne by done.
      destruct (P !! b) as [[c2 seen2|r2]|] eqn:Eb; cbn; try done. intros [= <- <-]. by eapply HP. }
    rewrite <- (IH Hok HP'). rewrite load_saw, <- insert_delete_insert, load_insert by apply lookup_delete. rewrite (load_delete P a _ Ha).
    change (load_of (a, HDone r)) with (pop_of r). change (load_of (a, HCalled cl seen)) with (push_of cl).
    assert (map snd q ++ push_of cl ≡ₚ map snd q1 ++ pop_of r) as Hq.
    { destruct Hcl as [at_head [->|[v ->]]]; cbn [queue_seen] in Hs; rewrite bool_decide_eq_true_2 in Hs by done; destruct Hs as (y & -> & Hs); cbn [qseen queue_spec] in Hs.
      - destruct Hs as [-> ->]. cbn [push_of pop_of]. rewrite app_nil_r. unfold q_end, q_rest. destruct at_head.
        + destruct q as [|[i v] q]; [done|]. cbn. by rewrite <- Permutation_cons_append.
        + destruct q as [|[i v] q _] using rev_ind; [done|]. rewrite last_snoc, removelast_last, map_app. done.
      - destruct Hs as (i & -> & _ & ->). cbn [push_of pop_of]. unfold q_push. destruct at_head; cbn [map snd]; rewrite app_nil_r; [by rewrite <- Permutation_cons_append|].
        by rewrite map_app. }
    rewrite !app_assoc. by rewrite Hq.
  - done.
  - cbn [q_pushed q_popped]. rewrite (load_delete P a _ Ha). change (load_of (a, HDone r)) with (pop_of r).
    assert (Hok' : forall b (k : call), EvCall b k ∈ es -> push_pop qk k) by (intros b k Hin; apply (Hok b), elem_of_cons; by right).
    assert (HP' : forall b cl seen, delete a P !! b = Some (HCalled cl seen) -> push_pop qk cl) by (intros b cl seen Hb; apply lookup_delete_Some in Hb as [_ Hb]; by eapply HP).
    specialize (IH Hok' HP'). transitivity (pop_of r ++ (map snd q ++ load (delete a P) ++ q_pushed es)).
    + rewrite !app_assoc. do 2 apply Permutation_app_tail. apply Permutation_app_comm.
    + rewrite IH. rewrite !app_assoc. apply Permutation_app_tail. rewrite <- !app_assoc. rewrite Permutation_app_comm. by rewrite <- app_assoc.
Qed.

(** Any number of threads push to and pop from both ends of a queue: when all have returned, the
    values they popped and the values left are together exactly the values that were in the queue
    and the values pushed: none is lost, none is returned twice. *)
Theorem C52_nothing_lost_or_repeated : forall qk cfg0 s0 (es0 : list event) cfg s n hs es c,
  created cfg0 s0 -> hist (queue_guard qk) cfg0 s0 es0 cfg s ->
  queue_room_for cfg s qk (weight (queue_w qk) es) ->
  crun cfg calm (conc s n) hs es c -> (forall a cl, EvCall a cl ∈ es -> push_pop qk cl /\ queue_any cfg qk false cl) ->
  at_rest c ->
  exists q q', shows_queue cfg s qk q /\ shows_queue cfg (store_of c) qk q' /\ map snd q ++ q_pushed es ≡ₚ map snd q' ++ q_popped es.
Proof.
  intros qk cfg0 s0 es0 cfg s n hs es c Hc Hh Hroom Hr Hok Hq.
  destruct (C52_queue_calls_are_linearizable qk false cfg0 s0 es0 cfg s n hs es c Hc Hh Hroom Hr) as (q & q' & P & H1 & H2 & H3 & H4).
  { intros a cl Hin. by apply (Hok a). }
  destruct (H4 Hq) as [-> H5]. exists q, q'. split; [done|]. split; [done|].
  pose proof (flow_run qk false _ _ _ _ _ H3 (fun a cl Hin => proj1 (Hok a cl Hin)) ltac:(by intros a cl seen)) as Hd.
  unfold load in Hd. rewrite !map_to_list_empty in Hd. exact Hd.
Qed.
