(** Concurrent list calls that only add, change values and look (C51). *)
From Verif Require Import Base Hashing HashingProofs Fs Shard Router RouterPure Wpc Spec FileRep RowOps
  Compact Inv ShardOps Split Insert Open Merge Create Store Limits StoreRefine Kv Lists Queues Api Hist KvSpec
  HistInv KeySpace PlainSpec Plain Check ThmStore ListSpec ListRep ListProg ListHist ThmList Conc ConcSpec ConcLocal ConcFile ConcTree
  ConcInv ConcStep ConcRow ConcStruct ConcMain ConcLin ThmConc ConcLock ConcList ThmConcList ConcSeen ConcSess ConcListAll ThmConcListAll ConcReads ConcListAdd.
Implicit Types (cfg : config) (s : store) (es : list cevent) (c : cstate) (n : nat) (hs : list choice) (x vals : bool) (lk : bytes) (its : ixs) (l : items).

Lemma rep_rec_at cfg lk (M : kvmap) its : rep cfg lk M its 0 -> exists rng, rec_at lk M rng.
Proof.
  intros HR. destruct (rec_case _ _ _ _ _ HR) as [(H1 & _)|(h & t & H1 & H2 & H3 & _ & H5)]; [by exists None|].
  exists (Some (h, t)), (len its + 0). split; [done|]. lia.
Qed.
Lemma conc_list_adds lk vals cfg s n hs es c x (M : kvmap) its :
  SInv cfg x M s -> rep cfg lk M its 0 -> room_for cfg s lk (weight (list_w lk) es) ->
  crun cfg calm (conc s n) hs es c -> (forall a cl, EvCall a cl ∈ es -> list_adds cfg lk vals cl) ->
  exists l' P, hrun (list_add_seen lk vals) no_mid (map snd its) ∅ es l' P /\
    (at_rest c -> P = ∅ /\ shows_list cfg (store_of c) lk l').
Proof.
  intros HI HR Hroom Hr Hok. destruct (conc_run _ _ _ _ _ _ _ _ HI Hr) as (A & os & HC & Ha & Hcalm).
  destruct (Hroom M) as [H1 H2]; [by eapply SInv_content|]. destruct (rep_rec_at _ _ _ _ HR) as [rng Hrng].
  destruct (lin_list_adds cfg lk vals M es A (its, rng) Ha Hok H1) as (l' & P & L1 & L2); [by split|].
  exists (itm l'), P. split; [exact L1|]. intros Hq. destruct L2 as [(L2 & _) ->]; [by eapply at_rest_idle|]. split; [done|].
  eapply rep_shows_all; [|exact L2]. eapply cinv_quiet; [exact HC|exact Hcalm|by apply at_rest_quiet].
Qed.

(** ** C51, the part that holds *)
(** A store with any history; then any number [n] of threads make calls, with splits and
    compactions of shards running, scheduled in any way. As long as the calls on the list [lk] add
    items, change values and look, but neither remove nor move items, every iteration returns
    exactly the keys that the list had at one moment since its call, in the order of the list, each
    with a value it had at some moment since the call, and a peek the key at the end of the list
    at one moment: no item is missed or repeated. *)
Theorem C51_iterating_while_adding_partial : forall lk cfg0 s0 (es0 : list event) cfg s n hs es c,
  created cfg0 s0 -> hist (list_guard lk) cfg0 s0 es0 cfg s ->
  room_for cfg s lk (weight (list_w lk) es) ->
  crun cfg calm (conc s n) hs es c -> (forall a cl, EvCall a cl ∈ es -> list_adds cfg lk false cl) ->
  exists l l' P, trace (list_step lk) cfg0 [] es0 cfg l /\ shows_list cfg s lk l /\
    hrun (list_add_seen lk false) no_mid l ∅ es l' P /\
    (at_rest c -> P = ∅ /\ shows_list cfg (store_of c) lk l').
Proof.
  intros lk cfg0 s0 es0 cfg s n hs es c Hc Hh Hroom Hr Hok.
  destruct (created_list lk _ _ _ _ _ Hc Hh) as (x & M & its & H1 & H2 & H3).
  destruct (conc_list_adds lk false cfg s n hs es c x M its H2 H3 Hroom Hr Hok) as (l' & P & L1 & L2).
  exists (map snd its), l', P. split; [done|]. split; [by eapply rep_shows_all|]. done.
Qed.

Definition llooks (lk : bytes) (c : call) : bool := match c with CList lk' (LIter _ | LPeek _) => bool_decide (lk' = lk) | _ => false end.
Lemma seen_exact (seen : list items) (xs ys : items) : Forall2 (item_seen true seen) xs ys -> xs = ys.
Proof. induction 1 as [|[k v] [k' v'] xs ys (H1 & _ & H2) _ IH]; [done|]. cbn in H1, H2. subst. by rewrite H2. Qed.
Lemma add_seen_rd cfg lk (seen : list items) l cl r l' : list_add_seen lk true seen l cl r l' -> rd_spec (list_call cfg lk) (llooks lk) (map id seen) l cl r l'.
Proof.
  unfold rd_spec, list_call. rewrite map_id. destruct cl as [o|tid o|lk' lc|qk qc|b bc]; cbn [list_add_seen llooks list_step]; try done.
  case_bool_decide as E; [|by destruct lc]. intros (y & -> & Hy). destruct lc as [ik v|ik v|ik v ex|ik v|ik|ik|few ml|fwd|fwd|fwd| |]; cbn [ladd] in Hy; try (by exists y).
  - destruct Hy as [-> (l0 & xs & H1 & -> & H2)]. apply seen_exact in H2 as ->. split; [done|]. exists l0. split; [done|]. by eexists.
  - destruct Hy as [-> (l0 & o & H1 & -> & H2)]. split; [done|]. exists l0. split; [done|]. exists (YItem o). split; [done|]. cbn [list_spec]. split; [done|]. f_equal.
    inversion H2 as [[k v] [k' v'] (A1 & _ & A2)|]; [|done]. cbn in A1, A2. by rewrite A1, A2.
  - destruct Hy as [-> (m & -> & _ & _ & H)]. rewrite H by done. by eexists.
Qed.
(** If moreover no call changes values (items come in by get_or_create_in_list only), all calls on
    the list, iteration and peeks included, are atomic: those of a map in insertion order on which
    every call acts at one moment between its call and its return. *)
Theorem C51_iterating_while_creating_is_atomic_partial : forall lk cfg0 s0 (es0 : list event) cfg s n hs es c,
  created cfg0 s0 -> hist (list_guard lk) cfg0 s0 es0 cfg s ->
  room_for cfg s lk (weight (list_w lk) es) ->
  crun cfg calm (conc s n) hs es c -> (forall a cl, EvCall a cl ∈ es -> list_adds cfg lk true cl) ->
  exists l l' P, trace (list_step lk) cfg0 [] es0 cfg l /\ shows_list cfg s lk l /\
    lrun (list_call cfg lk) l ∅ es l' P /\
    (at_rest c -> P = ∅ /\ shows_list cfg (store_of c) lk l').
Proof.
  intros lk cfg0 s0 es0 cfg s n hs es c Hc Hh Hroom Hr Hok.
  destruct (created_list lk _ _ _ _ _ Hc Hh) as (x & M & its & H1 & H2 & H3).
  destruct (conc_list_adds lk true cfg s n hs es c x M its H2 H3 Hroom Hr Hok) as (l' & P & L1 & L2).
  apply (hrun_view id _ (rd_spec (list_call cfg lk) (llooks lk)) _ (fun _ _ _ => False)) in L1; [|intros seen l1 cl r l2; apply add_seen_rd|done].
  rewrite fmap_empty in L1. apply hrun_rd in L1.
  exists (map snd its), l', (forget <$> (hmap id <$> P)). split; [done|]. split; [by eapply rep_shows_all|]. split; [exact L1|].
  intros Hq. destruct (L2 Hq) as [-> ?]. split; [|done]. by rewrite !fmap_empty.
Qed.
