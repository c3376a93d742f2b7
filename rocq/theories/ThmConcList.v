(** Concurrent list calls that hold the list's lock throughout are linearizable (C49). *)
From Verif Require Import Base Hashing HashingProofs Fs Shard Router RouterPure Wpc Spec FileRep RowOps
  Compact Inv ShardOps Split Insert Open Merge Create Store Limits StoreRefine Kv Lists Queues Api Hist KvSpec
  HistInv KeySpace PlainSpec Plain Check ThmStore ListSpec ListRep ListProg ListHist ThmList Conc ConcSpec ConcLocal ConcFile ConcTree
  ConcInv ConcStep ConcRow ConcStruct ConcMain ConcLin ThmConc ConcLock ConcList.
Implicit Types (cfg : config) (s : store) (es : list cevent) (c : cstate) (n : nat) (hs : list choice) (x rd : bool) (lk : bytes) (its : ixs).

Lemma at_rest_idle cfg x c A os : CInv cfg x c A os -> at_rest c -> a_ths A = ∅.
Proof.
  intros HC Hr. apply map_eq. intros a. rewrite lookup_empty. destruct (c_ths c !! a) as [T|] eqn:Ea.
  - destruct (ci_thr _ _ _ _ _ HC _ _ Ea) as (o & _ & Tok). destruct (Hr _ _ Ea) as [->|[->|[u ->]]]; cbn [tok] in Tok; by destruct Tok as [? Tok]; first [done|destruct Tok].
  - by apply (ci_idle _ _ _ _ _ HC).
Qed.

(** The list [lk] of a store with room for [k] more calls on it: the stored entries are within
    the limits of the settings and the 64-bit indices suffice. *)
Definition room_for cfg s lk (k : N) : Prop :=
  forall M, content cfg s M -> entries_ok cfg M /\ idx_ok (list_key lk) k M.

Lemma conc_list lk rd cfg s n hs es c x (M : kvmap) its :
  SInv cfg x M s -> rep cfg lk M its 0 -> room_for cfg s lk (weight (list_w lk) es) ->
  crun cfg calm (conc s n) hs es c -> (forall a cl, EvCall a cl ∈ es -> list_ok cfg lk rd cl) ->
  exists A os l' P, CInv cfg x c A os /\ calm c /\ lrun (list_call cfg lk) (map snd its) ∅ es l' P /\ lV cfg lk rd (a_map A) l' /\
    (at_rest c -> lR cfg lk 0 (a_map A) l').
Proof.
  intros HI HR Hroom Hr Hok. destruct (conc_run _ _ _ _ _ _ _ _ HI Hr) as (A & os & HC & Ha & Hcalm).
  destruct (Hroom M) as [H1 H2]; [by eapply SInv_content|].
  destruct (lin_list cfg lk rd M es A (map snd its) Ha Hok H1) as (l' & P & L1 & L2 & L3); [by exists its|].
  exists A, os, l', P. split; [done|]. split; [done|]. split; [done|]. split; [done|]. intros Hq. apply L3. by eapply at_rest_idle.
Qed.

(** ** C49 *)
(** A store with any history; then any number [n] of threads make calls, with splits and
    compactions of shards running, scheduled in any way. Of the calls on the list [lk], all are
    among set_in_list, replace_in_list, get_or_create_in_list, remove_from_list and
    compact_list_if_needed, and, as [rd] says, get_from_list or discard_list but not both
    ([list_ok]); calls on anything else are arbitrary. The calls on [lk] and their results are
    those of an insertion-ordered map on which each call acts at one moment, and whenever no
    call is in progress the store shows exactly that list. *)
Theorem C49_list_calls_are_linearizable : forall lk rd cfg0 s0 (es0 : list event) cfg s n hs es c,
  created cfg0 s0 -> hist (list_guard lk) cfg0 s0 es0 cfg s ->
  room_for cfg s lk (weight (list_w lk) es) ->
  crun cfg calm (conc s n) hs es c -> (forall a cl, EvCall a cl ∈ es -> list_ok cfg lk rd cl) ->
  exists l l' P, trace (list_step lk) cfg0 [] es0 cfg l /\ shows_list cfg s lk l /\
    lrun (list_call cfg lk) l ∅ es l' P /\
    (at_rest c -> shows_list cfg (store_of c) lk l').
Proof.
  intros lk rd cfg0 s0 es0 cfg s n hs es c Hc Hh Hroom Hr Hok.
  destruct (created_list lk _ _ _ _ _ Hc Hh) as (x & M & its & H1 & H2 & H3).
  destruct (conc_list lk rd cfg s n hs es c x M its H2 H3 Hroom Hr Hok) as (A & os & l' & P & K1 & K2 & K3 & _ & K4).
  exists (map snd its), l', P. split; [done|]. split; [by eapply rep_shows_all|]. split; [done|].
  intros Hq. destruct (K4 Hq) as (its' & L1 & <- & _). eapply rep_shows_all; [|exact L1].
  eapply cinv_quiet; [exact K1|exact K2|by apply at_rest_quiet].
Qed.

(** If the process dies at any moment of such a run (without discard_list), get_from_list on the
    recovered store returns for every key its value in the list of a linearization: calls that
    returned have taken effect, calls in progress have or have not. (The length and the order are
    not covered here: C27 says what a crash can do to them.) *)
Theorem C49_crash_keeps_values : forall lk cfg0 s0 (es0 : list event) cfg s n hs es c w cfg' s',
  created cfg0 s0 -> hist (list_guard lk) cfg0 s0 es0 cfg s ->
  room_for cfg s lk (weight (list_w lk) es) ->
  crun cfg calm (conc s n) hs es c -> (forall a cl, EvCall a cl ∈ es -> list_ok cfg lk true cl) ->
  cdies cfg c w -> c_hash cfg' = c_hash cfg -> recovers cfg' w s' ->
  exists l l' P, shows_list cfg s lk l /\ lrun (list_call cfg lk) l ∅ es l' P /\
    forall ik, reply_to cfg' s' (CList lk (LGet ik)) = Ok (YOpt (l_get l' ik)).
Proof.
  intros lk cfg0 s0 es0 cfg s n hs es c w cfg' s' Hc Hh Hroom Hr Hok Hd Hhash Hrec.
  destruct (created_list lk _ _ _ _ _ Hc Hh) as (x & M & its & H1 & H2 & H3).
  destruct (conc_list lk true cfg s n hs es c x M its H2 H3 Hroom Hr Hok) as (A & os & l' & P & K1 & K2 & K3 & K4 & _).
  exists (map snd its), l', P. split; [by eapply rep_shows_all|]. split; [done|]. intros ik.
  pose proof (crash_disk _ _ _ _ _ _ _ _ K1 K2 Hd Hhash Hrec) as HI'. unfold reply_to.
  specialize (K4 eq_refl ik). rewrite <- (list_ph_cfg _ _ _ Hhash) in K4.
  assert (kwp cfg' (call_prog cfg' (CList lk (LGet ik))) (fun _ => True) (fun y _ => y = YOpt (l_get l' ik)) (fun _ _ => False) (a_map A)) as Hw.
  { cbn [call_prog list_prog]. apply kwp_map. unfold get_from_list. apply kwp_bind, kwp_get; [done|].
    destruct (a_map A !! item_key (list_ph cfg' lk) ik) as [ev|].
    - destruct K4 as (v & j & -> & ->). apply kwp_bind. eapply kwp_lift_ok; [apply cut8|done|]. cbv beta iota. by apply kwp_ret.
    - rewrite K4. by apply kwp_ret. }
  destruct (kwp_krun cfg' false _ _ _ _ _ _ HI' (reads_fits cfg' _ (list_reads_writes cfg' lk (LGet ik) eq_refl) s') Hw) as (M' & _ & H).
  destruct (snd (krun cfg' _ s')); [by subst|done].
Qed.
