(** Concurrent calls: linearizability, atomicity of get_or_create and replace, crashes
    (C34, C35, C48). *)
From Verif Require Import Base Hashing HashingProofs Fs Shard Router RouterPure Wpc Spec FileRep RowOps
  Compact Inv ShardOps Split Insert Open Merge Create Store Limits StoreRefine Kv Lists Queues Api Hist KvSpec
  HistInv KeySpace PlainSpec Plain Check ThmStore ListSpec ListHist ThmList TypedApi TypedSpec Typed Conc ConcSpec ConcLocal ConcFile ConcTree
  ConcInv ConcStep ConcRow ConcStruct ConcMain ConcLin.
Implicit Types (cfg : config) (s : store) (m : umap) (es : list cevent) (c : cstate) (n : nat) (hs : list choice) (x : bool).

(** ** Stores that arise from sequential and concurrent use *)
(** The store of a machine state. *)
Definition store_of (c : cstate) : store := Store (c_root c) (c_fs c).
(** No call is in progress (compactions may be). *)
Definition at_rest (c : cstate) : Prop :=
  forall a T, c_ths c !! a = Some T -> T = TIdle \/ T = TDead \/ exists u : N, T = TBg u.
(** A store is live if it arises from a new one by sequential histories (calls of every kind,
    maintenance, clear, reopening, crashes), by concurrent runs with any number of threads, and by
    crashes during concurrent runs, all within capacity. *)
Inductive live : config -> store -> Prop :=
| lv_new cfg s : created cfg s -> live cfg s
| lv_hist cfg s (hes : list event) cfg' s' : live cfg s -> hist fits cfg s hes cfg' s' -> live cfg' s'
| lv_conc cfg s n hs es c : live cfg s -> crun cfg calm (conc s n) hs es c -> at_rest c -> live cfg (store_of c)
| lv_crash cfg s n hs es c w cfg' s' : live cfg s -> crun cfg calm (conc s n) hs es c -> cdies cfg c w ->
    c_hash cfg' = c_hash cfg -> recovers cfg' w s' -> live cfg' s'.
Lemma reachable_live cfg s : reachable cfg s -> live cfg s.
Proof. intros (cfg0 & s0 & es & Hc & Hh). eapply lv_hist; [by apply lv_new|exact Hh]. Qed.

Lemma conc_run cfg s n hs es c x (M : kvmap) : SInv cfg x M s -> crun cfg calm (conc s n) hs es c ->
  exists A os, CInv cfg x c A os /\ arun cfg (AS M ∅ ∅) es A /\ calm c.
Proof.
  intros HI Hr. destruct (crun_good _ _ _ _ _ _ Hr _ _ (conc_init cfg x M s n HI)) as (A & os & H1 & H2).
  exists A, os. split; [done|]. split; [done|]. by apply (crun_calm _ _ _ _ _ _ Hr).
Qed.
Lemma at_rest_quiet cfg c : at_rest c -> quiet cfg c.
Proof. intros H a T Ha. destruct (H _ _ Ha) as [->|[->|[? ->]]]; done. Qed.
Lemma crash_disk cfg x c A os w cfg' s' : CInv cfg x c A os -> calm c -> cdies cfg c w -> c_hash cfg' = c_hash cfg ->
  recovers cfg' w s' -> SInv cfg' false (a_map A) s'.
Proof.
  intros HC Hcalm Hd Hh Hrec. eapply recovers_ok; [exact Hrec|]. apply (DiskInv_cfg cfg); [done|]. by eapply cinv_dies.
Qed.
Lemma any_lifts : lifts (fun _ _ (_ : unit) => True) (fun _ _ _ _ _ => True) fits.
Proof.
  constructor.
  - done.
  - done.
  - intros cfg1 s1 x1 M1 a1 c1 r1 _ _ _. exists (fun _ => True).
    eapply kwp_mono; [| | |apply (kwp_frame cfg1 (call_keys cfg1 c1) _ anyv M1); [apply call_writes|by intros ? ?]]; [done|intros ? ? ? ?; by exists tt|intros ? ? ? ?; by exists tt].
  - intros cfg1 s1 x1 M1 a1 c1 _ _ _. eapply kwp_mono; [| | |apply (kwp_frame cfg1 (call_keys cfg1 c1) _ anyv M1); [apply call_writes|by intros ? ?]]; [intros ? ?; by exists tt|done|done].
  - intros. by exists tt.
  - intros. by exists tt.
Qed.
Lemma live_inv cfg s : live cfg s -> exists x (M : kvmap), SInv cfg x M s.
Proof.
  induction 1 as [cfg s Hc|cfg s es cfg' s' _ (x & M & IH) Hh|cfg s n hs es c _ (x & M & IH) Hr Hq|cfg s n hs es c w cfg' s' _ (x & M & IH) Hr Hd Hh Hrec].
  - exists true, ∅. by apply created_ok.
  - destruct (hist_lift _ _ _ any_lifts _ _ _ _ _ x M tt Hh IH Logic.I) as (x' & M' & _ & _ & HI & _). eauto.
  - destruct (conc_run _ _ _ _ _ _ _ _ IH Hr) as (A & os & HC & _ & Hcalm). exists x, (a_map A).
    eapply cinv_quiet; [exact HC|exact Hcalm|by apply at_rest_quiet].
  - destruct (conc_run _ _ _ _ _ _ _ _ IH Hr) as (A & os & HC & _ & Hcalm). exists false, (a_map A). by eapply crash_disk.
Qed.

(** ** C34 *)
Lemma conc_plain cfg s n hs es c x (M : kvmap) m : SInv cfg x M s -> view M m -> crun cfg calm (conc s n) hs es c ->
  exists A os m' P, CInv cfg x c A os /\ calm c /\ view (a_map A) m' /\ lrun (plain_call cfg) m ∅ es m' P.
Proof.
  intros HI Hv Hr. destruct (conc_run _ _ _ _ _ _ _ _ HI Hr) as (A & os & HC & Ha & Hcalm).
  destruct (lin cfg (fun _ => True) (plain_call cfg) view (plain_calls cfg) _ _ _ Ha m ∅) as (m' & P' & L1 & L2 & _); [done|done| |].
  { intros a. cbn [a_ths]. by rewrite !lookup_empty. }
  eauto 10.
Qed.
Lemma view_get cfg x (M : kvmap) s m : SInv cfg x M s -> (forall k, get cfg s k = Ok (m !! k)) -> view M m.
Proof.
  intros HI Hg k. specialize (Hg k). unfold get in Hg. rewrite (get_raw_ok _ _ _ _ _ HI) in Hg. by injection Hg.
Qed.

(** Any number [n] of threads make any calls, splits and compactions run meanwhile, the
    scheduler chooses freely: the plain calls and their results are those of a linearizable map,
    and when no thread is inside an operation the keys have exactly the values of that map. *)
Theorem C34_linearizable : forall cfg s n hs es c m,
  live cfg s -> (forall k, get cfg s k = Ok (m !! k)) ->
  crun cfg calm (conc s n) hs es c ->
  exists m' P, lrun (plain_call cfg) m ∅ es m' P /\
    (quiet cfg c -> forall k, get cfg (store_of c) k = Ok (m' !! k)).
Proof.
  intros cfg s n hs es c m Hre Hg Hr. destruct (live_inv _ _ Hre) as (x & M & HI).
  destruct (conc_plain _ _ _ _ _ _ _ _ _ HI (view_get _ _ _ _ _ HI Hg) Hr) as (A & os & m' & P & HC & Hcalm & Hv & HL).
  exists m', P. split; [done|]. intros Hq k. unfold get. rewrite (get_raw_ok _ _ _ _ _ (cinv_quiet _ _ _ _ _ HC Hcalm Hq)). by rewrite Hv.
Qed.

(** ** C48 *)
(** If the process dies at any moment of such a run, the store recovered from its files holds
    exactly the map of a linearization: every call that returned has taken effect, and every
    call in progress has taken effect completely or not at all. *)
Theorem C48_crash_linearizable : forall cfg s n hs es c w cfg' s' m,
  live cfg s -> (forall k, get cfg s k = Ok (m !! k)) ->
  crun cfg calm (conc s n) hs es c -> cdies cfg c w -> c_hash cfg' = c_hash cfg -> recovers cfg' w s' ->
  exists m' P, lrun (plain_call cfg) m ∅ es m' P /\ forall k, get cfg' s' k = Ok (m' !! k).
Proof.
  intros cfg s n hs es c w cfg' s' m Hre Hg Hr Hd Hh Hrec. destruct (live_inv _ _ Hre) as (x & M & HI).
  destruct (conc_plain _ _ _ _ _ _ _ _ _ HI (view_get _ _ _ _ _ HI Hg) Hr) as (A & os & m' & P & HC & Hcalm & Hv & HL).
  exists m', P. split; [done|]. intros k. unfold get.
  rewrite (get_raw_ok _ _ _ _ _ (crash_disk _ _ _ _ _ _ _ _ HC Hcalm Hd Hh Hrec)). by rewrite Hv.
Qed.

(** ** Typed stores *)
Section typed.
  Context {K V : Type} `{Countable K} `{EqDecision V} (ck : codec K) (cv : codec V) (tid : N).
  Context (HK : round_trips ck) (HV : round_trips cv) (Htid : tid < 2 ^ 32).
  (** The specification of the calls through a typed store (TypedSpec.v), as in a sequential history. *)
  Definition typed_call (cfg : config) (m : gmap K V) (cl : call) (r : res reply) (m' : gmap K V) : Prop :=
    tstore_step ck cv tid cfg m (ECall cl r) cfg m'.

  Lemma typed_call_eq cfg (m : gmap K V) (tc : tcall K V) (r : res reply) (m' : gmap K V) : small tc ->
    m' = fst (tspec ck cv cfg m tc) -> tstore_reply cv r = snd (tspec ck cv cfg m tc) -> typed_call cfg m (tstore_call ck cv tid tc) r m'.
  Proof.
    intros Hs -> Hr. assert (exists o, tstore_call ck cv tid tc = CTyped tid o) as [o Eo] by (destruct tc; try done; by eexists).
    unfold typed_call. rewrite Eo. cbn. rewrite N.eqb_refl. intros c Hc Ec. rewrite Ec in Eo. symmetry in Eo.
    apply (small_call ck cv tid HK HV) in Eo as ->; done.
  Qed.
  Lemma typed_calls cfg cl : through_tstore ck cv tid cl ->
    single cfg (typed_call cfg) (tinv ck cv tid) (call_prog cfg cl) cl \/
    foreign (typed_call cfg) (tinv ck cv tid) (call_prog cfg cl) cl.
  Proof.
    intros Hth.
    assert ((forall o, cl <> CTyped tid o) \/ exists tc, small tc /\ cl = tstore_call ck cv tid tc) as [Hn|(tc & Hs & ->)].
    { destruct cl as [o|tid' o|lk lc|qk qc|b bc]; try (left; done). destruct Hth as [_ Hth].
      destruct (decide (tid' = tid)) as [->|Hne]; [right; by apply Hth|left; congruence]. }
    - right. split.
      + exists (call_keys cfg cl). split; [apply call_writes|]. intros M M' m Hm Hv k. rewrite Hm; [apply Hv|].
        intros Hk. apply call_keys_typed in Hk as (t' & o & -> & E). destruct Hth as [Ht _].
        apply typed_key_inj in E as [-> _]; [|done|done]. by apply (Hn o).
      + intros m r. unfold typed_call. destruct cl as [o|tid' o|lk lc|qk qc|b bc]; try done. cbn.
        destruct (N.eqb_spec tid' tid) as [->|]; [by destruct (Hn o)|done].
    - left.
      assert (one_op (call_prog cfg (tstore_call ck cv tid tc))) as Ho.
      { destruct tc as [k|k|k v ex|k v|k v|k|k|k v|k]; try done; cbn.
        - intros X. by eexists (Ok _).
        - intros X. by eexists (Ok _).
        - intros X. destruct X; first [by eexists (Ok _)|by eexists (Err _)].
        - intros X. destruct X; first [by eexists (Ok _)|by eexists (Err _)].
        - intros X. destruct X; first [by eexists (Ok _)|by eexists (Err _)].
        - intros X. by eexists (Ok _). }
      assert (forall (a : nat) (M : kvmap) (lk : gmap N nat) (M' : kvmap) (lk' : gmap N nat) (p' : kprog reply) (m : gmap K V), tinv ck cv tid M m -> kop_step cfg a M lk (call_prog cfg (tstore_call ck cv tid tc)) M' lk' p' ->
        exists (r : res reply) (m' : gmap K V), typed_call cfg m (tstore_call ck cv tid tc) r m' /\ tinv ck cv tid M' m' /\ p' = done_prog r) as Hstep.
      { intros a M lk M' lk' p' m Hv Hk.
        destruct (one_op_kwp _ _ _ _ _ _ _ _ _ _ _ Ho (typed_kwp ck cv tid HK HV Htid cfg tc M m Hv Hs) Hk) as (r & -> & Hr).
        exists r, (fst (tspec ck cv cfg m tc)). split; [|split; [by destruct r as [y|e]; apply Hr|done]].
        apply typed_call_eq; [done|done|]. destruct r as [y|e]; cbn [tstore_reply]; destruct Hr as [Hr _]; by rewrite Hr. }
      destruct tc as [k|k|k v ex|k v|k v|k|k|k v|k]; done.
  Qed.
End typed.

(** The same for every typed store, whose keys and values are of any types with a codec that
    round-trips: used by any number of threads, beside any other calls. *)
Theorem C34_typed_linearizable : forall (K V : Type) (EK : EqDecision K) (CK : Countable K) (EV : EqDecision V)
    (ck : codec K) (cv : codec V) (tid : N) cfg0 s0 (es0 : list event) cfg s n hs es c,
  round_trips ck -> round_trips cv -> tid < 2 ^ 32 ->
  created cfg0 s0 -> hist (tstore_guard ck cv tid) cfg0 s0 es0 cfg s ->
  crun cfg calm (conc s n) hs es c -> (forall a cl, EvCall a cl ∈ es -> through_tstore ck cv tid cl) ->
  exists (m m' : gmap K V) (P : gmap nat phase),
    trace (tstore_step ck cv tid) cfg0 ∅ es0 cfg m /\ lrun (typed_call ck cv tid cfg) m ∅ es m' P /\
    (quiet cfg c -> forall k, tstore_reply cv (reply_to cfg (store_of c) (tstore_call ck cv tid (TGet k))) = Ok (TOpt (m' !! k))).
Proof.
  intros K V EK CK EV ck cv tid cfg0 s0 es0 cfg s n hs es c HK HV Ht Hc Hh Hr Hth.
  destruct (hist_lift _ _ _ (tstore_lifts ck cv tid HK HV Ht) cfg0 s0 es0 cfg s true ∅ ∅ Hh (created_ok _ _ Hc)) as (x & M & m & H1 & H2 & H3 & _).
  { intros k. by rewrite !lookup_empty. }
  destruct (conc_run _ _ _ _ _ _ _ _ H2 Hr) as (A & os & HC & Ha & Hcalm).
  destruct (lin cfg (through_tstore ck cv tid) (typed_call ck cv tid cfg) (tinv ck cv tid) (typed_calls ck cv tid HK HV Ht cfg) _ _ _ Ha m ∅)
    as (m' & P' & L1 & L2 & _); [done|done| |].
  { intros a. cbn [a_ths]. by rewrite !lookup_empty. }
  exists m, m', P'. split; [done|]. split; [done|]. intros Hq k. unfold reply_to.
  destruct (kwp_krun cfg x _ _ _ _ (a_map A) (store_of c) (cinv_quiet _ _ _ _ _ HC Hcalm Hq) (reads_fits cfg (call_prog cfg (tstore_call ck cv tid (TGet k))) ltac:(done) (store_of c))
    (typed_kwp ck cv tid HK HV Ht cfg (TGet k) (a_map A) m' L2 Logic.I)) as (M' & _ & H).
  destruct (snd (krun cfg _ (store_of c))) as [y|e]; cbn [tstore_reply] in *; [by destruct H as [-> _]|by destruct H].
Qed.
