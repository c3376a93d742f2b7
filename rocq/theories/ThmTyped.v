(** The properties of the typed wrappers (C32, C33). *)
From Verif Require Import Base SipHash Hashing HashingProofs Fs Shard Router RouterPure Wpc Spec FileRep RowOps
  Compact Inv ShardOps Split Insert Open Merge Create Store Limits StoreRefine Kv Lists Queues Api Hist KvSpec
  HistInv KeySpace PlainSpec Plain ListSpec ListRep ListProg ListHist ThmList QueueSpec QueueRep QueueProg QueueHist ThmQueue
  TypedApi TypedSpec Typed Check Script ExStore ExList ExQueue.
Implicit Types (M : kvmap) (cfg : config) (s : store).

(** ** C32 *)
(** Along every history in which the calls with the type id [tid] are made through the wrapper
    CandyTypedStore<K, V>, the wrapper's methods return what a map from K to V returns (the
    history may contain any other calls, with other type ids, too). *)
Theorem C32_typed_store_is_a_map : forall (K V : Type) (EK : EqDecision K) (CK : Countable K) (EV : EqDecision V)
    (ck : codec K) (cv : codec V) tid cfg s es cfg' s',
  round_trips ck -> round_trips cv -> tid < 2 ^ 32 ->
  created cfg s -> hist (tstore_guard ck cv tid) cfg s es cfg' s' ->
  exists m : gmap K V, trace (tstore_step ck cv tid) cfg ∅ es cfg' m /\
    forall k, tstore_reply cv (reply_to cfg' s' (tstore_call ck cv tid (TGet k))) = Ok (TOpt (m !! k)).
Proof.
  intros K V EK CK EV ck cv tid cfg s es cfg' s' HK HV Ht Hc Hh.
  destruct (hist_lift _ _ _ (tstore_lifts ck cv tid HK HV Ht) cfg s es cfg' s' true ∅ ∅ Hh (created_ok _ _ Hc)) as (x & M & m & H1 & H2 & H3 & _).
  { intros k. by rewrite !lookup_empty. }
  exists m. split; [done|]. intros k. unfold reply_to.
  destruct (kwp_krun cfg' x _ _ _ _ M s' H2 (reads_fits cfg' (call_prog cfg' (tstore_call ck cv tid (TGet k))) ltac:(done) s')
    (typed_kwp ck cv tid HK HV Ht cfg' (TGet k) M m H3 I)) as (M' & _ & H).
  destruct (snd (krun cfg' _ s')) as [y|e]; cbn [tstore_reply] in *; [by destruct H as [-> _]|by destruct H].
Qed.
(** The event is no call with the type id [tid], nor [clear]. *)
Definition not_on_type (tid : N) (e : event) : Prop :=
  match e with EClear => False | ECall (CTyped t _) _ | ECrash (ACall (CTyped t _)) => t <> tid | _ => True end.
(** Maps with different type ids, and all other calls, do not interfere. *)
Theorem C32_type_ids_do_not_interfere : forall (K V : Type) (EK : EqDecision K) (CK : Countable K) (EV : EqDecision V)
    (ck : codec K) (cv : codec V) tid cfg s es cfg1 s1 es' cfg' s',
  round_trips ck -> round_trips cv -> tid < 2 ^ 32 ->
  created cfg s -> hist (tstore_guard ck cv tid) cfg s es cfg1 s1 ->
  hist (tstore_guard ck cv tid) cfg1 s1 es' cfg' s' -> Forall (not_on_type tid) es' ->
  forall k : K, tstore_reply cv (reply_to cfg' s' (tstore_call ck cv tid (TGet k))) = tstore_reply cv (reply_to cfg1 s1 (tstore_call ck cv tid (TGet k))).
Proof.
  intros K V EK CK EV ck cv tid cfg s es cfg1 s1 es' cfg' s' HK HV Ht Hc Hh1 Hh2 Hn k.
  destruct (hist_lift _ _ _ (tstore_lifts ck cv tid HK HV Ht) cfg s es cfg1 s1 true ∅ ∅ Hh1 (created_ok _ _ Hc)) as (x & M & m & H1 & H2 & H3 & _).
  { intros k'. by rewrite !lookup_empty. }
  destruct (hist_lift _ _ _ (tstore_lifts ck cv tid HK HV Ht) cfg1 s1 es' cfg' s' x M m Hh2 H2 H3) as (x' & M' & m' & H4 & H5 & H6 & _).
  assert (m' = m) as ->.
  { clear - H4 Hn. induction H4 as [|cfg a e cfg1 a1 es cfg' a' Hcf HT Htr IH]; [done|]. apply Forall_cons in Hn as [Hn1 Hn2].
    rewrite (IH Hn2). destruct e as [[o|t o|lk c|qk c|b c] r|mt| | |[|[o|t o|lk c|qk c|b c]|mt]]; cbn [tstore_step not_on_type] in *; try done;
      (destruct (N.eqb_spec t tid); [done|exact HT]). }
  unfold reply_to. cbn [tstore_call call_prog typed_prog krun kmap kop1 kbind]. cbn [run_kop].
  rewrite (get_raw_ok _ _ _ _ _ H2), (get_raw_ok _ _ _ _ _ H5), H3, H6. done.
Qed.
(** The big values of a typed store. Missing: values with an empty encoding (see C31). *)
Theorem C32_typed_big_values_partial : forall (K V : Type) (EK : EqDecision K) (CK : Countable K)
    (ck : codec K) (cv : codec V) tid (k : K) cfg s es cfg' s',
  round_trips cv -> created cfg s -> hist (tbig_guard ck cv tid k) cfg s es cfg' s' ->
  exists m : option V, trace (tbig_step ck cv tid k) cfg None es cfg' m /\
    tstore_reply cv (reply_to cfg' s' (tstore_call ck cv tid (TGetBig k))) = Ok (TOpt m).
Proof.
  intros K V EK CK ck cv tid k cfg s es cfg' s' HV Hc Hh.
  destruct (C31_big_values_partial (big_key ck tid k) cfg s es cfg' s' Hc) as (m & Ht & Hr).
  { eapply hist_mono; [|exact Hh]. by intros ? ? ? [? _]. }
  destruct (trace_sim _ (tbig_step ck cv tid k) (fun m mv => m = enc cv <$> mv) (big_through ck cv tid k)
    (fun cfg a e cfg' a' b => big_sim ck cv tid HV k cfg a e cfg' a' b) cfg None es cfg' m None) as (mv & H1 & ->); [done| |done|].
  { eapply hist_events; [|exact Hh]. intros ? ? e [_ He]. exact He. }
  exists mv. split; [done|]. cbn [tstore_call]. unfold big_key in Hr. rewrite Hr. cbn [tstore_reply tstore_decode]. by rewrite decode_enc.
Qed.

(** ** C33 *)
(** A typed list behaves as an insertion-ordered map from K to V. *)
Theorem C33_typed_list_is_an_ordered_map : forall (L K V : Type) (EK : EqDecision K) (cl : codec L) (ck : codec K) (cv : codec V) tid (l : L) cfg s es cfg' s',
  round_trips ck -> round_trips cv ->
  created cfg s -> hist (tlist_guard ck cv (typed_list_key cl tid l)) cfg s es cfg' s' ->
  exists its : list (K * V), trace (tlist_step ck cv (typed_list_key cl tid l)) cfg [] es cfg' its /\
    tlist_reply ck cv (TLIter true) (reply_to cfg' s' (CList (typed_list_key cl tid l) (tlist_call ck cv (TLIter true)))) = Ok (TLItems its).
Proof.
  intros L K V EK cl ck cv tid l cfg s es cfg' s' HK HV Hc Hh. set (lk := typed_list_key cl tid l) in *.
  destruct (C23_list_is_an_ordered_map lk cfg s es cfg' s' Hc) as (bl & Ht & _ & Hr).
  { eapply hist_mono; [|exact Hh]. by intros ? ? ? [? _]. }
  destruct (trace_sim _ (tlist_step ck cv lk) (fun bl its => bl = enc_items ck cv its) (list_through ck cv lk)
    (fun cfg a e cfg' a' b => list_sim ck cv HK HV lk cfg a e cfg' a' b) cfg [] es cfg' bl []) as (its & H1 & ->); [done| |done|].
  { eapply hist_events; [|exact Hh]. intros ? ? e [_ He]. exact He. }
  exists its. split; [done|]. cbn [tlist_call]. rewrite (Hr (LIter true) (YItems (enc_items ck cv its))); [|done|done].
  cbn [tlist_reply tlist_decode]. by rewrite dec_items.
Qed.
(** A typed deque behaves as a deque of V. *)
Theorem C33_typed_deque_is_a_deque : forall (L V : Type) (cl : codec L) (cv : codec V) tid (l : L) cfg s es cfg' s',
  round_trips cv ->
  created cfg s -> hist (tqueue_guard cv (typed_list_key cl tid l)) cfg s es cfg' s' ->
  exists q : list (N * V), trace (tqueue_step cv (typed_list_key cl tid l)) cfg [] es cfg' q /\
    tqueue_reply cv (TQIter true) (reply_to cfg' s' (CQueue (typed_list_key cl tid l) (tqueue_call cv (TQIter true)))) = Ok (TQElems q).
Proof.
  intros L V cl cv tid l cfg s es cfg' s' HV Hc Hh. set (lk := typed_list_key cl tid l) in *.
  destruct (C28_queue_is_a_deque lk cfg s es cfg' s' Hc) as (bq & Ht & Hr).
  { eapply hist_mono; [|exact Hh]. by intros ? ? ? [? _]. }
  destruct (trace_sim _ (tqueue_step cv lk) (fun bq q => bq = enc_elems cv q) (queue_through cv lk)
    (fun cfg a e cfg' a' b => queue_sim cv HV lk cfg a e cfg' a' b) cfg [] es cfg' bq []) as (q & H1 & ->); [done| |done|].
  { eapply hist_events; [|exact Hh]. intros ? ? e [_ He]. exact He. }
  exists q. split; [done|]. cbn [tqueue_call]. rewrite (Hr (QIter true) (YElems (enc_elems cv q))); [|done|done|done].
  cbn [tqueue_reply tqueue_decode]. by rewrite dec_elems.
Qed.
(** Collections with different type ids, or with different keys of one type, have different
    untyped keys, so they are independent by C24 (unless the hashes are equal) and C28. *)
Theorem C33_keys_are_distinct : forall (L L' : Type) (cl : codec L) (cl' : codec L') tid tid' (l : L) (l' : L'),
  tid < 2 ^ 32 -> tid' < 2 ^ 32 -> typed_list_key cl tid l = typed_list_key cl' tid' l' -> tid = tid' /\ enc cl l = enc cl' l'.
Proof.
  intros L L' cl cl' tid tid' l l' H1 H2 E. unfold typed_list_key in E.
  apply app_inj_2 in E as [E1 E2]; [|by rewrite !u32_bytes_len]. split; [|done]. by apply u32_bytes_inj.
Qed.
(** Deques with other type ids do not touch a typed deque. *)
Theorem C33_type_ids_do_not_interfere : forall (L V : Type) (cl : codec L) (cv : codec V) tid (l : L) cfg s es cfg1 s1 es' cfg' s',
  round_trips cv -> tid < 2 ^ 32 ->
  created cfg s -> hist (tqueue_guard cv (typed_list_key cl tid l)) cfg s es cfg1 s1 ->
  hist (tqueue_guard cv (typed_list_key cl tid l)) cfg1 s1 es' cfg' s' ->
  (forall qk c r, ECall (CQueue qk c) r ∈ es' \/ ECrash (ACall (CQueue qk c)) ∈ es' ->
     exists (L' : Type) (cl' : codec L') tid' (l' : L'), tid' < 2 ^ 32 /\ tid' <> tid /\ qk = typed_list_key cl' tid' l') ->
  EClear ∉ es' ->
  exists q, shows_queue cfg1 s1 (typed_list_key cl tid l) q /\ shows_queue cfg' s' (typed_list_key cl tid l) q.
Proof.
  intros L V cl cv tid l cfg s es cfg1 s1 es' cfg' s' HV Htid Hc Hh1 Hh2 Hq Hcl.
  apply (C28_queues_are_independent (typed_list_key cl tid l) cfg s es cfg1 s1 es' cfg' s'); [done| | |].
  - eapply hist_mono; [|exact Hh1]. by intros ? ? ? [? _].
  - eapply hist_mono; [|exact Hh2]. by intros ? ? ? [? _].
  - apply Forall_forall. intros e He.
    assert (Hne : forall qk c r, ECall (CQueue qk c) r ∈ es' \/ ECrash (ACall (CQueue qk c)) ∈ es' -> qk <> typed_list_key cl tid l).
    { intros qk c r Hin -> . destruct (Hq _ _ r Hin) as (L' & cl' & tid' & l' & H1 & H2 & E). symmetry in E.
      apply C33_keys_are_distinct in E as [E _]; done. }
    destruct e as [[o|t o|lk c|qk c|b c] r|mt| | |[|[o|t o|lk c|qk c|b c]|mt]]; try done; cbn [not_on_queue].
    + eapply Hne. left. exact He.
    + eapply (Hne qk c (Err EPanic)). right. exact He.
Qed.

(** ** Examples *)
(** The encoding of u8: one byte; and a codec that leaves byte strings as they are. *)
Definition u8 : codec byte := Codec (fun b => [b]) (fun l => match l with [b] => Some b | _ => None end).
Definition raw : codec bytes := Codec (fun b => b) Some.
Lemma u8_round_trips : round_trips u8. Proof. done. Qed.
Lemma raw_round_trips : round_trips raw. Proof. done. Qed.

(** Two typed stores (u8 with the type id 1, another one with 2) and a plain key. *)
Notation t1 := (tstore_call u8 raw 1).
Notation t2 := (tstore_call u8 raw 2).
Definition ex_typed : list gcmd :=
  map call_of [t1 (TSet x61 [x31]); t2 (TSet x61 [x32]); CPlain (OSet [x61] [x33]); t1 (TReplace x61 [x34] (Some [x31]));
   t1 (TReplace x61 [x35] (Some [x31])); t1 (TGetOrCreate x62 [x36]); t1 (TSet x63 (xval 999 1)); t1 (TGet x61); t1 (TContains x63)] ++
  [GCrash (t1 (TRemove x62)) 1] ++ map call_of [t1 (TRemove x61); t2 (TGet x61); t1 (TGet x62)].
Definition op_b (o : op) : bool := match op_key o with [_] => true | _ => false end.
Definition call_b (c : call) : bool :=
  match c with CTyped tid' o => (tid' <? 2 ^ 32) && (negb (tid' =? 1) || op_b o) | _ => true end.
Definition tstore_gb (cfg : config) (M : kvmap) (e : event) : bool :=
  match e with ECall c _ | ECrash (ACall c) => call_b c | _ => true end.
Lemma call_b_ok c : call_b c = true -> through_tstore u8 raw 1 c.
Proof.
  destruct c as [|tid' o| | |]; try done. cbn [call_b through_tstore]. intros Hb. apply andb_true_iff in Hb as [H1 H2]. apply N.ltb_lt in H1.
  split; [done|]. intros ->. cbn in H2. unfold op_b in H2.
  destruct o as [k|k|k|k v|k v ex|k v]; cbn [op_key] in H2; destruct k as [|b [|? ?]]; try done.
  - by exists (TGet b).
  - by exists (TContains b).
  - by exists (TRemove b).
  - by exists (TSet b v).
  - exists (TReplace b v ex). split; [done|]. by destruct ex.
  - by exists (TGetOrCreate b v).
Qed.
Lemma tstore_gb_ok cfg s x M e : SInv cfg x M s -> fits cfg s e -> tstore_gb cfg M e = true -> tstore_guard u8 raw 1 cfg s e.
Proof.
  intros HI Hf Hb. split; [done|]. destruct e as [c r|mt| | |[|c|mt]]; try done; by apply call_b_ok.
Qed.
Definition ex_typed_replies : list (res (treply bytes)) :=
  [Ok (TOpt None); Ok (TOpt None); Ok (TOpt None); Ok (TOpt (Some [x31])); Ok (TOpt None); Ok (TVal [x36]); Err (ECannotFit 1005 1000);
   Ok (TOpt (Some [x34])); Ok (TBool false); Ok (TOpt (Some [x34])); Ok (TOpt (Some [x32])); Ok (TOpt None)].
Example C32_example : exists es cfg' s', created ex_cfg (new_store ex_cfg) /\
  hist (tstore_guard u8 raw 1) ex_cfg (new_store ex_cfg) es cfg' s' /\ map (tstore_reply raw) (replies es) = ex_typed_replies.
Proof.
  exists (gevents tstore_gb ex_cfg ex_typed), (gcfg tstore_gb ex_cfg ex_typed), (gstore tstore_gb ex_cfg ex_typed).
  destruct (gscript0_ok tstore_gb (tstore_guard u8 raw 1) ex_cfg ex_typed tstore_gb_ok ex_cfg_ok) as (H1 & H2 & _).
  - by repeat constructor.
  - by vm_cast_no_check (eq_refl true).
  - split; [exact H1|]. split; [exact H2|]. by vm_cast_no_check (eq_refl ex_typed_replies).
Qed.
(** A typed list (and an untyped one next to it). *)
Definition tla : bytes := typed_list_key u8 1 x61.
Notation tl1 c := (CList tla (tlist_call u8 raw c)).
Definition lcall_b (c : lcall) : bool :=
  match c with
  | LSet ik _ | LSetPromoting ik _ | LReplace ik _ _ | LGetOrCreate ik _ | LGet ik | LRemove ik => match ik with [_] => true | _ => false end
  | _ => true
  end.
Definition tlist_gb (cfg : config) (M : kvmap) (e : event) : bool :=
  list_gb tla cfg M e && match e with ECall (CList lk c) _ => negb (bool_decide (lk = tla)) || lcall_b c | _ => true end.
Lemma tlist_gb_ok cfg s x M e : SInv cfg x M s -> fits cfg s e -> tlist_gb cfg M e = true -> tlist_guard u8 raw tla cfg s e.
Proof.
  intros HI Hf Hb. apply andb_true_iff in Hb as [H1 H2]. split; [by eapply list_gb_ok|].
  destruct e as [[o|t o|lk c|qk c|b c] r|mt| | |[|c|mt]]; try done. intros ->. rewrite bool_decide_true in H2 by done. cbn in H2.
  destruct c as [ik v|ik v|ik v ex|ik v|ik|ik|few n|f|f|f| |]; cbn in H2; try (destruct ik as [|b [|? ?]]; try done).
  - by exists (TLSet b v).
  - by exists (TLSetPromoting b v).
  - exists (TLReplace b v ex). by destruct ex.
  - by exists (TLGetOrCreate b v).
  - by exists (TLGet b).
  - by exists (TLRemove b).
  - by exists (TLCompact few n).
  - by exists (TLIter f).
  - by exists (TLPeek f).
  - by exists (TLPop f).
  - by exists TLDiscard.
  - by exists TLLen.
Qed.
Definition ex_tlist : list gcmd :=
  map call_of [tl1 (TLSet x31 [x41]); tl1 (TLGetOrCreate x32 [x42]); CList la (LSet [x31] [x43]); tl1 (TLSet x31 [x44]); tl1 (TLSetPromoting x31 [x45]);
   tl1 (TLContains x32); tl1 (TLIter true); tl1 (TLReplace x32 [x46] None); tl1 (TLPop true); tl1 TLLen].
Definition ex_tlist_replies : list (res (tlreply byte bytes)) :=
  [Ok (TLOpt None); Ok (TLVal [x42]); Ok (TLOpt (Some [x41])); Ok (TLOpt None);
   Ok (TLOpt (Some [x42])); Ok (TLItems [(x32, [x42]); (x31, [x45])]); Ok (TLOpt (Some [x42])); Ok (TLItem (Some (x32, [x46]))); Ok (TLNum 1)].
Definition trs (es : list event) : list (res (tlreply byte bytes)) :=
  omap (M := list) (fun e => match e with ECall (CList lk _) r => if bool_decide (lk = tla) then Some (tlist_reply u8 raw (TLIter true) r) else None | _ => None end) es.
Example C33_list_example : exists es cfg' s', created ex_cfg (new_store ex_cfg) /\
  hist (tlist_guard u8 raw tla) ex_cfg (new_store ex_cfg) es cfg' s' /\ trs es = ex_tlist_replies.
Proof.
  exists (gevents tlist_gb ex_cfg ex_tlist), (gcfg tlist_gb ex_cfg ex_tlist), (gstore tlist_gb ex_cfg ex_tlist).
  destruct (gscript0_ok tlist_gb (tlist_guard u8 raw tla) ex_cfg ex_tlist tlist_gb_ok ex_cfg_ok) as (H1 & H2 & _).
  - by repeat constructor.
  - by vm_cast_no_check (eq_refl true).
  - split; [exact H1|]. split; [exact H2|]. by vm_cast_no_check (eq_refl ex_tlist_replies).
Qed.
(** A typed deque. *)
Notation tq1 c := (CQueue tla (tqueue_call raw c)).
Definition tqueue_gb (cfg : config) (M : kvmap) (e : event) : bool :=
  queue_gb tla cfg M e && match e with ECall (CQueue lk c) _ => match c with QExtend _ | QRemove _ | QDiscard => false | _ => true end | _ => true end.
Lemma tqueue_gb_ok cfg s x M e : SInv cfg x M s -> fits cfg s e -> tqueue_gb cfg M e = true -> tqueue_guard raw tla cfg s e.
Proof.
  intros HI Hf Hb. apply andb_true_iff in Hb as [H1 H2]. split; [by eapply queue_gb_ok|].
  destruct e as [[o|t o|lk c|qk c|b c] r|mt| | |[|c|mt]]; try done. intros ->.
  destruct c as [h v|vs|h|i| |f|f| |]; try done.
  - by exists (TQPush h v).
  - by exists (TQPop h).
  - by exists (TQIter f).
  - by exists (TQPeek f).
  - by exists TQLen.
  - by exists TQRange.
Qed.
Definition ex_tqueue : list gcmd :=
  map call_of [tq1 (TQPush false [x41]); tq1 (TQPush true [x42]); tq1 (TQPush false [x43]); tq1 (TQPop true); tq1 (TQIter false)].
Definition ex_tqueue_replies : list (res (tqreply bytes)) :=
  [Ok (TQNum i0); Ok (TQNum (i0 - 1)); Ok (TQNum (i0 + 1)); Ok (TQElem (Some (i0 - 1, [x42]))); Ok (TQElems [(i0 + 1, [x43]); (i0, [x41])])].
Example C33_deque_example : exists es cfg' s', created ex_cfg (new_store ex_cfg) /\
  hist (tqueue_guard raw tla) ex_cfg (new_store ex_cfg) es cfg' s' /\ map (tqueue_reply raw TQLen) (replies es) = ex_tqueue_replies.
Proof.
  exists (gevents tqueue_gb ex_cfg ex_tqueue), (gcfg tqueue_gb ex_cfg ex_tqueue), (gstore tqueue_gb ex_cfg ex_tqueue).
  destruct (gscript0_ok tqueue_gb (tqueue_guard raw tla) ex_cfg ex_tqueue tqueue_gb_ok ex_cfg_ok) as (H1 & H2 & _).
  - by repeat constructor.
  - by vm_cast_no_check (eq_refl true).
  - split; [exact H1|]. split; [exact H2|]. by vm_cast_no_check (eq_refl ex_tqueue_replies).
Qed.

(** ** Counterexample *)
(** C33, C18: a typed list shares its items with the untyped list whose key has the same bytes
    (the keys of typed lists and deques have no namespace of their own). *)
Theorem C33_untyped_list_refuted : happens
  [ECall (CList (typed_list_key u8 1 x61) (tlist_call u8 raw (TLSet x31 [x41]))) (Ok (YSet CreatedNew));
   ECall (CList [x61; x01; x00; x00; x00] (LGet [x31])) (Ok (YOpt (Some [x41])));
   ECall (CList [x61; x01; x00; x00; x00] LDiscard) (Ok (YBool true));
   ECall (CList (typed_list_key u8 1 x61) (tlist_call u8 raw (TLGet x31))) (Ok (YOpt None))].
Proof.
  happens_with [call_of (tl1 (TLSet x31 [x41])); xl [x61; x01; x00; x00; x00] (LGet [x31]); xl [x61; x01; x00; x00; x00] LDiscard; call_of (tl1 (TLGet x31))].
Qed.
