(** Calls that only read (C71) and values that cannot be decoded (C72). *)
From Verif Require Import Base SipHash Hashing HashingProofs Fs Shard Router RouterPure Wpc Spec FileRep RowOps
  Compact Inv ShardOps Split Insert Open Merge Create Store Limits StoreRefine Kv Lists Queues Api Hist KvSpec
  HistInv KeySpace PlainSpec Plain ListSpec ListRep ListProg ListHist ThmList QueueSpec QueueRep QueueProg QueueHist ThmQueue
  TypedApi TypedSpec Typed Check ThmStore Script ExStore ExList ExQueue ThmTyped.
Implicit Types (M : kvmap) (cfg : config) (s : store).

(** ** C71 *)
Definition only_reads (c : call) : bool :=
  match c with
  | CPlain (OGet _ | OContains _) | CTyped _ (OGet _ | OContains _) => true
  | CList _ (LGet _ | LIter _ | LPeek _ | LLen) => true
  | CQueue _ (QIter _ | QPeek _ | QLen | QRange) => true
  | CBig _ BGet => true
  | _ => false
  end.
Lemma only_reads_writes cfg c : only_reads c = true -> kwrites (fun _ => False) anyv (call_prog cfg c).
Proof.
  intros Hc. destruct c as [o|tid o|lk c|qk c|b c]; cbn [only_reads] in Hc.
  - destruct o; try done; cbn [call_prog plain_prog]; apply kwrites_map; cbn; done.
  - destruct o; try done; cbn [call_prog typed_prog]; apply kwrites_map; cbn; done.
  - apply list_reads_writes. by destruct c.
  - apply queue_reads_writes. by destruct c.
  - destruct c; try done. cbn [call_prog big_prog]. apply kwrites_map. unfold get_big. apply kwrites_seq; [|done]. exact (kwrites_iter_queue cfg b).
Qed.
(** After any history, whatever is stored (also if a record cannot be decoded and the call fails): a call that
    only reads leaves every entry of every kind, and the number of entries, as they were. *)
Theorem C71_reads_change_nothing : forall cfg s c s' r,
  reachable cfg s -> only_reads c = true -> krun cfg (call_prog cfg c) s = (s', r) -> same_content cfg s cfg s'.
Proof.
  intros cfg s c s' r Hr Hc E. destruct (reach_inv _ _ Hr) as (x & M & HI).
  destruct (kwp_krun cfg x (call_prog cfg c) (same_outside (fun _ => False) M) (fun _ => same_outside (fun _ => False) M) (fun _ => same_outside (fun _ => False) M) M s HI) as (M' & HI' & H).
  - by apply reads_fits, only_reads_writes.
  - eapply kwp_frame; [by apply only_reads_writes|by intros k _].
  - rewrite E in HI', H. cbn [fst snd] in HI', H.
    assert (same_outside (fun _ => False) M M') as HM by (destruct r; exact H).
    assert (M' = M) as -> by (apply map_eq; intros k; apply HM; intros []).
    by eapply SInv_same.
Qed.

(** ** C72 *)
(** What a typed iteration hands out, in the words of the untyped one: nothing is left out, whatever the codec. *)
Section decode.
Context {K V : Type} (ck : codec K) (cv : codec V).
Definition elem_of_bytes (x : N * V) (y : N * bytes) : Prop := fst x = fst y /\ dec cv (snd y) = Some (snd x).
Definition item_of_bytes (x : K * V) (y : kv) : Prop := dec ck (fst y) = Some (fst x) /\ dec cv (snd y) = Some (snd x).
Lemma decode_elems_ok l xs : decode_elems cv l = Ok xs <-> Forall2 elem_of_bytes xs l.
Proof.
  revert xs. induction l as [|[i b] l IH]; intros xs; cbn [decode_elems].
  - split; [intros [= <-]; constructor|intros H; inversion H; done].
  - split.
    + destruct (dec cv b) as [v|] eqn:E; [|done]. destruct (decode_elems cv l) as [l'|e] eqn:E2; cbn; [|done]. intros [= <-].
      constructor; [done|by apply IH].
    + intros H. inversion H as [|[i' v] ? xs' ? [H1 H2] H3]; subst. cbn in H1, H2. subst i'. rewrite H2. apply IH in H3. by rewrite H3.
Qed.
Lemma decode_items_ok l xs : decode_items ck cv l = Ok xs <-> Forall2 item_of_bytes xs l.
Proof.
  revert xs. induction l as [|[k b] l IH]; intros xs; cbn [decode_items].
  - split; [intros [= <-]; constructor|intros H; inversion H; done].
  - unfold decode_item, from_bytes. cbn [fst snd]. split.
    + destruct (dec ck k) as [a|] eqn:E; [|done]. destruct (dec cv b) as [v|] eqn:E'; [|done]. cbn.
      destruct (decode_items ck cv l) as [l'|e] eqn:E2; cbn; [|done]. intros [= <-]. constructor; [done|by apply IH].
    + intros H. inversion H as [|[a v] ? xs' ? [H1 H2] H3]; subst. cbn in H1, H2. rewrite H1, H2. cbn. apply IH in H3. by rewrite H3.
Qed.
End decode.
Theorem C72_iteration_skips_nothing : forall (K V : Type) (ck : codec K) (cv : codec V) cfg s key fwd,
  (forall xs, tqueue_reply cv (TQIter fwd) (reply_to cfg s (CQueue key (QIter fwd))) = Ok (TQElems xs) <->
     exists l, reply_to cfg s (CQueue key (QIter fwd)) = Ok (YElems l) /\ Forall2 (elem_of_bytes cv) xs l) /\
  (forall xs, tlist_reply ck cv (TLIter fwd) (reply_to cfg s (CList key (LIter fwd))) = Ok (TLItems xs) <->
     exists l, reply_to cfg s (CList key (LIter fwd)) = Ok (YItems l) /\ Forall2 (item_of_bytes ck cv) xs l).
Proof.
  intros K V ck cv cfg s key fwd. split; intros xs.
  - destruct (reply_to cfg s (CQueue key (QIter fwd))) as [y|e]; cbn [tqueue_reply]; [|by split; [|intros (? & ? & _)]].
    split.
    + intros H. destruct y; cbn [tqueue_decode] in H; try done.
      all: try (match type of H with (match ?x with _ => _ end) = _ => destruct x as [[? ?]|] end; cbn in H; try done).
      all: try (match type of H with context [?f] => lazymatch f with from_bytes _ ?l => destruct f eqn:? end end; cbn in H; try done).
      all: try (match type of H with context [?f] => lazymatch f with decode_elems _ ?l => destruct f eqn:? end end; cbn in H; try done).
      inversion H; subst. eexists. split; [reflexivity|]. by apply decode_elems_ok.
    + intros (l & [= ->] & H). cbn [tqueue_decode]. apply decode_elems_ok in H. by rewrite H.
  - destruct (reply_to cfg s (CList key (LIter fwd))) as [y|e]; cbn [tlist_reply]; [|by split; [|intros (? & ? & _)]].
    split.
    + intros H. destruct y; cbn [tlist_decode] in H; try done.
      all: try (match type of H with (match ?x with _ => _ end) = _ => destruct x eqn:? end; cbn in H; try done).
      all: try (match type of H with context [?f] => lazymatch f with decode_items _ _ ?l => destruct f eqn:? end end; cbn in H; try done).
      all: try (match type of H with context [?f] => lazymatch f with from_bytes _ ?l => destruct f eqn:? end end; cbn in H; try done).
      all: try (match type of H with context [?f] => lazymatch f with decode_opt _ ?l => destruct f eqn:? end end; cbn in H; try done).
      all: try (match type of H with context [?f] => lazymatch f with decode_item _ _ ?l => destruct f eqn:? end end; cbn in H; try done).
      inversion H; subst. eexists. split; [reflexivity|]. by apply decode_items_ok.
    + intros (l & [= ->] & H). cbn [tlist_decode]. apply decode_items_ok in H. by rewrite H.
Qed.
(** A typed get says that a value is there exactly if bytes are there that decode to it, that nothing is there
    exactly if no bytes are there, and fails to decode exactly if bytes are there that do not decode. *)
Theorem C72_get_says_what_is_there : forall (K V : Type) (ck : codec K) (cv : codec V) tid (k : K) cfg s r,
  reply_to cfg s (CTyped tid (OGet (enc ck k))) = Ok (YOut (RGet r)) ->
  tstore_call ck cv tid (TGet k) = CTyped tid (OGet (enc ck k)) /\
  match r with
  | None => tstore_reply cv (reply_to cfg s (tstore_call ck cv tid (TGet k))) = Ok (TOpt None)
  | Some b => match dec cv b with
              | Some v => tstore_reply cv (reply_to cfg s (tstore_call ck cv tid (TGet k))) = Ok (TOpt (Some v))
              | None => tstore_reply cv (reply_to cfg s (tstore_call ck cv tid (TGet k))) = Err EDecode
              end
  end.
Proof.
  intros K V ck cv tid k cfg s r E. split; [done|]. cbn [tstore_call]. rewrite E. cbn. unfold decode_opt, from_bytes.
  destruct r as [b|]; [|done]. by destruct (dec cv b).
Qed.
(** The value that cannot be decoded is not lost by looking at it. *)
Theorem C72_failed_reads_change_nothing : forall (K V : Type) (ck : codec K) (cv : codec V) tid cfg s (c : tcall K V) s' r e,
  reachable cfg s -> (match c with TGet _ | TContains _ | TGetBig _ => True | _ => False end) ->
  krun cfg (call_prog cfg (tstore_call ck cv tid c)) s = (s', r) -> tstore_reply cv r = Err e -> same_content cfg s cfg s'.
Proof.
  intros K V ck cv tid cfg s c s' r e Hr Hc E _. eapply C71_reads_change_nothing; [exact Hr| |exact E]. by destruct c.
Qed.
(** But a call that writes fails after the fact: the element is gone although pop returned an error, and set
    stored the new value although it returned an error (the old value does not decode). *)
Theorem C72_failed_call_loses_value_refuted : exists es : list event, happens es /\
  exists rs : list (res reply),
    es = zip_with ECall [CQueue (typed_list_key u8 1 x61) (QPush false [x31; x32]); CQueue (typed_list_key u8 1 x61) (tqueue_call u8 (TQPeek true));
                         CQueue (typed_list_key u8 1 x61) (tqueue_call u8 (TQPop true)); CQueue (typed_list_key u8 1 x61) (tqueue_call u8 TQLen);
                         CTyped 1 (OSet [x61] [x31; x32]); tstore_call u8 u8 1 (TGet x61); tstore_call u8 u8 1 (TSet x61 x33); tstore_call u8 u8 1 (TGet x61)] rs /\
    map (tqueue_reply u8 TQLen) (take 4 rs) = [Ok (TQNum FIRST_IDX); Err EDecode; Err EDecode; Ok (TQNum 0)] /\
    map (tstore_reply u8) (drop 4 rs) = [Ok (TOpt None); Err EDecode; Err EDecode; Ok (TOpt (Some x33))].
Proof.
  pose (cs := [CQueue (typed_list_key u8 1 x61) (QPush false [x31; x32]); CQueue (typed_list_key u8 1 x61) (tqueue_call u8 (TQPeek true));
                         CQueue (typed_list_key u8 1 x61) (tqueue_call u8 (TQPop true)); CQueue (typed_list_key u8 1 x61) (tqueue_call u8 TQLen);
                         CTyped 1 (OSet [x61] [x31; x32]); tstore_call u8 u8 1 (TGet x61); tstore_call u8 u8 1 (TSet x61 x33); tstore_call u8 u8 1 (TGet x61)]).
  pose (rs := [Ok (YNum FIRST_IDX); Ok (YElem (Some (FIRST_IDX, [x31; x32]))); Ok (YElem (Some (FIRST_IDX, [x31; x32]))); Ok (YNum 0);
    Ok (YOut (RSet CreatedNew)); Ok (YOut (RGet (Some [x31; x32]))); Ok (YOut (RSet (PrevValue [x31; x32]))); Ok (YOut (RGet (Some [x33])))] : list (res reply)).
  exists (zip_with ECall cs rs). split.
  - happens_with (map call_of cs).
  - exists rs. split; [reflexivity|]. split; reflexivity.
Qed.

(** A store with entries, a list and a queue, whose first row was compacted in the background: what the
    reading calls reply there; and C71 and C72 apply. *)
Definition ex_reads : list gcmd :=
  [GCmd (xset 0 20 7); GCmd (xset 1 30 8); xl [x61] (LSet [x31] [x41]); xl [x61] (LSet [x32] [x42]); xq [x61] (QPush false [x43]); xq [x61] (QPush false [x44; x45]);
   GCmd (xrem 0); GCmd (XMaint (MBgRow 0))].
Definition ex_reads_store : store := gstore no_guard ex_cfg ex_reads.
Definition ex_reads_calls : list call :=
  [CPlain (OGet (xkey 1)); CPlain (OContains (xkey 0)); CList [x61] (LIter true); CQueue [x61] (QIter false); CBig [x62] BGet].
Definition ex_reads_replies : list (res reply) :=
  [Ok (YOut (RGet (Some (xval 30 8)))); Ok (YOut (RContains false)); Ok (YItems [([x31], [x41]); ([x32], [x42])]);
   Ok (YElems [(FIRST_IDX + 1, [x44; x45]); (FIRST_IDX, [x43])]); Ok (YOpt None)].
Example C71_example : reachable ex_cfg ex_reads_store /\ map (reply_to ex_cfg ex_reads_store) ex_reads_calls = ex_reads_replies /\
  Forall (fun c => only_reads c = true /\ exists s' r, krun ex_cfg (call_prog ex_cfg c) ex_reads_store = (s', r) /\ same_content ex_cfg ex_reads_store ex_cfg s') ex_reads_calls.
Proof.
  assert (Hr : reachable ex_cfg ex_reads_store).
  { destruct (gscript0_ok no_guard fits ex_cfg ex_reads ltac:(by intros) ex_cfg_ok) as (H1 & H2 & _).
    - by repeat constructor.
    - by vm_cast_no_check (eq_refl true).
    - exists ex_cfg, (new_store ex_cfg), (gevents no_guard ex_cfg ex_reads). split; [exact H1|].
      assert (gcfg no_guard ex_cfg ex_reads = ex_cfg) as Ec by (by vm_cast_no_check (eq_refl ex_cfg)). rewrite Ec in H2. exact H2. }
  split; [exact Hr|]. split; [by vm_cast_no_check (eq_refl ex_reads_replies)|].
  assert (G : forall c, only_reads c = true -> only_reads c = true /\ exists s' r, krun ex_cfg (call_prog ex_cfg c) ex_reads_store = (s', r) /\ same_content ex_cfg ex_reads_store ex_cfg s').
  { intros c Hc. split; [exact Hc|]. destruct (krun ex_cfg (call_prog ex_cfg c) ex_reads_store) as [s' r] eqn:E. exists s', r.
    split; [reflexivity|]. exact (C71_reads_change_nothing _ _ _ _ _ Hr Hc E). }
  repeat (apply List.Forall_cons; [apply G; reflexivity|]). apply List.Forall_nil.
Qed.
(** Read as a typed deque of u8 the iteration fails (it does not leave the second element out). *)
Example C72_example : map (fun r => tqueue_reply u8 (TQIter false) r) (map (reply_to ex_cfg ex_reads_store) [CQueue [x61] (QIter false)]) = [Err EPanic] /\
  map (fun r => tqueue_reply raw (TQIter false) r) (map (reply_to ex_cfg ex_reads_store) [CQueue [x61] (QIter false)]) =
    [Ok (TQElems [(FIRST_IDX + 1, [x44; x45]); (FIRST_IDX, [x43])])].
Proof.
  split; [by vm_cast_no_check (eq_refl [@Err (tqreply byte) EPanic])|].
  by vm_cast_no_check (eq_refl [Ok (TQElems [(FIRST_IDX + 1, [x44; x45]); (FIRST_IDX, [x43])])]).
Qed.
