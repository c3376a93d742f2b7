(** Which raw keys a call may touch: every kind of data has its own key space. *)
From Verif Require Import Base Hashing HashingProofs Fs Shard Router RouterPure Wpc Spec FileRep RowOps
  Compact Inv ShardOps Split Insert Open Merge Create Store Limits StoreRefine Kv Lists Queues Api Hist KvSpec.

(** The raw keys of the list [lk] and of the queue [qk]. *)
Definition list_keys (cfg : config) (lk k : bytes) : Prop :=
  k = list_key lk \/ (exists ik, k = item_key (list_ph cfg lk) ik) \/ (exists i, k = chain_key (list_ph cfg lk) i).
Definition queue_keys (qk k : bytes) : Prop := k = queue_key qk \/ exists i, k = qitem_key qk i.
Definition op_key (o : op) : bytes :=
  match o with OGet k | OContains k | ORemove k | OSet k _ | OReplace k _ _ | OGetOrCreate k _ => k end.
Definition call_keys (cfg : config) (c : call) (k : bytes) : Prop :=
  match c with
  | CPlain o => k = user_key (op_key o)
  | CTyped tid o => k = typed_key tid (op_key o)
  | CList lk _ => list_keys cfg lk k
  | CQueue qk _ | CBig qk _ => queue_keys qk k
  end.

Lemma app_last_ne {A} (l : list A) (x : A) : l ++ [x] <> [].
Proof. by destruct l. Qed.
Lemma list_key_ne lk : list_key lk <> [].
Proof. apply app_last_ne. Qed.
Lemma item_key_ne ph ik : item_key ph ik <> [].
Proof. unfold item_key, item_suffix. rewrite app_assoc. apply app_last_ne. Qed.
Lemma chain_key_ne ph i : chain_key ph i <> [].
Proof. unfold chain_key. rewrite app_assoc. apply app_last_ne. Qed.
Lemma queue_key_ne qk : queue_key qk <> [].
Proof. apply app_last_ne. Qed.
Lemma qitem_key_ne qk i : qitem_key qk i <> [].
Proof. unfold qitem_key. rewrite app_assoc. apply app_last_ne. Qed.
Lemma user_key_ne k : user_key k <> [].
Proof. apply app_last_ne. Qed.
Lemma typed_key_ne t k : typed_key t k <> [].
Proof. unfold typed_key. rewrite app_assoc. apply app_last_ne. Qed.
Global Hint Resolve list_key_ne item_key_ne chain_key_ne queue_key_ne qitem_key_ne user_key_ne typed_key_ne : kne.

Lemma lk_list cfg lk : list_keys cfg lk (list_key lk).
Proof. by left. Qed.
Lemma lk_item cfg lk ik : list_keys cfg lk (item_key (list_ph cfg lk) ik).
Proof. right. left. eauto. Qed.
Lemma lk_chain cfg lk i : list_keys cfg lk (chain_key (list_ph cfg lk) i).
Proof. right. right. eauto. Qed.
Lemma qk_queue qk : queue_keys qk (queue_key qk).
Proof. by left. Qed.
Lemma qk_item qk i : queue_keys qk (qitem_key qk i).
Proof. right. eauto. Qed.
Global Hint Resolve lk_list lk_item lk_chain qk_queue qk_item : kne.

(** ** What each program writes *)
Local Arguments u64_bytes : simpl never.
Local Arguments enc_rec : simpl never.
Ltac kw1 :=
  match goal with
  | |- anyv _ => exact Logic.I
  | |- True => exact Logic.I
  | |- forall _, _ => intros ?
  | |- kwrites _ _ (klocked _ _ _) => apply kwrites_locked
  | |- kwrites _ _ (kmap _ _) => apply kwrites_map
  | |- kwrites _ _ (kbind (kbind _ _) _) => apply kwrites_bind
  | |- kwrites _ _ (kbind (match _ with _ => _ end) _) => apply kwrites_bind
  | |- kwrites _ _ (kbind (klocked _ _ _) _) => apply kwrites_bind
  | |- kwrites _ _ (kbind (kset _ _) _) => apply kwrites_bind, kwrites_set; [auto with kne|auto with kne|]
  | |- kwrites _ _ (kbind (kgoc _ _) _) => apply kwrites_bind, kwrites_goc; [auto with kne|auto with kne|]
  | |- kwrites _ _ (kbind (kreplace _ _ _) _) => apply kwrites_bind, kwrites_replace; [auto with kne|auto with kne|]
  | |- kwrites _ _ (kbind (klift _) _) => apply kwrites_bind, kwrites_lift
  | |- kwrites _ _ (kbind (KRet _) _) => apply kwrites_bind
  | |- kwrites _ _ (kbind (kop1 _) _) => apply kwrites_bind; split; [auto with kne|]
  | |- kwrites _ _ (klift _) => apply kwrites_lift
  | |- kwrites _ _ (KRet _) => cbn [kwrites]
  | |- kwrites _ _ (KFail _) => exact Logic.I
  | |- kwrites _ _ (match ?x with _ => _ end) => destruct x eqn:?
  end.
Ltac kw := repeat kw1.

Lemma ends_with_item k ph : ends_with k (item_suffix ph) = true -> exists ik, k = item_key ph ik.
Proof. intros H. apply ends_with_spec in H as [p ->]. by exists p. Qed.
Lemma find_item_spec suf ib l k v : find_item suf ib l = Some (k, v) ->
  (k, v) ∈ l /\ ends_with k suf = true /\ ends_with v ib = true.
Proof.
  induction l as [|[k1 v1] l IH]; cbn [find_item]; [done|].
  destruct (ends_with k1 suf) eqn:E1; [destruct (ends_with v1 ib) eqn:E2|]; cbn [andb].
  - intros [= -> ->]. split; [left|done].
  - intros H. apply IH in H as [H1 H2]. split; [by right|done].
  - intros H. apply IH in H as [H1 H2]. split; [by right|done].
Qed.

Section writes.
Context (cfg : config).

Definition item_of (lk : bytes) (x : option (phash * bytes * bytes)) : Prop :=
  match x with Some (_, k, _) => exists ik, k = item_key (list_ph cfg lk) ik | None => True end.
Lemma get_at_index_writes P lk i : kwrites P (item_of lk) (get_at_index (list_ph cfg lk) i).
Proof.
  unfold get_at_index. kw; try done. cbn [item_of].
  match goal with H : find_item _ _ _ = Some _ |- _ => apply find_item_spec in H as (_ & H & _); by apply ends_with_item end.
Qed.
Lemma remove_from_list_writes lk ik : kwrites (list_keys cfg lk) anyv (remove_from_list cfg lk ik).
Proof. unfold remove_from_list. kw. Qed.
Lemma insert_to_list_writes lk ik v mode : kwrites (list_keys cfg lk) anyv (insert_to_list cfg lk ik v mode).
Proof. unfold insert_to_list. kw. Qed.
Lemma set_in_list_writes lk ik v p : kwrites (list_keys cfg lk) anyv (set_in_list cfg lk ik v p).
Proof.
  unfold set_in_list. apply kwrites_bind. destruct p.
  - apply kwrites_seq; [apply remove_from_list_writes|]. intros _. cbn [kwrites].
    apply kwrites_seq; [apply insert_to_list_writes|]. kw.
  - cbn [kwrites]. apply kwrites_seq; [apply insert_to_list_writes|]. kw.
Qed.
Lemma compact_items_writes lk n : forall i j,
  kwrites (list_keys cfg lk) anyv (compact_items (list_ph cfg lk) n i j).
Proof.
  induction n as [|n IH]; intros i j; cbn [compact_items]; [done|].
  apply kwrites_bind. eapply kwrites_mono; [intros k Hk; exact Hk| |apply get_at_index_writes].
  intros [[[ph k] v]|]; [|auto]. cbn [item_of]. intros [ik ->]. kw. apply IH.
Qed.
Lemma iter_items_writes P lk l : kwrites P anyv (iter_items (list_ph cfg lk) l).
Proof.
  induction l as [|i l IH]; cbn [iter_items]; [done|].
  apply kwrites_seq; [eapply kwrites_mono; [| |apply get_at_index_writes]; done|].
  intros [[[ph k] v]|]; [|done]. unfold trunc_item. kw. apply kwrites_seq; [done|]. kw.
Qed.
Lemma peek_items_writes P lk l : kwrites P anyv (peek_items (list_ph cfg lk) l).
Proof.
  induction l as [|i l IH]; cbn [peek_items]; [done|].
  apply kwrites_seq; [eapply kwrites_mono; [| |apply get_at_index_writes]; done|].
  intros [[[ph k] v]|]; [|done]. unfold trunc_item. kw.
Qed.
Lemma pop_items_writes lk l : kwrites (list_keys cfg lk) anyv (pop_items cfg lk l).
Proof.
  induction l as [|i l IH]; cbn [pop_items]; [done|].
  apply kwrites_seq; [eapply kwrites_mono; [| |apply get_at_index_writes]; done|].
  intros [[[ph k] v]|]; [|done]. unfold trunc_item. kw.
  apply kwrites_seq; [apply remove_from_list_writes|]. intros [?|]; [done|exact IH].
Qed.
Lemma discard_items_writes lk l : kwrites (list_keys cfg lk) anyv (discard_items (list_ph cfg lk) l).
Proof.
  induction l as [|i l IH]; cbn [discard_items]; [done|].
  apply kwrites_bind. eapply kwrites_mono; [intros k Hk; exact Hk| |apply get_at_index_writes].
  intros [[[ph k] v]|]; [|auto]. cbn [item_of]. intros [ik ->]. kw. apply IH.
Qed.
Lemma list_range_writes P lk : kwrites P anyv (list_range cfg lk).
Proof. unfold list_range. kw. Qed.

Lemma list_prog_writes lk c : kwrites (list_keys cfg lk) anyv (list_prog cfg lk c).
Proof.
  destruct c; cbn [list_prog]; apply kwrites_map.
  - apply set_in_list_writes.
  - apply set_in_list_writes.
  - unfold replace_in_list. apply kwrites_seq; [apply insert_to_list_writes|]. kw.
  - unfold get_or_create_in_list. apply kwrites_seq; [apply insert_to_list_writes|]. kw.
  - unfold get_from_list. kw.
  - apply remove_from_list_writes.
  - unfold compact_list. kw. apply kwrites_seq; [apply compact_items_writes|]. kw.
  - unfold iter_list. apply kwrites_seq; [apply list_range_writes|]. kw. apply iter_items_writes.
  - unfold peek_list. apply kwrites_seq; [apply list_range_writes|]. kw. apply peek_items_writes.
  - unfold pop_list. apply kwrites_seq; [apply list_range_writes|]. kw. apply pop_items_writes.
  - unfold discard_list. kw. apply kwrites_seq; [apply discard_items_writes|]. kw.
  - unfold list_len. kw.
Qed.

Lemma pop_loop_writes qk h n : forall q, kwrites (queue_keys qk) anyv (pop_loop qk h n q).
Proof.
  induction n as [|n IH]; intros q; cbn [pop_loop]; [done|]. kw. apply IH.
Qed.
Lemma rem_items_writes qk l : kwrites (queue_keys qk) anyv (rem_items qk l).
Proof. induction l as [|i l IH]; cbn [rem_items]; [done|]. kw. apply IH. Qed.
Lemma extend_items_writes qk l : forall t n, kwrites (queue_keys qk) anyv (extend_items qk l t n).
Proof. induction l as [|i l IH]; intros t n; cbn [extend_items]; [done|]. kw. apply IH. Qed.
Lemma fetch_queue_writes P qk : kwrites P anyv (fetch_queue cfg qk).
Proof. unfold fetch_queue. kw. Qed.
Lemma iter_qitems_writes P qk l : kwrites P anyv (iter_qitems qk l).
Proof.
  induction l as [|i l IH]; cbn [iter_qitems]; [done|]. kw; [|exact IH]. apply kwrites_seq; [exact IH|]. kw.
Qed.
Lemma peek_qitems_writes P qk l : kwrites P anyv (peek_qitems qk l).
Proof. induction l as [|i l IH]; cbn [peek_qitems]; [done|]. kw. exact IH. Qed.
Lemma discard_queue_writes qk : kwrites (queue_keys qk) anyv (discard_queue cfg qk).
Proof. unfold discard_queue. kw. apply kwrites_seq; [apply rem_items_writes|]. kw. Qed.
Lemma extend_queue_writes qk l : kwrites (queue_keys qk) anyv (extend_queue cfg qk l).
Proof. unfold extend_queue. kw. apply kwrites_seq; [apply extend_items_writes|]. kw. Qed.
Lemma iter_queue_writes P fwd qk : kwrites P anyv (iter_queue cfg fwd qk).
Proof. unfold iter_queue. apply kwrites_seq; [apply fetch_queue_writes|]. kw. apply iter_qitems_writes. Qed.

Lemma queue_prog_writes qk c : kwrites (queue_keys qk) anyv (queue_prog cfg qk c).
Proof.
  destruct c; cbn [queue_prog]; apply kwrites_map.
  - unfold push_to_queue. kw.
  - apply extend_queue_writes.
  - unfold pop_queue. kw. apply kwrites_seq; [apply pop_loop_writes|]. kw.
  - unfold remove_from_queue. kw.
  - apply discard_queue_writes.
  - apply iter_queue_writes.
  - unfold peek_queue. apply kwrites_seq; [apply fetch_queue_writes|]. kw. apply peek_qitems_writes.
  - unfold queue_len. apply kwrites_seq; [apply fetch_queue_writes|]. kw.
  - unfold queue_range. apply kwrites_seq; [apply fetch_queue_writes|]. kw.
Qed.
Lemma big_prog_writes k c : kwrites (queue_keys k) anyv (big_prog cfg k c).
Proof.
  destruct c; cbn [big_prog]; apply kwrites_map.
  - unfold set_big. apply kwrites_seq; [apply discard_queue_writes|]. intros ?.
    apply kwrites_seq; [apply extend_queue_writes|]. kw.
  - unfold get_big. apply kwrites_seq; [apply iter_queue_writes|]. kw.
  - apply discard_queue_writes.
Qed.

Theorem call_writes c : kwrites (call_keys cfg c) anyv (call_prog cfg c).
Proof.
  destruct c as [o|tid o|lk c|qk c|k c]; cbn [call_prog call_keys].
  - destruct o; cbn [plain_prog op_key]; kw; try done.
  - destruct o; cbn [typed_prog op_key]; kw; try done.
  - apply list_prog_writes.
  - apply queue_prog_writes.
  - apply big_prog_writes.
Qed.
End writes.

(** ** Disjointness *)
Lemma u64_bytes_len n : length (u64_bytes n) = 8%nat.
Proof. apply le_bytes_length. Qed.
Lemma ns_inj (a b : bytes) (x y : byte) : a ++ [x] = b ++ [y] -> a = b /\ x = y.
Proof. intros H. apply app_inj_2 in H as [-> [= ->]]; done. Qed.

Lemma user_key_inj a b : user_key a = user_key b -> a = b.
Proof. intros H. by apply ns_inj in H as [H _]. Qed.
Lemma list_key_inj a b : list_key a = list_key b -> a = b.
Proof. intros H. by apply ns_inj in H as [H _]. Qed.
Lemma queue_key_inj a b : queue_key a = queue_key b -> a = b.
Proof. intros H. by apply ns_inj in H as [H _]. Qed.
Lemma u64_bytes_inj a b : a < U64 -> b < U64 -> u64_bytes a = u64_bytes b -> a = b.
Proof. intros Ha Hb. apply le_bytes_inj; [exact Ha|exact Hb]. Qed.
Lemma u32_bytes_inj a b : a < 2 ^ 32 -> b < 2 ^ 32 -> u32_bytes a = u32_bytes b -> a = b.
Proof. intros Ha Hb. apply le_bytes_inj; [exact Ha|exact Hb]. Qed.
Lemma u32_bytes_len n : length (u32_bytes n) = 4%nat.
Proof. apply le_bytes_length. Qed.

Lemma typed_key_inj t a t' b : t < 2 ^ 32 -> t' < 2 ^ 32 -> typed_key t a = typed_key t' b -> t = t' /\ a = b.
Proof.
  intros H1 H2 H. unfold typed_key in H. rewrite !app_assoc in H. apply ns_inj in H as [H _].
  apply app_inj_2 in H as [-> H]; [|by rewrite !u32_bytes_len]. split; [|done]. by apply u32_bytes_inj.
Qed.
Lemma item_key_inj ph a b : item_key ph a = item_key ph b -> a = b.
Proof. unfold item_key. intros H. by apply app_inv_tail in H. Qed.
Lemma item_key_ph ph ph' a b : ph < U64 -> ph' < U64 -> item_key ph a = item_key ph' b -> ph = ph' /\ a = b.
Proof.
  intros H1 H2 H. unfold item_key, item_suffix in H. rewrite !app_assoc in H. apply ns_inj in H as [H _].
  apply app_inj_2 in H as [-> H]; [|by rewrite !u64_bytes_len]. split; [|done]. by apply u64_bytes_inj.
Qed.
Lemma chain_key_ph ph ph' i j : ph < U64 -> ph' < U64 -> chain_key ph i = chain_key ph' j ->
  ph = ph' /\ u64_bytes i = u64_bytes j.
Proof.
  intros H1 H2 H. unfold chain_key in H. rewrite !app_assoc in H. apply ns_inj in H as [H _].
  apply app_inj_2 in H as [H H']; [|by rewrite !u64_bytes_len]. split; [|done]. by apply u64_bytes_inj.
Qed.
Lemma chain_key_inj ph i j : i < U64 -> j < U64 -> chain_key ph i = chain_key ph j -> i = j.
Proof.
  intros H1 H2 H. unfold chain_key in H. rewrite !app_assoc in H. apply ns_inj in H as [H _].
  apply app_inv_head in H. by apply u64_bytes_inj.
Qed.
Lemma qitem_key_eq qk qk' i j : qitem_key qk i = qitem_key qk' j -> qk = qk' /\ u64_bytes i = u64_bytes j.
Proof.
  intros H. unfold qitem_key in H. rewrite !app_assoc in H. apply ns_inj in H as [H _].
  apply app_inj_2 in H as [H H']; [done|by rewrite !u64_bytes_len].
Qed.
Lemma qitem_key_inj qk i j : i < U64 -> j < U64 -> qitem_key qk i = qitem_key qk j -> i = j.
Proof. intros H1 H2 H. apply qitem_key_eq in H as [_ H]. by apply u64_bytes_inj. Qed.

(** The namespace (last byte) of a raw key. *)
Definition ns (k : bytes) : option byte := last k.
Lemma ns_app k b : ns (k ++ [b]) = Some b.
Proof. apply last_snoc. Qed.
Lemma ns_user k : ns (user_key k) = Some USER_NS. Proof. apply ns_app. Qed.
Lemma ns_typed t k : ns (typed_key t k) = Some TYPED_NS.
Proof. unfold typed_key. rewrite app_assoc. apply ns_app. Qed.
Lemma ns_list k : ns (list_key k) = Some LIST_NS. Proof. apply ns_app. Qed.
Lemma ns_item ph k : ns (item_key ph k) = Some ITEM_NS.
Proof. unfold item_key, item_suffix. rewrite app_assoc. apply ns_app. Qed.
Lemma ns_chain ph k : ns (chain_key ph k) = Some CHAIN_NS.
Proof. unfold chain_key. rewrite app_assoc. apply ns_app. Qed.
Lemma ns_queue k : ns (queue_key k) = Some QUEUE_NS. Proof. apply ns_app. Qed.
Lemma ns_qitem k i : ns (qitem_key k i) = Some QITEM_NS.
Proof. unfold qitem_key. rewrite app_assoc. apply ns_app. Qed.
Ltac ns_contra H :=
  apply (f_equal ns) in H;
  rewrite ?ns_user, ?ns_typed, ?ns_list, ?ns_item, ?ns_chain, ?ns_queue, ?ns_qitem in H; discriminate H.

Lemma call_keys_user cfg c k : call_keys cfg c (user_key k) -> exists o, c = CPlain o /\ op_key o = k.
Proof.
  destruct c as [o|tid o|lk c|qk c|b c]; cbn [call_keys].
  - intros H. apply user_key_inj in H. eauto.
  - intros H. ns_contra H.
  - intros [H|[[ik H]|[i H]]]; ns_contra H.
  - intros [H|[i H]]; ns_contra H.
  - intros [H|[i H]]; ns_contra H.
Qed.
Lemma call_keys_typed cfg c t k : call_keys cfg c (typed_key t k) ->
  exists t' o, c = CTyped t' o /\ typed_key t' (op_key o) = typed_key t k.
Proof.
  destruct c as [o|tid o|lk c|qk c|b c]; cbn [call_keys].
  - intros H. ns_contra H.
  - intros H. eauto.
  - intros [H|[[ik H]|[i H]]]; ns_contra H.
  - intros [H|[i H]]; ns_contra H.
  - intros [H|[i H]]; ns_contra H.
Qed.
Lemma list_keys_disjoint cfg lk lk' k :
  list_ph cfg lk <> list_ph cfg lk' -> list_keys cfg lk k -> list_keys cfg lk' k -> False.
Proof.
  intros Hne [->|[[ik ->]|[i ->]]] [H|[[ik' H]|[i' H]]]; try ns_contra H.
  - apply list_key_inj in H as ->. done.
  - apply item_key_ph in H as [H _]; [done|apply hashk_bound|apply hashk_bound].
  - apply chain_key_ph in H as [H _]; [done|apply hashk_bound|apply hashk_bound].
Qed.
Lemma call_keys_list cfg c lk k : list_keys cfg lk k -> call_keys cfg c k ->
  exists lk' c', c = CList lk' c' /\ list_ph cfg lk' = list_ph cfg lk.
Proof.
  intros Hk. destruct c as [o|tid o|lk' c|qk c|b c]; cbn [call_keys].
  - intros H. destruct Hk as [->|[[ik ->]|[i ->]]]; ns_contra H.
  - intros H. destruct Hk as [->|[[ik ->]|[i ->]]]; ns_contra H.
  - intros H. exists lk', c. split; [done|].
    destruct (decide (list_ph cfg lk = list_ph cfg lk')) as [|Hne]; [done|].
    destruct (list_keys_disjoint _ _ _ _ Hne Hk H).
  - intros H. destruct Hk as [->|[[ik ->]|[i ->]]]; destruct H as [H|[j H]]; ns_contra H.
  - intros H. destruct Hk as [->|[[ik ->]|[i ->]]]; destruct H as [H|[j H]]; ns_contra H.
Qed.
Lemma queue_keys_disjoint qk qk' k : queue_keys qk k -> queue_keys qk' k -> qk = qk'.
Proof.
  intros [->|[i ->]] [H|[j H]]; try ns_contra H.
  - by apply queue_key_inj.
  - by apply qitem_key_eq in H as [H _].
Qed.
Lemma call_keys_queue cfg c qk k : queue_keys qk k -> call_keys cfg c k ->
  (exists c', c = CQueue qk c') \/ (exists c', c = CBig qk c').
Proof.
  intros Hk. destruct c as [o|tid o|lk' c|qk' c|b c]; cbn [call_keys].
  - intros H. destruct Hk as [->|[i ->]]; ns_contra H.
  - intros H. destruct Hk as [->|[i ->]]; ns_contra H.
  - intros H. destruct Hk as [->|[i ->]]; destruct H as [H|[[j H]|[j H]]]; ns_contra H.
  - intros H. left. exists c. by rewrite (queue_keys_disjoint _ _ _ Hk H).
  - intros H. right. exists c. by rewrite (queue_keys_disjoint _ _ _ Hk H).
Qed.
