(** The queue API and the big-value API refine their specifications along every history. *)
From Verif Require Import Base Hashing HashingProofs Fs Shard Router RouterPure Wpc Spec FileRep RowOps
  Compact Inv ShardOps Split Insert Open Merge Create Store Limits StoreRefine Kv Lists Queues Api Hist KvSpec
  HistInv KeySpace ListSpec ListRep ListProg ListHist ThmList QueueSpec QueueRep QueueProg.
Implicit Types (M : kvmap) (cfg : config) (s : store) (q : elems) (lost : N) (rng : option (N * N)) (qk : bytes).

Lemma queue_reads_writes cfg qk c : queue_reads c = true -> kwrites (fun _ => False) anyv (call_prog cfg (CQueue qk c)).
Proof.
  intros Hc. assert (Hf : kwrites (fun _ => False) anyv (fetch_queue cfg qk)).
  { apply kwrites_locked. cbn. split; [done|]. intros [x|]; [|done]. apply kwrites_bind, kwrites_lift. by intros []. }
  destruct c; try done; cbn [call_prog queue_prog]; apply kwrites_map.
  - unfold iter_queue. apply kwrites_seq; [done|]. intros [r|]; [|done].
    generalize (idx_order fwd (l_head r) (l_tail r)). intros js. induction js as [|j js IH]; [done|]. cbn. split; [done|].
    intros [v|]; [|done]. apply kwrites_seq; [done|]. by intros.
  - unfold peek_queue. apply kwrites_seq; [done|]. intros [r|]; [|done].
    generalize (idx_order fwd (l_head r) (l_tail r)). intros js. induction js as [|j js IH]; [done|]. cbn. split; [done|].
    by intros [v|].
  - unfold queue_len. by apply kwrites_seq.
  - unfold queue_range. by apply kwrites_seq.
Qed.
Lemma kwrites_iter_queue cfg qk : kwrites (fun _ => False) anyv (iter_queue cfg true qk).
Proof.
  unfold iter_queue. apply kwrites_seq; [apply fetch_queue_writes|]. intros [r|]; [|done]. apply iter_qitems_writes.
Qed.
Definition rng_reply rng : N * N := match rng with Some r => r | None => (FIRST_IDX, FIRST_IDX) end.
Lemma read_range cfg x M s qk q lost rng : SInv cfg x M s -> qrep qk M q lost rng ->
  snd (krun cfg (queue_prog cfg qk QRange) s) = Ok (YRange (rng_reply rng)).
Proof.
  intros HI HR. destruct (kwp_krun cfg x (queue_prog cfg qk QRange) (fun _ => True) (fun y _ => y = YRange (rng_reply rng)) (fun _ _ => False) M s HI) as (M' & _ & H).
  - apply (reads_fits cfg (call_prog cfg (CQueue qk QRange))). by apply queue_reads_writes.
  - cbn [queue_prog]. apply kwp_map. unfold queue_range. apply kwp_bind, (kwp_fetch cfg qk M q lost rng); [done|done|]. apply kwp_ret; [done|].
    by destruct rng as [[h t]|].
  - destruct (snd _); [by subst|done].
Qed.
Lemma read_len cfg x M s qk q lost rng : SInv cfg x M s -> qrep qk M q lost rng ->
  snd (krun cfg (queue_prog cfg qk QLen) s) = Ok (YNum (len q + lost)).
Proof.
  intros HI HR. destruct (kwp_krun cfg x (queue_prog cfg qk QLen) (fun _ => True) (fun y _ => y = YNum (len q + lost)) (fun _ _ => False) M s HI) as (M' & _ & H).
  - apply (reads_fits cfg (call_prog cfg (CQueue qk QLen))). by apply queue_reads_writes.
  - cbn [queue_prog]. apply kwp_map. unfold queue_len. apply kwp_bind, (kwp_fetch cfg qk M q lost rng); [done|done|]. apply kwp_ret; [done|].
    destruct rng as [[h t]|]; [done|]. by destruct HR as [_ (_ & -> & ->)].
  - destruct (snd _); [by subst|done].
Qed.
Lemma qroom_ok cfg x M s qk q lost rng n : SInv cfg x M s -> qrep qk M q lost rng -> queue_room cfg s qk n ->
  entries_ok cfg M /\ qroom rng q lost n.
Proof.
  intros HI HR [H1 [H2 H3]]. split; [apply H1; by eapply SInv_content|]. split; [done|]. destruct rng as [[h t]|]; [|done].
  apply (H3 h t (len q + lost)); [|by eapply read_len]. erewrite read_range by done. done.
Qed.
Lemma sole_ok cfg x M s qk q lost rng c : SInv cfg x M s -> qrep qk M q lost rng -> queue_not_sole cfg s qk c ->
  match c with QRemove i => i < U64 /\ rng <> Some (i, i + 1) | _ => True end.
Proof.
  intros HI HR H. destruct c; try done. destruct H as [H1 H2]. split; [done|]. intros ->. apply H2.
  erewrite read_range by done. done.
Qed.
Lemma qok_ok cfg x M s qk q lost rng c : SInv cfg x M s -> qrep qk M q lost rng -> queue_reads c = false ->
  queue_room cfg s qk (qcall_adds c) -> queue_not_sole cfg s qk c -> entries_ok cfg M /\ qok rng q lost c.
Proof.
  intros HI HR _ H1 H2. destruct (qroom_ok _ _ _ _ _ _ _ _ _ HI HR H1) as [H3 H4]. split; [done|]. split; [done|]. by eapply sole_ok.
Qed.

Lemma qrep_ext qk M M' q lost rng : (forall k, queue_keys qk k -> M' !! k = M !! k) -> qrep qk M q lost rng -> qrep qk M' q lost rng.
Proof.
  intros H [HC HR]. split.
  - eapply qcore_ext; [|exact HC]. intros i. apply H. auto with kne.
  - by rewrite (H (queue_key qk)) by auto with kne.
Qed.
Lemma qrep_nil qk : qrep qk ∅ [] 0 None.
Proof. apply qrep_none; [|apply lookup_empty]. apply qcore_empty. intros i. apply lookup_empty. Qed.

(** A call that concerns neither the queue nor the big value with this key. *)
Definition off_queue (qk : bytes) (c : call) : Prop :=
  match c with CQueue qk' _ => qk' <> qk | CBig qk' _ => qk' <> qk | _ => True end.
Lemma off_queue_kwp cfg qk c M q lost rng : qrep qk M q lost rng -> off_queue qk c ->
  kwp cfg (call_prog cfg c) (fun M' => qrep qk M' q lost rng) (fun _ M' => qrep qk M' q lost rng) (fun _ M' => qrep qk M' q lost rng) M.
Proof.
  intros HR Hc.
  assert (Hs : forall M', same_outside (call_keys cfg c) M M' -> qrep qk M' q lost rng).
  { intros M' HM. eapply qrep_ext; [|exact HR]. intros k Hk. apply HM. intros Hk2.
    destruct (call_keys_queue cfg c qk k Hk Hk2) as [[c' ->]|[c' ->]]; done. }
  eapply kwp_mono; [| | |eapply (kwp_frame cfg (call_keys cfg c) _ anyv M); [apply call_writes|by intros ? ?]].
  - exact Hs.
  - intros a M' _. apply Hs.
  - intros a M' _. apply Hs.
Qed.

(** ** Queues *)
Definition queue_inv_lost (qk : bytes) cfg M (a : elems * N) : Prop := exists rng, qrep qk M (fst a) (snd a) rng.
Lemma queue_lost_lifts qk : lifts (queue_inv_lost qk) (queue_step_lost qk) (queue_guard_lost qk).
Proof.
  constructor.
  - intros cfg cfg' M a Hh H. exact H.
  - intros cfg s e [H _]. exact H.
  - intros cfg s x M [q lost] c r HI [rng HR] [Hf Hg]. exists (fun _ => True). cbn [fst snd] in *.
    assert (off_queue qk c \/ exists qc, c = CQueue qk qc /\ (queue_reads qc = false -> queue_room cfg s qk (qcall_adds qc)) /\
      (crash_safe qc = false -> qcall_accepts cfg qk qc) /\ queue_not_sole cfg s qk qc) as Hcase.
    { destruct c as [o|tid o|lk' c|qk' c|b c]; try (left; done). cbn in Hg.
      destruct (decide (qk' = qk)) as [->|E]; [right; exists c; split; [done|by apply Hg]|by left]. }
    destruct Hcase as [Hoff|(qc & -> & Hroom & Hacc & Hsole)].
    + assert (Hst : forall r', queue_step_lost qk cfg (q, lost) (ECall c r') cfg (q, lost)).
      { intros r'. destruct c as [o|tid o|lk' c|qk' c|b c]; try done. cbn. case_bool_decide as E; [by destruct Hoff|done]. }
      eapply kwp_mono; [| | |by apply (off_queue_kwp cfg qk c M q lost rng)]; [done| |];
        (intros y M' _ H; exists (q, lost); split; [apply Hst|]; by exists rng).
    + cbn [call_prog]. eapply kwp_mono; [| | |apply (queue_kwp cfg qk M q lost rng qc HR)]; [done| | | |done].
      * intros y M' _ (q' & lost' & rng' & H1 & H2 & H3). exists (q', lost'). cbn [queue_step_lost].
        rewrite bool_decide_true by done. split; [done|]. by exists rng'.
      * intros e M' _ (H1 & H2 & lost' & rng' & H3 & H4). exists (q, lost'). cbn [queue_step_lost].
        rewrite bool_decide_true by done. split; [done|]. by exists rng'.
      * intros Hr. eapply qok_ok; [done|done|done|by apply Hroom|done].
  - intros cfg s x M [q lost] c HI [rng HR] [Hf Hg]. cbn [fst snd] in *.
    assert (off_queue qk c \/ exists qc, c = CQueue qk qc /\ (queue_reads qc = false -> queue_room cfg s qk (qcall_adds qc)) /\
      crash_safe qc = true /\ queue_not_sole cfg s qk qc) as Hcase.
    { destruct c as [o|tid o|lk' c|qk' c|b c]; try (left; done). cbn in Hg.
      destruct (decide (qk' = qk)) as [->|E]; [right; exists c; split; [done|by apply Hg]|by left]. }
    destruct Hcase as [Hoff|(qc & -> & Hroom & Hsafe & Hsole)].
    + eapply kwp_mono; [| | |by apply (off_queue_kwp cfg qk c M q lost rng)]; [|done|done].
      intros M' H. exists (q, lost). split; [|by exists rng]. intros cfg' _.
      destruct c as [o|tid o|lk' c|qk' c|b c]; try done. cbn. case_bool_decide as E; [by destruct Hoff|done].
    + cbn [call_prog]. eapply kwp_mono; [| | |apply (queue_kwp cfg qk M q lost rng qc HR)]; [|done|done| |congruence].
      * intros M' Hc. destruct (Hc Hsafe) as (q' & lost' & rng' & H1 & H2 & H3). exists (q', lost').
        split; [|by exists rng']. intros cfg' _. cbn [queue_step_lost]. rewrite bool_decide_true by done. done.
      * intros Hr. eapply qok_ok; [done|done|done|by apply Hroom|done].
  - intros cfg s x M a e HI HV _ He. exists a. split; [|done]. intros cfg' _. destruct e as [c r|mt| | |[|c|mt]]; done.
  - intros cfg s x M a HI HV _. exists ([], 0). split; [done|]. exists None. apply qrep_nil.
Qed.

Definition queue_inv (qk : bytes) cfg M q : Prop := exists rng, qrep qk M q 0 rng.
Lemma queue_spec_0 q c y q' : queue_spec_lost q 0 c y q' -> queue_spec q c y q'.
Proof. destruct c; try done. cbn. by rewrite N.add_0_r. Qed.
Lemma queue_lifts qk : lifts (queue_inv qk) (queue_step qk) (queue_guard qk).
Proof.
  constructor.
  - intros cfg cfg' M a Hh H. exact H.
  - intros cfg s e [H _]. exact H.
  - intros cfg s x M q c r HI [rng HR] [Hf Hg]. exists (fun _ => True).
    assert (off_queue qk c \/ exists qc, c = CQueue qk qc /\ (queue_reads qc = false -> queue_room cfg s qk (qcall_adds qc)) /\
      qcall_accepts cfg qk qc /\ queue_not_sole cfg s qk qc) as Hcase.
    { destruct c as [o|tid o|lk' c|qk' c|b c]; try (left; done). cbn in Hg.
      destruct (decide (qk' = qk)) as [->|E]; [right; exists c; split; [done|by apply Hg]|by left]. }
    destruct Hcase as [Hoff|(qc & -> & Hroom & Hacc & Hsole)].
    + assert (Hst : forall r', queue_step qk cfg q (ECall c r') cfg q).
      { intros r'. destruct c as [o|tid o|lk' c|qk' c|b c]; try done. cbn. case_bool_decide as E; [by destruct Hoff|done]. }
      eapply kwp_mono; [| | |by apply (off_queue_kwp cfg qk c M q 0 rng)]; [done| |];
        (intros y M' _ H; exists q; split; [apply Hst|]; by exists rng).
    + cbn [call_prog]. eapply kwp_mono; [| | |apply (queue_kwp cfg qk M q 0 rng qc HR)]; [done| | | |done].
      * intros y M' _ (q' & lost' & rng' & H1 & H2 & H3). exists q'. cbn [queue_step].
        rewrite bool_decide_true by done. split; [exists y; split; [done|by apply queue_spec_0]|]. exists rng'. by replace 0 with lost' by lia.
      * intros e M' _ (H1 & H2 & _). done.
      * intros Hr. eapply qok_ok; [done|done|done|by apply Hroom|done].
  - intros cfg s x M q c HI [rng HR] [Hf Hg].
    assert (off_queue qk c) as Hoff by (by destruct c).
    eapply kwp_mono; [| | |by apply (off_queue_kwp cfg qk c M q 0 rng)]; [|done|done].
    intros M' H. exists q. split; [|by exists rng]. intros cfg' _. done.
  - intros cfg s x M a e HI HV _ He. exists a. split; [|done]. intros cfg' _. destruct e as [c r|mt| | |[|c|mt]]; done.
  - intros cfg s x M a HI HV _. exists []. split; [done|]. exists None. apply qrep_nil.
Qed.

(** ** Big values *)
Lemma chunks_concat n : (0 < n)%nat -> forall fuel (l : bytes), (length l <= fuel)%nat -> concat (chunks fuel n l) = l.
Proof.
  intros Hn. induction fuel as [|fuel IH]; intros l Hl; cbn [chunks].
  - by destruct l; [|cbn in Hl; lia].
  - destruct l as [|b l]; [done|]. cbn [concat]. rewrite IH; [apply take_drop|]. rewrite drop_length. cbn [length] in *. lia.
Qed.
Lemma chunks_in n fuel : forall (l w : bytes), w ∈ chunks fuel n l -> (length w <= n)%nat /\ (length w <= length l)%nat.
Proof.
  induction fuel as [|fuel IH]; intros l w Hw; cbn [chunks] in Hw; [by apply elem_of_nil in Hw|].
  destruct l as [|b l]; [by apply elem_of_nil in Hw|]. apply elem_of_cons in Hw as [->|Hw].
  - rewrite take_length. lia.
  - apply IH in Hw as [H1 H2]. split; [done|]. rewrite drop_length in H2. lia.
Qed.
Lemma chunks_len n fuel : forall (l : bytes), (length (chunks fuel n l) <= fuel)%nat.
Proof. induction fuel as [|fuel IH]; intros l; cbn [chunks]; [done|]. destruct l; cbn [length]; [lia|]. pose proof (IH (drop n (b :: l))). lia. Qed.
Lemma chunks_ne fuel n (l : bytes) : l <> [] -> (length l <= fuel)%nat -> chunks fuel n l <> [].
Proof. intros H1 H2. destruct fuel; [destruct l; [done|cbn in H2; lia]|]. by destruct l. Qed.

Definition big_of q : option bytes := match q with [] => None | _ => Some (concat (map snd q)) end.
Definition big_inv (k : bytes) cfg M (m : option bytes) : Prop :=
  exists q rng, qrep k M q 0 rng /\ m = big_of q /\ (q = [] -> rng = None).
Lemma big_some q rng M k : qrep k M q 0 rng -> (q = [] -> rng = None) -> bool_decide (rng <> None) = bool_decide (is_Some (big_of q)).
Proof.
  intros HR Hn. apply bool_decide_ext. destruct q as [|x q].
  - rewrite Hn by done. cbn. split; [done|by intros []].
  - split; [intros _; by eexists|]. intros _ ->. by destruct HR as [_ (_ & ? & _)].
Qed.
Lemma big_kwp cfg k M q rng c : qrep k M q 0 rng -> (q = [] -> rng = None) -> big_accepts cfg k c ->
  kwp cfg (big_prog cfg k c) (fun _ => True)
    (fun y M' => exists m', big_spec (big_of q) c y m' /\ big_inv k cfg M' m') (fun _ _ => False) M.
Proof.
  intros HR Hn Ha. destruct c as [v| |]; cbn [big_prog]; apply kwp_map.
  - destruct Ha as (Hv & Hlen & Hacc). unfold set_big. apply kwp_bind.
    eapply kwp_mono; [| | |by apply (kwp_qdiscard cfg k M q 0 rng)]; [done| |done].
    intros y M1 _ (HR1 & ->). apply kwp_bind. set (vs := chunks (length v) (N.to_nat MAX_VALUE_SIZE) v).
    assert (concat vs = v) as Hc by (apply chunks_concat; [unfold MAX_VALUE_SIZE; lia|lia]).
    assert (vs <> []) as Hne by (by apply chunks_ne).
    assert (len vs <= len v) as Hvl by (unfold len; pose proof (chunks_len (N.to_nat MAX_VALUE_SIZE) (length v) v); fold vs in H; lia).
    eapply kwp_mono; [| | |apply (kwp_qextend cfg k M1 [] 0 None vs HR1)]; [done| |done| |].
    + intros r M2 _ (i & rng' & -> & _ & HR2). apply kwp_ret; [done|]. exists (Some v). split.
      * split; [|done]. f_equal. by eapply big_some.
      * exists (number i vs), (Some rng'). split; [done|]. assert (number i vs <> []) as Hnn by (by destruct vs).
        split; [|done]. unfold big_of. destruct (number i vs) as [|x l] eqn:E; [done|]. by rewrite <- E, number_snd, Hc.
    + split; [|done]. change (FIRST_IDX) with (2 ^ 63). change U64 with (2 ^ 64). assert (2 ^ 62 + 1 < 2 ^ 63) by done. assert (2 ^ 64 = 2 ^ 63 + 2 ^ 63) by done. lia.
    + assert (queue_accepts cfg k []) as [Hacc0 _] by (apply Hacc; [done|apply N.le_0_l]). split; [exact Hacc0|]. apply Forall_forall. intros w Hw. apply chunks_in in Hw as [H1 H2]. apply Hacc; unfold len; lia.
  - unfold get_big. apply kwp_bind, (kwp_iter_queue cfg k M q 0 rng true); [done|done|]. apply kwp_ret; [done|].
    exists (big_of q). split; [split; [|done]; by destruct q|]. exists q, rng. done.
  - unfold remove_big. eapply kwp_mono; [| | |by apply (kwp_qdiscard cfg k M q 0 rng)]; [done| |done].
    intros y M1 _ (HR1 & ->). exists None. split; [split; [|done]; f_equal; by eapply big_some|]. by exists [], None.
Qed.
Lemma big_lifts k : lifts (big_inv k) (big_step k) (big_guard k).
Proof.
  constructor.
  - intros cfg cfg' M a Hh H. exact H.
  - intros cfg s e [H _]. exact H.
  - intros cfg s x M m c r HI (q & rng & HR & Hm & Hn) [Hf Hg]. exists (fun _ => True).
    assert (off_queue k c \/ exists bc, c = CBig k bc /\ big_accepts cfg k bc) as Hcase.
    { destruct c as [o|tid o|lk' c|qk' c|k' c]; try (left; done). cbn in Hg.
      destruct (decide (k' = k)) as [->|E]; [right; exists c; split; [done|by apply Hg]|by left]. }
    destruct Hcase as [Hoff|(bc & -> & Hacc)].
    + assert (Hst : forall r', big_step k cfg m (ECall c r') cfg m).
      { intros r'. destruct c as [o|tid o|lk' c|qk' c|b c]; try done. cbn. case_bool_decide as E; [by destruct Hoff|done]. }
      eapply kwp_mono; [| | |by apply (off_queue_kwp cfg k c M q 0 rng)]; [done| |];
        (intros y M' _ H; exists m; split; [apply Hst|]; by exists q, rng).
    + cbn [call_prog]. eapply kwp_mono; [| | |by apply (big_kwp cfg k M q rng bc)]; [done| |done].
      intros y M' _ (m' & H1 & H2). exists m'. cbn [big_step]. rewrite bool_decide_true by done. split; [|done]. exists y. by rewrite Hm.
  - intros cfg s x M m c HI (q & rng & HR & Hm & Hn) [Hf Hg].
    assert (off_queue k c) as Hoff by (by destruct c).
    eapply kwp_mono; [| | |by apply (off_queue_kwp cfg k c M q 0 rng)]; [|done|done].
    intros M' H. exists m. split; [|by exists q, rng]. intros cfg' _. done.
  - intros cfg s x M a e HI HV _ He. exists a. split; [|done]. intros cfg' _. destruct e as [c r|mt| | |[|c|mt]]; done.
  - intros cfg s x M a HI HV _. exists None. split; [done|]. exists [], None. split; [apply qrep_nil|done].
Qed.
