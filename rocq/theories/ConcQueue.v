(** Queue calls, used by many threads (C52). *)
From Coq Require Import Sorted.
From Verif Require Import Base Hashing HashingProofs Fs Shard Router RouterPure Wpc Spec FileRep RowOps
  Compact Inv ShardOps Split Insert Open Merge Create Store Limits StoreRefine Kv Lists Queues Api Hist KvSpec
  HistInv KeySpace ListSpec ListRep ListProg ListHist ThmList QueueSpec QueueRep QueueProg QueueHist ThmQueue
  Conc ConcSpec ConcLin ConcLock ConcList ConcSeen ConcSess ConcListAll.
Implicit Types (M : kvmap) (q : elems) (qc : qcall) (v : bytes) (h t n B : N) (ex : bool).
Local Arguments u64_bytes : simpl never.
Local Arguments enc_rec : simpl never.

(** ** Specification *)
(** The element [x] was in the queue in one of the states [seen]. *)
Definition qseen_in (seen : list elems) (x : N * bytes) : Prop := exists q, q ∈ seen /\ x ∈ q.
(** What a call that takes effect on the queue [q] may return and leave, having [seen] the states
    since it was made: all calls but iteration and peeking behave as on a deque; these two look at
    the elements one after the other. [ex]: extend_queue is used as well. *)
Definition qseen (ex : bool) (seen : list elems) (q : elems) (c : qcall) (y : reply) (q' : elems) : Prop :=
  match c with
  | QIter fwd => q' = q /\ exists xs, y = YElems xs /\ StronglySorted N.lt (map fst (if fwd then xs else rev xs)) /\
      (ex = false -> forall x, x ∈ xs -> qseen_in seen x)
  | QPeek _ => q' = q /\ exists o, y = YElem o /\ (ex = false -> forall x, o = Some x -> qseen_in seen x)
  | _ => queue_spec q c y q'
  end.
Definition queue_seen (qk : bytes) (ex : bool) (seen : list elems) (q : elems) (c : call) (r : res reply) (q' : elems) : Prop :=
  match c with
  | CQueue qk' qc => if bool_decide (qk' = qk) then exists y, r = Ok y /\ qseen ex seen q qc y q' else q' = q
  | _ => q' = q
  end.
Definition no_mid (q : elems) (c : call) (q' : elems) : Prop := False.
(** The calls: on the queue any but remove_from_queue (see C29), anything else on other keys. *)
Definition queue_any (cfg : config) (qk : bytes) (ex : bool) (c : call) : Prop :=
  match c with
  | CQueue qk' qc => if bool_decide (qk' = qk) then qcall_accepts cfg qk qc /\
      match qc with QRemove _ => False | QExtend _ => ex = true | _ => True end else True
  | CBig k _ => k <> qk
  | _ => True
  end.
(** How many elements a call adds to the queue [qk]. *)
Definition queue_w (qk : bytes) (c : call) : N :=
  match c with CQueue qk' qc => if bool_decide (qk' = qk) then qcall_adds qc else 0 | _ => 0 end.

Lemma qseen_mono ex (H H' : list elems) q qc y q' : H ⊆ H' -> qseen ex H q qc y q' -> qseen ex H' q qc y q'.
Proof.
  intros Hs. assert (Hm : forall x, qseen_in H x -> qseen_in H' x) by (intros x (q0 & H1 & H2); exists q0; split; [by apply Hs|done]).
  destruct qc as [at_head v|vs|at_head|i| |fwd|fwd| |]; cbn [qseen]; try done.
  - intros [-> (xs & -> & H1 & H2)]. split; [done|]. exists xs. split; [done|]. split; [done|]. intros He x Hx. by apply Hm, H2.
  - intros [-> (o & -> & H2)]. split; [done|]. exists o. split; [done|]. intros He x Hx. by apply Hm, H2.
Qed.
Lemma queue_seen_mono qk ex (H H' : list elems) q c r q' : H ⊆ H' -> queue_seen qk ex H q c r q' -> queue_seen qk ex H' q c r q'.
Proof.
  intros Hs. destruct c as [o|tid o|lk' lc|qk' qc|b bc]; cbn [queue_seen]; try done. case_bool_decide; [|done].
  intros (y & -> & Hy). exists y. split; [done|]. by eapply qseen_mono.
Qed.

(** ** The room left in the record *)
Definition qbud (B : N) (o : option bytes) : Prop :=
  FIRST_IDX + 2 * B + 1 < U64 /\
  match o with
  | Some b => exists h t n, b = enc_rec (LRec h t n) /\ h < U64 /\ t < U64 /\ n < U64 /\ 1 + B <= h /\ t + n + 2 * B + 1 < U64
  | None => True
  end.
Lemma qbud_mono B B' o : B <= B' -> qbud B' o -> qbud B o.
Proof.
  intros HB [H1 H2]. split; [lia|]. destruct o as [b|]; [|done]. destruct H2 as (h & t & n & -> & ? & ? & ? & ? & ?). exists h, t, n. split; [done|]. lia.
Qed.

Section parts.
  Context (cfg : config) (qk : bytes).
  Local Notation K := (queue_keys qk).
  Local Notation T := (fun _ : kvmap => True).
  Local Notation TE := (fun (_ : err) (_ : kvmap) => True).
  Definition F0 (k : bytes) : bool := false.
  Definition qitem_keys (k : bytes) : Prop := exists i, k = qitem_key qk i.

  Definition qsection {A} (IK : bytes -> Prop) (p : kprog A) : Prop :=
    exists b, p = klocked cfg (queue_ph cfg qk) b /\ klocal K F0 anyv b /\ pw IK b.

  Lemma pop_loop_local at_head k : forall r, klocal K F0 anyv (pop_loop qk at_head k r).
  Proof. induction k as [|k IH]; intros r; cbn [pop_loop]; [done|]. cbv zeta. kl. apply IH. Qed.
  Lemma rem_items_local js : klocal K F0 anyv (rem_items qk js).
  Proof. induction js as [|j js IH]; cbn [rem_items]; [done|]. kl. exact IH. Qed.
  Lemma extend_items_local vs : forall t k, klocal K F0 anyv (extend_items qk vs t k).
  Proof. induction vs as [|v vs IH]; intros t k; cbn [extend_items]; [done|]. kl. apply IH. Qed.
  Lemma iter_qitems_local js : klocal K F0 anyv (iter_qitems qk js).
  Proof. induction js as [|j js IH]; cbn [iter_qitems]; [done|]. kl; [|exact IH]. apply klocal_seq; [exact IH|]. done. Qed.
  Lemma peek_qitems_local js : klocal K F0 anyv (peek_qitems qk js).
  Proof. induction js as [|j js IH]; cbn [peek_qitems]; [done|]. kl. exact IH. Qed.

  (** Without locks inside, everything is calm with respect to no keys. *)
  Fixpoint nolock {A} (p : kprog A) : Prop :=
    match p with
    | KRet _ | KFail _ => True
    | KVis o k => match o with KLock _ | KUnlock _ => False | _ => True end /\ forall x, nolock (k x)
    end.
  Lemma nolock_pw {A} (p : kprog A) : nolock p -> pw (fun _ => False) p.
  Proof. induction p as [a|e|X o k IH]; cbn [nolock pw]; [done|done|]. intros [Ho Hk]. destruct o; try done; try (intros x; by apply IH); left; (split; [by intros []|]); intros x; by apply IH. Qed.
  Lemma nolock_bind {A A2} (p : kprog A) (f : A -> kprog A2) : nolock p -> (forall a, nolock (f a)) -> nolock (kbind p f).
  Proof. intros Hp Hf. induction p as [a|e|X o k IH]; cbn [nolock kbind] in *; [done|done|]. destruct Hp as [H1 H2]. split; [done|]. intros x. by apply IH. Qed.
  Lemma nolock_lift {A} (r : res A) : nolock (klift r). Proof. by destruct r. Qed.
  Lemma nolock_set k v : nolock (kset k v). Proof. split; [done|]. intros x. apply nolock_lift. Qed.
  Lemma nolock_goc k v : nolock (kgoc k v). Proof. split; [done|]. intros x. apply nolock_lift. Qed.
  Ltac nl := repeat match goal with
    | |- forall _, _ => intros ?
    | |- nolock (kbind _ _) => apply nolock_bind
    | |- nolock (klift _) => apply nolock_lift
    | |- nolock (kset _ _) => apply nolock_set
    | |- nolock (kgoc _ _) => apply nolock_goc
    | |- nolock (KRet _) => exact Logic.I
    | |- nolock (kop1 _) => split; [exact Logic.I|exact (fun _ => Logic.I)]
    | |- nolock (match ?x with _ => _ end) => destruct x
    end.
  Lemma pop_loop_nolock at_head k : forall r, nolock (pop_loop qk at_head k r).
  Proof. induction k as [|k IH]; intros r; cbn [pop_loop]; [done|]. cbv zeta. nl. apply IH. Qed.
  Lemma rem_items_nolock js : nolock (rem_items qk js).
  Proof. induction js as [|j js IH]; cbn [rem_items]; [done|]. nl. exact IH. Qed.
  Lemma extend_items_nolock vs : forall t k, nolock (extend_items qk vs t k).
  Proof. induction vs as [|v vs IH]; intros t k; cbn [extend_items]; [done|]. nl. apply IH. Qed.

  Lemma push_section v at_head : qsection qitem_keys (push_to_queue cfg qk v at_head).
  Proof.
    unfold push_to_queue. eexists. split; [reflexivity|]. split; [kl|].
    apply pw_bind; [apply calmp_goc; nk|]. intros st. apply pw_bind.
    - destruct st as [qb|qb]; [|done]. apply calmp_bind; [apply calmp_lift|]. intros r. apply calmp_bind.
      + destruct at_head; (apply calmp_bind; [apply calmp_lift|done]).
      + intros [[idx h] t]. apply calmp_bind; [apply calmp_lift|]. intros n. apply calmp_bind; [apply calmp_set; nk|done].
    - intros idx. right. intros x. destruct x; first [by eexists (Ok _) | by eexists (Err _)].
  Qed.
  Lemma pop_section at_head : qsection (fun _ => False) (pop_queue cfg qk at_head).
  Proof.
    unfold pop_queue. eexists. split; [reflexivity|]. split.
    - kl. apply klocal_seq; [apply pop_loop_local|]. kl.
    - apply nolock_pw. nl. apply pop_loop_nolock.
  Qed.
  Lemma qdiscard_section : qsection (fun _ => False) (discard_queue cfg qk).
  Proof.
    unfold discard_queue. eexists. split; [reflexivity|]. split.
    - kl. apply klocal_seq; [apply rem_items_local|]. kl.
    - apply nolock_pw. nl. apply rem_items_nolock.
  Qed.
  Lemma extend_section vs : qsection (fun _ => False) (extend_queue cfg qk vs).
  Proof.
    unfold extend_queue. eexists. split; [reflexivity|]. split.
    - kl. apply klocal_seq; [apply extend_items_local|]. kl.
    - apply nolock_pw. nl. apply extend_items_nolock.
  Qed.
  Lemma fetch_section : qsection (fun _ => False) (fetch_queue cfg qk).
  Proof.
    unfold fetch_queue. eexists. split; [reflexivity|]. split; [kl|]. apply nolock_pw. nl.
  Qed.

  (** *** The record *)
  Lemma qbud_rec B M h t n : FIRST_IDX + 2 * B + 1 < U64 -> h < U64 -> t < U64 -> n < U64 -> 1 + B <= h -> t + n + 2 * B + 1 < U64 ->
    qbud B (<[queue_key qk := enc_rec (LRec h t n)]> M !! queue_key qk).
  Proof. intros. rewrite lookup_insert. split; [done|]. by exists h, t, n. Qed.
  Lemma qbud_off B k v M : k <> queue_key qk -> qbud B (M !! queue_key qk) -> qbud B (<[k := v]> M !! queue_key qk).
  Proof. intros Hk. by rewrite lookup_insert_ne. Qed.
  Lemma inc64_inv (a b : N) : inc64 a = Ok b -> b = a + 1 /\ a + 1 < U64.
  Proof. unfold inc64. destruct (N.ltb_spec (a + 1) U64); [|done]. intros [= <-]. done. Qed.
  Lemma dec64_inv (a b : N) : dec64 a = Ok b -> b + 1 = a.
  Proof. unfold dec64. destruct (N.eqb_spec a 0); [done|]. intros [= <-]. lia. Qed.
  Lemma push_header B v at_head M : qbud (B + 1) (M !! queue_key qk) ->
    kwp cfg (push_to_queue cfg qk v at_head) T (fun _ M' => qbud B (M' !! queue_key qk)) TE M.
  Proof.
    intros HB. unfold push_to_queue. apply kwp_locked, kwp_bind. pose proof HB as [F1 F2].
    assert (Hend : forall (idx : N) M1, qbud B (M1 !! queue_key qk) ->
      kwp cfg (dok _ <- kset (qitem_key qk idx) v; KRet idx) T (fun _ M' => qbud B (M' !! queue_key qk)) TE M1).
    { intros idx M1 H1. apply kwp_bind, kwp_set_any; [auto with kne|]. intros _. apply kwp_ret; [done|]. apply qbud_off; [kdiff|done]. }
    apply kwp_goc2; [auto with kne|done|done| |].
    - intros qb _ Eqb. rewrite Eqb in F2. destruct F2 as (h & t & n & -> & A1 & A2 & A3 & A4 & A5).
      apply kwp_bind. apply kwp_bind. eapply kwp_lift_ok; [apply dec_enc_rec; lia|done|]. apply kwp_bind. cbn [l_head l_tail l_num].
      assert (Hrec : forall idx h' t', h' < U64 -> t' < U64 -> 1 + B <= h' -> t' + n + 2 * B + 1 + 1 < U64 ->
        kwp cfg (dok num <- klift (inc64 n); dok _ <- kset (queue_key qk) (enc_rec (LRec h' t' num)); KRet idx) T
          (fun a M' => kwp cfg (dok _ <- kset (qitem_key qk a) v; KRet a) T (fun _ M' => qbud B (M' !! queue_key qk)) TE M') TE M).
      { intros idx h' t' B1 B2 B3 B4. apply kwp_bind, kwp_lift_any. intros num Hn. apply inc64_inv in Hn as [-> Hn].
        apply kwp_bind, kwp_set_any; [auto with kne|]. intros _. apply kwp_ret; [done|]. apply Hend. apply qbud_rec; lia. }
      destruct at_head.
      + apply kwp_bind, kwp_lift_any. intros h' Hh. apply dec64_inv in Hh. apply kwp_ret; [done|]. apply Hrec; lia.
      + apply kwp_bind, kwp_lift_any. intros t' Ht. apply inc64_inv in Ht as [-> Ht]. apply kwp_ret; [done|]. apply Hrec; lia.
    - intros _ _. split; [done|]. cbn [kbind]. apply Hend. apply qbud_rec; try lia. all: unfold FIRST_IDX, U64 in *; lia.
  Qed.
  Lemma pop_loop_header at_head k : forall h t n M,
    kwp cfg (pop_loop qk at_head k (LRec h t n)) T (fun xr M' => @eq (option bytes) (M' !! queue_key qk) (M !! queue_key qk) /\
      exists h' t' n', snd xr = LRec h' t' n' /\ h <= h' /\ h' <= h + N.of_nat k /\ t' <= t /\ n' <= n) TE M.
  Proof.
    induction k as [|k IH]; intros h t n M; cbn [pop_loop]; cbv zeta; cbn [l_head l_tail l_num].
    - apply kwp_ret; [done|]. split; [done|]. exists h, t, n. cbn [snd]. split; [done|]. lia.
    - assert (Hstep : forall idx h1 t1, h <= h1 -> h1 <= h + 1 -> t1 <= t ->
        kwp cfg (dok x <- kop1 (KRem (qitem_key qk idx));
          match x with
          | Some v => dok num <- klift (dec64 n); KRet (Some (idx, v), LRec h1 t1 num)
          | None => pop_loop qk at_head k (LRec h1 t1 n)
          end) T (fun xr M' => @eq (option bytes) (M' !! queue_key qk) (M !! queue_key qk) /\
      exists h' t' n', snd xr = LRec h' t' n' /\ h <= h' /\ h' <= h + N.of_nat (S k) /\ t' <= t /\ n' <= n) TE M).
      { intros idx h1 t1 H1 H2 H3. apply kwp_bind, kwp_rem; [done|done|].
        assert (@eq (option bytes) (delete (qitem_key qk idx) M !! queue_key qk) (M !! queue_key qk)) as E by (apply lookup_delete_ne; kdiff).
        destruct (M !! qitem_key qk idx) as [v|].
        - apply kwp_bind, kwp_lift_any. intros num Hn. apply dec64_inv in Hn. apply kwp_ret; [done|]. split; [done|]. exists h1, t1, num. cbn [snd]. split; [done|]. lia.
        - eapply kwp_mono; [| | |apply (IH h1 t1 n)]; [done| |done]. intros xr M' _ (K1 & h' & t' & n' & K2 & K3). split; [by rewrite K1|]. exists h', t', n'. split; [done|]. lia. }
      destruct at_head; apply Hstep; lia.
  Qed.
  Lemma pop_header B at_head M : qbud B (M !! queue_key qk) ->
    kwp cfg (pop_queue cfg qk at_head) T (fun _ M' => qbud B (M' !! queue_key qk)) TE M.
  Proof.
    intros HB. unfold pop_queue. apply kwp_locked, kwp_bind, kwp_get; [done|]. destruct (M !! queue_key qk) as [qb|] eqn:Eqb.
    2:{ apply kwp_ret; [done|]. by rewrite Eqb. }
    pose proof HB as (F1 & h & t & n & -> & A1 & A2 & A3 & A4 & A5). apply kwp_bind. eapply kwp_lift_ok; [apply dec_enc_rec; lia|done|]. cbn [l_head l_tail l_num].
    apply kwp_bind. eapply kwp_mono; [| | |apply (pop_loop_header at_head)]; [done| |done].
    intros [x r] M1 _ (K1 & h' & t' & n' & K2 & K3 & K4 & K5 & K6). cbn [snd] in K2. subst r. cbn [l_head l_tail l_num]. apply kwp_bind.
    destruct (h' =? t').
    - apply kwp_bind, kwp_rem; [done|done|]. apply kwp_ret; [done|]. apply kwp_ret; [done|]. rewrite lookup_delete. done.
    - apply kwp_bind, kwp_set_any; [auto with kne|]. intros _. apply kwp_ret; [done|]. apply kwp_ret; [done|]. apply qbud_rec; lia.
  Qed.
  Lemma rem_items_header js : forall M, kwp cfg (rem_items qk js) T (fun _ M' => @eq (option bytes) (M' !! queue_key qk) (M !! queue_key qk)) TE M.
  Proof.
    induction js as [|j js IH]; intros M; cbn [rem_items]; [by apply kwp_ret|]. apply kwp_bind, kwp_rem; [done|done|].
    eapply kwp_mono; [| | |apply IH]; [done| |done]. intros ? M' _ ->. apply lookup_delete_ne. kdiff.
  Qed.
  Lemma qdiscard_header B M : qbud B (M !! queue_key qk) ->
    kwp cfg (discard_queue cfg qk) T (fun _ M' => qbud B (M' !! queue_key qk)) TE M.
  Proof.
    intros HB. unfold discard_queue. apply kwp_locked, kwp_bind, kwp_get; [done|]. destruct (M !! queue_key qk) as [qb|] eqn:Eqb.
    2:{ apply kwp_ret; [done|]. by rewrite Eqb. }
    apply kwp_bind, kwp_lift_any. intros r _. apply kwp_bind. eapply kwp_mono; [| | |apply rem_items_header]; [done| |done]. intros ? M1 _ _.
    apply kwp_bind, kwp_rem; [done|done|]. apply kwp_ret; [done|]. rewrite lookup_delete. split; [apply HB|done].
  Qed.
  Lemma extend_items_header vs : forall t n M, kwp cfg (extend_items qk vs t n) T
    (fun tn M' => @eq (option bytes) (M' !! queue_key qk) (M !! queue_key qk) /\ tn = (t + len vs, n + len vs) /\ (vs <> [] -> t + len vs < U64 /\ n + len vs < U64)) TE M.
  Proof.
    induction vs as [|v vs IH]; intros t n M; cbn [extend_items].
    - apply kwp_ret; [done|]. change (len []) with 0. rewrite !N.add_0_r. done.
    - assert (len (v :: vs) = len vs + 1) as El by (unfold len; cbn [length]; lia). rewrite El.
      apply kwp_bind, kwp_set_any; [auto with kne|]. intros _. apply kwp_bind, kwp_lift_any. intros t' Ht. apply inc64_inv in Ht as [-> Ht].
      apply kwp_bind, kwp_lift_any. intros n' Hn. apply inc64_inv in Hn as [-> Hn]. eapply kwp_mono; [| | |apply IH]; [done| |done].
      intros tn M' _ (-> & -> & K). split; [apply lookup_insert_ne; kdiff|]. split; [f_equal; lia|]. intros _. destruct vs as [|v' vs]; [change (len []) with 0; lia|].
      destruct K as [K1 K2]; [done|]. lia.
  Qed.
  Lemma extend_header B vs M : qbud (B + len vs) (M !! queue_key qk) ->
    kwp cfg (extend_queue cfg qk vs) T (fun _ M' => qbud B (M' !! queue_key qk)) TE M.
  Proof.
    intros HB. unfold extend_queue. apply kwp_locked, kwp_bind. pose proof HB as [F1 F2].
    assert (Hmain : forall b M1, @eq (option bytes) (M1 !! queue_key qk) (Some b) -> qbud (B + len vs) (Some b) ->
      kwp cfg (dok r <- klift (dec_rec b); dok (tail, num) <- extend_items qk vs (l_tail r) (l_num r);
        dok _ <- kset (queue_key qk) (enc_rec (LRec (l_head r) tail num)); KRet (l_tail r, tail)) T (fun _ M' => qbud B (M' !! queue_key qk)) TE M1).
    { intros b M1 E1 (_ & h & t & n & -> & A1 & A2 & A3 & A4 & A5). apply kwp_bind. eapply kwp_lift_ok; [apply dec_enc_rec; lia|done|]. cbn [l_head l_tail l_num].
      apply kwp_bind. eapply kwp_mono; [| | |apply extend_items_header]; [done| |done]. intros tn M2 _ (K1 & -> & K2).
      apply kwp_bind, kwp_set_any; [auto with kne|]. intros _. apply kwp_ret; [done|]. apply qbud_rec; lia. }
    apply kwp_goc2; [auto with kne|done|done| |].
    - intros b _ Eb. cbn [goc_value]. apply Hmain; [done|]. by rewrite <- Eb.
    - intros _ En. split; [done|]. cbn [goc_value]. apply Hmain; [apply lookup_insert|]. split; [done|].
      exists FIRST_IDX, FIRST_IDX, 0. split; [done|]. unfold FIRST_IDX, U64 in *. lia.
  Qed.
  Lemma qbud_room B M q rng n : qrep qk M q 0 rng -> qbud (B + n) (M !! queue_key qk) -> qroom rng q 0 n.
  Proof.
    intros [HC HR] [F1 F2]. split; [lia|]. destruct rng as [[h t]|]; [|done]. destruct HR as (Hr & H1 & H2 & H3 & H4). rewrite Hr in F2.
    destruct F2 as (h' & t' & n' & E & A1 & A2 & A3 & A4 & A5). apply (f_equal dec_rec) in E. rewrite !dec_enc_rec in E by lia. injection E as -> -> ->. lia.
  Qed.

  (** *** What can be seen at any time *)
  Definition qV (ex : bool) (M : kvmap) (q : elems) : Prop :=
    ex = false -> forall i v, i < U64 -> @eq (option bytes) (M !! qitem_key qk i) (Some v) -> q_get q i = Some v.
  Definition qR (B : N) (M : kvmap) (q : elems) : Prop := (exists rng, qrep qk M q 0 rng) /\ qbud B (M !! queue_key qk).
  Lemma qV_agree ex M M' q : agree qitem_keys M M' -> qV ex M q -> qV ex M' q.
  Proof. intros Ha HV He i v Hi. rewrite (Ha (qitem_key qk i)) by (by exists i). by apply HV. Qed.
  Lemma qV_loc ex M M' q : agree K M M' -> qV ex M q -> qV ex M' q.
  Proof. intros Ha. apply qV_agree. intros k [i ->]. apply Ha. auto with kne. Qed.
  Lemma qV_del ex k M q : qV ex M q -> qV ex (delete k M) q.
  Proof. intros HV He i v Hi Hl. apply lookup_delete_Some in Hl as [_ Hl]. by apply HV. Qed.
  Lemma qV_rec ex v M q : qV ex M q -> qV ex (<[queue_key qk := v]> M) q.
  Proof. intros HV He i w Hi. rewrite lookup_insert_ne by kdiff. by apply HV. Qed.
  Lemma qrep_qV ex M q lost rng : qrep qk M q lost rng -> qV ex M q.
  Proof. intros [HC _] _ i v Hi Hl. by rewrite <- (qc_items _ _ _ HC i Hi). Qed.
  Lemma qR_qV ex B M q : qR B M q -> qV ex M q.
  Proof. intros [[rng HR] _]. by eapply qrep_qV. Qed.
  Lemma qR_loc B M M' q : agree K M M' -> qR B M q -> qR B M' q.
  Proof. intros Ha [[rng HR] HB]. split; [exists rng; by eapply qrep_ext|]. by rewrite (Ha (queue_key qk)) by auto with kne. Qed.
  Lemma qR_mono B B' M q : B <= B' -> qR B' M q -> qR B M q.
  Proof. intros HB [HR HJ]. split; [done|]. by eapply qbud_mono. Qed.

  Lemma pop_loop_V ex q at_head k : forall r M, qV ex M q -> kwp cfg (pop_loop qk at_head k r) (fun M' => qV ex M' q) (fun _ M' => qV ex M' q) TE M.
  Proof.
    induction k as [|k IH]; intros r M HV; cbn [pop_loop]; cbv zeta; [by apply kwp_ret|]. apply kwp_bind, kwp_rem; [done|by apply qV_del|].
    destruct (M !! qitem_key qk _) as [v|]; [|by apply IH, qV_del]. apply kwp_bind, kwp_lift_C; [by apply qV_del|]. intros n _. apply kwp_ret; by apply qV_del.
  Qed.
  Lemma pop_V ex q at_head M : qV ex M q -> kwp cfg (pop_queue cfg qk at_head) (fun M' => qV ex M' q) (fun _ _ => True) TE M.
  Proof.
    intros HV. unfold pop_queue. apply kwp_locked, kwp_bind, kwp_get; [done|]. destruct (M !! queue_key qk) as [qb|]; [|by apply kwp_ret].
    apply kwp_bind, kwp_lift_C; [done|]. intros r _. apply kwp_bind. eapply kwp_mono; [| | |by apply pop_loop_V]; [done| |done]. intros [x r'] M1 _ HV1.
    apply kwp_bind. destruct (l_head r' =? l_tail r').
    - apply kwp_bind, kwp_rem; [done|by apply qV_del|]. apply kwp_ret; [by apply qV_del|]. apply kwp_ret; [by apply qV_del|done].
    - apply kwp_bind, kwp_set_C; [auto with kne|done|by apply qV_rec|]. intros _. apply kwp_ret; [by apply qV_rec|]. apply kwp_ret; [by apply qV_rec|done].
  Qed.
  Lemma rem_items_V ex q js : forall M, qV ex M q -> kwp cfg (rem_items qk js) (fun M' => qV ex M' q) (fun _ M' => qV ex M' q) TE M.
  Proof. induction js as [|j js IH]; intros M HV; cbn [rem_items]; [by apply kwp_ret|]. apply kwp_bind, kwp_rem; [done|by apply qV_del|]. by apply IH, qV_del. Qed.
  Lemma qdiscard_V ex q M : qV ex M q -> kwp cfg (discard_queue cfg qk) (fun M' => qV ex M' q) (fun _ _ => True) TE M.
  Proof.
    intros HV. unfold discard_queue. apply kwp_locked, kwp_bind, kwp_get; [done|]. destruct (M !! queue_key qk) as [qb|]; [|by apply kwp_ret].
    apply kwp_bind, kwp_lift_C; [done|]. intros r _. apply kwp_bind. eapply kwp_mono; [| | |by apply rem_items_V]; [done| |done]. intros ? M1 _ HV1.
    apply kwp_bind, kwp_rem; [done|by apply qV_del|]. apply kwp_ret; [by apply qV_del|done].
  Qed.
  (** A program that writes nothing interesting: any condition on nothing. *)
  Lemma extend_T vs M : qbud (len vs) (M !! queue_key qk) -> kwp cfg (extend_queue cfg qk vs) T (fun _ _ => True) TE M.
  Proof. intros HB. eapply kwp_mono; [| | |apply (extend_header 0)]; [done|done|done|]. by rewrite N.add_0_l. Qed.
End parts.

Section inst.
  Context (cfg : config) (qk : bytes) (ex : bool).
  Local Notation i := (lock_idx cfg (queue_ph cfg qk)).
  Local Notation K := (queue_keys qk).
  Local Notation R := (qR qk).
  Local Notation V := (qV qk ex).
  Local Notation G := (entries_ok cfg).
  Local Notation w := (queue_w qk).
  Local Notation spec := (queue_seen qk ex).
  Local Notation mid := no_mid.
  Local Notation sess := (ss cfg i R V G w spec mid top_any).
  Local Notation ends := (ends_ok cfg i R V G w spec mid top_any).

  Lemma w_qk qc : w (CQueue qk qc) = qcall_adds qc.
  Proof. cbn. by rewrite bool_decide_eq_true_2. Qed.
  Lemma spec_qk (H : list elems) q qc y q' : qseen ex H q qc y q' -> spec H q (CQueue qk qc) (Ok y) q'.
  Proof. intros Hs. cbn. rewrite bool_decide_eq_true_2 by done. by exists y. Qed.

  Lemma qsess_section {A} (IK : bytes -> Prop) qc (H : list elems) (p : kprog A) (f : A -> kprog reply) (C : elems -> kvmap -> Prop) (Q : N -> elems -> A -> kvmap -> Prop) :
    qsection cfg qk IK p -> (forall q M M', agree IK M M' -> V M q -> C q M' -> V M' q) ->
    (forall H' B q x M', H ⊆ H' -> q ∈ H' -> Q B q x M' -> ends (CQueue qk qc) H' q B (f x) M') ->
    (forall B q M, G M -> R (B + qcall_adds qc) M q -> kwp cfg p (C q) (Q B q) (fun _ _ => False) M) ->
    sess (CQueue qk qc) H (kbind p f) Out.
  Proof.
    intros (b & -> & H1 & H2) H3 H4 H5.
    eapply (ss_section cfg i R V G w spec mid top_any (qR_qV qk ex) IK (CQueue qk qc) H (queue_ph cfg qk) b f C Q); [done|done|done|exact H4|].
    intros B M q HG HR. rewrite w_qk in HR. eapply kwp_locked_inv. by apply H5.
  Qed.
  (** The calls that hold the lock throughout. *)
  Definition qlocked (qc : qcall) : bool := match qc with QIter _ | QPeek _ | QRemove _ => false | _ => true end.
  Lemma qsess_own {A} (IK : bytes -> Prop) qc (H : list elems) (p : kprog A) (f : A -> kprog reply) (C : elems -> kvmap -> Prop) :
    qlocked qc = true -> qcall_accepts cfg qk qc ->
    keq (kbind p f) (queue_prog cfg qk qc) -> qsection cfg qk IK p -> (forall x, exists r, f x = klift r) ->
    (forall q M M', agree IK M M' -> V M q -> C q M' -> V M' q) ->
    (forall q M, V M q -> qbud (qcall_adds qc) (M !! queue_key qk) -> kwp cfg p (C q) (fun _ _ => True) (fun _ _ => True) M) ->
    (forall B M, qbud (B + qcall_adds qc) (M !! queue_key qk) -> kwp cfg p (fun _ => True) (fun _ M' => qbud B (M' !! queue_key qk)) (fun _ _ => True) M) ->
    sess (CQueue qk qc) H (queue_prog cfg qk qc) Out.
  Proof.
    intros Hlc Hacc Hk Hs Hf HV HC HJ. eapply ss_ext; [exact Hk|].
    eapply (qsess_section IK qc H p f C (fun B q x M' => kwp cfg (f x) (fun _ => True) (fun y M' => exists q', queue_spec q qc y q' /\ R B M' q') (fun _ _ => False) M')).
    - exact Hs.
    - exact HV.
    - intros H' B q x M' _ Hl Hw. left. destruct (Hf x) as [r Er]. rewrite Er in *. destruct r as [y|e]; cbn [klift kwp] in Hw; destruct Hw as [_ Hw]; [|done].
      destruct Hw as (q' & K1 & K2). exists (Ok y), q'. split; [done|]. split; [|done]. apply spec_qk. by destruct qc.
    - intros B q M HG [[rng HR] HB]. pose proof (qbud_room qk B M q rng _ HR HB) as Hroom.
      assert (qok rng q 0 qc) as Hok by (split; [done|by destruct qc]).
      pose proof (queue_kwp cfg qk M q 0 rng qc HR (fun _ => conj HG Hok) (fun _ => Hacc)) as Hw. eapply kwp_ext in Hw; [|apply keq_sym, Hk]. apply kwp_bind_inv in Hw.
      assert (qbud (qcall_adds qc) (M !! queue_key qk)) as HB0 by (eapply qbud_mono; [|exact HB]; lia).
      eapply kwp_mono; [| | |exact (kwp_and _ _ _ _ _ _ _ _ _ (HC q M (qrep_qV qk ex M q 0 rng HR) HB0) (kwp_and _ _ _ _ _ _ _ _ _ Hw (HJ B M HB)))].
      + by intros M' [? _].
      + intros x M' _ (_ & Hx & HB'). destruct (Hf x) as [r Er]. rewrite Er in *. destruct r as [y|e]; cbn [klift kwp] in *; destruct Hx as [_ Hx]; (split; [done|]).
        * destruct Hx as (q' & lost' & rng' & K1 & K2 & K3). assert (lost' = 0) as -> by lia. exists q'. split; [by apply queue_spec_0|]. split; [by exists rng'|done].
        * destruct Hx as (_ & K & _). by apply K.
      + intros e M2 _ (_ & (_ & K & _) & _). by apply K.
  Qed.
  Lemma fetch_T M : kwp cfg (fetch_queue cfg qk) (fun _ => True) (fun _ M' => M' = M) (fun _ _ => True) M.
  Proof.
    unfold fetch_queue. apply kwp_locked, kwp_bind, kwp_get; [done|]. destruct (M !! queue_key qk) as [qb|]; [|by apply kwp_ret].
    apply kwp_bind, kwp_lift_any. intros r _. by apply kwp_ret.
  Qed.
  Lemma fetch_C (C : kvmap -> Prop) M : C M -> kwp cfg (fetch_queue cfg qk) C (fun _ _ => True) (fun _ _ => True) M.
  Proof.
    intros HC. unfold fetch_queue. apply kwp_locked, kwp_bind, kwp_get; [done|]. destruct (M !! queue_key qk) as [qb|]; [|by apply kwp_ret].
    apply kwp_bind, kwp_lift_C; [done|]. intros r _. by apply kwp_ret.
  Qed.
  Lemma qown_calls qc H : qlocked qc = true -> qcall_accepts cfg qk qc -> (forall vs, qc = QExtend vs -> ex = true) -> sess (CQueue qk qc) H (queue_prog cfg qk qc) Out.
  Proof.
    intros Hlc Hacc Hex. destruct qc as [at_head v|vs|at_head|j| |fwd|fwd| |]; try done.
    - eapply (qsess_own (qitem_keys qk) (QPush at_head v) H (push_to_queue cfg qk v at_head) (fun a => KRet (YNum a)) (fun _ _ => True)); [done|done|apply keq_refl|apply push_section| | | |].
      + intros x. by eexists (Ok _).
      + intros q M M' Ha HV _. by eapply qV_agree.
      + intros q M _ HB. eapply kwp_mono; [| | |apply (push_header cfg qk 0)]; [done|done|done|exact HB].
      + intros B M HB. by apply push_header.
    - pose proof (Hex vs eq_refl) as Hex1. eapply (qsess_own (fun _ => False) (QExtend vs) H (extend_queue cfg qk vs) (fun a => KRet (YRange a)) (fun _ _ => True)); [done|done|apply keq_refl|apply extend_section| | | |].
      + intros x. by eexists (Ok _).
      + intros q M M' _ _ _ He. congruence.
      + intros q M _ HB. by apply extend_T.
      + intros B M HB. by apply extend_header.
    - eapply (qsess_own (fun _ => False) (QPop at_head) H (pop_queue cfg qk at_head) (fun a => KRet (YElem a)) (fun q M' => V M' q)); [done|done|apply keq_refl|apply pop_section| | | |].
      + intros x. by eexists (Ok _).
      + done.
      + intros q M HV _. by apply pop_V.
      + intros B M HB. apply pop_header. eapply qbud_mono; [|exact HB]. lia.
    - eapply (qsess_own (fun _ => False) QDiscard H (discard_queue cfg qk) (fun a => KRet (YBool a)) (fun q M' => V M' q)); [done|done|apply keq_refl|apply qdiscard_section| | | |].
      + intros x. by eexists (Ok _).
      + done.
      + intros q M HV _. by apply qdiscard_V.
      + intros B M HB. apply qdiscard_header. eapply qbud_mono; [|exact HB]. lia.
    - eapply (qsess_own (fun _ => False) QLen H (fetch_queue cfg qk) (fun r => KRet (YNum (match r with None => 0 | Some r => l_num r end))) (fun q M' => V M' q)); [done|done|apply keq_sym, keq_assoc|apply fetch_section| | | |].
      + intros x. by eexists (Ok _).
      + done.
      + intros q M HV _. by apply fetch_C.
      + intros B M HB. eapply kwp_mono; [| | |apply fetch_T]; [done| |done]. intros ? M' _ ->. eapply qbud_mono; [|exact HB]. lia.
    - eapply (qsess_own (fun _ => False) QRange H (fetch_queue cfg qk) (fun r => KRet (YRange (match r with None => (FIRST_IDX, FIRST_IDX) | Some r => (l_head r, l_tail r) end))) (fun q M' => V M' q)); [done|done|apply keq_sym, keq_assoc|apply fetch_section| | | |].
      + intros x. by eexists (Ok _).
      + done.
      + intros q M HV _. by apply fetch_C.
      + intros B M HB. eapply kwp_mono; [| | |apply fetch_T]; [done| |done]. intros ? M' _ ->. eapply qbud_mono; [|exact HB]. lia.
  Qed.

  (** Looking at the elements outside the lock. *)
  Lemma qsess_fetch qc (H : list elems) (f : option lrec -> kprog reply) : qcall_adds qc = 0 ->
    (forall H' r, H ⊆ H' -> (forall a, r = Some a -> l_tail a < U64) -> sess (CQueue qk qc) H' (f r) Out) -> sess (CQueue qk qc) H (kbind (fetch_queue cfg qk) f) Out.
  Proof.
    intros Hz Hf. eapply (qsess_section (fun _ => False) qc H (fetch_queue cfg qk) f (fun q M' => V M' q) (fun B q r M' => R B M' q /\ forall a, r = Some a -> l_tail a < U64)).
    - apply fetch_section.
    - done.
    - intros H' B q x M' Hs Hl [HR Ht]. right. exists q. split; [by left|]. rewrite w_qk, Hz, N.add_0_r. split; [done|]. apply Hf; [|done]. etransitivity; [exact Hs|apply sub_tail].
    - intros B q M HG HRR. rewrite Hz, N.add_0_r in HRR. pose proof HRR as [[rng HR] HB]. apply (kwp_fetch cfg qk M q 0 rng); [done|by eapply qrep_qV|]. split; [done|].
      intros a Ha. destruct rng as [[h t]|]; [|done]. injection Ha as <-. cbn [l_tail snd fst]. apply HR.
  Qed.
  Definition inH (H : list elems) (x : N * bytes) : Prop := ex = false -> qseen_in H x.
  Lemma inH_mono (H H' : list elems) x : H ⊆ H' -> inH H x -> inH H' x.
  Proof. intros Hs Hi He. destruct (Hi He) as (q & H1 & H2). exists q. split; [by apply Hs|done]. Qed.
  Lemma qsess_get c (H : list elems) (j : N) (f : option bytes -> kprog reply) : j < U64 ->
    (forall H', H ⊆ H' -> sess c H' (f None) Out) -> (forall H' v, H ⊆ H' -> inH H' (j, v) -> sess c H' (f (Some v)) Out) ->
    sess c H (kbind (kop1 (KGet (qitem_key qk j))) f) Out.
  Proof.
    intros Hj H1 H2. cbn [kop1 kbind ss]. intros H' M q Hs Hl HV. destruct (M !! qitem_key qk j) as [v|] eqn:E; [|by apply H1]. apply H2; [done|].
    intros He. exists q. split; [done|]. apply q_get_Some. by apply HV.
  Qed.
  Lemma qsess_iter c js : (forall j, j ∈ js -> j < U64) -> forall (H : list elems) (f : elems -> kprog reply),
    (forall H' (xs : elems), H ⊆ H' -> (forall x, x ∈ xs -> inH H' x) -> sublist (map fst xs) js -> sess c H' (f xs) Out) ->
    sess c H (kbind (iter_qitems qk js) f) Out.
  Proof.
    induction js as [|j js IH]; intros Hj H f Hf; cbn [iter_qitems kbind].
    - apply Hf; [done| |done]. intros x Hin. by apply elem_of_nil in Hin.
    - assert (forall i, i ∈ js -> i < U64) as Hj' by (intros i Hi; apply Hj; by right).
      eapply ss_ext; [apply keq_sym, keq_assoc|]. apply qsess_get; [apply Hj; by left| |].
      + intros H' Hs. apply IH; [done|]. intros H2 xs Hs2 K1 K2. apply Hf; [by etransitivity|done|]. by apply sublist_cons.
      + intros H' v Hs Hseen. eapply ss_ext; [apply keq_sym, keq_assoc|]. cbn [kbind].
        apply IH; [done|]. intros H2 xs Hs2 Hxs K2. apply Hf; [by etransitivity| |by apply sublist_skip]. intros x Hin. apply elem_of_cons in Hin as [->|Hin]; [by eapply inH_mono|by apply Hxs].
  Qed.
  Lemma qsess_peek c js : (forall j, j ∈ js -> j < U64) -> forall (H : list elems) (f : option (N * bytes) -> kprog reply),
    (forall H' (o : option (N * bytes)), H ⊆ H' -> (forall x, o = Some x -> inH H' x) -> sess c H' (f o) Out) ->
    sess c H (kbind (peek_qitems qk js) f) Out.
  Proof.
    induction js as [|j js IH]; intros Hj H f Hf; cbn [peek_qitems kbind]; [by apply Hf|].
    assert (forall i, i ∈ js -> i < U64) as Hj' by (intros i Hi; apply Hj; by right).
    eapply ss_ext; [apply keq_sym, keq_assoc|]. apply qsess_get; [apply Hj; by left| |].
    - intros H' Hs. apply IH; [done|]. intros H2 o Hs2. apply Hf. by etransitivity.
    - intros H' v Hs Hseen. cbn [kbind]. apply Hf; [done|]. by intros x [= <-].
  Qed.
  Lemma sublist_in (l1 l2 : list N) x : sublist l1 l2 -> x ∈ l1 -> x ∈ l2.
  Proof.
    induction 1 as [|y l1 l2 Hs IH|y l1 l2 Hs IH]; intros Hx; [done| |apply elem_of_cons; right; by apply IH].
    apply elem_of_cons in Hx as [->|Hx]; apply elem_of_cons; [by left|right; by apply IH].
  Qed.
  Lemma sublist_rev (l1 l2 : list N) : sublist l1 l2 -> sublist (rev l1) (rev l2).
  Proof.
    induction 1 as [|y l1 l2 Hs IH|y l1 l2 Hs IH]; cbn [rev]; [done|by apply sublist_app|]. by apply sublist_inserts_r.
  Qed.
  Lemma sublist_sorted (l1 l2 : list N) : sublist l1 l2 -> StronglySorted N.lt l2 -> StronglySorted N.lt l1.
  Proof.
    induction 1 as [|x l1 l2 Hs IH|x l1 l2 Hs IH]; intros H2; [done| |].
    - apply StronglySorted_inv in H2 as [H2 H3]. constructor; [by apply IH|]. rewrite Forall_forall in H3; apply Forall_forall. intros y Hy. apply H3. by eapply sublist_in.
    - apply StronglySorted_inv in H2 as [H2 _]. by apply IH.
  Qed.
  Lemma idx_seq_sorted h t : StronglySorted N.lt (idx_seq h t).
  Proof.
    assert (forall k a, StronglySorted N.lt (map (fun m => h + N.of_nat m) (seq a k))) as Hk.
    { induction k as [|k IH]; intros a; cbn [seq map]; [constructor|]. constructor; [apply IH|]. apply Forall_forall. intros x Hx.
      apply elem_of_list_fmap in Hx as (m & -> & Hm). apply elem_of_seq in Hm. lia. }
    unfold idx_seq. apply Hk.
  Qed.

  Lemma queue_local qc : klocal K F0 anyv (queue_prog cfg qk qc).
  Proof.
    assert (Hloc : forall A (b : kprog A), klocal K F0 anyv b -> klocal K F0 anyv (klocked cfg (queue_ph cfg qk) b)).
    { intros A b H1. unfold klocked. cbn [kop1 kbind klocal]. intros _. apply klocal_seq; [done|]. intros a. cbn [klocal]. done. }
    assert (Hsec : forall A IK (p : kprog A), qsection cfg qk IK p -> klocal K F0 anyv p).
    { intros A IK p (b & -> & H1 & _). by apply Hloc. }
    destruct qc as [at_head v|vs|at_head|j| |fwd|fwd| |]; cbn [queue_prog]; unfold kmap; (apply klocal_seq; [|done]).
    - eapply Hsec, push_section.
    - eapply Hsec, extend_section.
    - eapply Hsec, pop_section.
    - unfold remove_from_queue. apply Hloc. kl.
    - eapply Hsec, qdiscard_section.
    - unfold iter_queue. apply klocal_seq; [eapply Hsec, fetch_section|]. intros [r|]; [apply iter_qitems_local|done].
    - unfold peek_queue. apply klocal_seq; [eapply Hsec, fetch_section|]. intros [r|]; [apply peek_qitems_local|done].
    - unfold queue_len. apply klocal_seq; [eapply Hsec, fetch_section|done].
    - unfold queue_range. apply klocal_seq; [eapply Hsec, fetch_section|done].
  Qed.
  Lemma queue_all c : queue_any cfg qk ex c ->
    mine cfg i K F0 R V G w spec mid top_any c (call_prog cfg c) \/ rdr cfg V spec top_any c (call_prog cfg c) \/ oth K spec c (call_prog cfg c).
  Proof.
    intros Hok. assert ((exists qc, c = CQueue qk qc) \/ forall qc, c <> CQueue qk qc) as [[qc ->]|Hn].
    { destruct c as [o|tid o|lk' lc|qk' qc|b bc]; try (right; done). destruct (decide (qk' = qk)) as [->|]; [left; eauto|right; congruence]. }
    - cbn [queue_any] in Hok. rewrite bool_decide_eq_true_2 in Hok by done. destruct Hok as [Hacc Hd]. left. split; [apply queue_local|]. intros q.
      assert ((qlocked qc = true) \/ qlocked qc = false) as [Hlc|Hlc] by (destruct (qlocked qc); auto).
      { apply qown_calls; [done|done|]. by intros vs ->. }
      destruct qc as [at_head v|vs|at_head|j| |fwd|fwd| |]; try done; cbn [call_prog queue_prog]; unfold kmap.
      + unfold iter_queue. eapply ss_ext; [apply keq_sym, keq_assoc|]. apply qsess_fetch; [done|]. intros H' r Hs Hr.
        assert (Hfin : forall H2 (xs : elems), (forall x, x ∈ xs -> inH H2 x) -> StronglySorted N.lt (map fst (if fwd then xs else rev xs)) -> sess (CQueue qk (QIter fwd)) H2 (KRet (YElems xs)) Out).
        { intros H2 xs Hxs Hso. cbn [ss]. intros H3 l3 Hs3 _. apply spec_qk. cbn [qseen]. split; [done|]. exists xs. split; [done|]. split; [done|]. intros He x Hin. eapply inH_mono; [exact Hs3|by apply Hxs|done]. }
        destruct r as [r|]; cbn [kbind]; [|apply Hfin; [intros x Hin; by apply elem_of_nil in Hin|destruct fwd; constructor]].
        apply qsess_iter.
        * intros j Hj. apply idx_order_in in Hj. specialize (Hr _ eq_refl). lia.
        * intros H2 xs _ Hxs Hsub. apply Hfin; [done|]. unfold idx_order in Hsub. destruct fwd.
          -- eapply sublist_sorted; [exact Hsub|apply idx_seq_sorted].
          -- rewrite map_rev. eapply sublist_sorted; [|apply (idx_seq_sorted (l_head r) (l_tail r))].
             rewrite <- (rev_involutive (idx_seq _ _)). by apply sublist_rev.
      + unfold peek_queue. eapply ss_ext; [apply keq_sym, keq_assoc|]. apply qsess_fetch; [done|]. intros H' r Hs Hr.
        assert (Hfin : forall H2 (o : option (N * bytes)), (forall x, o = Some x -> inH H2 x) -> sess (CQueue qk (QPeek fwd)) H2 (KRet (YElem o)) Out).
        { intros H2 o Hxs. cbn [ss]. intros H3 l3 Hs3 _. apply spec_qk. cbn [qseen]. split; [done|]. exists o. split; [done|]. intros He x Hin. eapply inH_mono; [exact Hs3|by apply Hxs|done]. }
        destruct r as [r|]; cbn [kbind]; [|by apply Hfin]. apply qsess_peek.
        * intros j Hj. apply idx_order_in in Hj. specialize (Hr _ eq_refl). lia.
        * intros H2 o _ Ho. by apply Hfin.
    - right. right. split.
      + exists (call_keys cfg c). split; [apply call_writes|]. intros k Hk Hk2. destruct (call_keys_queue cfg c qk k Hk Hk2) as [[c' ->]|[c' ->]]; [by destruct (Hn c')|done].
      + intros H q r. destruct c as [o|tid o|lk' lc|qk' qc|b bc]; try done. cbn. rewrite bool_decide_eq_false_2; [done|]. intros ->. by destruct (Hn qc).
  Qed.
  Lemma F0_ok k : F0 k = true -> K k. Proof. done. Qed.
  (** Every concurrent run on the abstract map. *)
  Lemma lin_queue M es A q : arun cfg (AS M ∅ ∅) es A -> (forall a c, EvCall a c ∈ es -> queue_any cfg qk ex c) ->
    entries_ok cfg M -> R (weight w es) M q ->
    exists q' P, hrun spec mid q ∅ es q' P /\ V (a_map A) q' /\ (a_ths A = ∅ -> R 0 (a_map A) q' /\ P = ∅).
  Proof.
    intros Ha Hok HG HR.
    destruct (lin_sess cfg i K F0 F0_ok R V G w spec mid (queue_any cfg qk ex) top_any (entries_step cfg) (qR_loc qk) (qV_loc qk ex) (qR_qV qk ex) top_any_one top_any_in (top_any_push _) (queue_seen_mono qk ex) queue_all
      _ _ _ Ha q ∅ (weight w es) None []) as (q' & P' & B' & md & X & L1 & L2 & L3 & L4 & L5).
    - done.
    - done.
    - exact HR.
    - intros a. cbn [a_ths]. by rewrite !lookup_empty.
    - cbn [total]. lia.
    - exists q', P'. split; [done|]. split; [eapply modes_V; [exact (qR_qV qk ex)|exact L3]|]. intros Ht. destruct md as [a|].
      + destruct L3 as (c & H & p & B0 & E & _). by rewrite Ht, lookup_empty in E.
      + cbn [modes] in L3. split; [eapply qR_mono; [|exact L3]; lia|]. apply map_eq. intros a. rewrite lookup_empty. specialize (L4 a). rewrite Ht, lookup_empty in L4.
        by destruct (P' !! a) as [[]|].
  Qed.
End inst.
