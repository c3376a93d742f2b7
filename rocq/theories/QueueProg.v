(** The effect of every queue program on the representation of QueueRep.v. *)
From Coq Require Import Sorted.
From Verif Require Import Base Hashing HashingProofs Fs Shard Router RouterPure Wpc Spec FileRep RowOps
  Compact Inv ShardOps Split Insert Open Merge Create Store Limits StoreRefine Kv Lists Queues Api Hist KvSpec
  HistInv KeySpace ListSpec ListRep ListProg QueueSpec QueueRep.
Implicit Types (M : kvmap) (q : elems) (i j h t lost : N) (v : bytes) (rng : option (N * N)) (fwd at_head : bool).
Local Arguments u64_bytes : simpl never.
Local Arguments enc_rec : simpl never.

Lemma end_head q h v : StronglySorted N.lt (map fst q) -> Forall (fun x : N * bytes => h <= fst x) q -> q_get q h = Some v ->
  head q = Some (h, v) /\ tl q = q_remove q h.
Proof.
  intros Hs Hf Hg. destruct q as [|[k w] q]; [done|]. cbn in Hs. apply StronglySorted_inv in Hs as [Hs Hlt].
  apply Forall_cons in Hf as [Hk Hf]. cbn in Hk.
  assert (Forall (fun x : N * bytes => fst x <> h) q) as Hn.
  { eapply Forall_impl; [exact (proj1 (List.Forall_map fst (N.lt k) q) Hlt)|]. intros x Hx. cbn beta in *. lia. }
  rewrite q_get_cons in Hg. cbn [fst snd] in Hg. destruct (N.eqb_spec k h) as [->|Hne].
  - assert (w = v) as -> by congruence. split; [done|]. unfold q_remove. cbn [List.filter fst]. rewrite N.eqb_refl. cbn [negb tl].
    symmetry. apply q_remove_same. by apply q_get_None.
  - by rewrite q_get_None in Hg.
Qed.
Lemma end_last q t v : StronglySorted N.lt (map fst q) -> Forall (fun x : N * bytes => fst x <= t) q -> q_get q t = Some v ->
  last q = Some (t, v) /\ removelast q = q_remove q t.
Proof.
  intros Hs Hf Hg. destruct q as [|x q _] using rev_ind; [done|]. destruct x as [k w].
  apply Forall_app in Hf as [Hf Hk]. apply Forall_cons in Hk as [Hk _]. cbn in Hk.
  assert (Forall (fun x : N * bytes => fst x < k) q) as Hlt.
  { clear -Hs. induction q as [|y q IH]; [done|]. cbn in Hs. apply StronglySorted_inv in Hs as [Hs Hl]. constructor; [|by apply IH].
    rewrite Forall_forall in Hl. apply Hl. rewrite map_app. apply elem_of_app. right. left. }
  assert (Forall (fun x : N * bytes => fst x <> t) q) as Hn.
  { eapply Forall_impl; [exact Hlt|]. intros x Hx. cbn beta in *. lia. }
  rewrite q_get_app, (q_get_None q t Hn), q_get_cons in Hg. cbn [fst snd] in Hg. destruct (N.eqb_spec k t) as [->|Hne]; [|done].
  assert (w = v) as -> by congruence. rewrite last_snoc, removelast_last. split; [done|].
  unfold q_remove. rewrite List.filter_app. cbn. rewrite N.eqb_refl. cbn. rewrite app_nil_r. symmetry. apply q_remove_same. by apply q_get_None.
Qed.

Section progs.
Context (cfg : config) (qk : bytes).
Local Notation qcore := (qcore qk).
Local Notation qrep := (qrep qk).

Lemma qrep_of M q lost h t n : qcore M q -> M !! queue_key qk = Some (enc_rec (LRec h t n)) -> h <= t -> t < U64 ->
  Forall (fun x : N * bytes => h <= fst x < t) q -> n = len q + lost -> n < U64 -> qrep M q lost (Some (h, t)).
Proof. intros H1 H2 H3 H4 H5 -> H6. split; [done|]. by rewrite H2. Qed.
Lemma qrep_none M : qcore M [] -> M !! queue_key qk = None -> qrep M [] 0 None.
Proof. intros H1 H2. split; [done|]. by rewrite H2. Qed.
Lemma remove_forall q i (P : N * bytes -> Prop) : Forall P q -> Forall P (q_remove q i).
Proof. intros H. rewrite Forall_forall in H; apply Forall_forall. intros x Hx. apply q_remove_in in Hx as [Hx _]. by apply H. Qed.
(** The 64-bit indices suffice for [n] more elements. *)
Definition qroom rng q lost (n : N) : Prop :=
  FIRST_IDX + n + 1 < U64 /\ match rng with Some (h, t) => 1 <= h /\ t + (len q + lost) + n + 1 < U64 | None => True end.

Lemma acc_qrec v r : queue_accepts cfg qk v -> ins_err cfg (queue_key qk) (enc_rec r) = None.
Proof. intros (H & _). rewrite <- H. apply ins_err_len; [done|]. by rewrite enc_rec_len, replicate_length. Qed.
Lemma acc_qrec2 r : ins_err cfg (queue_key qk) (replicate 24 x00) = None -> ins_err cfg (queue_key qk) (enc_rec r) = None.
Proof. intros H. rewrite <- H. apply ins_err_len; [done|]. by rewrite enc_rec_len, replicate_length. Qed.
Lemma acc_qitem v i : queue_accepts cfg qk v -> ins_err cfg (qitem_key qk i) v = None.
Proof.
  intros (_ & H). rewrite <- H. apply ins_err_len; [|done]. unfold qitem_key. rewrite !app_length, u64_bytes_len, replicate_length. done.
Qed.

(** ** push *)
Lemma kwp_push M q lost rng at_head v : qrep M q lost rng -> qroom rng q lost 1 ->
  kwp cfg (push_to_queue cfg qk v at_head)
    (fun M' => exists q' lost' rng', qrep M' q' lost' rng' /\ lost' <= lost + 1 /\ (q' = q \/ exists i, beyond at_head i q /\ q' = q_push at_head (i, v) q))
    (fun i M' => exists rng', qrep M' (q_push at_head (i, v) q) lost rng' /\ beyond at_head i q)
    (fun e M' => exists lost' rng', qrep M' q lost' rng' /\ lost' <= lost + 1 /\ ~ queue_accepts cfg qk v) M.
Proof.
  intros HR [Hroom1 Hroom]. set (C := fun M' => _). set (Q := fun (i : N) M' => _). set (E := fun e M' => _).
  assert (C0 : forall M' lost' rng', qrep M' q lost' rng' -> lost' <= lost + 1 -> C M').
  { intros M' lost' rng' H1 H2. exists q, lost', rng'. auto. }
  assert (C1 : forall M' i rng', qrep M' (q_push at_head (i, v) q) lost rng' -> beyond at_head i q -> C M').
  { intros M' i rng' H1 H2. exists (q_push at_head (i, v) q), lost, rng'. split; [done|]. split; [lia|]. right. eauto. }
  assert (E0 : forall e M' lost' rng', qrep M' q lost' rng' -> lost' <= lost + 1 -> ~ queue_accepts cfg qk v -> E e M').
  { intros e M' lost' rng' H1 H2 H3. exists lost', rng'. auto. }
  assert (HCM : C M) by (apply (C0 _ lost rng); [done|lia]).
  (* the second half: the record is written, the item is not *)
  assert (Hitem : forall M1 h t i, qcore M1 q -> M1 !! queue_key qk = Some (enc_rec (LRec h t (len q + lost + 1))) ->
    h <= i < t -> t < U64 -> Forall (fun x : N * bytes => h <= fst x < t) q -> len q + lost + 1 < U64 -> beyond at_head i q ->
    C M1 /\ kwp cfg (dok _ <- kset (qitem_key qk i) v; KRet i) C Q E M1).
  { intros M1 h t i K1 K2 K3 K4 K5 K6 K7.
    assert (qrep M1 q (lost + 1) (Some (h, t))) as HR1 by (apply (qrep_of _ _ _ _ _ (len q + lost + 1)); [done|done|lia|done|done|lia|done]).
    assert (C M1) as HC1 by (eapply C0; [exact HR1|lia]). split; [done|].
    apply kwp_bind, kwp_set2; [auto with kne|done| |].
    - intros e He. eapply E0; [exact HR1|lia|]. intros Ha. rewrite (acc_qitem v i Ha) in He. done.
    - intros _.
      assert (qrep (<[qitem_key qk i:=v]> M1) (q_push at_head (i, v) q) lost (Some (h, t))) as HR2.
      { apply (qrep_of _ _ _ _ _ (len q + lost + 1)); [apply qcore_push; [done|lia|done]| |lia|done| | |done].
        - rewrite lookup_insert_ne by kdiff. done.
        - destruct at_head; cbn [q_push]; [constructor; [cbn; lia|done]|]. apply Forall_app. split; [done|]. constructor; [cbn; lia|done].
        - destruct at_head; cbn [q_push]; [unfold len; cbn [length]; lia|]. rewrite Base.len_app. change (len [(i, v)]) with 1. lia. }
      split; [by eapply C1|]. intros _. apply kwp_ret; [by eapply C1|]. exists (Some (h, t)). done. }
  unfold push_to_queue. apply kwp_locked, kwp_bind, kwp_goc2; [auto with kne|done| | |].
  - intros e He. apply (E0 _ _ lost rng); [done|lia|]. intros Ha. rewrite (acc_qrec v _ Ha) in He. done.
  - intros b _ Hb. destruct HR as [HC HR]. destruct rng as [[h t]|]; [|destruct HR; congruence].
    destruct HR as (Hr & H1 & H2 & H3 & H4). destruct Hroom as [R1 R2]. assert (b = enc_rec (LRec h t (len q + lost))) as -> by congruence.
    apply kwp_bind, kwp_bind. eapply kwp_lift_ok; [apply dec_enc_rec; lia|done|]. cbn [l_head l_tail l_num].
    assert (Hset : forall h' t' i, h' <= i < t' -> t' < U64 -> Forall (fun x : N * bytes => h' <= fst x < t') q -> beyond at_head i q ->
      kwp cfg (dok num <- klift (inc64 (len q + lost)); dok _ <- kset (queue_key qk) (enc_rec (LRec h' t' num)); KRet i)
        C (fun i M => kwp cfg (dok _ <- kset (qitem_key qk i) v; KRet i) C Q E M) E M).
    { intros h' t' i K1 K2 K3 K4. apply kwp_bind. eapply kwp_lift_ok; [apply inc64_ok; lia|done|].
      apply kwp_bind, kwp_set2; [auto with kne|done| |].
      - intros e He. apply (E0 _ _ lost (Some (h, t))); [|lia|].
        + apply (qrep_of _ _ _ _ _ (len q + lost)); done.
        + intros Ha. rewrite (acc_qrec v _ Ha) in He. done.
      - intros _. destruct (Hitem (<[queue_key qk:=enc_rec (LRec h' t' (len q + lost + 1))]> M) h' t' i) as [HC1 Hk];
          [by apply qcore_rec|apply lookup_insert|done|done|done|lia|done|].
        split; [done|]. intros _. apply kwp_ret; [done|exact Hk]. }
    apply kwp_bind. destruct at_head.
    + apply kwp_bind. eapply kwp_lift_ok; [apply dec64_ok; lia|done|]. apply kwp_ret; [done|]. cbv beta iota.
      apply (Hset (h - 1) t (h - 1)); [lia|done| |]; (eapply Forall_impl; [exact H3|]; intros x Hx; cbn beta in *; lia).
    + apply kwp_bind. eapply kwp_lift_ok; [apply inc64_ok; lia|done|]. apply kwp_ret; [done|]. cbv beta iota.
      apply (Hset h (t + 1) t); [lia|lia| |]; (eapply Forall_impl; [exact H3|]; intros x Hx; cbn beta in *; lia).
  - intros _ Hb. destruct HR as [HC HR]. destruct rng as [[h t]|]; [destruct HR; congruence|]. destruct HR as (_ & -> & ->).
    destruct (Hitem (<[queue_key qk:=enc_rec (LRec FIRST_IDX (FIRST_IDX + 1) 1)]> M) FIRST_IDX (FIRST_IDX + 1) FIRST_IDX) as [HC1 Hk];
      [by apply qcore_rec|apply lookup_insert|lia|lia|done|done|constructor|].
    split; [done|]. apply kwp_bind. apply kwp_ret; [done|exact Hk].
Qed.

(** ** pop *)
Lemma kwp_pop_loop (C : kvmap -> Prop) at_head b num q : num <> 0 \/ q = [] -> forall n h t M, qcore M q -> M !! queue_key qk = Some b ->
  Forall (fun x : N * bytes => h <= fst x < t) q -> h <= t -> t < U64 -> N.of_nat n = t - h -> 
  (forall M', qcore M' q -> M' !! queue_key qk = Some b -> C M') ->
  (forall M', qcore M' (q_rest at_head q) -> q <> [] -> M' !! queue_key qk = Some b -> C M') ->
  kwp cfg (pop_loop qk at_head n (LRec h t num)) C
    (fun xr M' => fst xr = q_end at_head q /\ qcore M' (q_rest at_head q) /\ M' !! queue_key qk = Some b /\
       exists h' t', snd xr = LRec h' t' (if fst xr then num - 1 else num) /\ h <= h' /\ h' <= t' /\ t' <= t /\
         Forall (fun x : N * bytes => h' <= fst x < t') (q_rest at_head q) /\ (fst xr = None -> h' = t' /\ q = []) /\ (fst xr <> None -> q <> []))
    (fun _ _ => False) M.
Proof.
  intros Hnum. induction n as [|n IH]; intros h t M HC Hr Hf Hht Ht Hn C0 C1; cbn [pop_loop].
  - assert (q = []) as -> by (destruct q as [|x q]; [done|]; apply Forall_cons in Hf as [Hf _]; lia).
    apply kwp_ret; [by apply C0|]. cbn [fst snd]. split; [by destruct at_head|]. split; [by destruct at_head|]. split; [done|].
    exists h, t. split; [done|]. split; [lia|]. split; [lia|]. split; [lia|]. split; [by destruct at_head; constructor|]. split; [|done]. intros _. split; [lia|done].
  - cbv zeta. cbn [l_head l_tail l_num]. set (i := if at_head then h else t - 1).
    assert (i < U64) as Hi by (unfold i; destruct at_head; lia).
    pose proof (qcore_remove qk M q i HC Hi) as HC1.
    assert (Hr1 : delete (qitem_key qk i) M !! queue_key qk = Some b) by (rewrite lookup_delete_ne by kdiff; done).
    apply kwp_bind. pose proof (qc_items _ _ _ HC i Hi) as Hg.
    destruct (M !! qitem_key qk i) as [v|] eqn:Ev.
    + symmetry in Hg.
      assert (q <> []) as Hne by (intros ->; done).
      assert (q_end at_head q = Some (i, v) /\ q_rest at_head q = q_remove q i) as [Eq1 Eq2].
      { unfold i, q_end, q_rest in *. destruct at_head.
        - apply end_head; [apply (qc_sorted _ _ _ HC)| |done]. eapply Forall_impl; [exact Hf|]; intros x Hx; cbn beta in *; lia.
        - apply end_last; [apply (qc_sorted _ _ _ HC)| |done]. eapply Forall_impl; [exact Hf|]; intros x Hx; cbn beta in *; lia. }
      apply kwp_rem; [by apply C0|apply C1; [by rewrite Eq2|done|done]|]. rewrite Ev. apply kwp_bind.
      eapply kwp_lift_ok; [instantiate (1 := num - 1); destruct at_head; cbn [l_num]; (apply dec64_ok; destruct Hnum; [done|congruence])|apply C1; [by rewrite Eq2|done|done]|].
      apply kwp_ret; [apply C1; [by rewrite Eq2|done|done]|]. cbn [fst snd]. split; [done|]. split; [by rewrite Eq2|]. split; [done|].
      exists (if at_head then h + 1 else h), (if at_head then t else t - 1). split; [by destruct at_head|].
      split; [destruct at_head; lia|]. split; [destruct at_head; lia|]. split; [destruct at_head; lia|]. split; [|split; done].
      rewrite Eq2. rewrite Forall_forall in Hf; apply Forall_forall. intros x Hx. apply q_remove_in in Hx as [Hx Hxi]. pose proof (Hf x Hx) as Hb.
      cbn beta in *. unfold i in Hxi. destruct at_head; lia.
    + symmetry in Hg. rewrite (q_remove_same q i Hg) in HC1.
      apply kwp_rem; [by apply C0|by apply C0|]. rewrite Ev.
      set (h2 := if at_head then h + 1 else h). set (t2 := if at_head then t else t - 1).
      replace (if at_head then LRec (h + 1) t num else LRec h (t - 1) num) with (LRec h2 t2 num) by (by unfold h2, t2; destruct at_head).
      assert (h <= h2 /\ h2 <= t2 /\ t2 <= t /\ N.of_nat n = t2 - h2) as (X1 & X2 & X3 & X4) by (unfold h2, t2; destruct at_head; lia).
      eapply kwp_mono; [| | |apply (IH h2 t2 _ HC1 Hr1)]; [done| |done| |lia|lia|done|done|done].
      * intros xr M' _ (K1 & K2 & K3 & h' & t' & K4 & K5 & K6 & K7 & K8). split; [done|]. split; [done|]. split; [done|].
        exists h', t'. split; [done|]. split; [lia|]. split; [lia|]. split; [lia|]. done.
      * rewrite Forall_forall in Hf; apply Forall_forall. intros x Hx. pose proof (Hf x Hx) as Hb. cbn beta in *.
        assert (fst x <> i) as Hxi.
        { intros Hxi. destruct x as [k w]. cbn in Hxi. subst k. rewrite (q_get_in q i w) in Hg; [done|apply (qc_sorted _ _ _ HC)|done]. }
        unfold h2, t2, i in *. destruct at_head; lia.
Qed.
Lemma q_rest_len at_head q : q <> [] -> len q = len (q_rest at_head q) + 1.
Proof.
  intros Hq. unfold q_rest, len. destruct at_head.
  - destruct q; [done|]. cbn [length tl]. lia.
  - destruct q as [|x q _] using rev_ind; [done|]. rewrite removelast_last, app_length. cbn. lia.
Qed.
Lemma kwp_pop M q lost rng at_head : qrep M q lost rng -> entries_ok cfg M ->
  kwp cfg (pop_queue cfg qk at_head)
    (fun M' => exists q' lost' rng', qrep M' q' lost' rng' /\ lost' <= lost + 1 /\ (q' = q \/ q' = q_rest at_head q))
    (fun y M' => exists lost' rng', qrep M' (q_rest at_head q) lost' rng' /\ lost' <= lost /\ y = q_end at_head q)
    (fun e M' => False) M.
Proof.
  intros HR Hent. set (C := fun M' => _). set (Q := fun y M' => _).
  assert (HCM : C M) by (exists q, lost, rng; split; [done|split; [lia|by left]]).
  unfold pop_queue. apply kwp_locked, kwp_bind, kwp_get; [done|]. destruct HR as [HC HR].
  destruct rng as [[h t]|].
  2:{ destruct HR as (Hr & -> & ->). rewrite Hr. apply kwp_ret; [done|]. exists 0, None. split; [by destruct at_head|]. split; [lia|by destruct at_head]. }
  destruct HR as (Hr & H1 & H2 & H3 & H4). rewrite Hr. apply kwp_bind. eapply kwp_lift_ok; [apply dec_enc_rec; lia|done|]. cbn [l_head l_tail l_num].
  set (b := enc_rec (LRec h t (len q + lost))) in *.
  assert (Frest : Forall (fun x : N * bytes => h <= fst x < t) (q_rest at_head q)).
  { unfold q_rest. destruct at_head; [destruct q; [done|]; by apply Forall_cons in H3 as [_ H3]|].
    destruct q as [|x q _] using rev_ind; [done|]. rewrite removelast_last. by apply Forall_app in H3 as [H3 _]. }
  assert (C0 : forall M', qcore M' q -> M' !! queue_key qk = Some b -> C M').
  { intros M' K1 K2. exists q, lost, (Some (h, t)). split; [by apply (qrep_of _ _ _ _ _ (len q + lost))|]. split; [lia|by left]. }
  assert (C1 : forall M', qcore M' (q_rest at_head q) -> q <> [] -> M' !! queue_key qk = Some b -> C M').
  { intros M' K1 K2 K3. pose proof (q_rest_len at_head q K2). exists (q_rest at_head q), (lost + 1), (Some (h, t)).
    split; [apply (qrep_of _ _ _ _ _ (len q + lost)); [done|done|done|done|done|lia|done]|]. split; [lia|by right]. }
  apply kwp_bind. eapply kwp_mono; [| | |apply (kwp_pop_loop C at_head b (len q + lost) q) with (h := h) (t := t)]; [done| |done| |done|done|done|done|done|lia|done|done].
  2:{ destruct q; [by right|left]. unfold len. cbn. lia. }
  intros [x r] M1 HC1 (K1 & K2 & K3 & h' & t' & K4 & K5 & K6 & K7 & K8 & K9 & K10). cbn [fst snd] in *. subst r. cbn [l_head l_tail].
  assert (Q x (delete (queue_key qk) M1) -> C (delete (queue_key qk) M1)) as QC1.
  { intros (l' & r' & X1 & X2 & X3). exists (q_rest at_head q), l', r'. split; [done|]. split; [lia|by right]. }
  apply kwp_bind. destruct (N.eqb_spec h' t') as [Eh|Eh].
  - assert (q_rest at_head q = []) as En by (destruct (q_rest at_head q) as [|y l]; [done|]; apply Forall_cons in K8 as [K8 _]; lia).
    assert (Q x (delete (queue_key qk) M1)) as HQ.
    { exists 0, None. rewrite En in *. split; [apply qrep_none; [by apply qcore_unrec|apply lookup_delete]|]. split; [lia|done]. }
    apply kwp_bind, kwp_rem; [done|auto|]. apply kwp_ret; [auto|]. apply kwp_ret; [auto|]. exact HQ.
  - destruct x as [x|]; [|by destruct K9].
    assert (q <> []) as Hne by (by apply K10). pose proof (q_rest_len at_head q Hne).
    set (M2 := <[queue_key qk := enc_rec (LRec h' t' (len q + lost - 1))]> M1).
    assert (Q (Some x) M2) as HQ.
    { exists lost, (Some (h', t')). split; [|split; [lia|done]]. apply (qrep_of _ _ _ _ _ (len q + lost - 1)); [by apply qcore_rec|apply lookup_insert|done|lia|done|lia|lia]. }
    assert (C M2) as HC2 by (exists (q_rest at_head q), lost, (Some (h', t')); destruct HQ as (l' & r' & X1 & X2 & X3); split; [apply (qrep_of _ _ _ _ _ (len q + lost - 1)); [by apply qcore_rec|apply lookup_insert|done|lia|done|lia|lia]|split; [lia|by right]]).
    apply kwp_bind, kwp_set; [auto with kne| |done| |].
    + rewrite <- (Hent _ _ Hr). apply ins_err_len; [done|]. unfold b. by rewrite !enc_rec_len.
    + done.
    + apply kwp_ret; [done|]. by apply kwp_ret.
Qed.

(** ** remove *)
Lemma kwp_qremove M q lost rng i : qrep M q lost rng -> entries_ok cfg M -> i < U64 -> rng <> Some (i, i + 1) ->
  kwp cfg (remove_from_queue cfg qk i)
    (fun M' => exists q' lost' rng', qrep M' q' lost' rng' /\ lost' <= lost + 1 /\ (q' = q \/ q' = q_remove q i))
    (fun y M' => exists rng', qrep M' (q_remove q i) lost rng' /\ y = q_get q i)
    (fun e M' => False) M.
Proof.
  intros HR Hent Hi Hsole. set (C := fun M' => _). set (Q := fun y M' => _).
  assert (HCM : C M) by (exists q, lost, rng; split; [done|split; [lia|by left]]).
  pose proof HR as [HC HR2]. pose proof (qcore_remove qk M q i HC Hi) as HC1. pose proof (qc_items _ _ _ HC i Hi) as Hg.
  assert (Hrec : delete (qitem_key qk i) M !! queue_key qk = M !! queue_key qk) by (by rewrite lookup_delete_ne by kdiff).
  unfold remove_from_queue. apply kwp_locked, kwp_bind.
  destruct (M !! qitem_key qk i) as [v|] eqn:Ev; symmetry in Hg.
  2:{ rewrite (q_remove_same q i Hg) in HC1.
      assert (qrep (delete (qitem_key qk i) M) q lost rng) as HR1.
      { split; [done|]. rewrite Hrec. exact HR2. }
      assert (C (delete (qitem_key qk i) M)) as HC2 by (exists q, lost, rng; split; [done|split; [lia|by left]]).
      apply kwp_rem; [done|done|]. rewrite Ev. apply kwp_ret; [done|]. exists rng. rewrite (q_remove_same q i Hg). done. }
  destruct rng as [[h t]|]; [|by destruct HR2 as (_ & -> & _)]. destruct HR2 as (Hr & H1 & H2 & H3 & H4).
  pose proof (q_remove_len q i v (qc_sorted _ _ _ HC) Hg) as Hlen.
  assert (h <= i < t) as Hit. { rewrite Forall_forall in H3. apply (H3 (i, v)). by apply q_get_Some. }
  set (M1 := delete (qitem_key qk i) M) in *.
  assert (C M1) as HC2.
  { exists (q_remove q i), (lost + 1), (Some (h, t)). split; [|split; [lia|by right]].
    apply (qrep_of _ _ _ _ _ (len q + lost)); [done|by rewrite Hrec|done|done|by apply remove_forall|lia|done]. }
  apply kwp_rem; [done|done|]. rewrite Ev. apply kwp_bind, kwp_get; [done|]. fold M1. rewrite Hrec, Hr.
  apply kwp_bind. eapply kwp_lift_ok; [apply dec_enc_rec; lia|done|]. cbn [l_head l_tail l_num].
  set (h' := if h =? i then h + 1 else h). set (t' := if t =? i + 1 then t - 1 else t).
  assert (h' <> t' /\ h' <= t' /\ t' <= t) as (X1 & X2 & X3).
  { unfold h', t'. destruct (N.eqb_spec h i) as [Eh|Eh]; destruct (N.eqb_spec t (i + 1)) as [Et|Et]; try lia. exfalso. apply Hsole. congruence. }
  assert (Forall (fun x : N * bytes => h' <= fst x < t') (q_remove q i)) as X4.
  { rewrite Forall_forall in H3; apply Forall_forall. intros x Hx. apply q_remove_in in Hx as [Hx Hne]. pose proof (H3 _ Hx). cbn beta in *.
    unfold h', t'. destruct (N.eqb_spec h i); destruct (N.eqb_spec t (i + 1)); lia. }
  apply kwp_bind. assert (klift (if h =? i then inc64 h else Ok h) = (if h =? i then klift (inc64 h) else KRet h)) as <- by (by destruct (h =? i)).
  eapply (kwp_lift_ok _ h'); [unfold h'; destruct (N.eqb_spec h i); [apply inc64_ok; lia|done]|done|].
  apply kwp_bind. eapply kwp_lift_ok; [apply inc64_ok; lia|done|].
  apply kwp_bind. assert (klift (if t =? i + 1 then dec64 t else Ok t) = (if t =? i + 1 then klift (dec64 t) else KRet t)) as <- by (by destruct (t =? i + 1)).
  eapply (kwp_lift_ok _ t'); [unfold t'; destruct (N.eqb_spec t (i + 1)); [apply dec64_ok; lia|done]|done|].
  apply kwp_bind. eapply kwp_lift_ok; [apply dec64_ok; lia|done|].
  apply kwp_bind. destruct (N.eqb_spec h' t') as [Eh|_]; [done|].
  assert (qrep (<[queue_key qk:=enc_rec (LRec h' t' (len q + lost - 1))]> M1) (q_remove q i) lost (Some (h', t'))) as HR3.
  { apply (qrep_of _ _ _ _ _ (len q + lost - 1)); [by apply qcore_rec|apply lookup_insert|done|lia|done|lia|lia]. }
  assert (C (<[queue_key qk:=enc_rec (LRec h' t' (len q + lost - 1))]> M1)) as HC3.
  { exists (q_remove q i), lost, (Some (h', t')). split; [done|]. split; [lia|by right]. }
  apply kwp_bind, kwp_set; [auto with kne| |done|done|].
  { rewrite <- (Hent _ _ Hr). apply ins_err_len; [done|]. by rewrite !enc_rec_len. }
  apply kwp_ret; [done|]. apply kwp_ret; [done|]. by exists (Some (h', t')).
Qed.

(** ** discard *)
Lemma kwp_rem_items (C : kvmap -> Prop) b : forall n j M q, qcore M q -> M !! queue_key qk = Some b -> j + N.of_nat n <= U64 ->
  Forall (fun x : N * bytes => j <= fst x < j + N.of_nat n) q ->
  (forall M' gone q', q = gone ++ q' -> qcore M' q' -> M' !! queue_key qk = Some b -> C M') ->
  kwp cfg (rem_items qk (map (fun k => j + N.of_nat k) (seq 0 n))) C (fun _ M' => qcore M' [] /\ M' !! queue_key qk = Some b) (fun _ _ => False) M.
Proof.
  induction n as [|n IH]; intros j M q HC Hr Hj Hf HCq.
  - destruct q as [|x q]; [|apply Forall_cons in Hf as [H _]; lia]. apply kwp_ret; [|done]. by apply (HCq M [] []).
  - rewrite idx_seq_S. cbn [rem_items].
    assert (j < U64) as Hj1 by lia. pose proof (qcore_remove qk M q j HC Hj1) as HC1.
    assert (delete (qitem_key qk j) M !! queue_key qk = Some b) as Hr1 by (rewrite lookup_delete_ne by kdiff; done).
    assert (exists gone, q = gone ++ q_remove q j) as [gone Hgone].
    { destruct (q_get q j) as [v|] eqn:Eg; [|exists []; by rewrite q_remove_same].
      destruct (end_head q j v) as [E1 E2]; [apply (qc_sorted _ _ _ HC)| |done|].
      { eapply Forall_impl; [exact Hf|]. intros x Hx. cbn beta in *. lia. }
      destruct q as [|x q]; [done|]. exists [x]. cbn [tl] in E2. by rewrite <- E2. }
    apply kwp_bind, kwp_rem; [by apply (HCq M [] q)|by apply (HCq _ gone (q_remove q j))|].
    apply (IH (j + 1) _ (q_remove q j)); [done|done|lia| |].
    + rewrite Forall_forall in Hf; apply Forall_forall. intros x Hx. apply q_remove_in in Hx as [Hx Hne]. pose proof (Hf x Hx). cbn beta in *. lia.
    + intros M' g q' E. apply (HCq M' (gone ++ g)). rewrite <- app_assoc, <- E. done.
Qed.
Lemma kwp_qdiscard M q lost rng : qrep M q lost rng ->
  kwp cfg (discard_queue cfg qk)
    (fun M' => exists q' lost' rng', qrep M' q' lost' rng' /\ exists gone, q = gone ++ q')
    (fun y M' => qrep M' [] 0 None /\ y = bool_decide (rng <> None))
    (fun e M' => False) M.
Proof.
  intros HR. set (C := fun M' => _). set (Q := fun y M' => _).
  assert (HCM : C M) by (exists q, lost, rng; split; [done|by exists []]).
  unfold discard_queue. apply kwp_locked, kwp_bind, kwp_get; [done|]. destruct HR as [HC HR].
  destruct rng as [[h t]|].
  2:{ destruct HR as (Hr & -> & ->). rewrite Hr. apply kwp_ret; [done|]. by split. }
  destruct HR as (Hr & H1 & H2 & H3 & H4). rewrite Hr. apply kwp_bind. eapply kwp_lift_ok; [apply dec_enc_rec; lia|done|]. cbn [l_head l_tail l_num].
  assert (HCq : forall M' gone q', q = gone ++ q' -> qcore M' q' -> M' !! queue_key qk = Some (enc_rec (LRec h t (len q + lost))) -> C M').
  { intros M' gone q' E K1 K2. exists q', (len q + lost - len q'), (Some (h, t)). split; [|by exists gone].
    assert (len q = len gone + len q') as El by (rewrite E; apply Base.len_app).
    apply (qrep_of _ _ _ _ _ (len q + lost)); [done|done|done|done| |lia|done]. rewrite E in H3. by apply Forall_app in H3 as [_ H3]. }
  apply kwp_bind. eapply kwp_mono; [| | |apply (kwp_rem_items C (enc_rec (LRec h t (len q + lost))) (N.to_nat (t - h)) h M q)]; [done| |done|done|done|lia| |done].
  2:{ eapply Forall_impl; [exact H3|]. intros x Hx. cbn beta in *. lia. }
  intros [] M1 HC1 [K1 K2].
  assert (qrep (delete (queue_key qk) M1) [] 0 None) as HR1 by (apply qrep_none; [by apply qcore_unrec|apply lookup_delete]).
  assert (C (delete (queue_key qk) M1)) as HC2 by (exists [], 0, None; split; [done|exists q; by rewrite app_nil_r]).
  apply kwp_bind, kwp_rem; [done|done|]. apply kwp_ret; [done|]. by split.
Qed.

(** ** extend *)
Lemma kwp_extend_items b vs : forall t num M q, qcore M q -> M !! queue_key qk = Some b -> Forall (fun x : N * bytes => fst x < t) q ->
  t + len vs < U64 -> num + len vs < U64 -> Forall (queue_accepts cfg qk) vs ->
  kwp cfg (extend_items qk vs t num) (fun _ => True)
    (fun r M' => r = (t + len vs, num + len vs) /\ qcore M' (q ++ number t vs) /\ M' !! queue_key qk = Some b) (fun _ _ => False) M.
Proof.
  induction vs as [|v vs IH]; intros t num M q HC Hr Hf Ht Hn Ha; cbn [extend_items number].
  - apply kwp_ret; [done|]. change (len []) with 0. rewrite !N.add_0_r, app_nil_r. done.
  - apply Forall_cons in Ha as [Ha1 Ha]. assert (len (v :: vs) = len vs + 1) as El by (unfold len; cbn [length]; lia). rewrite El in *.
    apply kwp_bind, kwp_set; [auto with kne|by apply acc_qitem|done|done|].
    apply kwp_bind. eapply kwp_lift_ok; [apply inc64_ok; lia|done|]. apply kwp_bind. eapply kwp_lift_ok; [apply inc64_ok; lia|done|].
    eapply kwp_mono; [| | |apply (IH (t + 1) (num + 1) _ (q ++ [(t, v)]))]; [done| |done| | | |lia|lia|done].
    + intros r M' _ (-> & K2 & K3). split; [f_equal; lia|]. split; [|done]. by rewrite <- app_assoc in K2.
    + apply (qcore_push qk M q false t v); [done|lia|exact Hf].
    + by rewrite lookup_insert_ne by kdiff.
    + apply Forall_app. split; [eapply Forall_impl; [exact Hf|]; intros x Hx; cbn beta in *; lia|]. constructor; [cbn; lia|done].
Qed.
Lemma kwp_qextend M q lost rng vs : qrep M q lost rng -> qroom rng q lost (len vs) -> qcall_accepts cfg qk (QExtend vs) ->
  kwp cfg (extend_queue cfg qk vs) (fun _ => True)
    (fun r M' => exists (i : N) (rng' : N * N), r = (i, i + len vs) /\ beyond false i q /\ qrep M' (q ++ number i vs) lost (Some rng'))
    (fun e M' => False) M.
Proof.
  intros HR [Hroom1 Hroom] [Hacc1 Hacc]. unfold extend_queue. apply kwp_locked, kwp_bind.
  assert (Hmain : forall M1 h t b, qcore M1 q -> M1 !! queue_key qk = Some (enc_rec (LRec h t (len q + lost))) -> b = enc_rec (LRec h t (len q + lost)) ->
    h <= t -> t + (len q + lost) + len vs + 1 < U64 -> Forall (fun x : N * bytes => h <= fst x < t) q ->
    kwp cfg (dok r <- klift (dec_rec b); dok (tail, num) <- extend_items qk vs (l_tail r) (l_num r);
      dok _ <- kset (queue_key qk) (enc_rec (LRec (l_head r) tail num)); KRet (l_tail r, tail)) (fun _ => True)
      (fun r M' => exists (i : N) (rng' : N * N), r = (i, i + len vs) /\ beyond false i q /\ qrep M' (q ++ number i vs) lost (Some rng'))
      (fun e M' => False) M1).
  { intros M1 h t b K1 K2 -> K3 K4 K5. apply kwp_bind. eapply kwp_lift_ok; [apply dec_enc_rec; lia|done|]. cbn [l_head l_tail l_num].
    assert (Forall (fun x : N * bytes => fst x < t) q) as K6 by (eapply Forall_impl; [exact K5|]; intros x Hx; cbn beta in *; lia).
    apply kwp_bind. eapply kwp_mono; [| | |apply (kwp_extend_items _ vs t (len q + lost) M1 q K1 K2 K6); [lia|lia|done]]; [done| |done].
    intros r M2 _ (-> & X1 & X2). apply kwp_bind, kwp_set; [auto with kne|by apply acc_qrec2|done|done|]. apply kwp_ret; [done|].
    exists t, (h, t + len vs). split; [done|]. split; [done|].
    apply (qrep_of _ _ _ _ _ (len q + lost + len vs)); [by apply qcore_rec|apply lookup_insert|lia|lia| | |lia].
    - apply Forall_app. split; [eapply Forall_impl; [exact K5|]; intros x Hx; cbn beta in *; lia|]. apply Forall_forall. intros x Hx.
      apply number_in in Hx. lia.
    - rewrite Base.len_app, number_len. lia. }
  apply kwp_goc; [auto with kne|by apply acc_qrec2|done| |].
  - intros b Hb. destruct HR as [HC HR]. destruct rng as [[h t]|]; [|destruct HR; congruence].
    destruct HR as (Hr & H1 & H2 & H3 & H4). destruct Hroom as [R1 R2]. apply (Hmain M h t); [done|done|cbn [goc_value]; congruence|done|lia|done].
  - intros Hb. split; [done|]. destruct HR as [HC HR]. destruct rng as [[h t]|]; [destruct HR; congruence|]. destruct HR as (_ & -> & ->).
    apply (Hmain _ FIRST_IDX FIRST_IDX); [by apply qcore_rec|apply lookup_insert|done|lia| |done]. change (len []) with 0. lia.
Qed.

(** ** reads *)
Lemma kwp_fetch M q lost rng (C : kvmap -> Prop) (Q : option lrec -> kvmap -> Prop) (E : err -> kvmap -> Prop) : qrep M q lost rng -> C M ->
  Q ((fun r => LRec (fst r) (snd r) (len q + lost)) <$> rng) M ->
  kwp cfg (fetch_queue cfg qk) C Q E M.
Proof.
  intros [_ HR] HC HQ. unfold fetch_queue. apply kwp_locked, kwp_bind, kwp_get; [done|]. destruct rng as [[h t]|].
  - destruct HR as (Hr & H1 & H2 & H3 & H4). rewrite Hr. apply kwp_bind. eapply kwp_lift_ok; [apply dec_enc_rec; lia|done|]. by apply kwp_ret.
  - destruct HR as (Hr & _). rewrite Hr. by apply kwp_ret.
Qed.
Lemma kwp_qiter M q (C : kvmap -> Prop) (E : err -> kvmap -> Prop) : qcore M q -> C M ->
  forall js (Q : elems -> kvmap -> Prop), (forall j, j ∈ js -> j < U64) -> Q (omap (q_elem q) js) M ->
  kwp cfg (iter_qitems qk js) C Q E M.
Proof.
  intros HC HCM. induction js as [|j js IH]; intros Q Hj HQ; cbn [iter_qitems]; [by apply kwp_ret|].
  assert (forall i, i ∈ js -> i < U64) as Hj' by (intros i Hi; apply Hj; by right).
  apply kwp_bind, kwp_get; [done|]. rewrite (qc_items _ _ _ HC j) by (apply Hj; left). cbn [omap list_omap] in HQ. unfold q_elem at 1 in HQ.
  destruct (q_get q j) as [v|]; cbn [fmap option_fmap option_map] in *.
  - apply kwp_bind, IH; [done|]. by apply kwp_ret.
  - by apply IH.
Qed.
Lemma kwp_qpeek M q (C : kvmap -> Prop) (E : err -> kvmap -> Prop) : qcore M q -> C M ->
  forall js (Q : option (N * bytes) -> kvmap -> Prop), (forall j, j ∈ js -> j < U64) -> Q (head (omap (q_elem q) js)) M ->
  kwp cfg (peek_qitems qk js) C Q E M.
Proof.
  intros HC HCM. induction js as [|j js IH]; intros Q Hj HQ; cbn [peek_qitems]; [by apply kwp_ret|].
  assert (forall i, i ∈ js -> i < U64) as Hj' by (intros i Hi; apply Hj; by right).
  apply kwp_bind, kwp_get; [done|]. rewrite (qc_items _ _ _ HC j) by (apply Hj; left). cbn [omap list_omap] in HQ. unfold q_elem at 1 in HQ.
  destruct (q_get q j) as [v|]; cbn [fmap option_fmap option_map] in *.
  - by apply kwp_ret.
  - by apply IH.
Qed.
Lemma kwp_iter_queue M q lost rng fwd (C : kvmap -> Prop) (Q : elems -> kvmap -> Prop) (E : err -> kvmap -> Prop) : qrep M q lost rng -> C M ->
  Q (if fwd then q else rev q) M -> kwp cfg (iter_queue cfg fwd qk) C Q E M.
Proof.
  intros HR HCM HQ. unfold iter_queue. apply kwp_bind, (kwp_fetch M q lost rng); [done|done|]. destruct HR as [HC HR]. destruct rng as [[h t]|].
  - destruct HR as (Hr & H1 & H2 & H3 & H4). cbn [fmap option_fmap option_map fst snd l_head l_tail]. apply (kwp_qiter M q); [done|done| |].
    + intros j Hj. apply idx_order_in in Hj. lia.
    + rewrite enum_qorder; [done|apply (qc_sorted _ _ _ HC)|done].
  - destruct HR as (_ & -> & _). cbn [fmap option_fmap option_map]. apply kwp_ret; [done|]. by destruct fwd.
Qed.
Lemma head_rev (q : elems) : head (rev q) = last q.
Proof. destruct q as [|x q _] using rev_ind; [done|]. by rewrite rev_app_distr, last_snoc. Qed.
Lemma kwp_peek_queue M q lost rng fwd (C : kvmap -> Prop) (Q : option (N * bytes) -> kvmap -> Prop) (E : err -> kvmap -> Prop) : qrep M q lost rng -> C M ->
  Q (q_end fwd q) M -> kwp cfg (peek_queue cfg fwd qk) C Q E M.
Proof.
  intros HR HCM HQ. unfold peek_queue. apply kwp_bind, (kwp_fetch M q lost rng); [done|done|]. destruct HR as [HC HR]. destruct rng as [[h t]|].
  - destruct HR as (Hr & H1 & H2 & H3 & H4). cbn [fmap option_fmap option_map fst snd l_head l_tail]. apply (kwp_qpeek M q); [done|done| |].
    + intros j Hj. apply idx_order_in in Hj. lia.
    + rewrite enum_qorder; [|apply (qc_sorted _ _ _ HC)|done]. unfold q_end in HQ. destruct fwd; [done|]. by rewrite head_rev.
  - destruct HR as (_ & -> & _). cbn [fmap option_fmap option_map]. apply kwp_ret; [done|]. by destruct fwd.
Qed.

(** ** Every call *)
Definition qok (rng : option (N * N)) q lost (c : qcall) : Prop :=
  qroom rng q lost (qcall_adds c) /\ match c with QRemove i => i < U64 /\ rng <> Some (i, i + 1) | _ => True end.
Lemma queue_kwp M q lost rng c : qrep M q lost rng -> (queue_reads c = false -> entries_ok cfg M /\ qok rng q lost c) ->
  (crash_safe c = false -> qcall_accepts cfg qk c) ->
  kwp cfg (queue_prog cfg qk c)
    (fun M' => crash_safe c = true -> exists q' lost' rng', qrep M' q' lost' rng' /\ (c <> QDiscard -> lost' <= lost + 1) /\ queue_crash q c q')
    (fun y M' => exists q' lost' rng', qrep M' q' lost' rng' /\ lost' <= lost /\ queue_spec_lost q lost c y q')
    (fun _ M' => crash_safe c = true /\ ~ qcall_accepts cfg qk c /\ exists lost' rng', qrep M' q lost' rng' /\ lost' <= lost + 1) M.
Proof.
  intros HR Hok Hacc. set (C := fun M' => _). set (Q := fun y M' => _).
  assert (HCM : C M) by (intros _; exists q, lost, rng; split; [done|]; split; [lia|by left]).
  destruct c as [at_head v|vs|at_head|i| |fwd|fwd| |]; cbn [queue_prog]; apply kwp_map.
  - destruct (Hok eq_refl) as [Hent [Hroom _]]. eapply kwp_mono; [| | |by apply (kwp_push M q lost rng at_head v)].
    + intros M' (q' & lost' & rng' & K1 & K2 & K3) _. exists q', lost', rng'. split; [done|]. split; [done|].
      destruct K3 as [->|(i & K3 & ->)]; [by left|]. right; left. exists (YNum i). by exists i.
    + intros i M' _ (rng' & K1 & K2). exists (q_push at_head (i, v) q), lost, rng'. split; [done|]. split; [lia|]. by exists i.
    + intros e M' _ (lost' & rng' & K1 & K2 & K3). split; [done|]. split; [done|]. eauto.
  - destruct (Hok eq_refl) as [Hent [Hroom _]]. eapply kwp_mono; [| | |apply (kwp_qextend M q lost rng vs HR Hroom); by apply Hacc].
    + done.
    + intros r M' _ (i & rng' & -> & K1 & K2). exists (q ++ number i vs), lost, (Some rng'). split; [done|]. split; [lia|]. by exists i.
    + done.
  - destruct (Hok eq_refl) as [Hent _]. eapply kwp_mono; [| | |by apply (kwp_pop M q lost rng at_head)].
    + intros M' (q' & lost' & rng' & K1 & K2 & K3) _. exists q', lost', rng'. split; [done|]. split; [done|].
      destruct K3 as [->| ->]; [by left|]. right; left. by exists (YElem (q_end at_head q)).
    + intros y M' _ (lost' & rng' & K1 & K2 & ->). exists (q_rest at_head q), lost', rng'. done.
    + done.
  - destruct (Hok eq_refl) as [Hent [_ [Hi Hsole]]]. eapply kwp_mono; [| | |by apply (kwp_qremove M q lost rng i)].
    + intros M' (q' & lost' & rng' & K1 & K2 & K3) _. exists q', lost', rng'. split; [done|]. split; [done|].
      destruct K3 as [->| ->]; [by left|]. right; left. by exists (YOpt (q_get q i)).
    + intros y M' _ (rng' & K1 & ->). exists (q_remove q i), lost, rng'. split; [done|]. split; [lia|done].
    + done.
  - eapply kwp_mono; [| | |by apply (kwp_qdiscard M q lost rng)].
    + intros M' (q' & lost' & rng' & K1 & gone & K2) _. exists q', lost', rng'. split; [done|]. split; [done|]. right; right. eauto.
    + intros y M' _ (K1 & ->). exists [], 0, None. split; [done|]. split; [lia|]. split; [done|]. eexists. split; [done|].
      intros Hq. apply bool_decide_eq_true. intros ->. destruct HR as [_ (_ & -> & _)]. done.
    + done.
  - apply (kwp_iter_queue M q lost rng); [done|done|]. exists q, lost, rng. split; [done|]. split; [lia|done].
  - apply (kwp_peek_queue M q lost rng); [done|done|]. exists q, lost, rng. split; [done|]. split; [lia|done].
  - unfold queue_len. apply kwp_bind, (kwp_fetch M q lost rng); [done|done|]. apply kwp_ret; [done|]. exists q, lost, rng. split; [done|]. split; [lia|].
    split; [done|]. destruct rng as [r|]; [done|]. by destruct HR as [_ (_ & -> & ->)].
  - unfold queue_range. apply kwp_bind, (kwp_fetch M q lost rng); [done|done|]. apply kwp_ret; [done|]. exists q, lost, rng. split; [done|]. split; [lia|].
    split; [done|]. destruct HR as [_ HR]. destruct rng as [[h t]|]; cbn [fmap option_fmap option_map fst snd l_head l_tail].
    + exists h, t. split; [done|]. apply HR.
    + destruct HR as (_ & -> & _). exists FIRST_IDX, FIRST_IDX. by split.
Qed.
End progs.
