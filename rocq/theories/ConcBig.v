(** Big values, used by many threads (C64). *)
From Verif Require Import Base Hashing HashingProofs Fs Shard Router RouterPure Wpc Spec FileRep RowOps
  Compact Inv ShardOps Split Insert Open Merge Create Store Limits StoreRefine Kv Lists Queues Api Hist KvSpec
  HistInv KeySpace ListSpec ListRep ListProg ListHist ThmList QueueSpec QueueRep QueueProg QueueHist ThmQueue
  Conc ConcSpec ConcLin ConcLock ConcList ConcSeen ConcSess ConcListAll ConcQueue BigCrash.
Implicit Types (M : kvmap) (ws : list bytes) (v : bytes) (t n B : N).
Local Arguments u64_bytes : simpl never.
Local Arguments enc_rec : simpl never.

(** ** Specification *)
(** The state: the values given to set_big, in the order in which they were appended since the last
    removal. A call of set_big first removes everything, in an earlier step ([big_mid]), and then appends
    its value; remove_big removes everything; get_big may return anything. *)
Definition big_seen (k : bytes) (seen : list (list bytes)) ws (c : call) (r : res reply) (ws' : list bytes) : Prop :=
  match c with
  | CBig k' bc =>
    if bool_decide (k' = k) then
      match bc with
      | BSet v => exists b, r = Ok (YBool b) /\ ws' = ws ++ [v] /\ [] ∈ seen /\ (b = true -> exists ws0, ws0 ∈ seen /\ ws0 <> [])
      | BRemove => r = Ok (YBool (bool_decide (ws <> []))) /\ ws' = []
      | BGet => (exists o, r = Ok (YOpt o)) /\ ws' = ws
      end
    else ws' = ws
  | _ => ws' = ws
  end.
Definition big_mid (k : bytes) ws (c : call) (ws' : list bytes) : Prop := exists v, c = CBig k (BSet v) /\ ws' = [].
(** No queue has the same key; the values are within the limits. *)
Definition big_any (cfg : config) (k : bytes) (c : call) : Prop :=
  match c with
  | CBig k' (BSet v) => k' = k -> big_takes cfg k v
  | CQueue qk _ => qk <> k
  | _ => True
  end.
(** How many pieces a call adds. *)
Definition big_w (k : bytes) (c : call) : N :=
  match c with CBig k' (BSet v) => if bool_decide (k' = k) then len (chunks (length v) MAXN v) else 0 | _ => 0 end.

Lemma big_seen_mono k (H H' : list (list bytes)) ws c r ws' : H ⊆ H' -> big_seen k H ws c r ws' -> big_seen k H' ws c r ws'.
Proof.
  intros Hs. destruct c as [o|tid o|lk' lc|qk' qc|b bc]; cbn [big_seen]; try done. case_bool_decide; [|done].
  destruct bc as [v| |]; [|done|done]. intros (y & -> & -> & H1 & H2). exists y. split; [done|]. split; [done|]. split; [by apply Hs|].
  intros Hy. destruct (H2 Hy) as (w0 & K1 & K2). exists w0. split; [by apply Hs|done].
Qed.

(** ** Representation *)
Definition bR (k : bytes) (B : N) M ws : Prop :=
  match M !! queue_key k with
  | None => ws = [] /\ FIRST_IDX + B < U64
  | Some b => ws <> [] /\ exists t n, b = enc_rec (LRec FIRST_IDX t n) /\ FIRST_IDX <= t /\ t + B < U64 /\ n + B < U64 /\
      (forall p, p ∈ look k M (iseq FIRST_IDX (N.to_nat (t - FIRST_IDX))) -> p <> []) /\
      concat (look k M (iseq FIRST_IDX (N.to_nat (t - FIRST_IDX)))) = concat ws
  end.
Definition bV (M : kvmap) ws : Prop := True.
Definition bG (M : kvmap) : Prop := True.
Lemma bR_mono k B B' M ws : B <= B' -> bR k B' M ws -> bR k B M ws.
Proof.
  intros HB. unfold bR. destruct (M !! queue_key k) as [b|]; [|intros [-> H]; split; [done|lia]].
  intros (H0 & t & n & H1 & H2 & H3 & H4 & H5). split; [done|]. exists t, n. split; [done|]. split; [done|]. split; [lia|]. split; [lia|]. done.
Qed.
Lemma bR_loc k B M M' ws : agree (queue_keys k) M M' -> bR k B M ws -> bR k B M' ws.
Proof.
  intros Ha. unfold bR. assert (forall l, look k M' l = look k M l) as HL.
  { intros l. apply look_ext. intros i _. apply Ha. auto with kne. }
  rewrite (Ha (queue_key k)) by auto with kne. destruct (M !! queue_key k) as [b|]; [|done].
  intros (H0 & t & n & H1 & H2 & H3 & H4 & H5 & H6). split; [done|]. exists t, n. rewrite HL. done.
Qed.
Lemma iseq_app h a b : iseq h (a + b) = iseq h a ++ iseq (h + N.of_nat a) b.
Proof.
  revert h. induction a as [|a IH]; intros h; [cbn [plus app]; by rewrite N.add_0_r|]. cbn [plus]. rewrite !iseq_S. cbn [app]. f_equal.
  rewrite IH. do 2 f_equal. lia.
Qed.
Lemma look_app k M (l1 l2 : list N) : look k M (l1 ++ l2) = look k M l1 ++ look k M l2.
Proof. unfold look. by rewrite omap_app. Qed.

Section parts.
  Context (cfg : config) (k : bytes).
  Local Notation T := (fun _ : kvmap => True).
  Lemma cbig_discard B M ws : bR k B M ws ->
    kwp cfg (discard_queue cfg k) T (fun y M' => y = bool_decide (ws <> []) /\ bR k B M' []) (fun _ _ => False) M.
  Proof.
    intros HR. unfold discard_queue. apply kwp_locked, kwp_bind, kwp_get; [done|]. unfold bR in HR. destruct (M !! queue_key k) as [b|] eqn:Hb.
    2:{ destruct HR as [-> HB]. apply kwp_ret; [done|]. split; [done|]. unfold bR. by rewrite Hb. }
    destruct HR as (H0 & t & n & -> & H2 & H3 & H4 & H5 & H6).
    apply kwp_bind. eapply kwp_lift_ok; [apply dec_enc_rec; [done|lia|lia]|done|]. cbn [l_head l_tail l_num].
    apply kwp_bind. eapply kwp_mono; [| | |apply (kwp_big_rem cfg k (enc_rec (LRec FIRST_IDX t n)) (N.to_nat (t - FIRST_IDX)) T FIRST_IDX M)]; [done| |done|done|lia|done].
    intros [] M1 _ Hb1. apply kwp_bind, kwp_rem; [done|done|]. apply kwp_ret; [done|]. split; [by rewrite bool_decide_eq_true_2|].
    unfold bR. rewrite lookup_delete. split; [done|lia].
  Qed.
  Lemma cbig_extend B M ws v : big_takes cfg k v -> bR k (B + len (chunks (length v) MAXN v)) M ws ->
    kwp cfg (extend_queue cfg k (chunks (length v) MAXN v)) T (fun _ M' => bR k B M' (ws ++ [v])) (fun _ _ => False) M.
  Proof.
    intros Ht HR. set (vs := chunks (length v) MAXN v) in *.
    assert (Hacc : ins_err cfg (queue_key k) (replicate 24 x00) = None /\ Forall (queue_accepts cfg k) vs).
    { split; [apply (Ht []); [done|apply N.le_0_l]|]. apply Forall_forall. intros w Hw. apply chunks_in in Hw as [K1 K2].
      apply Ht; [|unfold len; lia]. unfold len. transitivity (N.of_nat MAXN); [lia|]. done. }
    destruct Hacc as [Hrec Hacc].
    assert (Hsame : forall h t n, ins_err cfg (queue_key k) (enc_rec (LRec h t n)) = ins_err cfg (queue_key k) (replicate 24 x00)).
    { intros h t n. apply ins_err_len; [done|]. by rewrite enc_rec_len, replicate_length. }
    assert (concat vs = v) as Hcat by (apply (chunks_concat MAXN MAXN_pos (length v) v); lia).
    assert (Hne : forall p, p ∈ vs -> p <> []).
    { assert (pieces vs) as Hp by apply chunks_pieces. clear -Hp. induction vs as [|w vs IH]; intros p Hin; [by apply elem_of_nil in Hin|].
      destruct Hp as (P1 & _ & P3). apply elem_of_cons in Hin as [->|Hin]; [done|by apply IH]. }
    assert (Hmain : forall M1 t n, M1 !! queue_key k = Some (enc_rec (LRec FIRST_IDX t n)) -> FIRST_IDX <= t -> t + (B + len vs) < U64 -> n + (B + len vs) < U64 ->
      (forall p, p ∈ look k M1 (iseq FIRST_IDX (N.to_nat (t - FIRST_IDX))) -> p <> []) ->
      concat (look k M1 (iseq FIRST_IDX (N.to_nat (t - FIRST_IDX)))) = concat ws ->
      kwp cfg (dok (tail, num) <- extend_items k vs t n; dok _ <- kset (queue_key k) (enc_rec (LRec FIRST_IDX tail num)); KRet (t, tail))
        T (fun _ M' => bR k B M' (ws ++ [v])) (fun _ _ => False) M1).
    { intros M1 t n Hb Ht1 Ht2 Hn1 Hp Hc. apply kwp_bind.
      eapply kwp_mono; [| | |apply (kwp_big_items cfg k T (fun _ _ => False) _ ltac:(done) vs t n M1 Hb)]; [done| |done|lia|lia|by intros e M' Hf].
      intros r M2 _ (-> & Hb2 & Hlk & Hold). cbv beta iota. apply kwp_bind, kwp_set2; [auto with kne|done| |].
      - intros e He. by rewrite Hsame, Hrec in He.
      - intros _. split; [done|]. intros _. apply kwp_ret; [done|]. set (M3 := <[queue_key k := _]> M2).
        assert (look k M3 (iseq FIRST_IDX (N.to_nat (t + len vs - FIRST_IDX))) = look k M1 (iseq FIRST_IDX (N.to_nat (t - FIRST_IDX))) ++ vs) as EL.
        { replace (N.to_nat (t + len vs - FIRST_IDX)) with (N.to_nat (t - FIRST_IDX) + length vs)%nat by (unfold len; lia).
          rewrite iseq_app, look_app. f_equal.
          - apply look_ext. intros i Hi. apply iseq_in in Hi. unfold M3. rewrite lookup_insert_ne by kdiff. apply Hold. lia.
          - rewrite <- Hlk at 2. replace (FIRST_IDX + N.of_nat (N.to_nat (t - FIRST_IDX))) with t by lia. apply look_ext. intros i _. unfold M3. by rewrite lookup_insert_ne by kdiff. }
        unfold bR. unfold M3 at 1. rewrite lookup_insert. split; [by destruct ws|]. exists (t + len vs), (n + len vs). split; [done|]. split; [lia|]. split; [lia|]. split; [lia|].
        rewrite EL. split.
        + intros p Hin. apply elem_of_app in Hin as [Hin|Hin]; [by apply Hp|by apply Hne].
        + rewrite !concat_app, Hc, Hcat. cbn [concat]. by rewrite app_nil_r. }
    unfold bR in HR. unfold extend_queue. apply kwp_locked, kwp_bind, kwp_goc2; [auto with kne|done| | |].
    - intros e He. by rewrite Hsame, Hrec in He.
    - intros b _ Hb. rewrite Hb in HR. destruct HR as (H0 & t & n & -> & H2 & H3 & H4 & H5 & H6). cbn [goc_value].
      apply kwp_bind. eapply kwp_lift_ok; [apply dec_enc_rec; [done|lia|lia]|done|]. cbn [l_head l_tail l_num]. by apply Hmain.
    - intros _ Hb. rewrite Hb in HR. destruct HR as [-> HB]. split; [done|]. cbn [goc_value]. apply kwp_bind.
      eapply kwp_lift_ok; [by apply dec_enc_rec|done|]. cbn [l_head l_tail l_num]. apply Hmain; [apply lookup_insert|done|lia|change FIRST_IDX with (2 ^ 63) in HB; lia| |]; rewrite N.sub_diag; cbn; [|done].
      intros p Hin. by apply elem_of_nil in Hin.
  Qed.
End parts.

Section inst.
  Context (cfg : config) (k : bytes).
  Local Notation i := (lock_idx cfg (queue_ph cfg k)).
  Local Notation K := (queue_keys k).
  Local Notation R := (bR k).
  Local Notation w := (big_w k).
  Local Notation spec := (big_seen k).
  Local Notation mid := (big_mid k).
  Local Notation sess := (ss cfg i R bV bG w spec mid top_any).
  Local Notation ends := (ends_ok cfg i R bV bG w spec mid top_any).
  Local Notation T := (fun _ : kvmap => True).

  Lemma w_big (bc : bcall) : w (CBig k bc) = match bc with BSet v => len (chunks (length v) MAXN v) | _ => 0 end.
  Proof. destruct bc; cbn; [|done|done]. by rewrite bool_decide_eq_true_2. Qed.
  Lemma bsess_section {A} (bc : bcall) (H : list (list bytes)) (p : kprog A) (f : A -> kprog reply) (Q : N -> list bytes -> A -> kvmap -> Prop) :
    qsection cfg k (fun _ => False) p ->
    (forall H' B ws x M', H ⊆ H' -> ws ∈ H' -> Q B ws x M' -> ends (CBig k bc) H' ws B (f x) M') ->
    (forall B ws M, R (B + w (CBig k bc)) M ws -> kwp cfg p T (Q B ws) (fun _ _ => False) M) ->
    sess (CBig k bc) H (kbind p f) Out.
  Proof.
    intros (b & -> & H1 & H2) H4 H5.
    eapply (ss_section cfg i R bV bG w spec mid top_any ltac:(done) (fun _ => False) (CBig k bc) H (queue_ph cfg k) b f (fun _ _ => True) Q); [done|done|done|exact H4|].
    intros B M ws _ HR. eapply kwp_locked_inv. by apply H5.
  Qed.
  Lemma bsess_iter js : forall (H : list (list bytes)) (f : elems -> kprog reply),
    (forall H' (xs : elems), sess (CBig k BGet) H' (f xs) Out) -> sess (CBig k BGet) H (kbind (iter_qitems k js) f) Out.
  Proof.
    induction js as [|j js IH]; intros H f Hf; cbn [iter_qitems kbind]; [apply Hf|].
    cbn [kop1 kbind ss]. intros H' M ws _ _ _. destruct (M !! qitem_key k j) as [v|]; [|by apply IH].
    eapply ss_ext; [apply keq_sym, keq_assoc|]. cbn [kbind]. apply IH. intros H2 xs. apply Hf.
  Qed.
  Lemma big_local (bc : bcall) : klocal K F0 anyv (big_prog cfg k bc).
  Proof.
    assert (Hloc : forall A (b : kprog A), klocal K F0 anyv b -> klocal K F0 anyv (klocked cfg (queue_ph cfg k) b)).
    { intros A b H1. unfold klocked. cbn [kop1 kbind klocal]. intros _. apply klocal_seq; [done|]. intros a. cbn [klocal]. done. }
    assert (Hsec : forall A IK (p : kprog A), qsection cfg k IK p -> klocal K F0 anyv p).
    { intros A IK p (b & -> & H1 & _). by apply Hloc. }
    destruct bc as [v| |]; cbn [big_prog]; unfold kmap; (apply klocal_seq; [|done]).
    - unfold set_big. apply klocal_seq; [eapply Hsec, qdiscard_section|]. intros b. apply klocal_seq; [eapply Hsec, extend_section|done].
    - unfold get_big, iter_queue. apply klocal_seq; [|done]. apply klocal_seq; [eapply Hsec, fetch_section|]. intros [r|]; [apply iter_qitems_local|done].
    - eapply Hsec, qdiscard_section.
  Qed.
  Lemma big_all c : big_any cfg k c ->
    mine cfg i K F0 R bV bG w spec mid top_any c (call_prog cfg c) \/ rdr cfg bV spec top_any c (call_prog cfg c) \/ oth K spec c (call_prog cfg c).
  Proof.
    intros Hok. assert ((exists bc, c = CBig k bc) \/ forall bc, c <> CBig k bc) as [[bc ->]|Hn].
    { destruct c as [o|tid o|lk' lc|qk' qc|b bc]; try (right; done). destruct (decide (b = k)) as [->|]; [left; eauto|right; congruence]. }
    - left. split; [apply big_local|]. intros ws0. cbn [call_prog].
      assert (Hsp : forall (bc : bcall) H ws r ws', match bc with
         | BSet v => exists b, r = Ok (YBool b) /\ ws' = ws ++ [v] /\ [] ∈ H /\ (b = true -> exists ws0, ws0 ∈ H /\ ws0 <> [])
         | BRemove => r = Ok (YBool (bool_decide (ws <> []))) /\ ws' = []
         | BGet => (exists o, r = Ok (YOpt o)) /\ ws' = ws end -> spec H ws (CBig k bc) r ws').
      { intros bc' H ws r ws' H1. cbn [big_seen]. by rewrite bool_decide_eq_true_2. }
      destruct bc as [v| |]; cbn [big_prog]; unfold kmap.
      + cbn [big_any] in Hok. specialize (Hok eq_refl). unfold set_big. eapply ss_ext; [apply keq_sym, keq_assoc|].
        eapply (bsess_section (BSet v) [ws0] (discard_queue cfg k) _ (fun B ws y M' => y = bool_decide (ws <> []) /\ R (B + w (CBig k (BSet v))) M' [])); [apply qdiscard_section| |].
        * intros H' B ws y M' Hs Hin [-> HR]. right. exists []. split; [right; by exists v|]. split; [done|].
          eapply ss_ext; [apply keq_sym, keq_assoc|]. rewrite w_big in HR. change (N.to_nat MAX_VALUE_SIZE) with MAXN.
          eapply (bsess_section (BSet v) ([] :: H') (extend_queue cfg k (chunks (length v) MAXN v)) _ (fun B ws1 _ M' => R B M' (ws1 ++ [v]))); [apply extend_section| |].
          -- intros H2 B2 ws2 x M2 Hs2 Hin2 HR2. left. exists (Ok (YBool (bool_decide (ws <> [])))), (ws2 ++ [v]). split; [done|]. split; [|done]. apply Hsp.
             exists (bool_decide (ws <> [])). split; [done|]. split; [done|]. split; [apply Hs2; by left|]. intros Hb. exists ws. split; [apply Hs2; by right|]. by apply bool_decide_eq_true in Hb.
          -- intros B2 ws2 M2. rewrite w_big. by apply cbig_extend.
        * intros B ws M HR. by apply cbig_discard.
      + unfold get_big, iter_queue. eapply ss_ext; [apply keq_sym, keq_assoc|]. eapply ss_ext; [apply keq_sym, keq_assoc|].
        eapply (bsess_section BGet [ws0] (fetch_queue cfg k) _ (fun B ws y M' => R B M' ws)); [apply fetch_section| |].
        * assert (Hfin : forall H o, sess (CBig k BGet) H (KRet (YOpt o)) Out).
          { intros H o. cbn [ss]. intros H2 l _ _. apply Hsp. split; [by eexists|done]. }
          intros H' B ws y M' Hs Hin HR. right. exists ws. split; [by left|]. rewrite w_big, N.add_0_r. split; [done|].
          destruct y as [r|]; [|apply Hfin]. apply bsess_iter. intros H2 xs. cbn [kbind]. apply Hfin.
        * intros B ws M HR. rewrite w_big, N.add_0_r in HR. unfold fetch_queue. apply kwp_locked, kwp_bind, kwp_get; [done|]. pose proof HR as HR0. unfold bR in HR0.
          destruct (M !! queue_key k) as [b|]; [|by apply kwp_ret]. destruct HR0 as (_ & t & n & -> & H2 & H3 & H4 & _).
          apply kwp_bind. eapply kwp_lift_ok; [apply dec_enc_rec; [done|lia|lia]|done|]. by apply kwp_ret.
      + unfold remove_big. eapply (bsess_section BRemove [ws0] (discard_queue cfg k) _ (fun B ws y M' => y = bool_decide (ws <> []) /\ R B M' [])); [apply qdiscard_section| |].
        * intros H' B ws y M' Hs Hin [-> HR]. left. exists (Ok (YBool (bool_decide (ws <> [])))), []. split; [done|]. split; [by apply Hsp|done].
        * intros B ws M HR. rewrite w_big, N.add_0_r in HR. by apply cbig_discard.
    - right. right. split.
      + exists (call_keys cfg c). split; [apply call_writes|]. intros key Hk Hk2. destruct (call_keys_queue cfg c k key Hk Hk2) as [[c' ->]|[c' ->]]; [done|by destruct (Hn c')].
      + intros H q r. destruct c as [o|tid o|lk' lc|qk' qc|b bc]; try done. cbn. rewrite bool_decide_eq_false_2; [done|]. intros ->. by destruct (Hn bc).
  Qed.
  (** Every concurrent run on the abstract map. *)
  Lemma lin_big M es A ws : arun cfg (AS M ∅ ∅) es A -> (forall a c, EvCall a c ∈ es -> big_any cfg k c) ->
    R (weight w es) M ws ->
    exists ws' P, hrun spec mid ws ∅ es ws' P /\ (a_ths A = ∅ -> R 0 (a_map A) ws' /\ P = ∅).
  Proof.
    intros Ha Hok HR.
    destruct (lin_sess cfg i K F0 (F0_ok k) R bV bG w spec mid (big_any cfg k) top_any ltac:(done) (bR_loc k) ltac:(done) ltac:(done) top_any_one top_any_in (top_any_push _) (big_seen_mono k) big_all
      _ _ _ Ha ws ∅ (weight w es) None []) as (ws' & P' & B' & md & X & L1 & L2 & L3 & L4 & L5).
    - done.
    - done.
    - exact HR.
    - intros a. cbn [a_ths]. by rewrite !lookup_empty.
    - cbn [total]. lia.
    - exists ws', P'. split; [done|]. intros Ht. destruct md as [a|].
      + destruct L3 as (c & H & p & B0 & E & _). by rewrite Ht, lookup_empty in E.
      + cbn [modes] in L3. split; [eapply bR_mono; [|exact L3]; lia|]. apply map_eq. intros a. rewrite lookup_empty. specialize (L4 a). rewrite Ht, lookup_empty in L4.
        by destruct (P' !! a) as [[]|].
  Qed.
End inst.

Lemma cbig_get cfg k B M ws : bR k B M ws ->
  kwp cfg (get_big cfg k) (fun _ => True) (fun y _ => y = big_put (concat ws)) (fun _ _ => False) M.
Proof.
  intros HR. unfold get_big, iter_queue, fetch_queue. apply kwp_bind, kwp_bind, kwp_locked, kwp_bind, kwp_get; [done|].
  unfold bR in HR. destruct (M !! queue_key k) as [b|] eqn:Hb.
  2:{ destruct HR as [-> _]. apply kwp_ret; [done|]. apply kwp_ret; [done|]. by apply kwp_ret. }
  destruct HR as (_ & t & n & -> & H2 & H3 & H4 & H5 & H6).
  apply kwp_bind. eapply kwp_lift_ok; [apply dec_enc_rec; [done|lia|lia]|done|]. apply kwp_ret; [done|]. cbn [l_head l_tail l_num].
  assert (Hi : forall l, kwp cfg (iter_qitems k l) (fun _ => True) (fun y M' => M' = M /\ map snd y = look k M l) (fun _ _ => False) M).
  { unfold look. induction l as [|i l IH]; cbn [iter_qitems]; [by apply kwp_ret|]. apply kwp_bind, kwp_get; [done|]. cbn [omap list_omap].
    destruct (M !! qitem_key k i) as [w|]; [|exact IH]. apply kwp_bind. eapply kwp_mono; [| | |exact IH]; [done| |done].
    intros y M' _ [-> Hy]. apply kwp_ret; [done|]. split; [done|]. cbn [map snd]. by rewrite Hy. }
  eapply kwp_mono; [| | |apply Hi]; [done| |done]. intros y M' _ [-> Hy]. apply kwp_ret; [done|].
  unfold idx_order, idx_seq in Hy. unfold iseq in H5, H6. rewrite <- Hy in H5, H6. clear Hy. destruct y as [|[j p] y]; [by rewrite <- H6|].
  rewrite <- H6. cbn [map concat snd] in *. assert (p <> []) as Hp by (apply H5; by left). by destruct p.
Qed.
Lemma cbig_start k M (m : option bytes) (g : bool) B : brep k M m g -> B < 2 ^ 61 -> exists ws, bR k B M ws /\ m = big_put (concat ws) /\ (length ws <= 1)%nat.
Proof.
  intros HR HB. pose proof idx62 as (U1 & U2 & U3). assert (2 ^ 61 + 2 ^ 61 = 2 ^ 62) as U4 by done. unfold brep in HR. unfold bR. destruct (M !! queue_key k) as [b|].
  - destruct HR as (t & n & vs & -> & H2 & H3 & H4 & H5 & H6 & H7 & _). exists [concat vs]. split; [|split; [|cbn [length]; lia]].
    + split; [done|]. exists t, n. split; [done|]. split; [done|]. split; [lia|]. split; [lia|]. rewrite H5. cbn [concat]. rewrite app_nil_r. split; [|done].
      clear -H6. induction vs as [|w vs IH]; intros p Hin; [by apply elem_of_nil in Hin|].
      destruct H6 as (P1 & _ & P3). apply elem_of_cons in Hin as [->|Hin]; [done|by apply IH].
    + rewrite H7. cbn [concat]. rewrite app_nil_r. destruct vs as [|[|x w] vs]; [done|by destruct H6 as [H6 _]|done].
  - destruct HR as [-> _]. exists []. split; [split; [done|lia]|]. split; [done|cbn [length]; lia].
Qed.
