(** Big values: crashes, rejected and empty values. *)
From Verif Require Import Base Hashing HashingProofs Fs Shard Router RouterPure Wpc Spec FileRep RowOps
  Compact Inv ShardOps Split Insert Open Merge Create Store Limits StoreRefine Kv Lists Queues Api Hist KvSpec
  HistInv KeySpace ListSpec ListRep ListProg ThmList QueueSpec QueueRep QueueProg QueueHist.
Implicit Types (M : kvmap) (cfg : config) (s : store) (k v : bytes) (vs : list bytes).
Local Arguments u64_bytes : simpl never.
Local Arguments enc_rec : simpl never.

(** ** Specification *)
(** [m]: what get_big returns. [g]: set_big and remove_big say that there was a value although there is
    none (after the empty value, a rejected value or a crash). *)
Definition big_put v : option bytes := match v with [] => None | _ => Some v end.
Definition big_spec_g (m : option bytes) (g : bool) (c : bcall) (y : reply) (m' : option bytes) (g' : bool) : Prop :=
  match c with
  | BSet v => y = YBool (bool_decide (is_Some m) || g) /\ m' = big_put v /\ (g' = true -> v = [])
  | BGet => y = YOpt m /\ m' = m /\ g' = g
  | BRemove => y = YBool (bool_decide (is_Some m) || g) /\ m' = None /\ g' = false
  end.
(** The beginning of the value may be gone, in pieces of 65280 bytes; or the whole of it. *)
Definition big_cut (m m' : option bytes) : Prop :=
  m' = m \/ m' = None \/
  exists gone rest n, m = Some (gone ++ rest) /\ m' = Some rest /\ rest <> [] /\ len gone = n * MAX_VALUE_SIZE.
(** What a crash during the call leaves. *)
Definition big_crash (m : option bytes) (c : bcall) (m' : option bytes) : Prop :=
  match c with
  | BGet => m' = m
  | BRemove => big_cut m m'
  | BSet v => big_cut m m' \/ m' = big_put v
  end.
Definition big_takes cfg k v : Prop := forall w : bytes, len w <= MAX_VALUE_SIZE -> len w <= len v -> queue_accepts cfg k w.
Definition big_step_crash (k : bytes) (cfg : config) (a : option bytes * bool) (e : event) (cfg' : config) (a' : option bytes * bool) : Prop :=
  match e with
  | ECall (CBig k' c) r =>
    if bool_decide (k' = k) then
      match r with
      | Ok y => big_spec_g (fst a) (snd a) c y (fst a') (snd a')
      | Err _ => fst a' = None /\ exists v, c = BSet v /\ ~ big_takes cfg k v
      end
    else a' = a
  | ECrash (ACall (CBig k' c)) => if bool_decide (k' = k) then big_crash (fst a) c (fst a') else a' = a
  | EClear => a' = (None, false)
  | _ => a' = a
  end.
(** No queue has the same key (C18); values have fewer than 2^62 bytes. *)
Definition big_guard_crash (k : bytes) (cfg : config) (s : store) (e : event) : Prop :=
  fits cfg s e /\
  match e with
  | ECall (CBig k' (BSet v)) _ | ECrash (ACall (CBig k' (BSet v))) => k' = k -> len v < 2 ^ 62
  | ECall (CQueue qk _) _ | ECrash (ACall (CQueue qk _)) => qk <> k
  | _ => True
  end.

(** ** Pieces *)
Definition MAXN : nat := N.to_nat MAX_VALUE_SIZE.
Lemma MAXN_pos : (0 < MAXN)%nat. Proof. unfold MAXN, MAX_VALUE_SIZE. lia. Qed.
Global Opaque MAXN.
(** Only the last piece may be short, none is empty. *)
Fixpoint pieces vs : Prop :=
  match vs with
  | [] => True
  | w :: vs => w <> [] /\ (vs <> [] -> length w = MAXN) /\ pieces vs
  end.
Lemma pieces_app gone vs : pieces (gone ++ vs) -> pieces vs /\ (vs <> [] -> length (concat gone) = (length gone * MAXN)%nat).
Proof.
  induction gone as [|w gone IH]; [done|]. cbn [app pieces]. intros (H1 & H2 & H3). destruct (IH H3) as [H4 H5]. split; [done|].
  intros Hne. cbn [concat length]. rewrite app_length, H2, H5 by (done || by destruct gone). lia.
Qed.
Lemma chunks_pieces fuel : forall v, pieces (chunks fuel MAXN v).
Proof.
  pose proof MAXN_pos as Hp. induction fuel as [|fuel IH]; intros v; cbn [chunks]; [done|]. destruct v as [|b v]; [done|].
  cbn [pieces]. split; [by destruct MAXN; [lia|]|]. split; [|apply IH]. intros Hne. rewrite take_length.
  destruct (drop MAXN (b :: v)) as [|c w] eqn:E; [by destruct fuel|].
  assert (length (drop MAXN (b :: v)) <> 0%nat) as Hd by (by rewrite E). rewrite drop_length in Hd. lia.
Qed.
Definition joined vs : option bytes := match vs with [] => None | _ => Some (concat vs) end.
Lemma pieces_nil vs : pieces vs -> concat vs = [] -> vs = [].
Proof. destruct vs as [|[|b w] vs]; [done|by intros [H _]|done]. Qed.
Lemma joined_cut gone vs : pieces (gone ++ vs) -> big_cut (joined (gone ++ vs)) (joined vs).
Proof.
  intros HP. destruct vs as [|w vs]; [right; by left|]. right. right. apply pieces_app in HP as [HP H]. specialize (H ltac:(done)).
  exists (concat gone), (concat (w :: vs)), (N.of_nat (length gone)). split; [|split; [done|split]].
  - destruct (gone ++ w :: vs) eqn:E; [by destruct gone|]. cbn [joined]. by rewrite <- E, concat_app.
  - intros E. by apply pieces_nil in E.
  - unfold len. rewrite H. rewrite Nat2N.inj_mul. f_equal.
Qed.
Lemma chunks_joined v : joined (chunks (length v) MAXN v) = big_put v.
Proof.
  pose proof (chunks_concat MAXN MAXN_pos (length v) v ltac:(lia)) as Hc. unfold big_put, joined. destruct v as [|b v]; [done|].
  destruct (chunks (length (b :: v)) MAXN (b :: v)) as [|w ws] eqn:E; [done|]. by rewrite Hc.
Qed.

(** ** Representation *)
Definition iseq (h : N) (n : nat) : list N := map (fun i => h + N.of_nat i) (seq 0 n).
Definition look k M (l : list N) : list bytes := omap (M := list) (fun i => M !! qitem_key k i) l.
Definition brep k M (m : option bytes) (g : bool) : Prop :=
  match M !! queue_key k with
  | None => m = None /\ g = false
  | Some b => exists t n vs, b = enc_rec (LRec FIRST_IDX t n) /\ FIRST_IDX <= t /\ t <= FIRST_IDX + 2 ^ 62 /\ n <= 2 ^ 62 /\
      look k M (iseq FIRST_IDX (N.to_nat (t - FIRST_IDX))) = vs /\ pieces vs /\ m = joined vs /\ (m = None -> g = true) 
  end.
Lemma idx62 : FIRST_IDX + 2 ^ 62 + 2 ^ 62 = U64 /\ FIRST_IDX < U64 /\ 2 ^ 62 < U64. Proof. done. Qed.
Lemma iseq_S h n : iseq h (S n) = h :: iseq (h + 1) n.
Proof. apply idx_seq_S. Qed.
Lemma iseq_in h n i : i ∈ iseq h n -> h <= i < h + N.of_nat n.
Proof. intros H. apply elem_of_list_fmap in H as (j & -> & H). apply elem_of_seq in H. lia. Qed.
Lemma look_ext k M M' l : (forall i, i ∈ l -> M' !! qitem_key k i = M !! qitem_key k i) -> look k M' l = look k M l.
Proof.
  unfold look. induction l as [|i l IH]; [done|]. intros H. cbn. rewrite (H i) by left. rewrite IH; [done|]. intros j Hj. apply H. by right.
Qed.
Lemma brep_ext k M M' m g : (forall key, queue_keys k key -> M' !! key = M !! key) -> brep k M m g -> brep k M' m g.
Proof.
  intros H HR. unfold brep in *. rewrite (H (queue_key k)) by auto with kne. destruct (M !! queue_key k) as [b|]; [|done].
  destruct HR as (t & n & vs & H1 & H2 & H3 & H4 & H5 & H6). exists t, n, vs. repeat (split; [done|]). split; [|done].
  rewrite <- H5. apply look_ext. intros i _. apply H. auto with kne.
Qed.
Lemma brep_none k M : M !! queue_key k = None -> brep k M None false.
Proof. intros H. unfold brep. by rewrite H. Qed.

Section prog.
  Context (cfg : config) (k : bytes).
  (** discard_queue *)
  Lemma kwp_big_rem b n : forall (C : kvmap -> Prop) h M, M !! queue_key k = Some b -> h + N.of_nat n < U64 ->
    (forall M' gone, look k M (iseq h n) = gone ++ look k M' (iseq h n) -> M' !! queue_key k = Some b -> C M') ->
    kwp cfg (rem_items k (iseq h n)) C (fun _ M' => M' !! queue_key k = Some b) (fun _ _ => False) M.
  Proof.
    induction n as [|n IH]; intros C h M Hr Hh HC.
    - apply kwp_ret; [|done]. by apply (HC M []).
    - rewrite iseq_S in *. cbn [rem_items].
      set (M1 := delete (qitem_key k h) M).
      assert (M1 !! queue_key k = Some b) as Hr1 by (unfold M1; by rewrite lookup_delete_ne by kdiff).
      assert (forall (M' : kvmap) i, i ∈ iseq (h + 1) n -> qitem_key k i <> qitem_key k h) as Hne.
      { intros M' i Hi E. apply iseq_in in Hi. apply qitem_key_inj in E; lia. }
      assert (look k M1 (iseq (h + 1) n) = look k M (iseq (h + 1) n)) as E1.
      { apply look_ext. intros i Hi. unfold M1. rewrite lookup_delete_ne; [done|]. intros E. by apply (Hne M i Hi). }
      assert (Hcut : exists pre, look k M (h :: iseq (h + 1) n) = pre ++ look k M (iseq (h + 1) n)).
      { unfold look. cbn [omap list_omap]. destruct (M !! qitem_key k h) as [w|]; [by exists [w]|by exists []]. }
      assert (HC1 : forall M' gone, M' !! qitem_key k h = None -> look k M (iseq (h + 1) n) = gone ++ look k M' (iseq (h + 1) n) -> M' !! queue_key k = Some b -> C M').
      { intros M' gone Hn He Hb. destruct Hcut as [pre Hp]. apply (HC M' (pre ++ gone)); [|done]. rewrite Hp, He, app_assoc.
        f_equal. unfold look at 2. cbn [omap list_omap]. by rewrite Hn. }
      apply kwp_bind, kwp_rem.
      + by apply (HC M []).
      + apply (HC1 M1 []); [apply lookup_delete|by rewrite E1|done].
      + fold M1.
        assert (kwp cfg (rem_items k (iseq (h + 1) n)) (fun M' => C M' \/ M' !! qitem_key k h <> None) (fun _ M' => M' !! queue_key k = Some b) (fun _ _ => False) M1) as HW.
        { apply IH; [done|lia|]. intros M' gone He Hb. destruct (M' !! qitem_key k h) eqn:En; [by right|]. left.
          apply (HC1 M' gone); [done|by rewrite <- E1|done]. }
        pose proof (kwp_frame cfg (fun key => exists i, i ∈ iseq (h + 1) n /\ key = qitem_key k i) (rem_items k (iseq (h + 1) n)) anyv M1) as HF.
        assert (kwrites (fun key => exists i, i ∈ iseq (h + 1) n /\ key = qitem_key k i) anyv (rem_items k (iseq (h + 1) n))) as HK.
        { generalize (iseq (h + 1) n). intros l. assert (forall l', (forall i, i ∈ l' -> i ∈ l) -> kwrites (fun key => exists i, i ∈ l /\ key = qitem_key k i) anyv (rem_items k l')) as HL.
          { induction l' as [|i l' IHl]; intros Hin; [done|]. cbn [rem_items]. apply kwrites_seq; [|intros _; apply IHl; intros j Hj; apply Hin; by right].
            cbn. split; [exists i; split; [apply Hin; left|done]|done]. }
          by apply HL. }
        specialize (HF HK M1 ltac:(by intros ? ?)).
        eapply kwp_mono; [| | |eapply kwp_and; [exact HW|exact HF]].
        * intros M' [[H|H] Hs]; [done|]. exfalso. apply H. rewrite (Hs (qitem_key k h)); [apply lookup_delete|].
          intros (i & Hi & E). symmetry in E. by apply (Hne M i Hi).
        * intros a M' _ [H _]. exact H.
        * intros a M' _ [H _]. exact H.
  Qed.

  Lemma kwp_big_discard M m g : brep k M m g ->
    kwp cfg (discard_queue cfg k)
      (fun M' => exists m' g', brep k M' m' g' /\ big_cut m m')
      (fun y M' => M' !! queue_key k = None /\ y = bool_decide (is_Some m) || g)
      (fun _ _ => False) M.
  Proof.
    intros HR. set (C := fun M' => _). set (Q := fun y M' => _).
    assert (HCM : C M) by (exists m, g; split; [done|by left]).
    assert (HCN : forall M' : kvmap, M' !! queue_key k = None -> C M') by (intros M' H; exists None, false; split; [by apply brep_none|right; by left]).
    unfold discard_queue. apply kwp_locked, kwp_bind, kwp_get; [done|]. unfold brep in HR. destruct (M !! queue_key k) as [b|] eqn:Hb.
    2:{ destruct HR as [-> ->]. apply kwp_ret; [done|]. by split. }
    destruct HR as (t & n & vs & -> & H2 & H3 & H4 & H5 & H6 & H7 & H8). pose proof idx62 as HU.
    apply kwp_bind. eapply kwp_lift_ok; [apply dec_enc_rec; lia|done|]. cbn [l_head l_tail l_num].
    apply kwp_bind. eapply kwp_mono; [| | |apply (kwp_big_rem (enc_rec (LRec FIRST_IDX t n)) (N.to_nat (t - FIRST_IDX)) C FIRST_IDX M)]; [done| |done|done|lia| ].
    - intros [] M1 HC1 Hb1. apply kwp_bind, kwp_rem; [done|apply HCN; apply lookup_delete|]. apply kwp_ret; [apply HCN; apply lookup_delete|].
      split; [apply lookup_delete|]. destruct m as [x|]; [by rewrite bool_decide_true by eauto|]. by rewrite H8.
    - intros M' gone He Hb1. exists (joined (look k M' (iseq FIRST_IDX (N.to_nat (t - FIRST_IDX))))), true.
      assert (pieces (gone ++ look k M' (iseq FIRST_IDX (N.to_nat (t - FIRST_IDX))))) as HP by (by rewrite <- He, H5). split.
      + unfold brep. rewrite Hb1. exists t, n, (look k M' (iseq FIRST_IDX (N.to_nat (t - FIRST_IDX)))). repeat (split; [done|]). split; [|done].
        by apply pieces_app in HP as [HP _].
      + rewrite H7, <- H5, He. by apply joined_cut.
  Qed.

  (** extend_queue after that *)
  Lemma kwp_big_items (C : kvmap -> Prop) (E : err -> kvmap -> Prop) b : (forall M, M !! queue_key k = Some b -> C M) ->
    forall vs t num M, M !! queue_key k = Some b -> t + len vs < U64 -> num + len vs < U64 ->
    (forall e M, ~ Forall (queue_accepts cfg k) vs -> M !! queue_key k = Some b -> E e M) ->
    kwp cfg (extend_items k vs t num) C
      (fun r M' => r = (t + len vs, num + len vs) /\ M' !! queue_key k = Some b /\ look k M' (iseq t (length vs)) = vs /\
         forall i, i < t -> M' !! qitem_key k i = M !! qitem_key k i) E M.
  Proof.
    intros HC. induction vs as [|v vs IH]; intros t num M Hb Ht Hn HE; cbn [extend_items].
    - apply kwp_ret; [by apply HC|]. change (len []) with 0. rewrite !N.add_0_r. done.
    - assert (len (v :: vs) = len vs + 1) as El by (unfold len; cbn [length]; lia). rewrite El in *.
      apply kwp_bind, kwp_set2; [auto with kne|by apply HC| |].
      + intros e He. apply HE; [|done]. intros Hf. apply Forall_cons in Hf as [Hf _]. by rewrite (acc_qitem _ _ _ _ Hf) in He.
      + intros Hacc. assert (<[qitem_key k t := v]> M !! queue_key k = Some b) as Hb1 by (by rewrite lookup_insert_ne by kdiff). split; [by apply HC|]. intros _.
        apply kwp_bind. eapply kwp_lift_ok; [apply inc64_ok; lia|by apply HC|]. apply kwp_bind. eapply kwp_lift_ok; [apply inc64_ok; lia|by apply HC|].
        eapply kwp_mono; [| | |apply (IH (t + 1) (num + 1) (<[qitem_key k t := v]> M))]; [done| |done|done|lia|lia|].
        * intros r M' _ (-> & K2 & K3 & K4). split; [f_equal; lia|]. split; [done|]. cbn [length]. rewrite iseq_S.
          assert (M' !! qitem_key k t = Some v) as Ev by (rewrite K4 by lia; apply lookup_insert).
          split; [unfold look in *; cbn [omap list_omap]; rewrite Ev, K3; done|]. intros i Hi. rewrite K4 by lia. rewrite lookup_insert_ne; [done|].
          intros Eq. apply qitem_key_inj in Eq; lia.
        * intros e M' Hf. apply HE. intros Hf2. apply Hf. by apply Forall_cons in Hf2 as [_ Hf2].
  Qed.
  Lemma kwp_big_extend M v : M !! queue_key k = None -> len v < 2 ^ 62 ->
    kwp cfg (extend_queue cfg k (chunks (length v) MAXN v))
      (fun M' => exists m' g', brep k M' m' g' /\ (m' = None \/ m' = big_put v))
      (fun _ M' => exists g', brep k M' (big_put v) g' /\ (g' = true -> v = []))
      (fun _ M' => (exists g', brep k M' None g') /\ ~ big_takes cfg k v) M.
  Proof.
    intros Hn Hv. set (vs := chunks (length v) MAXN v).
    assert (len vs < 2 ^ 62) as Hvl by (unfold len in *; pose proof (chunks_len MAXN (length v) v) as H; fold vs in H; lia).
    assert (F0 : FIRST_IDX + len vs < U64) by (change FIRST_IDX with (2 ^ 63); change U64 with (2 ^ 64); assert (2 ^ 64 = 2 ^ 63 + 2 ^ 62 + 2 ^ 62) by done; lia).
    assert (Hacc : big_takes cfg k v -> ins_err cfg (queue_key k) (replicate 24 x00) = None /\ Forall (queue_accepts cfg k) vs).
    { intros Ht. split; [apply (Ht []); [done|apply N.le_0_l]|]. apply Forall_forall. intros w Hw. apply chunks_in in Hw as [K1 K2].
      apply Ht; [|unfold len; lia]. unfold len. transitivity (N.of_nat MAXN); [lia|]. done. }
    assert (Hsame : forall h t n, ins_err cfg (queue_key k) (enc_rec (LRec h t n)) = ins_err cfg (queue_key k) (replicate 24 x00)).
    { intros h t n. apply ins_err_len; [done|]. by rewrite enc_rec_len, replicate_length. }
    set (b0 := enc_rec (LRec FIRST_IDX FIRST_IDX 0)).
    assert (F1 : FIRST_IDX < U64) by lia.
    assert (HN : forall M' : kvmap, M' !! queue_key k = Some b0 -> brep k M' None true).
    { intros M' Hb. unfold brep. rewrite Hb. exists FIRST_IDX, 0, []. split; [done|]. split; [lia|]. split; [lia|]. split; [done|].
      rewrite N.sub_diag. done. }
    set (C := fun M' => _). set (Q := fun _ M' => _). set (E := fun _ M' => _).
    assert (HC : forall M' : kvmap, M' !! queue_key k = Some b0 -> C M') by (intros M' Hb; exists None, true; split; [by apply HN|by left]).
    unfold extend_queue. apply kwp_locked, kwp_bind, kwp_goc2; [auto with kne| | | |].
    - exists None, false. split; [by apply brep_none|by left].
    - intros e He. split; [exists false; by apply brep_none|]. intros Ht. apply Hacc in Ht as [Ht _]. by rewrite Hsame, Ht in He.
    - intros o _ Ho. congruence.
    - intros Hrec _. fold b0 in Hrec |- *. set (M1 := <[queue_key k := b0]> M). assert (M1 !! queue_key k = Some b0) as Hb1 by apply lookup_insert. split; [by apply HC|].
      cbn [goc_value]. apply kwp_bind. eapply kwp_lift_ok; [apply dec_enc_rec; lia|by apply HC|]. cbn [l_head l_tail l_num].
      apply kwp_bind. eapply kwp_mono; [| | |apply (kwp_big_items C E b0 HC vs FIRST_IDX 0 M1 Hb1)]; [done| |done|done|lia|].
      2:{ intros e M' Hf Hb. split; [exists true; by apply HN|]. intros Ht. by apply Hacc in Ht as [_ Ht]. }
      intros r M2 _ (-> & Hb2 & Hlk & _). cbv beta iota.
      assert (forall g, (g = false -> v <> []) -> brep k (<[queue_key k := enc_rec (LRec FIRST_IDX (FIRST_IDX + len vs) (0 + len vs))]> M2) (big_put v) g) as HB.
      { intros g Hg. unfold brep. rewrite lookup_insert. exists (FIRST_IDX + len vs), (0 + len vs), vs.
        split; [done|]. split; [lia|]. split; [lia|]. split; [lia|].
        replace (N.to_nat (FIRST_IDX + len vs - FIRST_IDX)) with (length vs) by (unfold len; lia).
        split; [eapply eq_trans; [|exact Hlk]; apply look_ext; intros i _; by rewrite lookup_insert_ne by kdiff|].
        split; [apply chunks_pieces|]. split; [symmetry; apply chunks_joined|]. destruct g; [done|]. intros Hp. unfold big_put in Hp. destruct v; [by destruct Hg|done]. }
      apply kwp_bind, kwp_set2; [auto with kne|by apply HC| |].
      + intros e He. rewrite Hsame in He. unfold b0 in Hrec. rewrite Hsame in Hrec. congruence.
      + intros _. assert (C (<[queue_key k := enc_rec (LRec FIRST_IDX (FIRST_IDX + len vs) (0 + len vs))]> M2)) as HC3.
        { exists (big_put v), true. split; [by apply HB|by right]. }
        split; [done|]. intros _. apply kwp_ret; [done|]. exists (bool_decide (v = [])). split; [apply HB; by rewrite bool_decide_eq_false|].
        by rewrite bool_decide_eq_true.
  Qed.

  Lemma kwp_big_get (C : kvmap -> Prop) M m g : brep k M m g -> C M -> kwp cfg (get_big cfg k) C (fun y M' => y = m /\ M' = M) (fun _ _ => False) M.
  Proof.
    intros HR HC. unfold get_big, iter_queue, fetch_queue. apply kwp_bind, kwp_bind, kwp_locked, kwp_bind, kwp_get; [done|].
    unfold brep in HR. destruct (M !! queue_key k) as [b|] eqn:Hb.
    2:{ destruct HR as [-> ->]. apply kwp_ret; [done|]. apply kwp_ret; [done|]. by apply kwp_ret. }
    destruct HR as (t & n & vs & -> & H2 & H3 & H4 & H5 & H6 & H7 & H8). pose proof idx62 as HU.
    apply kwp_bind. eapply kwp_lift_ok; [apply dec_enc_rec; lia|done|]. apply kwp_ret; [done|]. cbn [l_head l_tail l_num].
    assert (Hi : forall l, kwp cfg (iter_qitems k l) C (fun y M' => M' = M /\ map snd y = look k M l) (fun _ _ => False) M).
    { unfold look. induction l as [|i l IH]; cbn [iter_qitems]; [by apply kwp_ret|]. apply kwp_bind, kwp_get; [done|]. cbn [omap list_omap].
      destruct (M !! qitem_key k i) as [w|]; [|exact IH]. apply kwp_bind. eapply kwp_mono; [| | |exact IH]; [done| |done].
      intros y M' _ [-> Hy]. apply kwp_ret; [done|]. split; [done|]. cbn [map snd]. by rewrite Hy. }
    eapply kwp_mono; [| | |apply Hi]; [done| |done]. intros y M' _ [-> Hy]. apply kwp_ret; [done|]. split; [|done].
    unfold idx_order, idx_seq in Hy. unfold iseq in H5. rewrite H5 in Hy. rewrite H7, <- Hy. by destruct y.
  Qed.
  Lemma big_kwp_crash M m g c : brep k M m g -> (forall v, c = BSet v -> len v < 2 ^ 62) ->
    kwp cfg (big_prog cfg k c)
      (fun M' => exists m' g', big_crash m c m' /\ brep k M' m' g')
      (fun y M' => exists m' g', big_spec_g m g c y m' g' /\ brep k M' m' g')
      (fun e M' => exists g', brep k M' None g' /\ exists v, c = BSet v /\ ~ big_takes cfg k v) M.
  Proof.
    intros HR Hv. destruct c as [v| |]; cbn [big_prog]; apply kwp_map.
    - unfold set_big. apply kwp_bind. eapply kwp_mono; [| | |by apply (kwp_big_discard M m g)]; [| |done].
      + intros M' (m' & g' & H1 & H2). exists m', g'. split; [by left|done].
      + intros y M1 _ [H1 ->]. apply kwp_bind. change (N.to_nat MAX_VALUE_SIZE) with MAXN.
        eapply kwp_mono; [| | |apply (kwp_big_extend M1 v H1 (Hv v eq_refl))].
        * intros M' (m' & g' & H2 & [->| ->]); [exists None, g'|exists (big_put v), g']; (split; [|done]); [left; right; by left|by right].
        * intros r M' (m' & g' & H2 & H3) (g1 & K1 & K2). apply kwp_ret; [exists (big_put v), g1; split; [by right|done]|].
          exists (big_put v), g1. done.
        * intros e M' _ [[g' H2] H3]. exists g'. split; [done|]. by exists v.
    - eapply kwp_mono; [| | |apply (kwp_big_get (fun M' => M' = M) M m g HR eq_refl)]; [| |done].
      + intros M' ->. by exists m, g.
      + intros y M' _ [-> ->]. by exists m, g.
    - unfold remove_big. eapply kwp_mono; [| | |by apply (kwp_big_discard M m g)]; [| |done].
      + intros M' (m' & g' & H1 & H2). by exists m', g'.
      + intros y M' _ [H1 ->]. exists None, false. split; [done|]. by apply brep_none.
  Qed.
End prog.

(** ** Along every history *)
Definition big_inv_crash (k : bytes) cfg M (a : option bytes * bool) : Prop := brep k M (fst a) (snd a).
Lemma off_queue_big cfg k c M m g : brep k M m g -> off_queue k c ->
  kwp cfg (call_prog cfg c) (fun M' => brep k M' m g) (fun _ M' => brep k M' m g) (fun _ M' => brep k M' m g) M.
Proof.
  intros HR Hc.
  assert (Hs : forall M', same_outside (call_keys cfg c) M M' -> brep k M' m g).
  { intros M' HM. eapply brep_ext; [|exact HR]. intros key Hk. apply HM. intros Hk2.
    destruct (call_keys_queue cfg c k key Hk Hk2) as [[c' ->]|[c' ->]]; done. }
  eapply kwp_mono; [| | |eapply (kwp_frame cfg (call_keys cfg c) _ anyv M); [apply call_writes|by intros ? ?]].
  - exact Hs.
  - intros a M' _. apply Hs.
  - intros a M' _. apply Hs.
Qed.
Lemma big_crash_lifts k : lifts (big_inv_crash k) (big_step_crash k) (big_guard_crash k).
Proof.
  constructor.
  - intros cfg cfg' M a Hh H. exact H.
  - intros cfg s e [H _]. exact H.
  - intros cfg s x M [m g] c r HI HR [Hf Hg]. exists (fun _ => True). unfold big_inv_crash in HR. cbn [fst snd] in HR.
    assert (off_queue k c \/ exists bc, c = CBig k bc /\ forall v, bc = BSet v -> len v < 2 ^ 62) as Hcase.
    { destruct c as [o|tid o|lk' c|qk' c|k' c]; try (left; done).
      destruct (decide (k' = k)) as [->|E]; [right; exists c; split; [done|intros v ->; by apply Hg]|by left]. }
    destruct Hcase as [Hoff|(bc & -> & Hv)].
    + assert (Hst : forall r', big_step_crash k cfg (m, g) (ECall c r') cfg (m, g)).
      { intros r'. destruct c as [o|tid o|lk' c|qk' c|b c]; try done. cbn. case_bool_decide as E; [by destruct Hoff|done]. }
      eapply kwp_mono; [| | |by apply (off_queue_big cfg k c M m g)]; [done| |];
        (intros y M' _ H; exists (m, g); split; [apply Hst|done]).
    + cbn [call_prog]. eapply kwp_mono; [| | |by apply (big_kwp_crash cfg k M m g bc)]; [done| |].
      * intros y M' _ (m' & g' & H1 & H2). exists (m', g'). cbn [big_step_crash]. by rewrite bool_decide_true by done.
      * intros e M' _ (g' & H1 & H2). exists (None, g'). cbn [big_step_crash]. by rewrite bool_decide_true by done.
  - intros cfg s x M [m g] c HI HR [Hf Hg]. unfold big_inv_crash in HR. cbn [fst snd] in HR.
    assert (off_queue k c \/ exists bc, c = CBig k bc /\ forall v, bc = BSet v -> len v < 2 ^ 62) as Hcase.
    { destruct c as [o|tid o|lk' c|qk' c|k' c]; try (left; done).
      destruct (decide (k' = k)) as [->|E]; [right; exists c; split; [done|intros v ->; by apply Hg]|by left]. }
    destruct Hcase as [Hoff|(bc & -> & Hv)].
    + eapply kwp_mono; [| | |by apply (off_queue_big cfg k c M m g)]; [|done|done].
      intros M' H. exists (m, g). split; [|done]. intros cfg' _.
      destruct c as [o|tid o|lk' c|qk' c|b c]; try done. cbn. case_bool_decide as E; [by destruct Hoff|done].
    + cbn [call_prog]. eapply kwp_mono; [| | |by apply (big_kwp_crash cfg k M m g bc)]; [|done|done].
      intros M' (m' & g' & H1 & H2). exists (m', g'). split; [|done]. intros cfg' _. cbn [big_step_crash]. by rewrite bool_decide_true by done.
  - intros cfg s x M a e HI HV _ He. exists a. split; [|done]. intros cfg' _. destruct e as [c r|mt| | |[|c|mt]]; done.
  - intros cfg s x M a HI HV _. exists (None, false). split; [done|]. apply brep_none, lookup_empty.
Qed.

(** Along every history with crashes, rejected and empty values: what a crash during set_big or remove_big
    leaves is the old value, the old value without some of its first pieces, nothing, or (set_big) all of the
    new value; and everything works from there on.  Missing: a crash may leave only a part of the old value
    (see [C63_crash_leaves_old_or_new_refuted]). *)
Theorem C63_big_values_with_crashes_partial : forall k cfg s es cfg' s',
  created cfg s -> hist (big_guard_crash k) cfg s es cfg' s' ->
  exists m g, trace (big_step_crash k) cfg (None, false) es cfg' (m, g) /\ reply_to cfg' s' (CBig k BGet) = Ok (YOpt m).
Proof.
  intros k cfg s es cfg' s' Hc Hh.
  destruct (hist_lift _ _ _ (big_crash_lifts k) cfg s es cfg' s' true ∅ (None, false) Hh (created_ok _ _ Hc)) as (x & M & [m g] & H1 & H2 & H3 & _).
  { apply brep_none, lookup_empty. }
  exists m, g. split; [done|]. unfold reply_to.
  destruct (kwp_krun cfg' x (big_prog cfg' k BGet) _ _ _ M s' H2 (reads_fits cfg' (call_prog cfg' (CBig k BGet)) ltac:(cbn [call_prog big_prog]; apply kwrites_map;
     unfold get_big; apply kwrites_seq; [|done]; exact (kwrites_iter_queue cfg' k)) s') (big_kwp_crash cfg' k M m g BGet H3 ltac:(done))) as (M' & _ & H).
  change (big_prog cfg' k BGet) with (call_prog cfg' (CBig k BGet)) in H.
  destruct (snd (krun cfg' (call_prog cfg' (CBig k BGet)) s')) as [y|e]; [|by destruct H as (? & _ & ? & ? & _)].
  destruct H as (m' & g' & (-> & _ & _) & _). done.
Qed.
