(** Which shards [merge_small_shards] merges (C60) and when it returns (C06). *)
From Verif Require Import Base SipHash Hashing HashingProofs Fs Shard Router RouterPure Wpc Spec FileRep RowOps
  Compact Inv ShardOps Split Insert Open Merge Create.

(** [coarser P l l' k]: the spans [l'] come from [l] by merging [k] times two neighbours, each of
    which satisfies [P] at that moment. *)
Inductive coarser (P : range -> Prop) : list range -> list range -> N -> Prop :=
| coarser_same l : coarser P l l 0
| coarser_one a b c : P (a, b) -> P (b, c) -> coarser P [(a, b); (b, c)] [(a, c)] 1
| coarser_app l1 l1' k1 l2 l2' k2 :
    coarser P l1 l1' k1 -> coarser P l2 l2' k2 -> coarser P (l1 ++ l2) (l1' ++ l2') (k1 + k2)
| coarser_trans l l' l'' k1 k2 : coarser P l l' k1 -> coarser P l' l'' k2 -> coarser P l l'' (k1 + k2).

Lemma coarser_zero P l l' k : coarser P l l' k -> k = 0 -> l' = l.
Proof.
  induction 1 as [l|a b c H1 H2|l1 l1' k1 l2 l2' k2 H1 IH1 H2 IH2|l l' l'' k1 k2 H1 IH1 H2 IH2]; intros E; [done|lia| |].
  - rewrite IH1, IH2 by lia. done.
  - rewrite IH2, IH1 by lia. done.
Qed.
Lemma coarser_len P l l' k : coarser P l l' k -> len l = len l' + k.
Proof.
  induction 1 as [l|a b c H1 H2|l1 l1' k1 l2 l2' k2 H1 IH1 H2 IH2|l l' l'' k1 k2 H1 IH1 H2 IH2]; [lia|done| |lia].
  rewrite !Base.len_app. lia.
Qed.
(** What does not satisfy [P] stays. *)
Lemma coarser_stays P l l' k r : coarser P l l' k -> r ∈ l -> ~ P r -> r ∈ l'.
Proof.
  induction 1 as [l|a b c H1 H2|l1 l1' k1 l2 l2' k2 H1 IH1 H2 IH2|l l' l'' k1 k2 H1 IH1 H2 IH2]; intros Hr Hn; [done| | |auto].
  - apply elem_of_cons in Hr as [->|Hr]; [done|]. apply elem_of_list_singleton in Hr as ->. done.
  - apply elem_of_app in Hr as [Hr|Hr]; apply elem_of_app; auto.
Qed.
(** What is new was made of two that satisfy [P]. *)
Lemma coarser_new P l l' k a c : coarser P l l' k -> (a, c) ∈ l' -> (a, c) ∈ l \/ exists b, P (a, b) /\ P (b, c).
Proof.
  induction 1 as [l|a' b c' H1 H2|l1 l1' k1 l2 l2' k2 H1 IH1 H2 IH2|l l' l'' k1 k2 H1 IH1 H2 IH2]; intros Hr; [by left| | |].
  - apply elem_of_list_singleton in Hr. injection Hr as -> ->. right. eauto.
  - apply elem_of_app in Hr as [Hr|Hr]; [destruct (IH1 Hr) as [?|?]|destruct (IH2 Hr) as [?|?]]; auto;
      left; apply elem_of_app; auto.
  - destruct (IH2 Hr); auto.
Qed.
(** The first merge was of two neighbours that were there. *)
Lemma coarser_first P l l' k : coarser P l l' k -> 0 < k ->
  exists a b c, (a, b) ∈ l /\ (b, c) ∈ l /\ P (a, b) /\ P (b, c).
Proof.
  induction 1 as [l|a b c H1 H2|l1 l1' k1 l2 l2' k2 H1 IH1 H2 IH2|l l' l'' k1 k2 H1 IH1 H2 IH2]; intros Hk; [lia| | |].
  - exists a, b, c. rewrite !elem_of_cons. auto.
  - destruct (N.eq_dec k1 0) as [->|Hk1].
    + destruct IH2 as (a & b & c & A1 & A2 & A3); [lia|]. exists a, b, c. rewrite !elem_of_app. auto.
    + destruct IH1 as (a & b & c & A1 & A2 & A3); [lia|]. exists a, b, c. rewrite !elem_of_app. auto.
  - destruct (N.eq_dec k1 0) as [->|Hk1]; [|apply IH1; lia].
    apply coarser_zero in H1; [|done]. subst l'. apply IH2. lia.
Qed.

Global Instance in_span_dec cfg s e k : Decision (in_span cfg s e k).
Proof.
  unfold in_span. generalize (ph_selector (hashk cfg k)). intros x.
  apply and_dec; [apply N_le_dec|apply N_lt_dec].
Defined.
(** The number of keys of [m] whose home is in a span. *)
Definition keys_in (cfg : config) (m : kvmap) (r : range) : N :=
  N.of_nat (size (filter (fun kv => in_span cfg (fst r) (snd r) (fst kv)) m)).
Lemma holds_keys cfg m s e es : holds m (in_span cfg s e) es -> len es = keys_in cfg m (s, e).
Proof.
  intros [H1 H2]. unfold keys_in. apply holds_size. split; [done|]. intros k v. rewrite H2.
  rewrite map_filter_lookup_Some. cbn. tauto.
Qed.
Lemma leaf_items cfg m w sh st n :
  leaf_ok cfg true m w sh -> sh_tgt sh = None -> stat_ok w sh st -> num_items st = Ok n ->
  n = keys_in cfg m (span_of sh).
Proof.
  intros Hl Ht (f & F1 & ->) Hn.
  destruct (leaf_idle _ _ _ _ _ Hl Ht) as (f' & L & _ & B2 & _ & _ & B5 & _ & _ & B8).
  rewrite F1 in B2. injection B2 as <-. destruct B5 as [_ B5]. destruct (B5 eq_refl) as [_ B7].
  apply all_hold_entries, holds_keys in B8. rewrite count_entries in B7. unfold span_of.
  unfold num_items in Hn. cbn in Hn. destruct (f_ins f <? f_rem f); [done|]. injection Hn as <-. lia.
Qed.

Section merge.
Context (cfg : config) (m : kvmap) (mf : N).
Definition small (r : range) : Prop := keys_in cfg m r <= mf.

(** A part of the tree after merging in it. *)
Definition mergeS (w0 : fs) (s : N) (n : nat) (l : list range) (rem : N) (o : option shard) (rem' : N) (w' : fs) : Prop :=
  exists r' k, leafQ cfg true w0 m s n r' w' /\ idle r' /\ (forall sh, o = Some sh -> r' = RLeaf sh /\ 0 < k) /\
    coarser small l (map span_of (leaves r')) k /\ rem = rem' + k.

Lemma merge_leaves_shape w b t s n rem (C : fs -> Prop) (Q : option shard * N -> fs -> Prop) (E : err -> Prop) :
  wf w -> run_span cfg true m w (RVertex (RLeaf b) (RLeaf t)) s (S n) ->
  sh_tgt b = None -> sh_tgt t = None -> total_small m ->
  (forall w', leafC cfg w m m s (S n) w' -> C w') ->
  (forall w' o rem', mergeS w s (S n) [span_of b; span_of t] rem o rem' w' -> Q (o, rem') w') ->
  wpc (merge_leaves cfg b t mf rem) C Q E w.
Proof.
  intros Hwf Hrun Tb Tt Hts HC HQ. unfold merge_leaves.
  assert (HQ0 : leafQ cfg true w m s (S n) (RVertex (RLeaf b) (RLeaf t)) w).
  { split; [done|]. split; [apply outside_same_refl|done]. }
  assert (Hsame : forall w' b' t', leafQ cfg true w m s (S n) (RVertex (RLeaf b') (RLeaf t')) w' ->
            sh_tgt b' = None -> sh_tgt t' = None -> span_of b' = span_of b -> span_of t' = span_of t ->
            wpc (Ret (None, rem)) C Q E w').
  { intros w' b' t' HQ' H1 H2 H3 H4. apply wpc_ret; [apply HC; by eapply leafQ_C|].
    apply HQ. exists (RVertex (RLeaf b') (RLeaf t')), 0. split; [done|]. split; [repeat constructor; done|].
    split; [done|]. split; [|lia]. cbn. rewrite H3, H4. constructor. }
  destruct (N.eqb_spec rem 0) as [_|Hrem]; [by apply (Hsame w b t)|].
  destruct (run_span_split _ _ _ _ _ _ _ _ Hwf Hrun) as [Hb Ht].
  pose proof Hb as Hb'. apply run_leaf in Hb' as (Sb & Eb & _). pose proof Ht as Ht'. apply run_leaf in Ht' as (St & Et & _).
  apply wpc_bind. eapply (shard_get_stats_leaf cfg true m w w b s n).
  { split; [done|]. split; [apply outside_same_refl|done]. }
  { intros w' A1 A2 A3. apply HC. eapply leafC_low; [exact Ht|done|]. split; [done|]. split; [done|]. by left. }
  intros w1 b1 sb HQ1 Tb1 Sb1.
  pose proof (leafQ_low cfg true m m w w1 (RLeaf t) (RLeaf b1) s n Ht ltac:(done) HQ1) as HQ1'.
  pose proof HQ1' as (Hwf1 & Hos1 & Hrun1).
  destruct (run_span_split _ _ _ _ _ _ _ _ Hwf1 Hrun1) as [Hb1 Ht1].
  pose proof Hb1 as Hb1'. apply run_leaf in Hb1' as (S1 & E1 & Lb1 & _).
  assert (span_of b1 = span_of b) as Ob by (unfold span_of; congruence).
  apply wpc_bind. destruct (num_items sb) as [nb|e] eqn:Enb.
  2:{ exfalso. pose proof (num_items_wpc cfg true m w1 b1 sb (fun _ => True) (fun _ _ => True) (fun _ => False) Lb1 Tb1 Sb1) as H.
      rewrite Enb in H. cbn in H. apply H; done. }
  pose proof (leaf_items _ _ _ _ _ _ Lb1 Tb1 Sb1 Enb) as Hnb.
  apply wpc_ret; [apply HC; by eapply leafQ_C|].
  destruct (N.ltb_spec mf nb) as [_|Hmb]; [by apply (Hsame w1 b1 t)|].
  apply wpc_bind. eapply (shard_get_stats_leaf cfg true m w1 w1 t (s + 2 ^ N.of_nat n) n).
  { split; [done|]. split; [apply outside_same_refl|done]. }
  { intros w' A1 A2 A3. apply HC. eapply leafC_trans; [exact Hos1|]. eapply leafC_high; [exact Hb1|done|].
    split; [done|]. split; [done|]. by left. }
  intros w2 t2 st HQ2 Tt2 St2.
  pose proof (leafQ_high cfg true m m w1 w2 (RLeaf b1) (RLeaf t2) s n Hb1 ltac:(done) HQ2) as HQ2'.
  pose proof (leafQ_trans _ _ _ _ _ _ _ _ _ Hos1 HQ2') as HQ3.
  pose proof HQ3 as (Hwf2 & Hos2 & Hrun2).
  destruct (run_span_split _ _ _ _ _ _ _ _ Hwf2 Hrun2) as [Hb2 Ht2].
  pose proof Ht2 as Ht2'. apply run_leaf in Ht2' as (S2 & E2 & Lt2 & _).
  assert (span_of t2 = span_of t) as Ot by (unfold span_of; congruence).
  apply wpc_bind. destruct (num_items st) as [nt|e] eqn:Ent.
  2:{ exfalso. pose proof (num_items_wpc cfg true m w2 t2 st (fun _ => True) (fun _ _ => True) (fun _ => False) Lt2 Tt2 St2) as H.
      rewrite Ent in H. cbn in H. apply H; done. }
  pose proof (leaf_items _ _ _ _ _ _ Lt2 Tt2 St2 Ent) as Hnt.
  apply wpc_ret; [apply HC; by eapply leafQ_C|].
  destruct (N.ltb_spec mf nt) as [_|Hmt]; [by apply (Hsame w2 b1 t2)|].
  apply wpc_bind. eapply (shard_merge_leaf cfg true m w w2 b1 t2 s n); [exact HQ3|done|done|done|..].
  - intros w' A1 A2 A3. apply HC. split; [done|]. split; [done|]. by left.
  - intros w' HQ'. by apply (Hsame w' b1 t2).
  - intros w' sh HQ' Hsh. apply wpc_ret; [apply HC; by eapply leafQ_C|]. apply HQ.
    exists (RLeaf sh), 1. split; [done|]. split; [by repeat constructor|]. split; [intros ? [= ->]; split; [done|lia]|].
    split; [|lia]. destruct HQ' as (_ & _ & A4). apply run_leaf in A4 as (A5 & A6 & _). cbn.
    unfold small. rewrite Ob in Hnb. rewrite Ot in Hnt. unfold span_of in Hnb, Hnt |- *. rewrite A5, A6. rewrite Sb, Eb in Hnb |- *.
    rewrite St, Et in Hnt |- *. rewrite pow2_succ, N.add_assoc.
    apply coarser_one; unfold small; lia.
Qed.

Lemma mergeS_low w w' t s n l rem o rem' :
  run_span cfg true m w t (s + 2 ^ N.of_nat n) n -> idle t -> mergeS w s n l rem o rem' w' ->
  exists b' k, leafQ cfg true w m s (S n) (RVertex b' t) w' /\ idle b' /\ (forall sh, o = Some sh -> b' = RLeaf sh /\ 0 < k) /\
    coarser small l (map span_of (leaves b')) k /\ rem = rem' + k.
Proof.
  intros Ht It (b' & k & H1 & H2 & H3 & H4 & H5). exists b', k. split; [|done]. by eapply leafQ_low.
Qed.
Lemma mergeS_high w w' b s n l rem o rem' :
  run_span cfg true m w b s n -> idle b -> mergeS w (s + 2 ^ N.of_nat n) n l rem o rem' w' ->
  exists t' k, leafQ cfg true w m s (S n) (RVertex b t') w' /\ idle t' /\ (forall sh, o = Some sh -> t' = RLeaf sh /\ 0 < k) /\
    coarser small l (map span_of (leaves t')) k /\ rem = rem' + k.
Proof.
  intros Ht It (b' & k & H1 & H2 & H3 & H4 & H5). exists b', k. split; [|done]. by eapply leafQ_high.
Qed.

Lemma merge_vertex_shape (E : err -> Prop) r : forall rem w s n (C : fs -> Prop) (Q : option shard * N -> fs -> Prop),
  wf w -> run_span cfg true m w r s n -> idle r -> total_small m ->
  (forall l' k, coarser small (map span_of (leaves r)) l' k -> 0 < k -> k < rem -> E EDeadlock) ->
  (forall w', leafC cfg w m m s n w' -> C w') ->
  (forall w' o rem', mergeS w s n (map span_of (leaves r)) rem o rem' w' -> Q (o, rem') w') ->
  wpc (merge_vertex cfg r mf rem) C Q E w.
Proof.
  induction r as [sh|b IHb t IHt]; intros rem w s n C Q Hwf Hrun Hid Hts HD HC HQ; cbn [merge_vertex].
  - assert (leafQ cfg true w m s n (RLeaf sh) w) as HQ0.
    { split; [done|]. split; [apply outside_same_refl|done]. }
    apply wpc_ret; [apply HC; by eapply leafQ_C|]. apply HQ. exists (RLeaf sh), 0. repeat (split; [done|]). split; [constructor|lia].
  - pose proof Hrun as (Htr & _). cbn [tree_ok] in Htr. destruct n as [|n]; [done|].
    set (l := map span_of (leaves (RVertex b t))) in *.
    assert (El : l = map span_of (leaves b) ++ map span_of (leaves t)) by (subst l; cbn [leaves]; by rewrite map_app).
    assert (Hsame : forall w' r' rem' k, leafQ cfg true w m s (S n) r' w' -> idle r' ->
        coarser small l (map span_of (leaves r')) k -> rem = rem' + k -> wpc (Ret (None, rem')) C Q E w').
    { intros w' r' rem' k H1 H2 H3 H4. apply wpc_ret; [apply HC; by eapply leafQ_C|]. apply HQ. exists r', k. done. }
    assert (Hlock : forall w' r' rem' k, leafQ cfg true w m s (S n) r' w' -> idle r' ->
        coarser small l (map span_of (leaves r')) k -> rem = rem' + k -> 0 < k ->
              wpc (if rem' =? 0 then Ret (None, rem') else Fail EDeadlock) C Q E w').
    { intros w' r' rem' k H1 H2 H3 H4 H5. destruct (N.eqb_spec rem' 0); [by eapply Hsame|]. cbn.
      split; [apply HC; by eapply leafQ_C|]. eapply HD; [exact H3|done|lia]. }
    assert (HQ0 : leafQ cfg true w m s (S n) (RVertex b t) w).
    { split; [done|]. split; [apply outside_same_refl|done]. }
    destruct (rem =? 0); [eapply (Hsame _ _ _ 0); [exact HQ0|done|subst l; constructor|lia]|].
    unfold idle in Hid. cbn [leaves] in Hid. apply Forall_app in Hid as [Ib It].
    destruct (run_span_split _ _ _ _ _ _ _ _ Hwf Hrun) as [Hb Ht].
    assert (Hcb : forall l' k, coarser small (map span_of (leaves b)) l' k -> coarser small l (l' ++ map span_of (leaves t)) k).
    { intros l' k H. rewrite El. rewrite <- (N.add_0_r k). apply coarser_app; [done|constructor]. }
    assert (Hct : forall l' k, coarser small (map span_of (leaves t)) l' k -> coarser small l (map span_of (leaves b) ++ l') k).
    { intros l' k H. rewrite El. rewrite <- (N.add_0_l k). apply coarser_app; [constructor|done]. }
    destruct b as [bs|b1 b2].
    + destruct t as [ts|t1 t2].
      * unfold idle in *. cbn [leaves] in *. rewrite Forall_singleton in Ib, It.
        eapply (merge_leaves_shape w bs ts s n); eauto.
      * apply wpc_bind. eapply (IHt rem w (s + 2 ^ N.of_nat n) n); auto.
        { intros l' k H1 H2 H3. eapply HD; [by apply Hct|done|done]. }
        { intros w' HC'. apply HC. eapply leafC_high; [exact Hb|done|exact HC']. }
        intros w' o rem' HM. destruct (mergeS_high _ _ _ _ _ _ _ _ _ Hb Ib HM) as (t' & k & HQ' & It' & Ho & Hco & Hk).
        assert (coarser small l (map span_of (leaves (RVertex (RLeaf bs) t'))) k) as Hco'.
        { cbn [leaves]. rewrite map_app. by apply Hct. }
        destruct o as [sh|]; [eapply Hlock|eapply Hsame]; try exact HQ'; try exact Hco'; try done; try (by apply idle_vertex).
        by destruct (Ho _ eq_refl).
    + destruct t as [ts|t1 t2].
      * apply wpc_bind. eapply (IHb rem w s n); auto.
        { intros l' k H1 H2 H3. eapply HD; [by apply Hcb|done|done]. }
        { intros w' HC'. apply HC. eapply leafC_low; [exact Ht|done|exact HC']. }
        intros w' o rem' HM. destruct (mergeS_low _ _ _ _ _ _ _ _ _ Ht It HM) as (b' & k & HQ' & Ib' & Ho & Hco & Hk).
        assert (coarser small l (map span_of (leaves (RVertex b' (RLeaf ts)))) k) as Hco'.
        { cbn [leaves]. rewrite map_app. by apply Hcb. }
        destruct o as [sh|]; [eapply Hlock|eapply Hsame]; try exact HQ'; try exact Hco'; try done; try (by apply idle_vertex).
        by destruct (Ho _ eq_refl).
      * apply wpc_bind. eapply (IHb rem w s n); auto.
        { intros l' k H1 H2 H3. eapply HD; [by apply Hcb|done|done]. }
        { intros w' HC'. apply HC. eapply leafC_low; [exact Ht|done|exact HC']. }
        intros w1 o1 rem1 HM1. destruct (mergeS_low _ _ _ _ _ _ _ _ _ Ht It HM1) as (b' & ka & HQ1 & Ib' & Eb & Hco1 & Hk1).
        pose proof HQ1 as (Hwf1 & Hos1 & Hrun1).
        destruct (run_span_split _ _ _ _ _ _ _ _ Hwf1 Hrun1) as [Hb1 Ht1].
        apply wpc_bind. eapply (IHt rem1 w1 (s + 2 ^ N.of_nat n) n); auto.
        { intros l' k H1 H2 H3. eapply (HD _ (ka + k)); [rewrite El; apply coarser_app; [exact Hco1|exact H1]|lia|lia]. }
        { intros w' HC'. apply HC. eapply leafC_trans; [exact Hos1|]. eapply leafC_high; [exact Hb1|done|exact HC']. }
        intros w2 o2 rem2 HM2. destruct (mergeS_high _ _ _ _ _ _ _ _ _ Hb1 Ib' HM2) as (t' & kb & HQ2 & It' & Et & Hco2 & Hk2).
        pose proof (leafQ_trans _ _ _ _ _ _ _ _ _ Hos1 HQ2) as HQ3.
        assert (coarser small l (map span_of (leaves (RVertex b' t'))) (ka + kb)) as Hco'.
        { cbn [leaves]. rewrite map_app, El. by apply coarser_app. }
        destruct o1 as [m1|], o2 as [m2|].
        -- destruct (Eb _ eq_refl) as [-> Hka], (Et _ eq_refl) as [-> Hkb]. destruct HQ3 as (Hwf2 & Hos2 & Hrun2).
           unfold idle in *. cbn [leaves] in Ib', It'. rewrite Forall_singleton in Ib', It'.
           eapply (merge_leaves_shape w2 m1 m2 s n); eauto.
           ++ intros w' HC'. apply HC. by eapply leafC_trans.
           ++ intros w' o rem' (r' & k & A1 & A2 & A3 & A4 & A5). apply HQ. exists r', (ka + kb + k).
              split; [by eapply leafQ_trans|]. split; [done|]. split; [intros sh Hsh; destruct (A3 _ Hsh); split; [done|lia]|].
              split; [|lia]. eapply coarser_trans; [exact Hco'|exact A4].
        -- eapply Hlock; [exact HQ3|by apply idle_vertex|exact Hco'|lia|]. destruct (Eb _ eq_refl). lia.
        -- eapply Hlock; [exact HQ3|by apply idle_vertex|exact Hco'|lia|]. destruct (Et _ eq_refl). lia.
        -- eapply Hsame; [exact HQ3|by apply idle_vertex|exact Hco'|lia].
Qed.
End merge.

(** [load] finds exactly the shards that are there (the same proof as [load_spec]). *)
Lemma load_shape cfg x m rs w (C : fs -> Prop) (Q : list shard -> fs -> Prop) E :
  dirst cfg x m rs w -> disk_small w ->
  (forall w', DiskInv cfg false m w' -> C w') ->
  (forall w' shs, wf w' -> map span_of shs = rs -> run_names w' 0 END_OF_SHARDS rs -> Forall (leaf_ok cfg x m w') shs -> Q shs w') ->
  wpc (load cfg) C Q E w.
Proof.
  intros Hst Hsmall HC HQ.
  pose proof Hst as (Hwf & Hd & Hsh & Hnm).
  assert (C w) as HC0 by by eapply HC, dirst_disk.
  destruct (dir_names_spec w) as [Hnd Hin].
  unfold load. apply wpc_bind. apply wpc_snap; [done|].
  apply wpc_bind. apply (load_scan_spec w); auto.
  { apply core_same_refl. }
  { intros n Hn. by apply Hin. }
  { intros w' A1 A2. eapply HC, dirst_disk. by eapply dirst_core. }
  intros w1 Hwf1 Hc1 Hsub1 Htmp1.
  pose proof (dirst_core _ _ _ _ _ _ Hwf1 Hc1 Hst) as Hst1.
  set (found := shard_ranges (dir_names w)).
  assert (Hfound : forall r, r ∈ found <-> is_Some (fs_dir w !! FShard (fst r) (snd r))).
  { intros r. subst found. rewrite shard_ranges_spec. apply Hin. }
  destruct (consolidate_ranges found) as [keep drop] eqn:Ecr.
  destruct (consolidate_dyadic 0 16 rs found keep drop) as (-> & Hnd2 & Hdrop); auto.
  { intros [a b] Hab. rewrite Hfound. cbn. rewrite Forall_forall in Hsh. apply Hsh in Hab as (i & f & L & Hi & _). eauto. }
  { intros [a b] Hab. rewrite Hfound in Hab. cbn in *. destruct (wf_names _ Hwf a b) as [A1 A2]; [auto|].
    split; [done|]. apply (proj1 Hnm); [done|]. unfold overlap. lia. }
  { by apply shard_ranges_nodup. }
  apply wpc_bind. apply (remove_ranges_spec cfg x m rs); auto.
  { intros r Hr. apply Hdrop in Hr as [A1 A2]. split; [done|]. rewrite Hfound in A1.
    by rewrite (proj1 (Hc1 (FShard (fst r) (snd r)) I)). }
  { intros w' A1. by eapply HC, dirst_disk. }
  intros w2 Hst2 Hf2 Hsub2 Hgone. pose proof Hst2 as (Hwf2 & _ & Hsh2 & Hnm2).
  eapply (open_ranges_spec cfg x m E rs Hd rs [] [] w2); auto.
  - destruct Hnm2 as [N1 N2]. split; [|done]. intros a b [i Hi] Ho.
    destruct (decide ((a, b) ∈ rs)) as [|Hn]; [done|]. exfalso.
    assert ((a, b) ∈ drop) as Hdr.
    { apply Hdrop. split; [|done]. apply Hfound. cbn. apply Hsub2, Hsub1 in Hi. eauto. }
    apply Hgone in Hdr. cbn in Hdr. congruence.
  - apply Forall_forall. intros [a b] Hab i t f ft Hi Ht Hfi Hft. cbn [fst snd] in *.
    rewrite Hf2 in Hfi, Hft. apply Hsub2 in Hi, Ht.
    eapply (pair_small_core w w1 (a, b) Hc1 (Hsmall a b)); eauto.
Qed.

(** ** [merge_small_shards] *)
(** [needed] shards are enough for [n] keys. *)
Lemma calc_num_enough n j : calc_num_shards n = Ok j -> n <= j * EXPECTED_CAPACITY /\ 1 <= j.
Proof.
  intros H. unfold calc_num_shards, calc_step in H.
  destruct (N.leb_spec n EXPECTED_CAPACITY) as [Hn|Hn].
  - change (2 ^ N.log2 END_OF_SHARDS) with 65536 in H. cbn in H. injection H as <-. unfold EXPECTED_CAPACITY in *. lia.
  - set (q := END_OF_SHARDS * EXPECTED_CAPACITY / n) in H. destruct (N.eqb_spec q 0) as [|Hq]; [done|]. cbn in H. injection H as <-.
    assert (q <= 65536) as Hq2.
    { subst q. unfold END_OF_SHARDS, EXPECTED_CAPACITY in *. apply N.div_le_upper_bound; lia. }
    assert (q * n <= END_OF_SHARDS * EXPECTED_CAPACITY) as Hqn.
    { subst q. rewrite N.mul_comm. apply N.mul_div_le. unfold EXPECTED_CAPACITY in *. lia. }
    pose proof (N.log2_spec q ltac:(lia)) as [H1 _].
    assert (N.log2 q <= 16) as H2 by (change 16 with (N.log2 65536); by apply N.log2_le_mono).
    set (b := N.log2 q) in *. assert (END_OF_SHARDS = 2 ^ (16 - b) * 2 ^ b) as E.
    { rewrite <- N.pow_add_r. replace (16 - b + b) with 16 by lia. done. }
    rewrite E, N.div_mul by (apply N.pow_nonzero; done).
    rewrite E in Hqn. assert (0 < 2 ^ b) by (apply N.neq_0_lt_0, N.pow_nonzero; done).
    assert (0 < 2 ^ (16 - b)) by (apply N.neq_0_lt_0, N.pow_nonzero; done). split; [|lia].
    apply (N.mul_le_mono_pos_l _ _ (2 ^ b)); [done|]. nia.
Qed.

Definition sum_keys (m : kvmap) : N := N.of_nat (size m).
(** What [merge_small_shards] does to the spans [l] of the shards: nothing, or it merges small
    neighbours as long as enough shards remain. *)
Definition shape_ok (cfg : config) (m : kvmap) (mf : N) (l l' : list range) : Prop :=
  exists k, coarser (small cfg m mf) l l' k /\
    (k = 0 \/ N.max (sum_keys m) (c_expected cfg) <= len l' * EXPECTED_CAPACITY).

Lemma merge_small_shape cfg m r w mf (C : fs -> Prop) (Q : router * bool -> fs -> Prop) (E : err -> Prop) :
  Inv cfg true m r w -> total_small m -> items_fit cfg m ->
  (forall j l' k, calc_num_shards (N.max (sum_keys m) (c_expected cfg)) = Ok j ->
     coarser (small cfg m mf) (map span_of (leaves r)) l' k -> 0 < k -> k + j < len (leaves r) -> E EDeadlock) ->
  (forall w', DiskInv cfg false m w' -> C w') ->
  (forall w' r' b, Inv cfg true m r' w' -> shape_ok cfg m mf (map span_of (leaves r)) (map span_of (leaves r')) -> Q (r', b) w') ->
  wpc (merge_small_shards cfg r mf) C Q E w.
Proof.
  intros (Hwf & Hrun) Hts Hfit HD HC HQ. unfold merge_small_shards.
  apply wpc_bind. apply (router_stats_spec cfg true m _ r w 0 16); auto.
  { intros w' HC'. apply HC. by eapply leafC_disk'. }
  intros w1 r1 sts HQ1 Id1 Sp1 St1. apply Inv_leafQ in HQ1 as [Hos1 HI1].
  assert (C w1) as HC1 by (apply HC; split; [apply HI1|]; eapply run_disk'; apply HI1).
  assert (len sts = len (leaves r)) as Elen.
  { unfold len. f_equal. rewrite <- (Forall2_length _ _ _ St1).
    rewrite <- (map_length span_of (leaves r1)), <- (map_length span_of (leaves r)). by rewrite Sp1. }
  destruct (tree_entries cfg true m w1 r1 0 16 sts) as (es & Hes & Hcnt); [apply HI1|apply HI1|done|done|].
  apply holds_all in Hes.
  destruct (Hcnt eq_refl) as (_ & A2 & A3). destruct (sum_items_ok _ A3) as (n & A4 & A5).
  assert (n = sum_keys m) as ->. { unfold sum_keys. rewrite <- (holds_size m es Hes). lia. }
  apply wpc_bind. rewrite A4. apply wpc_ret; [done|]. apply wpc_bind.
  destruct (calc_step_spec (N.max (sum_keys m) (c_expected cfg)) Hfit) as (j & Hj & Es).
  assert (calc_num_shards (N.max (sum_keys m) (c_expected cfg)) = Ok (END_OF_SHARDS / 2 ^ N.of_nat j)) as Ecn.
  { unfold calc_num_shards. rewrite Es. done. }
  set (nd := END_OF_SHARDS / 2 ^ N.of_nat j) in *. rewrite Ecn. apply wpc_ret; [done|].
  destruct (calc_num_enough _ _ Ecn) as [Hen Hnd].
  destruct (N.leb_spec (len sts) nd) as [Hle|Hlt].
  { apply wpc_ret; [done|]. apply HQ; [done|]. exists 0. rewrite Sp1. split; [constructor|by left]. }
  destruct HI1 as (Hwf1 & Hrun1).
  apply wpc_bind. apply (merge_vertex_shape cfg m mf _ r1 _ w1 0 16); auto.
  { intros l' k H1 H2 H3. rewrite Sp1 in H1. eapply HD; [done|exact H1|done|lia]. }
  { intros w' HC'. apply HC. by eapply leafC_disk'. }
  intros w2 o rem2 (r2 & k & HQ2 & Id2 & _ & Hco & Hk).
  apply Inv_leafQ in HQ2 as [Hos2 HI2].
  pose proof HI2 as (Hwf2 & Htr2 & Hl2 & Hn2).
  apply wpc_bind. apply (load_shape cfg true m (map span_of (leaves r2)) w2); auto.
  { split; [done|]. split; [by apply tree_ok_dyadic|]. split.
    - apply Forall_fmap. eapply Forall_impl; [exact Hl2|]. intros sh Hsh. by apply leaf_disk.
    - destruct Hn2 as [N1 N2]. split; [|done]. intros a b Ha Ho. exists (a, b). split; [auto|]. unfold contained. cbn. lia. }
  { by eapply idle_disk_small. }
  intros w3 shs B1 B3 B4 B5.
  assert (dyadic 0 16 (map span_of shs)) as B6 by (rewrite B3; by apply tree_ok_dyadic).
  destruct (treeify_ok shs B6) as (r3 & Hr3 & Ht3 & Hl3).
  assert (Inv cfg true m r3 w3) as HI3.
  { split; [done|]. split; [done|]. rewrite Hl3. split; [done|]. rewrite B3. done. }
  assert (C w3) as HC3 by (apply HC; split; [done|]; eapply run_disk'; apply HI3).
  apply wpc_bind. eapply wpc_lift_ok; [exact Hr3|done|]. apply wpc_ret; [done|]. apply HQ; [done|].
  rewrite Hl3, B3, <- Sp1. exists k. split; [done|].
  destruct (N.eq_dec k 0) as [|Hk0]; [by left|]. right.
  apply coarser_len in Hco. rewrite Sp1 in Hco.
  assert (nd <= len (map span_of (leaves r2))) as Hge.
  { assert (len (map span_of (leaves r)) = len sts) as El by (rewrite Elen; unfold len; by rewrite map_length). lia. }
  etrans; [exact Hen|]. apply N.mul_le_mono_r. exact Hge.
Qed.
