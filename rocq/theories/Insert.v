(** Insert with splits, and the lifting of leaf operations to the tree of shards. *)
From Verif Require Import Base Hashing HashingProofs Fs Shard Router RouterPure Wpc Spec FileRep RowOps
  Compact Inv ShardOps Split.

(** ** One half of a vertex changes *)
Lemma in_span_not cfg s e s' e' k : in_span cfg s e k -> e <= s' \/ e' <= s -> ~ in_span cfg s' e' k.
Proof. unfold in_span. lia. Qed.

Lemma inside_of_disk cfg m m' w' s n :
  (disk_span cfg false m w' s n \/ disk_span cfg false m' w' s n) ->
  forall a b, is_Some (fs_dir w' !! FShard a b) \/ is_Some (fs_dir w' !! FCompact a b) ->
     overlap a b s (s + 2 ^ N.of_nat n) -> s <= a /\ b <= s + 2 ^ N.of_nat n.
Proof. intros [H|H] a b; by eapply disk_span_inside. Qed.

Lemma leafC_low cfg x m m' w w' t s n :
  run_span cfg x m w t (s + 2 ^ N.of_nat n) n ->
  (forall k, in_span cfg (s + 2 ^ N.of_nat n) (s + 2 ^ N.of_nat n + 2 ^ N.of_nat n) k -> m !! k = m' !! k) ->
  leafC cfg w m m' s n w' -> leafC cfg w m m' s (S n) w'.
Proof.
  intros Ht Hm (H1 & H2 & H3). split; [done|]. split.
  { eapply outside_same_mono; [| |exact H2]; rewrite ?pow2_succ; lia. }
  pose proof (inside_of_disk _ _ _ _ _ _ H3) as Hin.
  destruct H3 as [H3|H3]; [left|right]; apply disk_span_join; auto; eapply run_disk'.
  - eapply run_span_frame; [exact H2|lia| |done|exact Hin|exact Ht]. done.
  - eapply run_span_frame; [exact H2|lia|exact Hm|done|exact Hin|exact Ht].
Qed.
Lemma leafC_high cfg x m m' w w' b s n :
  run_span cfg x m w b s n ->
  (forall k, in_span cfg s (s + 2 ^ N.of_nat n) k -> m !! k = m' !! k) ->
  leafC cfg w m m' (s + 2 ^ N.of_nat n) n w' -> leafC cfg w m m' s (S n) w'.
Proof.
  intros Hb Hm (H1 & H2 & H3). split; [done|]. split.
  { eapply outside_same_mono; [| |exact H2]; rewrite ?pow2_succ; lia. }
  pose proof (inside_of_disk _ _ _ _ _ _ H3) as Hin.
  destruct H3 as [H3|H3]; [left|right]; apply disk_span_join; auto; eapply run_disk'.
  - eapply run_span_frame; [exact H2|lia| |done|exact Hin|exact Hb]. done.
  - eapply run_span_frame; [exact H2|lia|exact Hm|done|exact Hin|exact Hb].
Qed.
Lemma leafQ_low cfg x m m' w w' t r' s n :
  run_span cfg x m w t (s + 2 ^ N.of_nat n) n ->
  (forall k, in_span cfg (s + 2 ^ N.of_nat n) (s + 2 ^ N.of_nat n + 2 ^ N.of_nat n) k -> m !! k = m' !! k) ->
  leafQ cfg x w m' s n r' w' -> leafQ cfg x w m' s (S n) (RVertex r' t) w'.
Proof.
  intros Ht Hm (H1 & H3 & H4). split; [done|]. split.
  { eapply outside_same_mono; [| |exact H3]; rewrite ?pow2_succ; lia. }
  apply run_span_join; auto.
  eapply run_span_frame; [exact H3|lia|exact Hm|done| |exact Ht].
  apply (inside_of_disk cfg m' m'). left. by eapply run_disk'.
Qed.
Lemma leafQ_high cfg x m m' w w' b r' s n :
  run_span cfg x m w b s n ->
  (forall k, in_span cfg s (s + 2 ^ N.of_nat n) k -> m !! k = m' !! k) ->
  leafQ cfg x w m' (s + 2 ^ N.of_nat n) n r' w' -> leafQ cfg x w m' s (S n) (RVertex b r') w'.
Proof.
  intros Hb Hm (H1 & H3 & H4). split; [done|]. split.
  { eapply outside_same_mono; [| |exact H3]; rewrite ?pow2_succ; lia. }
  apply run_span_join; auto.
  eapply run_span_frame; [exact H3|lia|exact Hm|done| |exact Hb].
  apply (inside_of_disk cfg m' m'). left. by eapply run_disk'.
Qed.
Lemma leafC_trans cfg w0 w m m' s n w' :
  outside_same s (s + 2 ^ N.of_nat n) w0 w -> leafC cfg w m m' s n w' -> leafC cfg w0 m m' s n w'.
Proof. intros H (H1 & H2 & H3). split; [done|]. split; [by eapply outside_same_trans|done]. Qed.
Lemma leafQ_trans cfg x w0 w m' s n r' w' :
  outside_same s (s + 2 ^ N.of_nat n) w0 w -> leafQ cfg x w m' s n r' w' -> leafQ cfg x w0 m' s n r' w'.
Proof. intros H (H1 & H3 & H4). split; [done|]. split; [by eapply outside_same_trans|done]. Qed.
Lemma leafQ_C cfg x w m m' s n r' w' : leafQ cfg x w m' s n r' w' -> leafC cfg w m m' s n w'.
Proof. intros (H1 & H3 & H4). split; [done|]. split; [done|]. right. by eapply run_disk'. Qed.
Lemma leafQ_C0 cfg x w m m' s n r' w' : leafQ cfg x w m s n r' w' -> leafC cfg w m m' s n w'.
Proof. intros (H1 & H3 & H4). split; [done|]. split; [done|]. left. by eapply run_disk'. Qed.

(** ** Space conditions: every entry of the map with the selector (and row) of a key. *)
Definition distinct_stored (m : kvmap) (P : bytes -> Prop) (es : list kv) : Prop :=
  NoDup (map fst es) /\ forall k v, (k, v) ∈ es -> m !! k = Some v /\ P k.

(** Fewer than 512 stored keys share the selector and the row of the new key [k]. *)
Definition row_space (cfg : config) (m : kvmap) (k : bytes) : Prop :=
  m !! k = None ->
  forall es, distinct_stored m (fun k' => ph_selector (hashk cfg k') = ph_selector (hashk cfg k) /\
                                          ph_row (hashk cfg k') = ph_row (hashk cfg k)) es ->
    (length es < ROW_WIDTH)%nat.
(** The stored entries sharing the selector of [k], and the new one, fit in one shard. *)
Definition sel_space (cfg : config) (m : kvmap) (k v : bytes) : Prop :=
  forall es, distinct_stored m (fun k' => ph_selector (hashk cfg k') = ph_selector (hashk cfg k)) es ->
    bytes_of es + (len k + len v) <= c_max_shard cfg.

(** All entries of a shard file. *)
Fixpoint row_entries (L : rows_t) (n : nat) : list kv :=
  match n with O => [] | S n => row_entries L n ++ entries (L n) end.
Lemma row_entries_bytes L n : bytes_of (row_entries L n) = sum_rows (fun r => bytes_of (entries (L r))) n.
Proof. induction n as [|n IH]; [done|]. cbn [row_entries sum_rows]. by rewrite bytes_of_app, IH. Qed.
Lemma len_app {A} (a b : list A) : len (a ++ b) = len a + len b.
Proof. unfold len. rewrite app_length. lia. Qed.
Lemma row_entries_count L n : len (row_entries L n) = sum_rows (fun r => len (entries (L r))) n.
Proof. induction n as [|n IH]; [done|]. cbn [row_entries sum_rows]. by rewrite len_app, IH. Qed.
Lemma row_entries_holds cfg m s e L n :
  (forall r, (r < n)%nat -> holds m (home cfg s e r) (entries (L r))) ->
  holds m (fun k => in_span cfg s e k /\ (ph_row (hashk cfg k) < n)%nat) (row_entries L n).
Proof.
  induction n as [|n IH]; intros H.
  - split; [constructor|]. intros k v. cbn. split; [intros Hx; by apply elem_of_nil in Hx|]. lia.
  - cbn [row_entries]. eapply holds_ext; [| |apply holds_union; [|apply IH|apply H; lia]]; cbv beta.
    + intros k. unfold home, in_span. split; [|intros ?]; lia.
    + done.
    + intros k [_ Hk] [_ Hk']. lia.
    + intros r Hr. apply H. lia.
Qed.
Lemma all_hold_entries cfg m s e L :
  all_hold cfg m s e L -> holds m (in_span cfg s e) (row_entries L NUM_ROWS).
Proof.
  intros H. eapply holds_ext; [| |apply (row_entries_holds cfg m s e L NUM_ROWS H)]; cbv beta; [|done].
  intros k. pose proof (ph_row_lt (hashk cfg k)). tauto.
Qed.
Lemma live_entries L : live L = bytes_of (row_entries L NUM_ROWS).
Proof. symmetry. apply row_entries_bytes. Qed.
Lemma count_entries L : count L = len (row_entries L NUM_ROWS).
Proof. symmetry. apply row_entries_count. Qed.

Lemma single_span cfg s k k' : in_span cfg s (s + 2 ^ N.of_nat 0) k -> in_span cfg s (s + 2 ^ N.of_nat 0) k' ->
  ph_selector (hashk cfg k') = ph_selector (hashk cfg k).
Proof. unfold in_span. change (2 ^ N.of_nat 0) with 1. lia. Qed.

Lemma not_row_full cfg m s k :
  row_space cfg m k -> in_span cfg s (s + 2 ^ N.of_nat 0) k -> ~ row_full cfg m s (s + 2 ^ N.of_nat 0) k.
Proof.
  intros Hrs Hin (Hn & es & [Hd Hes] & Hl).
  assert (length es < ROW_WIDTH)%nat; [|lia]. apply Hrs; [done|]. split; [done|].
  intros k' v' Hk'. apply Hes in Hk' as (H1 & H2 & H3). split; [done|]. split; [|done].
  by eapply single_span.
Qed.
Lemma not_size_full cfg m w sh s k v :
  sh_start sh = s -> sh_end sh = s + 2 ^ N.of_nat 0 ->
  sel_space cfg m k v -> in_span cfg s (s + 2 ^ N.of_nat 0) k -> fresh_leaf cfg m w sh ->
  ~ size_full cfg w sh (len k + len v).
Proof.
  intros Hs He Hss Hin (Ht & f & L & F1 & (F2 & F3 & F4 & F5) & F6) (_ & f' & G1 & G2 & G3).
  rewrite F1 in G1. injection G1 as <-. rewrite Hs, He in F6.
  apply all_hold_entries in F6 as [N1 N2].
  assert (bytes_of (row_entries L NUM_ROWS) + (len k + len v) <= c_max_shard cfg) as Hx.
  { apply Hss. split; [done|]. intros k' v' Hk'. apply N2 in Hk' as [? ?]. split; [done|]. by eapply single_span. }
  rewrite <- live_entries in Hx. lia.
Qed.

(** ** Insert into one leaf *)
Lemma leaf_insert_spec cfg x n : forall fuel m w sh s k v mode (C : fs -> Prop) (Q : router * ins_status -> fs -> Prop) E,
  (n <= fuel)%nat -> wf w -> run_span cfg x m w (RLeaf sh) s n ->
  in_span cfg s (s + 2 ^ N.of_nat n) k ->
  len k < 16384 -> len v < 65536 -> k <> [] -> room w sh (len k + len v) ->
  row_space cfg m k -> sel_space cfg m k v ->
  (n = 0%nat -> ~ size_full cfg w sh (len k + len v)) ->
  (forall w', leafC cfg w m (fst (spec_ins m k v mode)) s n w' -> C w') ->
  (forall w' r', leafQ cfg x w (fst (spec_ins m k v mode)) s n r' w' ->
     Q (r', snd (spec_ins m k v mode)) w') ->
  wpc (leaf_insert cfg fuel (hashk cfg k) k v mode sh) C Q E w.
Proof.
  induction n as [|n IH]; intros fuel m w sh s k v mode C Q E Hfuel Hwf Hrun Hin Hk Hv Hne Hroom Hrs Hss Hz HC HQ.
  - destruct fuel as [|fuel]; cbn [leaf_insert]; apply wpc_bind; eapply wpc_mono; [exact HC| |done| |exact HC| |done|].
    + intros a w' _ Ha. exact Ha.
    + eapply (shard_insert_leaf cfg x m w sh s 0 k v mode); auto.
      * intros w' sh' st Hst -> HQ'. destruct (snd (spec_ins m k v mode)) eqn:Es; try done;
          (apply wpc_ret; [apply HC; by eapply leafQ_C|by apply HQ]).
      * intros w' sh' _ _ [Hf|Hf]; exfalso; [by eapply not_row_full|by apply Hz].
    + intros a w' _ Ha. exact Ha.
    + eapply (shard_insert_leaf cfg x m w sh s 0 k v mode); auto.
      * intros w' sh' st Hst -> HQ'. destruct (snd (spec_ins m k v mode)) eqn:Es; try done;
          (apply wpc_ret; [apply HC; by eapply leafQ_C|by apply HQ]).
      * intros w' sh' _ _ [Hf|Hf]; exfalso; [by eapply not_row_full|by apply Hz].
  - destruct fuel as [|fuel]; [lia|]. cbn [leaf_insert].
    set (m' := fst (spec_ins m k v mode)) in *.
    apply wpc_bind. eapply wpc_mono; [exact HC| |done|].
    { intros a w' _ Ha. exact Ha. }
    eapply (shard_insert_leaf cfg x m w sh s (S n) k v mode); auto.
    + intros w' sh' st Hst -> HQ'. destruct (snd (spec_ins m k v mode)) eqn:Es; try done;
        (apply wpc_ret; [apply HC; by eapply leafQ_C|by apply HQ]).
    + intros w1 sh1 HQ1 Hroom1 _. apply wpc_bind.
      eapply (shard_split_leaf cfg x m w w1 sh1 s n); [exact HQ1| |].
      { intros w' A1 A2 A3. apply HC. split; [done|]. split; [done|]. by left. }
      intros w2 b t HQ2 Fb Ft Hroom2. destruct (Hroom2 _ Hroom1) as [Rb Rt].
      destruct HQ2 as (Hwf2 & Hos2 & Hrun2).
      destruct (run_span_split _ _ _ _ _ _ _ _ Hwf2 Hrun2) as [Hrb Hrt].
      pose proof Hrb as Hrb'. apply run_leaf in Hrb' as (Sb & Eb & _).
      pose proof Hrt as Hrt'. apply run_leaf in Hrt' as (St & Et & _).
      assert (Hother : forall s' e', ~ in_span cfg s' e' k -> forall k', in_span cfg s' e' k' -> m !! k' = m' !! k').
      { intros s' e' Hni k' Hk'. symmetry. apply spec_ins_other. intros ->. by apply Hni. }
      unfold in_span in Hin. rewrite pow2_succ in Hin.
      rewrite Eb. destruct (N.ltb_spec (ph_selector (hashk cfg k)) (s + 2 ^ N.of_nat n)) as [Hlow|Hhigh].
      * assert (~ in_span cfg (s + 2 ^ N.of_nat n) (s + 2 ^ N.of_nat n + 2 ^ N.of_nat n) k) as Hni.
        { unfold in_span. lia. }
        apply wpc_bind. eapply (IH fuel m w2 b s k v mode); auto.
        { lia. }
        { unfold in_span. lia. }
        { intros ->. eapply not_size_full; eauto. unfold in_span. lia. }
        { intros w' HC'. apply HC. eapply leafC_trans; [exact Hos2|]. eapply leafC_low; [exact Hrt| |exact HC'].
          by apply Hother. }
        intros w' r' HQ'. assert (leafQ cfg x w m' s (S n) (RVertex r' (RLeaf t)) w') as HQ''.
        { eapply leafQ_trans; [exact Hos2|]. eapply leafQ_low; [exact Hrt| |exact HQ']. by apply Hother. }
        apply wpc_ret; [apply HC; by eapply leafQ_C|by apply HQ].
      * assert (~ in_span cfg s (s + 2 ^ N.of_nat n) k) as Hni by (unfold in_span; lia).
        apply wpc_bind. eapply (IH fuel m w2 t (s + 2 ^ N.of_nat n) k v mode); auto.
        { lia. }
        { unfold in_span. lia. }
        { intros ->. eapply not_size_full; eauto. unfold in_span. lia. }
        { intros w' HC'. apply HC. eapply leafC_trans; [exact Hos2|]. eapply leafC_high; [exact Hrb| |exact HC'].
          by apply Hother. }
        intros w' r' HQ'. assert (leafQ cfg x w m' s (S n) (RVertex (RLeaf b) r') w') as HQ''.
        { eapply leafQ_trans; [exact Hos2|]. eapply leafQ_high; [exact Hrb| |exact HQ']. by apply Hother. }
        apply wpc_ret; [apply HC; by eapply leafQ_C|by apply HQ].
Qed.

(** ** From a leaf to the tree *)
Lemma tree_rend r : forall s n, tree_ok r s n -> rend r = s + 2 ^ N.of_nat n.
Proof.
  induction r as [sh|b IHb t IHt]; intros s n H; cbn [tree_ok] in H.
  - apply H.
  - destruct n as [|n]; [done|]. destruct H as [H1 H2]. cbn [rend]. rewrite (IHt _ _ H2), pow2_succ. lia.
Qed.

(** The leaf an operation on selector [sel] reaches. *)
Lemma on_leaf_spec {A} cfg x m m' sel (f : shard -> prog (router * A)) (st : A) E r :
  forall w s n (C : fs -> Prop) (Q : router * A -> fs -> Prop),
  wf w -> run_span cfg x m w r s n -> s <= sel < s + 2 ^ N.of_nat n ->
  (forall k, ph_selector (hashk cfg k) <> sel -> m !! k = m' !! k) ->
  (forall sh s n (C : fs -> Prop) (Q : router * A -> fs -> Prop), sh = route r sel -> run_span cfg x m w (RLeaf sh) s n -> s <= sel < s + 2 ^ N.of_nat n ->
     (forall w', leafC cfg w m m' s n w' -> C w') ->
     (forall w' r', leafQ cfg x w m' s n r' w' -> Q (r', st) w') ->
     wpc (f sh) C Q E w) ->
  (forall w', leafC cfg w m m' s n w' -> C w') ->
  (forall w' r', leafQ cfg x w m' s n r' w' -> Q (r', st) w') ->
  wpc (on_leaf r sel f) C Q E w.
Proof.
  induction r as [sh|b IHb t IHt]; intros w s n C Q Hwf Hrun Hsel Hm Hf HC HQ; cbn [on_leaf].
  - by eapply Hf.
  - pose proof Hrun as (Ht & _). cbn [tree_ok] in Ht. destruct n as [|n]; [done|].
    destruct (run_span_split _ _ _ _ _ _ _ _ Hwf Hrun) as [Hb Ht'].
    rewrite (tree_rend b s n) by apply Hb. rewrite pow2_succ in Hsel.
    cbn [route] in Hf. rewrite (tree_rend b s n) in Hf by apply Hb.
    assert (Hother : forall s' e', ~ (s' <= sel < e') -> forall k', in_span cfg s' e' k' -> m !! k' = m' !! k').
    { intros s' e' Hni k' Hk'. apply Hm. intros <-. by apply Hni. }
    destruct (N.ltb_spec sel (s + 2 ^ N.of_nat n)) as [Hlow|Hhigh].
    + apply wpc_bind. apply (IHb w s n); auto; [lia|..].
      * intros w' HC'. apply HC. eapply leafC_low; [exact Ht'| |exact HC']. apply Hother. lia.
      * intros w' r' HQ'. assert (leafQ cfg x w m' s (S n) (RVertex r' t) w') as HQ''.
        { eapply leafQ_low; [exact Ht'| |exact HQ']. apply Hother. lia. }
        apply wpc_ret; [apply HC; by eapply leafQ_C|by apply HQ].
    + apply wpc_bind. apply (IHt w (s + 2 ^ N.of_nat n) n); auto; [lia|..].
      * intros w' HC'. apply HC. eapply leafC_high; [exact Hb| |exact HC']. apply Hother. lia.
      * intros w' r' HQ'. assert (leafQ cfg x w m' s (S n) (RVertex b r') w') as HQ''.
        { eapply leafQ_high; [exact Hb| |exact HQ']. apply Hother. lia. }
        apply wpc_ret; [apply HC; by eapply leafQ_C|by apply HQ].
Qed.

(** An operation that leaves the router as it is (remove). *)
Lemma route_spec cfg x m m' sel {A} (f : shard -> prog A) (st : A) E r :
  forall w s n (C : fs -> Prop) (Q : A -> fs -> Prop),
  wf w -> run_span cfg x m w r s n -> s <= sel < s + 2 ^ N.of_nat n ->
  (forall k, ph_selector (hashk cfg k) <> sel -> m !! k = m' !! k) ->
  (forall sh s n (C : fs -> Prop) (Q : A -> fs -> Prop), run_span cfg x m w (RLeaf sh) s n -> s <= sel < s + 2 ^ N.of_nat n ->
     (forall w', leafC cfg w m m' s n w' -> C w') ->
     (forall w', leafQ cfg x w m' s n (RLeaf sh) w' -> Q st w') ->
     wpc (f sh) C Q E w) ->
  (forall w', leafC cfg w m m' s n w' -> C w') ->
  (forall w', leafQ cfg x w m' s n r w' -> Q st w') ->
  wpc (f (route r sel)) C Q E w.
Proof.
  induction r as [sh|b IHb t IHt]; intros w s n C Q Hwf Hrun Hsel Hm Hf HC HQ; cbn [route].
  - by eapply Hf.
  - pose proof Hrun as (Ht & _). cbn [tree_ok] in Ht. destruct n as [|n]; [done|].
    destruct (run_span_split _ _ _ _ _ _ _ _ Hwf Hrun) as [Hb Ht'].
    rewrite (tree_rend b s n) by apply Hb. rewrite pow2_succ in Hsel.
    assert (Hother : forall s' e', ~ (s' <= sel < e') -> forall k', in_span cfg s' e' k' -> m !! k' = m' !! k').
    { intros s' e' Hni k' Hk'. apply Hm. intros <-. by apply Hni. }
    destruct (N.ltb_spec sel (s + 2 ^ N.of_nat n)) as [Hlow|Hhigh].
    + apply (IHb w s n); auto; [lia|..].
      * intros w' HC'. apply HC. eapply leafC_low; [exact Ht'| |exact HC']. apply Hother. lia.
      * intros w' HQ'. apply HQ. eapply leafQ_low; [exact Ht'| |exact HQ']. apply Hother. lia.
    + apply (IHt w (s + 2 ^ N.of_nat n) n); auto; [lia|..].
      * intros w' HC'. apply HC. eapply leafC_high; [exact Hb| |exact HC']. apply Hother. lia.
      * intros w' HQ'. apply HQ. eapply leafQ_high; [exact Hb| |exact HQ']. apply Hother. lia.
Qed.

Lemma route_leaf r : forall s n sel, tree_ok r s n -> s <= sel < s + 2 ^ N.of_nat n ->
  In (route r sel) (leaves r) /\ sh_start (route r sel) <= sel < sh_end (route r sel).
Proof.
  induction r as [sh|b IHb t IHt]; intros s n sel H Hsel; cbn [tree_ok route leaves] in *.
  - destruct H as [-> ->]. split; [by left|done].
  - destruct n as [|n]; [done|]. destruct H as [H1 H2]. rewrite pow2_succ in Hsel.
    rewrite (tree_rend b s n) by done. rewrite in_app_iff.
    destruct (N.ltb_spec sel (s + 2 ^ N.of_nat n)).
    + destruct (IHb s n sel H1) as [? ?]; [lia|]. auto.
    + destruct (IHt _ n sel H2) as [? ?]; [lia|]. auto.
Qed.
