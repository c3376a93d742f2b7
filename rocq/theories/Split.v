(** Splitting a shard (and the copying used by merging). *)
From Verif Require Import Base Hashing HashingProofs Fs Shard Router RouterPure Wpc Spec FileRep RowOps
  Compact Inv ShardOps.

(** A file written by copying: exact accounting and no wasted byte. *)
Definition fresh (cfg : config) (f : file) (L : rows_t) : Prop :=
  file_rep cfg f L /\ acct true f L /\ f_woff f = live L /\ hdr_ok f.

Lemma fresh_wasted cfg f L : fresh cfg f L -> f_wasted f = 0.
Proof. intros (_ & [_ H] & E & _). destruct (H eq_refl) as [H1 _]. lia. Qed.
Lemma fresh_ext cfg f L L' :
  (forall r, (r < NUM_ROWS)%nat -> L r = L' r) -> fresh cfg f L -> fresh cfg f L'.
Proof.
  intros H (A1 & A2 & A3 & A4). split; [by eapply file_rep_pointwise|]. split; [by eapply acct_pointwise|].
  split; [|done]. by rewrite <- (live_ext _ _ H).
Qed.
Lemma blank_fresh cfg f : blank f -> hdr_ok f -> fresh cfg f (fun _ => padded []).
Proof.
  intros Hb Hh. split; [by apply blank_rep|]. split; [by apply blank_acct|]. split; [|done].
  rewrite live_padded_nil. apply Hb.
Qed.

Lemma padded_snoc es x : (length es < ROW_WIDTH)%nat -> <[length es := Some x]> (padded es) = padded (es ++ [x]).
Proof.
  intros Hl. unfold padded. rewrite insert_app_r_alt by (rewrite map_length; lia).
  rewrite map_length, Nat.sub_diag, map_app, app_length. cbn [length map].
  replace (ROW_WIDTH - length es)%nat with (S (ROW_WIDTH - (length es + 1)))%nat by lia.
  rewrite <- app_assoc. done.
Qed.
Lemma padded_next es : (length es < ROW_WIDTH)%nat -> padded es !! length es = Some None.
Proof.
  intros Hl. unfold padded. rewrite lookup_app_r by (rewrite map_length; lia).
  rewrite map_length, Nat.sub_diag. apply lookup_replicate_2. lia.
Qed.

Lemma fill_next {A} cfg i k v f L r es w (p : prog A) (C : fs -> Prop) Q E :
  fresh cfg f L -> len k < 16384 -> len v < 65536 -> f_woff f + (len k + len v) < 2 ^ 32 -> k <> [] ->
  ph_row (hashk cfg k) = r -> L r = padded es -> (length es < ROW_WIDTH)%nat ->
  (forall f', C (set_file i f' w)) ->
  (forall f', fresh cfg f' (upd_row r (padded (es ++ [(k, v)])) L) ->
     f_woff f' = f_woff f + (len k + len v) -> wpc p C Q E (set_file i f' w)) ->
  wpc (fill_slot i r (length es) k v (ph_sig (hashk cfg k)) p) C Q E (set_file i f w).
Proof.
  intros (H1 & H2 & H3 & H4) Hk Hv Hoff Hne Hrow Hr Hl HC HQ.
  assert (r < NUM_ROWS)%nat as Hlt by (rewrite <- Hrow; apply ph_row_lt).
  assert (L r !! length es = Some None) as Hn by (rewrite Hr; by apply padded_next).
  eapply (fill_slot_spec cfg true i k v f L r (length es) None w); auto.
  intros f' N1 N2 N3 N4. rewrite bool_decide_eq_true_2 in N4 by done. cbn [andb] in N4.
  apply HQ; [|done]. rewrite Hr, padded_snoc in N3, N4 by done.
  split; [done|]. split; [done|]. split; [|by eapply near_hdr].
  pose proof (live_insert L r (length es) None (Some (k, v)) Hlt Hn) as Hlive.
  rewrite Hr, padded_snoc in Hlive by done. rewrite bytes_some in Hlive. change (bytes_of (option_list None)) with 0 in Hlive. rewrite N2, H3, <- Hlive. by rewrite N.add_0_r.
Qed.

Definition below (cfg : config) (mid : N) (x : kv) : Prop := ph_selector (hashk cfg (fst x)) < mid.
Global Instance below_dec cfg mid x : Decision (below cfg mid x).
Proof. unfold below. apply _. Defined.

Lemma split_slots_spec cfg fsrc mid b t r row l eb et fb ft Lb Lt w (C : fs -> Prop)
      (Q : unit -> fs -> Prop) E :
  b <> t -> Forall2 (slot_ok cfg fsrc r) row l -> (r < NUM_ROWS)%nat ->
  fresh cfg fb Lb -> fresh cfg ft Lt -> Lb r = padded eb -> Lt r = padded et ->
  (length eb + length et + length (entries l) <= ROW_WIDTH)%nat ->
  f_woff fb + f_woff ft + bytes_of (entries l) < 2 ^ 32 ->
  (forall fb' ft', C (set_file b fb' (set_file t ft' w))) ->
  (forall fb' ft',
     fresh cfg fb' (upd_row r (padded (eb ++ filter (below cfg mid) (entries l))) Lb) ->
     fresh cfg ft' (upd_row r (padded (et ++ filter (fun x => ~ below cfg mid x) (entries l))) Lt) ->
     f_woff fb' + f_woff ft' = f_woff fb + f_woff ft + bytes_of (entries l) ->
     Q tt (set_file b fb' (set_file t ft' w))) ->
  wpc (split_slots cfg fsrc mid b t r (length eb) (length et) row) C Q E (set_file b fb (set_file t ft w)).
Proof.
  intros Hbt H. revert eb et fb ft Lb Lt.
  induction H as [|s o row l Hs H IH]; intros eb et fb ft Lb Lt Hr Hfb Hft Eb Et Hl Hoff HC HQ; cbn [split_slots].
  - apply wpc_ret; [done|]. change (entries []) with (@nil kv) in *. apply HQ.
    + rewrite filter_nil, app_nil_r. eapply fresh_ext; [|exact Hfb]. intros r' _.
      rewrite <- Eb. by rewrite upd_row_self.
    + rewrite filter_nil, app_nil_r. eapply fresh_ext; [|exact Hft]. intros r' _.
      rewrite <- Et. by rewrite upd_row_self.
    + cbn. lia.
  - destruct o as [[k v]|].
    2:{ cbn in Hs. rewrite Hs. cbn [N.eqb INVALID_SIG]. rewrite entries_cons in *.
        eapply IH; eauto. }
    pose proof Hs as (Hne & Hsig & Hrow & Hread & _). rewrite Hsig.
    destruct (N.eqb_spec (ph_sig (hashk cfg k)) INVALID_SIG) as [Ez|_]; [by apply hashk_sig in Ez|].
    rewrite entries_cons in *. change (option_list (Some (k, v)) ++ entries l) with ((k, v) :: entries l) in *.
    cbn [length bytes_of foldr] in *. fold (bytes_of (entries l)) in *.
    assert (kvsize (k, v) = len k + len v) as Esz by done.
    pose proof (read_kv_bounds _ _ _ _ Hread) as [Hk Hv].
    apply wpc_bind. eapply wpc_lift_ok; [exact Hread|apply HC|].
    apply wpc_bind. apply wpc_assert; [by apply Nat.eqb_eq|apply HC|].
    destruct (N.ltb_spec (ph_selector (hashk cfg k)) mid) as [Hlt|Hge].
    + rewrite filter_cons_True in HQ by done.
      rewrite (filter_cons_False (fun x => ~ below cfg mid x)) in HQ by (intros Hx; by apply Hx).
      apply wpc_bind. eapply wpc_get_file; [apply set_file_get|apply HC|].
      apply wpc_bind. apply wpc_assert; [|apply HC|].
      { assert (Lb r !! length eb = Some None) as Hn by (rewrite Eb; apply padded_next; lia).
        destruct (slot_lookup _ _ _ _ _ _ (proj1 Hfb) Hr Hn) as (st & -> & Hok). by rewrite Hok. }
      apply (fill_next cfg b k v fb Lb r eb); [exact Hfb|exact Hk|exact Hv|lia|exact Hne|exact Hrow|exact Eb|lia|intros; apply HC|].
      intros fb' Hfb' Hoff'.
      replace (S (length eb)) with (length (eb ++ [(k, v)])) by (rewrite app_length; cbn; lia).
      eapply (IH (eb ++ [(k, v)]) et fb' ft); eauto.
      * by rewrite upd_row_eq.
      * clear - Hl. rewrite app_length. cbn [length]. lia.
      * lia.
      * intros fb2 ft2 G1 G2 G3. apply HQ; [|done|lia].
        eapply fresh_ext; [|exact G1]. intros r' _. rewrite upd_upd. by rewrite <- app_assoc.
    + rewrite filter_cons_False in HQ by (unfold below; cbn; lia).
      rewrite (filter_cons_True (fun x => ~ below cfg mid x)) in HQ by (unfold below; cbn; lia).
      rewrite (set_file_comm b t) by done.
      assert (HC' : forall fb' ft', C (set_file t ft' (set_file b fb' w))).
      { intros. rewrite (set_file_comm t b) by done. apply HC. }
      apply wpc_bind. eapply wpc_get_file; [apply set_file_get|apply HC'|].
      apply wpc_bind. apply wpc_assert; [|apply HC'|].
      { assert (Lt r !! length et = Some None) as Hn by (rewrite Et; apply padded_next; lia).
        destruct (slot_lookup _ _ _ _ _ _ (proj1 Hft) Hr Hn) as (st & -> & Hok). by rewrite Hok. }
      apply (fill_next cfg t k v ft Lt r et); [exact Hft|exact Hk|exact Hv|lia|exact Hne|exact Hrow|exact Et|lia|intros; apply HC'|].
      intros ft' Hft' Hoff'. rewrite (set_file_comm t b) by done.
      replace (S (length et)) with (length (et ++ [(k, v)])) by (rewrite app_length; cbn; lia).
      eapply (IH eb (et ++ [(k, v)]) fb ft'); eauto.
      * by rewrite upd_row_eq.
      * clear - Hl. rewrite app_length. cbn [length]. lia.
      * lia.
      * intros fb2 ft2 G1 G2 G3. apply HQ; [done| |lia].
        eapply fresh_ext; [|exact G2]. intros r' _. rewrite upd_upd. by rewrite <- app_assoc.
Qed.

Lemma split_rows_spec cfg fsrc L mid b t r rows fb ft Lb Lt w (C : fs -> Prop)
      (Q : unit -> fs -> Prop) E :
  b <> t -> file_rep cfg fsrc L -> rows = drop r (f_rows fsrc) -> (r <= NUM_ROWS)%nat ->
  fresh cfg fb Lb -> fresh cfg ft Lt ->
  (forall r', (r <= r' < NUM_ROWS)%nat -> Lb r' = padded []) ->
  (forall r', (r <= r' < NUM_ROWS)%nat -> Lt r' = padded []) ->
  f_woff fb + f_woff ft + rest_live L r < 2 ^ 32 ->
  (forall fb' ft', C (set_file b fb' (set_file t ft' w))) ->
  (forall fb' ft' Lb' Lt',
     fresh cfg fb' Lb' -> fresh cfg ft' Lt' ->
     (forall r', (r' < NUM_ROWS)%nat ->
        if (r' <? r)%nat then Lb' r' = Lb r' /\ Lt' r' = Lt r'
        else Lb' r' = padded (filter (below cfg mid) (entries (L r'))) /\
             Lt' r' = padded (filter (fun x => ~ below cfg mid x) (entries (L r')))) ->
     f_woff fb' + f_woff ft' = f_woff fb + f_woff ft + rest_live L r ->
     Q tt (set_file b fb' (set_file t ft' w))) ->
  wpc (split_rows cfg fsrc mid b t r rows) C Q E (set_file b fb (set_file t ft w)).
Proof.
  intros Hbt Hsrc. revert r fb ft Lb Lt.
  induction rows as [|row rows IH]; intros r fb ft Lb Lt Hrows Hr Hfb Hft Eb Et Hoff HC HQ; cbn [split_rows].
  - assert (r = NUM_ROWS) as ->.
    { assert (length (drop r (f_rows fsrc)) = 0)%nat as E0 by by rewrite <- Hrows.
      rewrite drop_length, (proj1 Hsrc) in E0. lia. }
    apply wpc_ret; [done|]. apply (HQ fb ft Lb Lt); auto.
    + intros r' Hr'. by replace (r' <? NUM_ROWS)%nat with true by (symmetry; apply Nat.ltb_lt; lia).
    + unfold rest_live. rewrite (sum_rows_ext _ (fun _ => 0)), sum_rows_0; [lia|].
      intros r' Hr'. by replace (r' <? NUM_ROWS)%nat with true by (symmetry; apply Nat.ltb_lt; lia).
  - assert (f_rows fsrc !! r = Some row) as Hrow.
    { rewrite <- (Nat.add_0_r r), <- lookup_drop, <- Hrows. done. }
    assert (r < NUM_ROWS)%nat as Hlt.
    { apply lookup_lt_Some in Hrow. by rewrite (proj1 Hsrc) in Hrow. }
    assert (rows = drop (S r) (f_rows fsrc)) as Hrows'.
    { rewrite <- Nat.add_1_r, <- drop_drop, <- Hrows. done. }
    assert (row_of fsrc r = row) as Erow by (unfold row_of; by rewrite Hrow).
    pose proof (file_rep_row _ _ _ _ Hsrc Hlt) as Hf2. rewrite Erow in Hf2.
    pose proof (rest_live_step L r Hlt) as Hstep.
    apply wpc_bind.
    eapply (split_slots_spec cfg fsrc mid b t r row (L r) [] [] fb ft Lb Lt); auto.
    + cbn. rewrite <- (file_rep_length _ _ _ _ Hsrc Hlt). apply entries_length.
    + lia.
    + intros fb' ft' G1 G2 G3. eapply (IH (S r)); eauto.
      * intros r' Hr'. rewrite upd_row_ne by lia. apply Eb. lia.
      * intros r' Hr'. rewrite upd_row_ne by lia. apply Et. lia.
      * lia.
      * intros fb2 ft2 Lb2 Lt2 K1 K2 K3 K4. apply (HQ fb2 ft2 Lb2 Lt2); auto; [|lia].
        intros r' Hr'. specialize (K3 r' Hr').
        destruct (Nat.ltb_spec r' (S r)), (Nat.ltb_spec r' r); try lia; auto.
        -- by rewrite !upd_row_ne in K3 by lia.
        -- assert (r' = r) as -> by lia. by rewrite !upd_row_eq in K3.
Qed.

(** ** Worlds that agree on shard and compaction files *)
Definition is_core (n : fname) : Prop := match name_span n with Some _ => True | None => False end.
Definition core_same (w w' : fs) : Prop :=
  forall n, is_core n -> fs_dir w' !! n = fs_dir w !! n /\
    forall i, fs_dir w !! n = Some i -> fs_files w' !! i = fs_files w !! i.

Lemma core_same_refl w : core_same w w.
Proof. done. Qed.
Lemma core_same_trans w1 w2 w3 : core_same w1 w2 -> core_same w2 w3 -> core_same w1 w3.
Proof.
  intros H1 H2 n Hn. destruct (H1 n Hn) as [A1 A2], (H2 n Hn) as [B1 B2]. split; [congruence|].
  intros i Hi. rewrite B2 by congruence. by apply A2.
Qed.
Lemma core_outside w w' s e : core_same w w' -> outside_same s e w w'.
Proof. intros H n Hn. apply H. unfold outside, is_core in *. by destruct (name_span n). Qed.
Lemma disk_shard_same cfg x m w w' a b :
  (forall nm, nm = FShard a b \/ nm = FCompact a b -> fs_dir w' !! nm = fs_dir w !! nm /\
     forall i, fs_dir w !! nm = Some i -> fs_files w' !! i = fs_files w !! i) ->
  disk_shard cfg x m w (a, b) -> disk_shard cfg x m w' (a, b).
Proof.
  intros Ho (i & f & L & H1 & H2 & H3 & H4 & H5 & H6 & H7).
  destruct (Ho (FShard a b)) as [A1 A2]; [auto|].
  destruct (Ho (FCompact a b)) as [B1 B2]; [auto|].
  exists i, f, L. rewrite A1, B1, A2 by done. repeat (split; [done|]).
  destruct (fs_dir w !! FCompact a b) as [t|]; [|done].
  destruct H7 as (ft & Lt & j & T1 & T2 & T3). exists ft, Lt, j.
  by rewrite B2 by done.
Qed.
Lemma disk_span_core cfg x m w w' s n :
  core_same w w' -> disk_span cfg x m w s n -> disk_span cfg x m w' s n.
Proof.
  intros Hc (rs & H1 & H2 & H3 & H4). exists rs. split; [done|]. split.
  - eapply Forall_impl; [exact H2|]. intros [a b]. apply disk_shard_same.
    intros nm Hnm. apply Hc. by destruct Hnm as [->| ->].
  - split; intros a b Ha Ho.
    + rewrite (proj1 (Hc (FShard a b) I)) in Ha. auto.
    + rewrite (proj1 (Hc (FCompact a b) I)) in Ha. auto.
Qed.
Lemma leaf_core cfg x m w w' sh : core_same w w' -> leaf_ok cfg x m w sh -> leaf_ok cfg x m w' sh.
Proof.
  intros Hc (f & L & H1 & H2 & H3 & H4 & H5 & H6 & H7).
  destruct (Hc (FShard (sh_start sh) (sh_end sh)) I) as [A1 A2].
  destruct (Hc (FCompact (sh_start sh) (sh_end sh)) I) as [B1 B2].
  exists f, L. rewrite A1, B1, A2 by done. repeat (split; [done|]).
  destruct (sh_tgt sh) as [[t b]|]; [|done].
  destruct H7 as (T0 & ft & Lt & T1 & T2). split; [done|]. exists ft, Lt. by rewrite B2 by done.
Qed.
Lemma run_span_core cfg x m w w' r s n :
  core_same w w' -> run_span cfg x m w r s n -> run_span cfg x m w' r s n.
Proof.
  intros Hc (H1 & H2 & H3 & H4). split; [done|]. split.
  - eapply Forall_impl; [exact H2|]. intros sh. by apply leaf_core.
  - split; intros a b Ha Ho.
    + rewrite (proj1 (Hc (FShard a b) I)) in Ha. auto.
    + rewrite (proj1 (Hc (FCompact a b) I)) in Ha. auto.
Qed.
Lemma core_new_file nm f w : wf w -> ~ is_core nm -> core_same w (new_file nm f w).
Proof.
  intros Hwf Hn n Hc. cbn. split.
  - apply lookup_insert_ne. intros ->. done.
  - intros i Hi. apply lookup_insert_ne. apply (wf_next _ Hwf) in Hi. lia.
Qed.
Lemma core_set_file nm i f w : wf w -> fs_dir w !! nm = Some i -> ~ is_core nm -> core_same w (set_file i f w).
Proof.
  intros Hwf Hd Hn n Hc. split; [done|]. intros j Hj. apply set_file_ne. intros <-.
  assert (nm = n) as -> by (by eapply wf_inj). done.
Qed.
Lemma core_put_file nm f w : wf w -> ~ is_core nm -> core_same w (put_file nm f w).
Proof.
  intros Hwf Hn. unfold put_file. destruct (fs_dir w !! nm) as [i|] eqn:Ei.
  - by eapply core_set_file.
  - by apply core_new_file.
Qed.

Definition remove_fs (a : fname) (w : fs) : fs := Fs (delete a (fs_dir w)) (fs_files w) (fs_next w).
Lemma wf_remove a w : wf w -> wf (remove_fs a w).
Proof.
  intros [H1 H2 H3 H4]. split; cbn.
  - intros b c i Hb Hc. apply lookup_delete_Some in Hb as [_ Hb], Hc as [_ Hc]. eauto.
  - intros b i Hb. apply lookup_delete_Some in Hb as [_ Hb]. eauto.
  - intros b i Hb. apply lookup_delete_Some in Hb as [_ Hb]. eauto.
  - intros b c [[i Hb]|[i Hb]]; apply lookup_delete_Some in Hb as [_ Hb]; apply H4; eauto.
Qed.
Lemma outside_same_remove s e a w : ~ outside s e a -> outside_same s e w (remove_fs a w).
Proof. intros Ha n Hn. cbn. split; [|done]. apply lookup_delete_ne. congruence. Qed.
Lemma core_remove a w : ~ is_core a -> core_same w (remove_fs a w).
Proof. intros Ha n Hn. cbn. split; [|done]. apply lookup_delete_ne. congruence. Qed.

Lemma inside_not_outside s e a b : s <= a -> b <= e -> ~ outside s e (FShard a b).
Proof. unfold outside. cbn. lia. Qed.

(** What a shard just made by a split or a merge is like. *)
Definition fresh_leaf (cfg : config) (m : kvmap) (w : fs) (sh : shard) : Prop :=
  sh_tgt sh = None /\
  exists f L, fs_files w !! sh_ino sh = Some f /\ fresh cfg f L /\
    all_hold cfg m (sh_start sh) (sh_end sh) L.

Lemma all_hold_split cfg m s e s' e' L L' (R : kv -> Prop) `{!forall x, Decision (R x)} :
  all_hold cfg m s e L ->
  (forall k v, s' <= ph_selector (hashk cfg k) < e' <-> s <= ph_selector (hashk cfg k) < e /\ R (k, v)) ->
  (forall r, (r < NUM_ROWS)%nat -> L' r = padded (filter R (entries (L r)))) ->
  all_hold cfg m s' e' L'.
Proof.
  intros Hall HR HL r Hr. rewrite HL, entries_padded by done.
  destruct (Hall r Hr) as [Hn Hb]. split.
  - clear Hb. induction (entries (L r)) as [|y es IH]; [done|].
    cbn in Hn. apply NoDup_cons in Hn as [Hx Hn]. rewrite filter_cons.
    destruct (decide _); [|auto]. cbn. constructor; [|auto].
    intros (z & E & Hy)%elem_of_list_fmap. apply elem_of_list_filter in Hy as [_ Hy].
    apply Hx. rewrite E. apply elem_of_list_fmap. eauto.
  - intros k v. rewrite elem_of_list_filter, Hb. unfold home. rewrite (HR k v). tauto.
Qed.

Lemma live_filter_le (R : kv -> Prop) `{!forall x, Decision (R x)} L L' :
  (forall r, (r < NUM_ROWS)%nat -> L' r = padded (filter R (entries (L r)))) -> live L' <= live L.
Proof.
  intros HL. apply sum_rows_le. intros r Hr. rewrite HL, entries_padded by done.
  induction (entries (L r)) as [|y es IH]; [done|]. rewrite filter_cons.
  assert (forall x l, bytes_of (x :: l) = kvsize x + bytes_of l) as Hc by done.
  destruct (decide _); rewrite ?Hc; lia.
Qed.

Lemma rename_shard_Some x s e i w a c j :
  (forall p q, x <> FShard p q) ->
  fs_dir (rename_fs x (FShard s e) i w) !! FShard a c = Some j <->
  (a = s /\ c = e /\ j = i) \/ ((a, c) <> (s, e) /\ fs_dir w !! FShard a c = Some j).
Proof.
  intros Hx. rewrite rename_lookup_Some. split.
  - intros [[[= -> ->] ->]|(H1 & H2 & H3)]; [by left|right]. split; [congruence|done].
  - intros [(-> & -> & ->)|(H1 & H2)]; [by left|right]. split; [congruence|]. split; [|done].
    intros E. by apply (Hx a c).
Qed.

Lemma shard_split_leaf cfg x m w0 w sh s n (C : fs -> Prop) (Q : shard * shard -> fs -> Prop) E :
  leafQ cfg x w0 m s (S n) (RLeaf sh) w ->
  (forall w', wf w' -> outside_same s (s + 2 ^ N.of_nat (S n)) w0 w' -> disk_span cfg false m w' s (S n) -> C w') ->
  (forall w' b t, leafQ cfg x w0 m s (S n) (RVertex (RLeaf b) (RLeaf t)) w' ->
     fresh_leaf cfg m w' b -> fresh_leaf cfg m w' t ->
     (forall q, room w sh q -> room w' b q /\ room w' t q) -> Q (b, t) w') ->
  wpc (shard_split cfg sh) C Q E w.
Proof.
  intros HQ0 HC HQ. unfold shard_split. apply wpc_bind.
  eapply wait_compaction_leaf; [exact HQ0|exact HC|].
  intros w1 sh1 (Hwf & Hos & Hrun) Htgt Hroom.
  apply run_leaf in Hrun as (Hs & He & Hleaf & Hsolo).
  pose proof (pow2_succ n) as Hp. pose proof (pow2_pos n) as Hpos.
  rewrite Hp in *. clear Hp.
  set (h := 2 ^ N.of_nat n) in *. rewrite Hs, He.
  replace ((s + (s + (h + h))) / 2) with (s + h).
  2:{ replace (s + (s + (h + h))) with ((s + h) * 2) by lia. by rewrite N.div_mul. }
  set (e := s + (h + h)) in *. set (mid := s + h) in *. cbv zeta.
  pose proof Hleaf as (f & L & H1 & H2 & H3 & H4 & H5 & H6 & H7). rewrite Htgt in H7.
  destruct H7 as [H7 H8]. rewrite Hs, He in *.
  destruct (wf_names _ Hwf s e) as [Hlt Hle]; [eauto|].
  assert (disk_span cfg false m w1 s (S n)) as Hd1.
  { eapply (leaf_disk_span cfg x); [exact Hs| |exact Hleaf|]; rewrite pow2_succ; done. }
  assert (HCcore : forall w', wf w' -> core_same w1 w' -> C w').
  { intros w' A1 A2. apply HC; [done| |by eapply disk_span_core].
    eapply outside_same_trans; [exact Hos|by apply core_outside]. }
  set (b := put_ino (FBottom s mid) w1).
  (* bottom *)
  apply wpc_bind. apply mmap_create_any.
  { by apply HCcore. }
  { intros fb _. apply HCcore; [by apply wf_put_file|by apply core_put_file; [|intros []]]. }
  intros fb Hfb Hhb. set (w2 := put_file (FBottom s mid) fb w1). fold b.
  assert (wf w2) as Hwf2 by (by apply wf_put_file).
  assert (core_same w1 w2) as Hc2 by (by apply core_put_file; [|intros []]).
  set (t := put_ino (FTop mid e) w2).
  (* top *)
  apply wpc_bind. apply mmap_create_any.
  { by apply HCcore. }
  { intros ft _. apply HCcore; [by apply wf_put_file|].
    eapply core_same_trans; [exact Hc2|by apply core_put_file; [|intros []]]. }
  intros ft Hft Hht. set (w3 := put_file (FTop mid e) ft w2). fold t.
  assert (wf w3) as Hwf3 by (by apply wf_put_file).
  assert (core_same w1 w3) as Hc3.
  { eapply core_same_trans; [exact Hc2|by apply core_put_file; [|intros []]]. }
  assert (fs_dir w2 !! FBottom s mid = Some b) as Db2 by apply put_file_dir.
  assert (b <> t) as Hbt by (apply (put_ino_ne _ w2 (FBottom s mid)); [done|discriminate|exact Db2]).
  assert (fs_dir w3 !! FBottom s mid = Some b) as Db.
  { unfold w3. by rewrite put_file_dir_ne. }
  assert (fs_dir w3 !! FTop mid e = Some t) as Dt by apply put_file_dir.
  assert (fs_files w3 !! b = Some fb) as Fb.
  { unfold w3. rewrite put_file_ne by done. apply put_file_get. }
  assert (fs_files w3 !! t = Some ft) as Ft by apply put_file_get.
  assert (HC3 : forall fb' ft', wf (set_file b fb' (set_file t ft' w3)) /\
    core_same w1 (set_file b fb' (set_file t ft' w3))).
  { intros fb' ft'.
    assert (wf (set_file t ft' w3)) as A1 by (apply wf_set_file; eauto).
    assert (core_same w3 (set_file t ft' w3)) as A2.
    { eapply core_set_file; [done|exact Dt|intros []]. }
    split.
    - apply wf_set_file; [done|]. rewrite set_file_ne by done. eauto.
    - eapply core_same_trans; [exact Hc3|]. eapply core_same_trans; [exact A2|].
      eapply core_set_file; [done|exact Db|intros []]. }
  assert (fs_files w3 !! sh_ino sh1 = Some f) as Hf3.
  { rewrite (proj2 (Hc3 (FShard s e) I) _ H1). done. }
  apply wpc_bind. eapply wpc_get_file; [exact Hf3|by apply HCcore|].
  apply wpc_bind.
  replace w3 with (set_file b fb (set_file t ft w3)).
  2:{ rewrite (set_file_id t) by done. by apply set_file_id. }
  eapply (split_rows_spec cfg f L mid b t 0 (f_rows f) fb ft (fun _ => padded []) (fun _ => padded [])).
  { done. }
  { done. }
  { done. }
  { lia. }
  { by apply blank_fresh. }
  { by apply blank_fresh. }
  { done. }
  { done. }
  { rewrite rest_live_0. destruct Hfb as (_ & -> & _), Hft as (_ & -> & _). destruct H5 as [H5 _]. lia. }
  { intros fb' ft'. apply HCcore; apply HC3. }
  intros fb' ft' Lb Lt Hfresh_b Hfresh_t HLbt Hoff.
  set (w4 := set_file b fb' (set_file t ft' w3)).
  destruct (HC3 fb' ft') as [Hwf4 Hc4]. fold w4 in Hwf4, Hc4.
  assert (HLb : forall r, (r < NUM_ROWS)%nat -> Lb r = padded (filter (below cfg mid) (entries (L r)))).
  { intros r Hr. by apply (HLbt r Hr). }
  assert (HLt : forall r, (r < NUM_ROWS)%nat -> Lt r = padded (filter (fun x => ~ below cfg mid x) (entries (L r)))).
  { intros r Hr. by apply (HLbt r Hr). }
  assert (all_hold cfg m s mid Lb) as Hallb.
  { eapply (all_hold_split cfg m s e s mid L Lb (below cfg mid)); [done| |done].
    intros k v. unfold below. cbn. lia. }
  assert (all_hold cfg m mid e Lt) as Hallt.
  { eapply (all_hold_split cfg m s e mid e L Lt (fun x => ~ below cfg mid x)); [done| |done].
    intros k v. unfold below. cbn. lia. }
  assert (live Lb <= live L) as Hlb by by eapply live_filter_le.
  assert (live Lt <= live L) as Hlt' by by eapply live_filter_le.
  assert (fs_dir w4 !! FBottom s mid = Some b) as Db4 by exact Db.
  assert (fs_dir w4 !! FTop mid e = Some t) as Dt4 by exact Dt.
  assert (fs_files w4 !! b = Some fb') as Fb4 by apply set_file_get.
  assert (fs_files w4 !! t = Some ft') as Ft4.
  { subst w4. rewrite set_file_ne by done. apply set_file_get. }
  destruct (run_span_core cfg x m w1 w4 (RLeaf sh1) s (S n) Hc4) as (_ & Hl4 & Hn4a & Hn4b).
  { apply run_leaf. by rewrite pow2_succ. }
  rewrite pow2_succ in Hn4a, Hn4b. fold h e in Hn4a, Hn4b.
  cbn [leaves map] in Hn4a, Hn4b. unfold span_of in Hn4a, Hn4b. rewrite Hs, He in Hn4a, Hn4b.
  assert (fs_dir w4 !! FShard s e = Some (sh_ino sh1)) as Ds4.
  { rewrite (proj1 (Hc4 (FShard s e) I)). done. }
  assert (fs_dir w4 !! FCompact s e = None) as Dc4.
  { rewrite (proj1 (Hc4 (FCompact s e) I)). done. }
  assert (outside_same s e w0 w4) as Ho4.
  { eapply outside_same_trans; [exact Hos|by apply core_outside]. }
  assert (disk_shard cfg false m w4 (s, e)) as Hds4.
  { cbn [leaves] in Hl4. rewrite Forall_singleton in Hl4.
    pose proof (disk_shard_weaken _ _ _ _ _ (leaf_disk _ _ _ _ _ Hl4)) as Hx.
    unfold span_of in Hx. by rewrite Hs, He in Hx. }
  set (w5 := rename_fs (FBottom s mid) (FShard s mid) b w4).
  set (w6 := rename_fs (FTop mid e) (FShard mid e) t w5).
  set (w7 := remove_fs (FShard s e) w6).
  assert (s < mid /\ mid < e) as [Hsm Hme] by (subst mid e; lia).
  assert (wf w5) as Hwf5 by (apply wf_rename; [done|done|cbn; lia]).
  assert (fs_dir w5 !! FTop mid e = Some t) as Dt5.
  { apply rename_lookup_Some. right. done. }
  assert (wf w6) as Hwf6 by (apply wf_rename; [done|done|cbn; lia]).
  assert (wf w7) as Hwf7 by by apply wf_remove.
  assert (outside_same s e w0 w5) as Ho5.
  { eapply outside_same_trans; [exact Ho4|]. apply outside_same_rename; [intros []|apply inside_not_outside; lia]. }
  assert (outside_same s e w0 w6) as Ho6.
  { eapply outside_same_trans; [exact Ho5|]. apply outside_same_rename; [intros []|apply inside_not_outside; lia]. }
  assert (outside_same s e w0 w7) as Ho7.
  { eapply outside_same_trans; [exact Ho6|]. apply outside_same_remove, outside_self. }
  assert (Hse : forall A : Prop, FShard s e = FShard s mid -> A) by (intros A [= Hx]; lia).
  assert (Hse' : forall A : Prop, FShard s e = FShard mid e -> A) by (intros A [= Hx]; lia).
  (* lookups *)
  assert (K5 : forall a c j, fs_dir w5 !! FShard a c = Some j <->
     (a = s /\ c = mid /\ j = b) \/ ((a, c) <> (s, mid) /\ fs_dir w4 !! FShard a c = Some j)).
  { intros a c j. by apply rename_shard_Some. }
  assert (K6 : forall a c j, fs_dir w6 !! FShard a c = Some j <->
     (a = mid /\ c = e /\ j = t) \/ ((a, c) <> (mid, e) /\ fs_dir w5 !! FShard a c = Some j)).
  { intros a c j. by apply rename_shard_Some. }
  assert (K5c : forall a c, fs_dir w5 !! FCompact a c = fs_dir w4 !! FCompact a c).
  { intros a c. cbn. by rewrite lookup_insert_ne, lookup_delete_ne. }
  assert (K6c : forall a c, fs_dir w6 !! FCompact a c = fs_dir w4 !! FCompact a c).
  { intros a c. rewrite <- K5c. cbn. by rewrite lookup_insert_ne, lookup_delete_ne. }
  assert (fs_dir w5 !! FShard s e = Some (sh_ino sh1)) as Ds5.
  { apply K5. right. split; [|done]. intros [= Hx]. lia. }
  assert (fs_dir w6 !! FShard s e = Some (sh_ino sh1)) as Ds6.
  { apply K6. right. split; [|done]. intros [= Hx]. lia. }
  assert (Hold : forall w', fs_files w' = fs_files w4 -> fs_dir w' !! FShard s e = Some (sh_ino sh1) ->
     (forall a c, fs_dir w' !! FCompact a c = fs_dir w4 !! FCompact a c) ->
     (forall a c, is_Some (fs_dir w' !! FShard a c) ->
        (a, c) = (s, mid) \/ (a, c) = (mid, e) \/ is_Some (fs_dir w4 !! FShard a c)) ->
     disk_span cfg false m w' s (S n)).
  { intros w' E1 E2 E3 E4. exists [(s, e)].
    split; [subst e h; rewrite <- pow2_succ; constructor|].
    split.
    { rewrite Forall_singleton. eapply disk_shard_same; [|exact Hds4]. intros nm [->| ->].
      - rewrite E1, E2, Ds4. done.
      - rewrite E1, E3. done. }
    rewrite pow2_succ. fold h e. split; intros a c Ha Ho.
    - exists (s, e). split; [left|]. destruct (E4 a c Ha) as [[= -> ->]|[[= -> ->]|Ha']].
      + unfold contained. cbn. lia.
      + unfold contained. cbn. lia.
      + apply Hn4a in Ha'; [|done]. apply elem_of_list_singleton in Ha'. injection Ha' as -> ->.
        unfold contained. cbn. lia.
    - rewrite E3 in Ha. by apply Hn4b. }
  assert (disk_span cfg false m w5 s (S n)) as Hd5.
  { apply Hold; auto. intros a c [j Hj]. apply K5 in Hj as [(-> & -> & _)|[_ Hj]]; eauto. }
  assert (disk_span cfg false m w6 s (S n)) as Hd6.
  { apply Hold; auto. intros a c [j Hj]. apply K6 in Hj as [(-> & -> & _)|[_ Hj]]; [auto|].
    apply K5 in Hj as [(-> & -> & _)|[_ Hj]]; eauto. }
  assert (forall a c j, fs_dir w7 !! FShard a c = Some j -> overlap a c s e ->
     (a = s /\ c = mid) \/ (a = mid /\ c = e)) as K7.
  { intros a c j Hj Ho. cbn in Hj. apply lookup_delete_Some in Hj as [Hne Hj].
    apply K6 in Hj as [(-> & -> & _)|[_ Hj]]; [auto|].
    apply K5 in Hj as [(-> & -> & _)|[_ Hj]]; [auto|].
    exfalso. assert (is_Some (fs_dir w4 !! FShard a c)) as Ha by eauto.
    apply Hn4a in Ha; [|done]. apply elem_of_list_singleton in Ha. congruence. }
  assert (forall a c, fs_dir w7 !! FCompact a c = fs_dir w4 !! FCompact a c) as K7c.
  { intros a c. rewrite <- K6c. cbn. by rewrite lookup_delete_ne. }
  assert (forall a c, overlap a c s e -> fs_dir w7 !! FCompact a c = None) as K7n.
  { intros a c Ho. rewrite K7c. destruct (fs_dir w4 !! FCompact a c) as [j|] eqn:Ej; [|done].
    assert (is_Some (fs_dir w4 !! FCompact a c)) as Ha by eauto.
    apply Hn4b in Ha; [|done]. apply elem_of_list_singleton in Ha. congruence. }
  assert (fs_dir w7 !! FShard s mid = Some b) as Db7.
  { cbn. rewrite lookup_delete_ne by (intros [= Hx]; lia).
    apply K6. right. split; [intros [= Hx]; lia|]. apply K5. by left. }
  assert (fs_dir w7 !! FShard mid e = Some t) as Dt7.
  { cbn. rewrite lookup_delete_ne by (intros [= Hx]; lia). apply K6. by left. }
  assert (forall f' L', fresh cfg f' L' -> live L' <= live L -> f_woff f' < 2 ^ 32 /\ acct x f' L' /\ hdr_ok f'
     /\ file_rep cfg f' L') as Hfr.
  { intros f' L' (A1 & A2 & A3 & A4) A5. destruct H5 as [H5 _]. split; [lia|]. split; [|done].
    destruct A2 as [A2 A2']. split; [done|]. intros _. by apply A2'. }
  assert (leaf_ok cfg x m w7 (Shard s mid b None)) as Hlb7.
  { destruct (Hfr _ _ Hfresh_b Hlb) as (A1 & A2 & A3 & A4). exists fb', Lb.
    cbn [sh_start sh_end sh_ino sh_tgt]. repeat (split; [done|]). split; [|done].
    apply K7n. unfold overlap. lia. }
  assert (leaf_ok cfg x m w7 (Shard mid e t None)) as Hlt7.
  { destruct (Hfr _ _ Hfresh_t Hlt') as (A1 & A2 & A3 & A4). exists ft', Lt.
    cbn [sh_start sh_end sh_ino sh_tgt]. repeat (split; [done|]). split; [|done].
    apply K7n. unfold overlap. lia. }
  assert (run_span cfg x m w7 (RVertex (RLeaf (Shard s mid b None)) (RLeaf (Shard mid e t None))) s (S n)) as Hrun7.
  { split; [|split].
    - cbn [tree_ok]. cbn. subst mid e. fold h. split; [done|]. split; [done|]. lia.
    - cbn [leaves app]. by repeat constructor.
    - rewrite pow2_succ. fold h e. cbn [leaves app map]. unfold span_of. cbn [sh_start sh_end]. split.
      + intros a c [j Hj] Ho. destruct (K7 a c j Hj Ho) as [[-> ->]|[-> ->]].
        * apply elem_of_cons. by left.
        * apply elem_of_cons. right. by apply elem_of_list_singleton.
      + intros a c [j Hj] Ho. rewrite K7n in Hj by done. done. }
  apply wpc_bind. eapply wpc_rename; [exact Db4|by apply HCcore|by apply HC|].
  apply wpc_bind. eapply wpc_rename; [exact Dt5|by apply HC|by apply HC|].
  assert (C w7) as HC7.
  { apply HC; auto. by eapply run_disk'. }
  apply wpc_bind. eapply wpc_remove; [exact Ds6|by apply HC|exact HC7|].
  apply wpc_ret; [exact HC7|].
  apply HQ.
  - split; [done|].
    split; [|done]. by rewrite pow2_succ.
  - split; [done|]. exists fb', Lb. done.
  - split; [done|]. exists ft', Lt. done.
  - intros q Hq. apply Hroom in Hq. unfold room in *. cbn [sh_ino sh_tgt].
    rewrite H2, Htgt in Hq. cbn [w7 remove_fs fs_files w6 w5 rename_fs].
    rewrite Fb4, Ft4. destruct Hfresh_b as (_ & _ & B1 & _), Hfresh_t as (_ & _ & B2 & _).
    destruct H5 as [H5 _]. lia.
Qed.
