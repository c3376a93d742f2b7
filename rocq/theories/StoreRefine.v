(** The raw operations of a running store refine the map. *)
From Verif Require Import Base Hashing HashingProofs Fs Shard Router RouterPure Wpc Spec FileRep RowOps
  Compact Inv ShardOps Split Insert Open Merge Create Store Limits.

Definition SInv (cfg : config) (x : bool) (m : kvmap) (s : store) : Prop := Inv cfg x m (st_root s) (st_fs s).

Lemma disk_room_small w : disk_room w -> disk_small w.
Proof. intros H a b i t f ft. cbn. apply H. Qed.

Lemma Inv_disk cfg x m r w : Inv cfg x m r w -> DiskInv cfg x m w.
Proof. intros (A1 & A2 & A3). split; [done|]. by eapply run_disk. Qed.
Lemma DiskInv_weaken cfg x m w : DiskInv cfg x m w -> DiskInv cfg false m w.
Proof. intros (A1 & A2). split; [done|]. by eapply disk_span_weaken. Qed.
Lemma Inv_disk' cfg x m r w : Inv cfg x m r w -> DiskInv cfg false m w.
Proof. intros H. by eapply DiskInv_weaken, Inv_disk. Qed.

Lemma sel_in cfg k : 0 <= ph_selector (hashk cfg k) < 0 + 2 ^ N.of_nat 16.
Proof. pose proof (hashk_sel cfg k). change (0 + 2 ^ N.of_nat 16) with 65536. lia. Qed.

Lemma route_ok cfg x m r w sel : Inv cfg x m r w -> sel < 65536 ->
  leaf_ok cfg x m w (route r sel) /\ sh_start (route r sel) <= sel < sh_end (route r sel).
Proof.
  intros (Hwf & Htr & Hl & Hn) Hsel.
  destruct (route_leaf r 0 16 sel Htr) as [H1 H2]; [change (0 + 2 ^ N.of_nat 16) with 65536; lia|].
  split; [|done]. rewrite Forall_forall in Hl. apply Hl. by apply elem_of_list_In.
Qed.

Lemma get_raw_ok cfg x m s k : SInv cfg x m s -> get_raw cfg s k = Ok (m !! k).
Proof.
  intros HI. destruct (route_ok _ _ _ _ _ (ph_selector (hashk cfg k)) HI (hashk_sel cfg k)) as [H1 H2].
  unfold get_raw. eapply shard_get_leaf; [apply HI|exact H1|exact H2].
Qed.
Lemma SInv_content cfg x m s : SInv cfg x m s -> content cfg s m.
Proof. intros H k. by eapply get_raw_ok. Qed.
Lemma content_unique cfg s m m' : content cfg s m -> content cfg s m' -> m = m'.
Proof. intros H1 H2. apply map_eq. intros k. specialize (H1 k). specialize (H2 k). congruence. Qed.

(** What [get_by_hash] may return: all stored entries with that hash, and possibly others that
    agree with it on the row and the signature. *)
Definition byhash_ok (cfg : config) (m : kvmap) (ph : phash) (l : list kv) : Prop :=
  NoDup (map fst l) /\
  (forall k v, (k, v) ∈ l -> m !! k = Some v /\ ph_row (hashk cfg k) = ph_row ph /\ ph_sig (hashk cfg k) = ph_sig ph) /\
  (forall k v, m !! k = Some v -> hashk cfg k = ph -> (k, v) ∈ l).

Lemma ph_sel_lt ph : ph_selector ph < 65536.
Proof.
  unfold ph_selector. rewrite (N.land_ones _ 16). change 65536 with (2 ^ 16). apply N.mod_upper_bound. lia.
Qed.
Lemma get_by_hash_ok cfg x m s ph : SInv cfg x m s -> ph_sig ph <> INVALID_SIG ->
  exists l, get_by_hash cfg s ph = Ok l /\ byhash_ok cfg m ph l.
Proof.
  intros HI Hsig. destruct (route_ok _ _ _ _ _ (ph_selector ph) HI (ph_sel_lt ph)) as [H1 H2].
  unfold get_by_hash. destruct (N.eqb_spec (ph_sig ph) INVALID_SIG); [done|].
  destruct (shard_get_by_hash_leaf cfg x m (st_fs s) _ ph ltac:(apply HI) H1 (ph_row_lt ph) Hsig) as (l & E & N1 & N2).
  exists l. split; [done|]. split; [done|]. split.
  - intros k v Hk. apply N2 in Hk as (A1 & [_ A2] & A3). done.
  - intros k v Hk Ep. apply N2. split; [done|]. rewrite Ep. unfold home. rewrite Ep. done.
Qed.

(** ** Insert *)
Lemma headroom_parts cfg x m s k v : SInv cfg x m s -> headroom cfg s m k v ->
  row_space cfg m k /\ sel_space cfg m k v /\
  room (st_fs s) (route (st_root s) (ph_selector (hashk cfg k))) (len k + len v) /\
  (sh_end (route (st_root s) (ph_selector (hashk cfg k))) =
     sh_start (route (st_root s) (ph_selector (hashk cfg k))) + 1 ->
   ~ size_full cfg (st_fs s) (route (st_root s) (ph_selector (hashk cfg k))) (len k + len v)).
Proof.
  intros HI [H1 H2 H3 H4]. split; [|split; [|split]].
  - intros Hn es Hes. by apply H1.
  - intros es Hes. by apply H2.
  - unfold room. unfold files_room in H3. destruct (fs_files (st_fs s) !! _) as [f|]; [|done].
    specialize (H3 f eq_refl). destruct (sh_tgt _) as [[t b]|]; [|done].
    destruct (fs_files (st_fs s) !! t) as [ft|]; [|done]. by apply H3.
  - intros Hs (Ht & f & Hf & A1 & A2). destruct (H4 Hs Ht f Hf); lia.
Qed.

Lemma leaf_level cfg x m w sh s n : wf w -> run_span cfg x m w (RLeaf sh) s n -> (n <= 16)%nat.
Proof.
  intros Hwf Hrun. apply run_leaf in Hrun as (H1 & H2 & (f & L & H3 & _) & _).
  rewrite H1, H2 in H3. destruct (wf_names _ Hwf s (s + 2 ^ N.of_nat n)) as [_ H4]; [eauto|].
  unfold END_OF_SHARDS in H4. destruct (Nat.le_gt_cases n 16) as [|Hn]; [done|]. exfalso.
  assert (2 ^ 17 <= 2 ^ N.of_nat n) as Hp by (apply N.pow_le_mono_r; lia).
  change (2 ^ 17) with 131072 in Hp. lia.
Qed.

Lemma insert_wpc cfg x m r w k v mode :
  Inv cfg x m r w -> k <> [] -> ins_err cfg k v = None -> headroom cfg (Store r w) m k v ->
  wpc (insert_prog cfg r k v mode)
      (fun w' => DiskInv cfg false m w' \/ DiskInv cfg false (fst (spec_ins m k v mode)) w')
      (fun a w' => snd a = snd (spec_ins m k v mode) /\ Inv cfg x (fst (spec_ins m k v mode)) (fst a) w')
      no_err w.
Proof.
  intros HI Hne Herr Hhr. destruct (headroom_parts cfg x m (Store r w) k v HI Hhr) as (A1 & A2 & A3 & A4).
  cbn [st_root st_fs] in *.
  unfold insert_prog. unfold ins_err in Herr.
  destruct (N.ltb_spec MAX_TOTAL_KEY_SIZE (len k)) as [|Hk]; [done|].
  destruct (N.ltb_spec MAX_TOTAL_VALUE_SIZE (len v)) as [|Hv]; [done|].
  destruct (N.ltb_spec (c_max_shard cfg) (len k + len v)) as [|Hc]; [done|].
  unfold MAX_TOTAL_KEY_SIZE, MAX_TOTAL_VALUE_SIZE in *.
  set (m' := fst (spec_ins m k v mode)). unfold router_insert.
  pose proof HI as (Hwf & Hrun).
  eapply (on_leaf_spec cfg x m m' (ph_selector (hashk cfg k)) _ (snd (spec_ins m k v mode)) no_err r w 0 16); auto.
  - apply sel_in.
  - intros k' Hk'. symmetry. apply spec_ins_other. intros ->. done.
  - intros sh s n C Q -> Hrs Hsel HC HQ.
    assert (len k < 16384) as Hk' by (clear -Hk; lia). assert (len v < 65536) as Hv' by (clear -Hv; lia).
    eapply (leaf_insert_spec cfg x n SPLIT_FUEL m w); try done.
    + pose proof (leaf_level _ _ _ _ _ _ _ Hwf Hrs). unfold SPLIT_FUEL. lia.
    + intros ->. apply A4. apply run_leaf in Hrs as (-> & -> & _). done.
  - intros w' HC. by eapply leafC_disk.
  - intros w' r' HQ. cbn. split; [done|]. by apply Inv_leafQ in HQ as [_ HQ].
Qed.

Lemma insert_rejected cfg r k v mode e : ins_err cfg k v = Some e ->
  insert_prog cfg r k v mode = Fail e.
Proof.
  unfold ins_err, insert_prog.
  destruct (MAX_TOTAL_KEY_SIZE <? len k); [by intros [= ->]|].
  destruct (MAX_TOTAL_VALUE_SIZE <? len v); [by intros [= ->]|].
  destruct (c_max_shard cfg <? len k + len v); [by intros [= ->]|done].
Qed.

Lemma remove_wpc cfg x m r w k :
  Inv cfg x m r w ->
  wpc (remove_prog cfg r k)
      (fun w' => DiskInv cfg false m w' \/ DiskInv cfg false (delete k m) w')
      (fun a w' => snd a = m !! k /\ Inv cfg x (delete k m) (fst a) w')
      no_err w.
Proof.
  intros HI. pose proof HI as (Hwf & Hrun). unfold remove_prog. apply wpc_bind.
  eapply (route_spec cfg x m (delete k m) (ph_selector (hashk cfg k))
            (fun sh => shard_remove sh (hashk cfg k) k) (m !! k) no_err r w 0 16); auto.
  - apply sel_in.
  - intros k' Hk'. rewrite lookup_delete_ne; [done|]. by intros ->.
  - intros sh s n C Q Hrs Hsel HC HQ. eapply wpc_mono; [exact HC| |done|].
    { intros a w' _ Ha. exact Ha. }
    eapply (shard_remove_leaf cfg x m w sh s n k); auto.
  - intros w' HC. by eapply leafC_disk.
  - intros w' HQ. apply Inv_leafQ in HQ as [_ HQ]. apply wpc_ret; [|done].
    right. by eapply Inv_disk'.
Qed.

(** ** Maintenance *)
Lemma bg_row_wpc cfg x m r w sel :
  Inv cfg x m r w -> sel < 65536 ->
  wpc (on_leaf r sel (fun sh => do! sh' <- bg_row cfg sh; Ret (RLeaf sh', tt)))
      (DiskInv cfg false m) (fun a w' => Inv cfg x m (fst a) w') no_err w.
Proof.
  intros (Hwf & Hrun) Hsel.
  eapply (on_leaf_spec cfg x m m sel _ tt no_err r w 0 16); auto.
  - change (0 + 2 ^ N.of_nat 16) with 65536. lia.
  - intros sh s n C Q _ Hrs _ HC HQ. apply wpc_bind.
    eapply wpc_mono; [exact HC|intros a w' _ Ha; exact Ha|done|].
    eapply (bg_row_leaf cfg x m w sh s n); auto.
    intros w' sh' HQ'. apply wpc_ret; [apply HC; by eapply leafQ_C|by apply HQ].
  - intros w' HC. by eapply leafC_disk'.
  - intros w' r' HQ. by apply Inv_leafQ in HQ as [_ HQ].
Qed.
Lemma bg_finish_wpc cfg x m r w sel :
  Inv cfg x m r w -> sel < 65536 ->
  wpc (on_leaf r sel (fun sh => do! sh' <- bg_finish sh; Ret (RLeaf sh', tt)))
      (DiskInv cfg false m) (fun a w' => Inv cfg x m (fst a) w') no_err w.
Proof.
  intros (Hwf & Hrun) Hsel.
  eapply (on_leaf_spec cfg x m m sel _ tt no_err r w 0 16); auto.
  - change (0 + 2 ^ N.of_nat 16) with 65536. lia.
  - intros sh s n C Q _ Hrs _ HC HQ. apply wpc_bind.
    eapply wpc_mono; [exact HC|intros a w' _ Ha; exact Ha|done|].
    eapply (bg_finish_leaf cfg x m w sh s n); auto.
    intros w' sh' HQ'. apply wpc_ret; [apply HC; by eapply leafQ_C|by apply HQ].
  - intros w' HC. by eapply leafC_disk'.
  - intros w' r' HQ. by apply Inv_leafQ in HQ as [_ HQ].
Qed.

Definition sum_stats (l : list shard_stats) : stats := fold_left add_stats l (Stats 0 0 0 0 0).
Lemma fold_stats l : forall t,
  fold_left add_stats l t =
  Stats (t_shards t + len l) (t_occupied t + tot ss_woff l) (t_wasted t + tot ss_wasted l)
        (t_ins t + tot ss_ins l) (t_rem t + tot ss_rem l).
Proof.
  induction l as [|st l IH]; intros t; cbn [fold_left].
  - destruct t. cbn. unfold len. cbn. f_equal; lia.
  - rewrite IH. rewrite len_cons. unfold add_stats. cbn [t_shards t_occupied t_wasted t_ins t_rem tot map fold_right foldr]. unfold tot; cbn. f_equal; lia.
Qed.
Lemma sum_stats_tot l :
  sum_stats l = Stats (len l) (tot ss_woff l) (tot ss_wasted l) (tot ss_ins l) (tot ss_rem l).
Proof. unfold sum_stats. rewrite fold_stats. done. Qed.

(** The sum of the sizes of all stored entries. *)
Definition all_entries (m : kvmap) : list kv := map_to_list m.
Lemma holds_perm_map m es : holds m (fun _ => True) es -> es ≡ₚ map_to_list m.
Proof.
  intros [H1 H2]. apply NoDup_Permutation.
  - by eapply NoDup_fmap_1.
  - apply NoDup_map_to_list.
  - intros [k v]. rewrite elem_of_map_to_list, H2. tauto.
Qed.

Lemma stats_wpc cfg x m r w :
  Inv cfg x m r w ->
  wpc (do! (r, l) <- router_stats cfg r; Ret (r, fold_left add_stats l (Stats 0 0 0 0 0)))
      (DiskInv cfg false m)
      (fun a w' => Inv cfg x m (fst a) w' /\
         t_shards (snd a) = len (leaves (fst a)) /\
         t_wasted (snd a) <= t_occupied (snd a) /\
         (x = true -> t_occupied (snd a) = total (map_to_list m) + t_wasted (snd a) /\
                      t_ins (snd a) = t_rem (snd a) + N.of_nat (size m)))
      no_err w.
Proof.
  intros (Hwf & Hrun). apply wpc_bind. apply (router_stats_spec cfg x m _ r w 0 16); auto.
  { intros w' HC. by eapply leafC_disk'. }
  intros w' r' l HQ Hid _ Hst. apply Inv_leafQ in HQ as [_ HI].
  apply wpc_ret; [by eapply Inv_disk'|]. cbn [fst snd]. fold (sum_stats l). rewrite sum_stats_tot. cbn.
  split; [done|]. split; [unfold len; by rewrite (Forall2_length _ _ _ Hst)|]. split.
  - destruct HI as (_ & _ & Hl & _). clear - Hl Hst. revert Hl.
    induction Hst as [|sh st lv l (f & F1 & F2) _ IH]; intros Hl; [done|]. apply Forall_cons in Hl as [Hsh Hl].
    specialize (IH Hl). destruct Hsh as (f' & L & _ & B2 & _ & _ & [B5 _] & _). rewrite F1 in B2. injection B2 as <-.
    cbn. subst st. cbn. fold (tot ss_wasted l) (tot ss_woff l). lia.
  - intros Hx. destruct (tree_entries cfg x m w' r' 0 16 l) as (es & Hes & Hcnt); [apply HI|apply HI|done|done|].
    apply holds_all in Hes. destruct (Hcnt Hx) as (A1 & A2 & _).
    assert (total (map_to_list m) = bytes_of es) as ->.
    { change (total (map_to_list m)) with (bytes_of (map_to_list m)). by rewrite <- (holds_perm_map _ _ Hes). }
    rewrite <- (holds_size m es Hes). done.
Qed.

Lemma merge_wpc cfg x m r w mf :
  Inv cfg x m r w -> fits_4G m -> items_ok m -> cfg_ok cfg ->
  wpc (merge_small_shards cfg r mf) (DiskInv cfg false m)
      (fun a w' => Inv cfg x m (fst a) w' /\ snd a = negb (len (leaves (fst a)) =? len (leaves r)))
      (merge_err x) w.
Proof.
  intros HI H1 H2 H3. apply (merge_small_spec cfg x m r w mf); auto.
  unfold items_fit. unfold items_ok, cfg_ok in *. lia.
Qed.

Lemma open_wpc cfg x m w :
  DiskInv cfg x m w -> disk_room w ->
  wpc (router_new cfg) (DiskInv cfg false m) (fun r w' => Inv cfg x m r w') no_err w.
Proof. intros H1 H2. apply (router_new_spec cfg x m); auto. Qed.

Lemma open_fresh_wpc cfg w :
  wf w -> nocore w -> cfg_ok cfg ->
  wpc (router_new cfg) (fun _ => True)
      (fun r w' => Inv cfg true ∅ r w' /\
         exists j, (j <= 16)%nat /\ calc_step (c_expected cfg) = Ok (2 ^ N.of_nat j) /\ length (leaves r) = (2 ^ (16 - j))%nat)
      no_err w.
Proof. intros H1 H2 H3. apply (router_new_fresh cfg w); auto. Qed.

Lemma clear_wpc cfg x m r w :
  Inv cfg x m r w -> cfg_ok cfg ->
  wpc (do! r <- router_clear cfg; Ret (r, tt)) (fun _ => True) (fun a w' => Inv cfg true ∅ (fst a) w') no_err w.
Proof.
  intros (H1 & H2 & H3) H4. apply wpc_bind. apply router_clear_spec; auto.
  intros w' r' HI. by apply wpc_ret.
Qed.

(** The invariant depends on the configuration only through the hash function. *)
Lemma leaf_ok_cfg cfg cfg' x m w sh : c_hash cfg' = c_hash cfg -> leaf_ok cfg x m w sh -> leaf_ok cfg' x m w sh.
Proof.
  destruct cfg as [h a1 a2 a3 a4 a5 a6], cfg' as [h' b1 b2 b3 b4 b5 b6]. cbn. intros ->. intros (f & L & H1 & H2 & H3 & H4 & H5 & H6 & H7).
  exists f, L. do 6 (split; [assumption|]). destruct (sh_tgt sh) as [[t b]|]; [|exact H7].
  destruct H7 as (T1 & ft & Lt & T2 & T3 & [C1 C2 C3 C4 C5 C6 C7 C8]).
  split; [done|]. exists ft, Lt. split; [done|]. split; [done|]. constructor; assumption.
Qed.
Lemma disk_shard_cfg cfg cfg' x m w r : c_hash cfg' = c_hash cfg -> disk_shard cfg x m w r -> disk_shard cfg' x m w r.
Proof.
  destruct cfg as [h a1 a2 a3 a4 a5 a6], cfg' as [h' b1 b2 b3 b4 b5 b6]. cbn. intros ->. destruct r as [s e]. intros (i & f & L & H1 & H2 & H3 & H4 & H5 & H6 & H7).
  exists i, f, L. do 6 (split; [assumption|]). destruct (fs_dir w !! FCompact s e) as [t|]; [|exact H7].
  destruct H7 as (ft & Lt & j & T1 & [C1 C2 C3 C4 C5 C6 C7] & T3).
  exists ft, Lt, j. split; [done|]. split; [|done]. constructor; assumption.
Qed.
Lemma DiskInv_cfg cfg cfg' x m w : c_hash cfg' = c_hash cfg -> DiskInv cfg x m w -> DiskInv cfg' x m w.
Proof.
  intros Hc (H1 & rs & H2 & H3 & H4). split; [done|]. exists rs. split; [done|]. split; [|done].
  eapply Forall_impl; [exact H3|]. intros r. by apply disk_shard_cfg.
Qed.
Lemma Inv_cfg cfg cfg' x m r w : c_hash cfg' = c_hash cfg -> Inv cfg x m r w -> Inv cfg' x m r w.
Proof.
  intros Hc (H1 & H3 & H4 & H5). split; [done|]. split; [done|]. split; [|done].
  eapply Forall_impl; [exact H4|]. intros sh. by apply leaf_ok_cfg.
Qed.
