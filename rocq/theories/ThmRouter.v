(** Shard files and spans, hashing, descriptors, locks, names, statistics rings
    (C12, C13, C14, C38, C39, C40, C41, C43, C44). *)
From Verif Require Import Base SipHash Hashing HashingProofs Fs Shard Router RouterPure Store Kv Limits Hist Create Inv Wpc
  HistInv Check OpenAny Names StatsRing ThmStore ExStore.

(** ** C12 *)
(** For every directory holding at least one shard file and every successful opening: the
    shard files left, and the shards of the store, are exactly the files not contained in
    another one; leftovers of splits and merges are gone; other files are untouched. *)
Theorem C12_open_keeps_covering_shards : forall cfg w w' s,
  store_open cfg w = (w', Ok s) -> (exists a b, has_shard w a b) ->
  (forall a b, has_shard w' a b <-> has_shard w a b /\ maximal w a b) /\
  (forall a b, (exists sh, In sh (leaves (st_root s)) /\ span_of sh = (a, b)) <-> has_shard w a b /\ maximal w a b) /\
  NoDup (map span_of (leaves (st_root s))) /\
  (forall a b, fs_dir w' !! FBottom a b = None /\ fs_dir w' !! FTop a b = None /\ fs_dir w' !! FMerge a b = None) /\
  (forall i, fs_dir w' !! FOther i = fs_dir w !! FOther i).
Proof.
  intros cfg w w' s Ho Hs. destruct (open_keeps cfg w w' s Ho Hs) as (H1 & H2 & H3 & H4 & H5).
  split; [exact H1|]. split; [exact H2|]. split; [exact H3|]. split; [|exact H5].
  intros a b. split; [by apply H4|]. split; by apply H4.
Qed.
(** The choice does not depend on the order in which the directory is listed. *)
Theorem C12_order_irrelevant : forall l l' kept removed kept' removed',
  NoDup l -> l ≡ₚ l' -> consolidate_ranges l = (kept, removed) -> consolidate_ranges l' = (kept', removed') ->
  kept ≡ₚ kept' /\ removed ≡ₚ removed'.
Proof.
  intros l l' k r k' r' Hnd Hp E E'. assert (NoDup l') as Hnd' by (by rewrite <- Hp).
  destruct (consolidate_maximal l k r Hnd E) as [K R]. destruct (consolidate_maximal l' k' r' Hnd' E') as [K' R'].
  destruct (consolidate_spec _ _ _ E) as (P & _ & _). destruct (consolidate_spec _ _ _ E') as (P' & _ & _).
  assert (forall x, In x l <-> In x l') as Hin by (intros x; by rewrite <- !elem_of_list_In, Hp).
  rewrite <- P in Hnd. rewrite <- P' in Hnd'. apply NoDup_app in Hnd as (N1 & _ & N2). apply NoDup_app in Hnd' as (N1' & _ & N2').
  split; apply NoDup_Permutation; try done; intros x; rewrite !elem_of_list_In.
  - rewrite K, K'. split; intros [X1 X2]; (split; [by apply Hin|]); intros y Hy; apply X2; by apply Hin.
  - rewrite R, R'. split; intros [X1 (y & Y1 & Y2)]; (split; [by apply Hin|]); exists y; (split; [by apply Hin|done]).
Qed.
(** A directory with an unfinished split: the parent and one of the two halves. *)
Example ex_consolidate : consolidate_ranges [(32768, 65536); (0, 32768); (32768, 49152)] =
  ([(0, 32768); (32768, 65536)], [(32768, 49152)]).
Proof. reflexivity. Qed.
Definition ex_file : file := File 500000 SHARD_FILE_MAGIC SHARD_FILE_VERSION 0 0 0 0 0 (f_rows file_empty) ∅.
Definition ex_dir : fs :=
  Fs (<[FShard 0 32768 := 0]> (<[FShard 32768 65536 := 1]> (<[FShard 32768 49152 := 2]> (<[FTop 1 2 := 3]> (<[FOther 7 := 4]> ∅)))))
     (<[0 := ex_file]> (<[1 := ex_file]> (<[2 := ex_file]> (<[3 := ex_file]> (<[4 := ex_file]> ∅))))) 5.
Example ex_dir_opens : (match store_open ex_cfg ex_dir with (_, Ok s) => map span_of (leaves (st_root s)) | _ => [] end) = [(0, 32768); (32768, 65536)]
  /\ has_shard ex_dir 0 32768.
Proof. split; [by vm_cast_no_check (eq_refl [(0, 32768); (32768, 65536)])|]. by exists 0. Qed.

(** ** C13 *)
(** [binary_tree s n l]: the spans [l], in order, are those of the leaves of a tree obtained from
    the span [s, s + 2^n) by any sequence of halvings. *)
Inductive binary_tree : N -> nat -> list range -> Prop :=
| bt_leaf s n : binary_tree s n [(s, s + 2 ^ N.of_nat n)]
| bt_split s n l1 l2 : binary_tree s n l1 -> binary_tree (s + 2 ^ N.of_nat n) n l2 -> binary_tree s (S n) (l1 ++ l2).
Lemma binary_tree_dyadic s n l : binary_tree s n l -> dyadic s n l.
Proof. induction 1; by constructor. Qed.
(** From the shards of any tree of splits of the whole space, the router is built without any
    assertion failing and sends every selector to the one shard whose span contains it. *)
Theorem C13_one_home_shard : forall shards,
  binary_tree 0 16 (map span_of shards) ->
  exists r, treeify shards = Ok r /\ leaves r = shards /\
    forall sel, sel < 65536 ->
      In (route r sel) shards /\ sh_start (route r sel) <= sel < sh_end (route r sel) /\
      forall sh, In sh shards -> sh_start sh <= sel < sh_end sh -> sh = route r sel.
Proof.
  intros shards Hb. apply binary_tree_dyadic in Hb. destruct (treeify_ok shards Hb) as (r & E & Ht & Hl).
  exists r. split; [exact E|]. split; [exact Hl|]. intros sel Hsel.
  destruct (route_in r 0 16 sel Ht) as [H1 H2]; [change (0 + 2 ^ N.of_nat 16) with 65536; lia|].
  rewrite Hl in H1. split; [exact H1|]. split; [exact H2|]. intros sh Hin Hs. symmetry. eapply leaf_unique; [exact Ht|by rewrite Hl|exact Hs].
Qed.
(** Reachable stores, after any history: the same for their shards. *)
Theorem C13_reachable_one_home_shard : forall cfg s sel,
  reachable cfg s -> sel < 65536 ->
  In (route (st_root s) sel) (leaves (st_root s)) /\
  sh_start (route (st_root s) sel) <= sel < sh_end (route (st_root s) sel) /\
  forall sh, In sh (leaves (st_root s)) -> sh_start sh <= sel < sh_end sh -> sh = route (st_root s) sel.
Proof.
  intros cfg s sel Hr Hsel. apply reach_inv in Hr as (x & M & HI). destruct HI as (Hwf & Hrun).
  assert (tree_ok (st_root s) 0 16) as Ht by (by destruct Hrun).
  destruct (route_in (st_root s) 0 16 sel Ht) as [H1 H2]; [change (0 + 2 ^ N.of_nat 16) with 65536; lia|].
  split; [exact H1|]. split; [exact H2|]. intros sh Hin Hs. symmetry. by eapply leaf_unique.
Qed.
Example ex_binary_tree : binary_tree 0 16 [(0, 32768); (32768, 49152); (49152, 65536)].
Proof.
  apply (bt_split 0 15 [(0, 32768)] [(32768, 49152); (49152, 65536)]); [apply (bt_leaf 0 15)|].
  apply (bt_split 32768 14 [(32768, 49152)] [(49152, 65536)]); [apply (bt_leaf 32768 14)|apply (bt_leaf 49152 14)].
Qed.
Example ex_treeify_reach : reachable ex_cfg (after ex_cfg ex_split) /\ length (leaves (st_root (after ex_cfg ex_split))) = 2%nat.
Proof. split; [exact (proj1 (proj2 split_reach))|exact split_two_shards]. Qed.

(** ** C14 *)
(** A new store has 2^n shards of equal size, in order, covering all selectors exactly once;
    their number is the least power of two (at most 65536) whose shards have room for the
    expected keys, 29491 each. *)
Theorem C14_presplit_covers : forall cfg s,
  created cfg s ->
  exists n j, (n + j = 16)%nat /\
    map span_of (leaves (st_root s)) = map (fun i => (N.of_nat i * 2 ^ N.of_nat j, N.of_nat (S i) * 2 ^ N.of_nat j)) (seq 0 (2 ^ n)) /\
    (forall sel, sel < 65536 -> exists! sh, In sh (leaves (st_root s)) /\ sh_start sh <= sel < sh_end sh) /\
    c_expected cfg <= 2 ^ N.of_nat n * 29491 /\
    (n <> 0%nat -> 2 ^ N.of_nat (n - 1) * 29491 < c_expected cfg).
Proof.
  intros cfg s Hcr. assert (reachable cfg s) as Hr by (exists cfg, s, []; split; [done|constructor]).
  destruct Hcr as (Hc & w & w' & (Hf & _) & Ho).
  destruct (open_fresh_spans cfg w w' s) as (j & Hj & Hs & Hl); [intros a b; apply Hf|done|].
  exists (16 - j)%nat, j. split; [lia|]. split; [exact Hl|]. split.
  { intros sel Hsel. destruct (C13_reachable_one_home_shard cfg s sel Hr Hsel) as (H1 & H2 & H3).
    exists (route (st_root s) sel). split; [done|]. intros sh [Hin Hsh]. symmetry. by apply H3. }
  clear Hl Ho Hf. unfold cfg_ok, END_OF_SHARDS, EXPECTED_CAPACITY in Hc. unfold calc_step in Hs. unfold END_OF_SHARDS, EXPECTED_CAPACITY in Hs.
  set (n := c_expected cfg) in *. clearbody n. clear Hr s w w' cfg.
  assert (2 ^ N.of_nat (16 - j) * 2 ^ N.of_nat j = 65536) as HE.
  { rewrite <- N.pow_add_r. replace (N.of_nat (16 - j) + N.of_nat j) with 16 by lia. done. }
  destruct (N.leb_spec n 29491) as [Hn|Hn].
  - change (65536 =? 0) with false in Hs. cbn iota in Hs. change (N.log2 65536) with (N.of_nat 16) in Hs.
    assert (2 ^ N.of_nat 16 = 2 ^ N.of_nat j) as Hs' by congruence. apply pow2_inj in Hs'. subst j. cbn. split; [lia|done].
  - set (q := 65536 * 29491 / n) in *.
    assert (q * n <= 65536 * 29491) as Hq1 by (unfold q; rewrite N.mul_comm; apply N.mul_div_le; lia).
    assert (65536 * 29491 < (q + 1) * n) as Hq2.
    { pose proof (N.mul_succ_div_gt (65536 * 29491) n ltac:(lia)) as H. fold q in H. rewrite <- N.add_1_r in H. lia. }
    clearbody q. destruct (N.eqb_spec q 0) as [|Hq0]; [done|]. assert (2 ^ N.log2 q = 2 ^ N.of_nat j) as Hs' by congruence. clear Hs. rename Hs' into Hs. pose proof (N.log2_spec q ltac:(lia)) as [L1 L2]. rewrite N.pow_succ_r in L2 by lia. rewrite Hs in *.
    set (A := 2 ^ N.of_nat (16 - j)) in *. set (B := 2 ^ N.of_nat j) in *. split.
    + nia.
    + intros Hne.
      assert (A = 2 ^ N.of_nat (16 - j - 1) + 2 ^ N.of_nat (16 - j - 1)) as EA.
      { unfold A. replace (16 - j)%nat with (S (16 - j - 1)) at 1 by lia. apply pow2_succ. }
      set (A2 := 2 ^ N.of_nat (16 - j - 1)) in *. clearbody A A2 B. nia.
Qed.
(** Beyond 65536 * 29491 expected keys the code panics instead of creating the store. *)
Theorem C14_huge_expectation_refuted : exists cfg,
  forall w, fresh_dir w -> exists w', store_open cfg w = (w', Err EPanic).
Proof.
  exists (Config (siphash128 seed_aabbccdd) 1000 300 1932722177 16 true false). intros w (H1 & H2 & H3).
  apply open_fresh_panics; [intros a b; apply H1|split; [exact H2|exact H3]|]. by vm_compute.
Qed.
Example ex_presplit : exists s, created (Config (siphash128 seed_aabbccdd) 1000 300 100000 16 true false) s /\
  map span_of (leaves (st_root s)) = [(0, 16384); (16384, 32768); (32768, 49152); (49152, 65536)].
Proof.
  exists (new_store (Config (siphash128 seed_aabbccdd) 1000 300 100000 16 true false)). split; [by apply new_created|].
  by vm_cast_no_check (eq_refl [(0, 16384); (16384, 32768); (32768, 49152); (49152, 65536)]).
Qed.

(** ** C38 *)
(** [h1], [h2]: the two 64-bit halves of the SipHash of the key. *)
Theorem C38_hash_layout : forall cfg k h1 h2,
  c_hash cfg k = (h1, h2) ->
  let ph := hashk cfg k in
  ph < 2 ^ 64 /\
  ph_selector ph = (h1 / 2 ^ 48) mod 2 ^ 16 /\ ph_selector ph < 65536 /\
  ph_row ph = N.to_nat ((h1 / 2 ^ 32) mod 2 ^ 16 mod 64) /\ (ph_row ph < 64)%nat /\
  ph_sig ph < 2 ^ 32 /\ ph_sig ph <> INVALID_SIG /\
  (h1 mod 2 ^ 32 <> 0 -> ph_sig ph = h1 mod 2 ^ 32) /\
  (h1 mod 2 ^ 32 = 0 -> h2 mod 2 ^ 32 <> 0 -> ph_sig ph = h2 mod 2 ^ 32).
Proof.
  intros cfg k h1 h2 Hh ph. assert (ph = from_hash (h1, h2)) as Ep.
  { unfold ph. Transparent hashk. unfold hashk. Opaque hashk. by rewrite Hh. }
  destruct (from_hash_fields h1 h2) as (F1 & F2 & F3 & F4). rewrite <- Ep in *.
  split; [exact F4|]. split; [exact F1|]. split; [apply hashk_sel|]. split; [exact F2|]. split; [apply ph_row_lt|].
  pose proof (sig_of_hash_bounds h1 h2) as [B1 B2]. rewrite F3. split; [exact B2|]. split; [unfold INVALID_SIG; lia|].
  unfold sig_of_hash. split.
  - intros Hn. by destruct (N.eqb_spec (h1 mod 2 ^ 32) 0).
  - intros -> Hn. rewrite N.eqb_refl. by destruct (N.eqb_spec (h2 mod 2 ^ 32) 0).
Qed.
Example ex_hash : hashk ex_cfg hello_world = 13445180190757400308 /\ ph_selector (hashk ex_cfg hello_world) = 47766 /\ ph_row (hashk ex_cfg hello_world) = 37%nat.
Proof.
  Transparent hashk.
  split; [vm_cast_no_check (eq_refl 13445180190757400308)|]. split; [vm_cast_no_check (eq_refl 47766)|vm_cast_no_check (eq_refl 37%nat)].
  Opaque hashk.
Qed.

(** ** C39 *)
(** Every admissible entry (key up to 16383 bytes with its suffix, value up to 65535, offset
    below 2^32) fits in 64 bits and is read back exactly. *)
Theorem C39_descriptor_roundtrip : forall klen vlen off,
  klen <= MAX_TOTAL_KEY_SIZE -> vlen <= MAX_TOTAL_VALUE_SIZE -> off < 2 ^ 32 ->
  pack_desc klen vlen off < 2 ^ 64 /\
  desc_klen (pack_desc klen vlen off) = klen /\
  desc_vlen (pack_desc klen vlen off) = vlen /\
  desc_off (pack_desc klen vlen off) = off.
Proof.
  intros kl vl off Hk Hv Ho. unfold MAX_TOTAL_KEY_SIZE in Hk. unfold MAX_TOTAL_VALUE_SIZE in Hv.
  destruct (pack_desc_fields kl vl off) as (E1 & E2 & E3); [change (2 ^ 16) with 65536; lia|done|].
  split; [|done]. unfold desc_klen in E1. rewrite N.shiftr_div_pow2 in E1.
  pose proof (N.mul_succ_div_gt (pack_desc kl vl off) (2 ^ 48) ltac:(done)) as H. rewrite E1 in H.
  change (2 ^ 48) with 281474976710656 in H. change (2 ^ 64) with 18446744073709551616. lia.
Qed.
(** With an offset beyond 4 GiB the value length read back is wrong: the reason for the file
    size conditions of Limits.v. *)
Theorem C39_large_offset_corrupts : exists klen vlen off,
  klen <= MAX_TOTAL_KEY_SIZE /\ vlen <= MAX_TOTAL_VALUE_SIZE /\ desc_vlen (pack_desc klen vlen off) <> vlen.
Proof. exists 5, 6, (2 ^ 32 + 7). split; [by vm_compute|]. split; [by vm_compute|]. by vm_compute. Qed.
Example ex_desc : desc_klen (pack_desc 16383 65535 4294967295) = 16383.
Proof. by vm_compute. Qed.

(** ** C40 *)
(** With a setting of at most 2^31: the number of locks is a power of two, at least 4 and at
    least the setting, and the lock of a list (a function of its key) is one of them; all locks
    are used. *)
Theorem C40_lock_in_range : forall cfg,
  c_list_ops cfg <= 2 ^ 31 ->
  exists n j, num_keyed_locks cfg = Ok n /\ n = 2 ^ j /\ 4 <= n /\ c_list_ops cfg <= n /\ n <= N.max 4 (2 * c_list_ops cfg) /\
    (forall lk, lock_idx cfg (hashk cfg lk) < n) /\
    (forall i, i < n -> exists ph, lock_idx cfg ph = i).
Proof.
  intros cfg Hc. set (m := N.max (c_list_ops cfg) 4). assert (4 <= m <= 2 ^ 31) as Hm by (unfold m; lia).
  pose proof (N.log2_spec m ltac:(lia)) as [L1 L2]. rewrite N.pow_succ_r in L2 by lia.
  assert (exists n j, num_keyed_locks cfg = Ok n /\ n = 2 ^ j /\ m <= n /\ n <= 2 * m /\ (n = m \/ m < n) /\ j <= 31 /\ (m = 4 -> n = 4)) as (n & j & E & -> & H1 & H2 & H3 & H4 & H5).
  { unfold num_keyed_locks. fold m. unfold is_pow2. destruct (N.eqb_spec m 0) as [|_]; [lia|]. cbn [negb andb].
    destruct (N.eqb_spec (2 ^ N.log2 m) m) as [Ep|Ep].
    - exists m, (N.log2 m). split; [done|]. split; [done|]. split; [lia|]. split; [lia|]. split; [auto|]. split; [|done].
      change 31 with (N.log2 (2 ^ 31)). apply N.log2_le_mono. lia.
    - assert (N.log2 m < 31) as Hl.
      { assert (N.log2 m <= 31) as Hl by (change 31 with (N.log2 (2 ^ 31)); apply N.log2_le_mono; lia).
        destruct (N.eq_dec (N.log2 m) 31) as [El|]; [|lia]. rewrite El in *. lia. }
      destruct (N.leb_spec 32 (N.log2 m + 1)) as [|_]; [lia|].
      exists (2 ^ (N.log2 m + 1)), (N.log2 m + 1). split; [done|]. split; [done|]. rewrite N.add_1_r, N.pow_succ_r by lia.
      split; [lia|]. split; [lia|]. split; [right; lia|]. split; [lia|]. intros E4. rewrite E4 in Ep. done. }
  assert (forall x, N.land x (2 ^ j - 1) = x mod 2 ^ j) as Hland.
  { intros x. rewrite <- N.pred_sub, <- N.ones_equiv. apply N.land_ones. }
  exists (2 ^ j), j. split; [exact E|]. split; [done|]. split; [lia|]. split; [unfold m in *; lia|]. split.
  { unfold m in *. destruct (N.le_gt_cases (c_list_ops cfg) 4) as [Hx|Hx]; [rewrite H5 by lia; lia|lia]. }
  assert (0 < 2 ^ j) as Hp by (apply N.neq_0_lt_0, N.pow_nonzero; lia). split.
  - intros lk. unfold lock_idx. rewrite E, Hland. apply N.mod_upper_bound. lia.
  - intros i Hi. exists i. unfold lock_idx. rewrite E, Hland.
    assert (2 ^ j <= 2 ^ 31) as Hj by (apply N.pow_le_mono_r; lia).
    assert (ph_sig i = i) as ->.
    { unfold ph_sig. rewrite Bits.land32. apply N.mod_small. change (2 ^ 32) with 4294967296. change (2 ^ 31) with 2147483648 in Hj. lia. }
    by apply N.mod_small.
Qed.
(** A larger setting overflows (1 << 32 on a u32). *)
Theorem C40_lock_count_refuted : forall cfg, 2 ^ 31 < c_list_ops cfg < 2 ^ 32 -> num_keyed_locks cfg = Err EPanic.
Proof.
  intros cfg Hc. unfold num_keyed_locks. replace (N.max (c_list_ops cfg) 4) with (c_list_ops cfg) by lia.
  assert (N.log2 (c_list_ops cfg) = 31) as El by (apply N.log2_unique; lia).
  unfold is_pow2. rewrite El. destruct (N.eqb_spec (c_list_ops cfg) 0); [lia|]. destruct (N.eqb_spec (2 ^ 31) (c_list_ops cfg)); [lia|]. done.
Qed.
Example ex_locks : num_keyed_locks (Config (siphash128 seed_aabbccdd) 1000 300 0 9 true false) = Ok 16.
Proof. by vm_compute. Qed.

(** ** C41 *)
(** A shard file that open would use, with a wrong magic, version or size, makes open fail and
    is left as it is. *)
Theorem C41_bad_shard_refused : forall cfg w a b i f,
  wf_dir w -> fs_dir w !! FShard a b = Some i -> fs_files w !! i = Some f -> bad_file f -> maximal w a b ->
  c_clear_bad cfg = false ->
  exists w' e, store_open cfg w = (w', Err e) /\ fs_dir w' !! FShard a b = Some i /\ fs_files w' !! i = Some f.
Proof. exact open_bad. Qed.
(** With clear_on_unsupported_version its shard starts empty. *)
Theorem C41_bad_shard_cleared : forall cfg w w' s a b i f,
  wf_dir w -> fs_dir w !! FShard a b = Some i -> fs_files w !! i = Some f -> bad_file f -> maximal w a b ->
  c_clear_bad cfg = true -> fs_dir w !! FCompact a b = None -> store_open cfg w = (w', Ok s) ->
  exists sh, In sh (leaves (st_root s)) /\ span_of sh = (a, b) /\
    forall k, route (st_root s) (ph_selector (hashk cfg k)) = sh -> get_raw cfg s k = Ok None.
Proof. exact open_clear. Qed.
Definition ex_foreign : file := File 500000 (replicate 8 x41) 3 0 0 0 0 64 (f_rows file_empty) ∅.
(** A directory with a usable shard next to a foreign one: the hypotheses of the two theorems. *)
Definition ex_bad_dir : fs :=
  Fs (<[FShard 0 32768 := 0]> (<[FShard 32768 65536 := 1]> ∅)) (<[0 := ex_file]> (<[1 := ex_foreign]> ∅)) 5.
Example ex_bad : wf_dir ex_bad_dir /\ fs_dir ex_bad_dir !! FShard 32768 65536 = Some 1 /\ fs_files ex_bad_dir !! 1 = Some ex_foreign /\
  bad_file ex_foreign /\ maximal ex_bad_dir 32768 65536 /\ fs_dir ex_bad_dir !! FCompact 32768 65536 = None.
Proof.
  split; [|split; [done|split; [done|split; [split; [done|left; done]|split; [|done]]]]].
  - split.
    + intros a b i Ha Hb. unfold ex_bad_dir in *. cbn in Ha, Hb.
      repeat (apply lookup_insert_Some in Ha as [[<- <-]|[_ Ha]]; [repeat (apply lookup_insert_Some in Hb as [[<- Hb]|[_ Hb]]; [done|]); by apply lookup_empty_Some in Hb|]).
      by apply lookup_empty_Some in Ha.
    + intros a i Ha. unfold ex_bad_dir in Ha. cbn in Ha.
      repeat (apply lookup_insert_Some in Ha as [[<- <-]|[_ Ha]]; [split; [by eexists|done]|]). by apply lookup_empty_Some in Ha.
  - intros c d [i Hi] Hc Hd. unfold ex_bad_dir in Hi. cbn [fs_dir] in Hi.
    apply lookup_insert_Some in Hi as [[E _]|[_ Hi]]; [assert (d = 32768) by congruence; lia|].
    apply lookup_insert_Some in Hi as [[E _]|[_ Hi]]; [congruence|]. by apply lookup_empty_Some in Hi.
Qed.
(** A "compact_" file next to a good shard is never checked: with a foreign magic and version it
    is taken over silently and the data in it are served. *)
Definition ex_foreign_compact : file :=
  match fs_files (st_fs (after ex_cfg [xset 1 5 7])) !! 0 with
  | Some f => File (f_len f) (replicate 8 x41) 3 0 (f_woff f) (f_ins f) 0 64 (f_rows f) (f_data f)
  | None => ex_foreign
  end.
Definition ex_compact_dir : fs :=
  Fs (<[FShard 0 65536 := 0]> (<[FCompact 0 65536 := 1]> ∅)) (<[0 := ex_file]> (<[1 := ex_foreign_compact]> ∅)) 5.
Definition opened (cfg : config) (w : fs) : option store := match store_open cfg w with (_, Ok s) => Some s | _ => None end.
Theorem C41_foreign_compaction_file_refuted : exists cfg w f s k v,
  c_clear_bad cfg = false /\ fs_dir w !! FCompact 0 65536 = Some 1 /\ fs_files w !! 1 = Some f /\ bad_file f /\
  snd (store_open cfg w) = Ok s /\ get cfg s k = Ok (Some v).
Proof.
  assert (match opened ex_cfg ex_compact_dir with
          | Some s => match get ex_cfg s (xkey 1) with Ok (Some v) => bool_decide (v = xval 5 7) | _ => false end
          | None => false end = true) as H by (vm_cast_no_check (eq_refl true)).
  assert (f_len ex_foreign_compact =? 0 = false) as H1 by (vm_cast_no_check (eq_refl false)).
  assert (bool_decide (f_magic ex_foreign_compact = SHARD_FILE_MAGIC) = false) as H2 by (vm_cast_no_check (eq_refl false)).
  exists ex_cfg, ex_compact_dir, ex_foreign_compact. unfold opened in H. set (o := store_open ex_cfg ex_compact_dir) in *. clearbody o.
  destruct o as [w' [s|e]]; [|congruence]. set (g := get ex_cfg s (xkey 1)) in *. assert (Eg : g = get ex_cfg s (xkey 1)) by reflexivity. clearbody g.
  destruct g as [[v|]|e]; [|congruence|congruence].
  exists s, (xkey 1), v. split; [reflexivity|]. split; [reflexivity|]. split; [reflexivity|]. split; [|split; [reflexivity|symmetry; exact Eg]].
  split; [exact (proj1 (N.eqb_neq _ _) H1)|left; exact (proj1 (bool_decide_eq_false _) H2)].
Qed.

(** ** C43 *)
(** After any history of splits, compactions, inserted entries, [stats] calls and [clear] calls,
    a [stats] call reports: the numbers of splits and compactions since the last [clear]; the
    last eight of each since the last [stats] or [clear] call, oldest first; and the histogram
    of the sizes of all entries inserted since the last [clear]. *)
Theorem C43_stats_report : forall os, exists r,
  snd (istep (irun os) IStatsCall) = Some r /\
  rp_nsplit r = len (splits (since is_clear os)) /\ rp_ncomp r = len (compactions (since is_clear os)) /\
  rp_split r = last_n 8 (splits (since is_query os)) /\ rp_comp r = last_n 8 (compactions (since is_query os)) /\
  hist_of (entries (since is_clear os)) (rp_hist r).
Proof.
  intros os. destruct (iinv_run os) as (H1 & H2 & H3 & H4 & H5). destruct (irun os) as [ns nc rs rc h]. cbn in H1, H2, H3, H4, H5.
  eexists. split; [reflexivity|]. cbn [rp_nsplit rp_ncomp rp_split rp_comp rp_hist].
  split; [done|]. split; [done|]. split; [by apply ring_iter_ok|]. split; [by apply ring_iter_ok|done].
Qed.
Example ex_stats :
  snd (istep (irun ([ISplit (9, 9, 9); IStatsCall] ++ map (fun i => ICompaction (N.of_nat i, 0, 0)) (seq 0 10) ++ [IEntry 127; IEntry 128; IEntry 40000])) IStatsCall) =
  Some (Report 1 10 [] (map (fun i => (N.of_nat i, 0, 0)) (seq 2 8)) (Hist5 1 1 0 0 1 3 40255)).
Proof. reflexivity. Qed.

(** ** C44 *)
(** The name of a shard file is read back as the span it was made from; the temporary names are
    recognised as leftovers; a compaction target is left for its shard to pick up. *)
Theorem C44_shard_names_read_back : forall s e, s < 2 ^ 32 -> e < 2 ^ 32 ->
  classify (span_name s_shard s e) = NShard s e /\
  classify (span_name s_bottom s e) = NDelete /\ classify (span_name s_top s e) = NDelete /\
  classify (span_name s_merge s e) = NDelete /\ classify (span_name s_compact s e) = NIgnore.
Proof.
  intros s e Hs He. split; [by apply classify_shard|]. split; [by apply classify_temp; auto|]. split; [by apply classify_temp; auto|].
  split; [by apply classify_temp; auto|apply classify_compact].
Qed.
(** Different purposes or spans never share a file name. *)
Definition span_fits (n : fname) : Prop :=
  match n with
  | FShard s e | FCompact s e | FBottom s e | FTop s e | FMerge s e => s < 2 ^ 32 /\ e < 2 ^ 32
  | FOther _ => True
  end.
Theorem C44_names_distinct : forall n n' str,
  span_fits n -> span_fits n' -> name_string n = Some str -> name_string n' = Some str -> n = n'.
Proof.
  intros n n' str H H'. apply name_string_inj.
  - intros s e [-> |[-> |[-> |[-> | ->]]]]; exact H.
  - intros s e [-> |[-> |[-> |[-> | ->]]]]; exact H'.
Qed.
(** Other strings can denote the same span: "shard_0-10000" is taken for the span of
    "shard_0000-10000". *)
Theorem C44_noncanonical_name_refuted : exists str s e,
  classify str = NShard s e /\ str <> span_name s_shard s e.
Proof. exists (s_shard ++ [x30; x2d; x31; x30; x30; x30; x30]), 0, 65536. split; [reflexivity|]. by vm_compute. Qed.
Example ex_name : span_name s_shard 32768 65536 =
  [x73;x68;x61;x72;x64;x5f;x38;x30;x30;x30;x2d;x31;x30;x30;x30;x30]. (* shard_8000-10000 *)
Proof. reflexivity. Qed.
