(** C65: the figures derived from [stats()]: total size, average entry size, number of shards that
    are needed, and the advice to merge. *)
From Verif Require Import Base SipHash Hashing HashingProofs Fs Shard Router RouterPure Wpc Spec FileRep RowOps
  Compact Inv ShardOps Split Insert Open Merge Create Store Limits StoreRefine Kv Lists Queues Api Hist KvSpec
  HistInv KeySpace PlainSpec Plain Check MergeShape ThmStore ThmMerge ExStore.

(** ** The code *)
(** [Stats::total_occupied_bytes], stats.rs:47-49. *)
Definition total_occupied_bytes (t : stats) : N := t_shards t * HEADER_SIZE + t_occupied t.
(** [Stats::average_entry_size], stats.rs:53-57. *)
Definition average_entry_size (t : stats) : res N :=
  dor d <- data_bytes t; dor n <- num_entries t; Ok (if n =? 0 then 0 else d / n).
(** [Stats::required_num_shards], stats.rs:59-61; the cast from u32 to usize loses nothing. *)
Definition required_num_shards (t : stats) : res N := dor n <- num_entries t; calc_num_shards n.
(** [Stats::should_merge_small_shards], stats.rs:62-64. *)
Definition should_merge_small_shards (t : stats) : res bool :=
  dor j <- required_num_shards t; Ok (j * 2 <? t_shards t).

(** ** The number of shards is the least sufficient power of two *)
Definition least_shards (n k : N) : Prop :=
  n <= 2 ^ k * EXPECTED_CAPACITY /\ forall i, n <= 2 ^ i * EXPECTED_CAPACITY -> k <= i.
Lemma ok_inj {A : Type} (x y : A) : Ok x = Ok y -> x = y.
Proof. by intros [=]. Qed.
Lemma calc_num_least n : n <= END_OF_SHARDS * EXPECTED_CAPACITY ->
  exists k, calc_num_shards n = Ok (2 ^ k) /\ least_shards n k.
Proof.
  intros Hn. destruct (calc_step_spec n Hn) as (j & Hj & Es).
  assert (END_OF_SHARDS / 2 ^ N.of_nat j = 2 ^ (16 - N.of_nat j)) as Eq.
  { change END_OF_SHARDS with (2 ^ 16). replace 16 with (16 - N.of_nat j + N.of_nat j) at 1 by lia.
    rewrite N.pow_add_r. apply N.div_mul, N.pow_nonzero. done. }
  assert (calc_num_shards n = Ok (2 ^ (16 - N.of_nat j))) as Ec.
  { unfold calc_num_shards. rewrite Es. cbn [rbind]. by rewrite Eq. }
  exists (16 - N.of_nat j). split; [done|]. split; [by apply calc_num_enough in Ec as [? _]|].
  intros i Hi. destruct (N.le_gt_cases (16 - N.of_nat j) i) as [|Hlt]; [done|exfalso].
  unfold calc_step in Es. destruct (N.leb_spec n EXPECTED_CAPACITY) as [H1|H1].
  - change (END_OF_SHARDS =? 0) with false in Es. cbv iota in Es. change (2 ^ N.log2 END_OF_SHARDS) with (2 ^ N.of_nat 16) in Es.
    apply ok_inj in Es. apply pow2_inj in Es. subst j. lia.
  - set (q := END_OF_SHARDS * EXPECTED_CAPACITY / n) in Es. destruct (N.eqb_spec q 0) as [|Hq]; [done|].
    apply ok_inj in Es. replace (N.log2 q) with (N.of_nat (N.to_nat (N.log2 q))) in Es by lia.
    apply pow2_inj in Es.
    assert (2 ^ (16 - i) <= q) as Hge.
    { subst q. unfold EXPECTED_CAPACITY in *. apply N.div_le_lower_bound; [lia|].
      change END_OF_SHARDS with (2 ^ 16). replace 16 with (16 - i + i) at 2 by lia. rewrite N.pow_add_r. nia. }
    apply N.log2_le_mono in Hge. rewrite N.log2_pow2 in Hge by lia. lia.
Qed.

(** ** C65 *)
(** A store that was never interrupted holds [m]. [total_occupied_bytes] is the header of each
    shard, the bytes of all entries and the wasted bytes; [average_entry_size] is the average of
    the entries' sizes, rounded down, and 0 for an empty store; [required_num_shards] is the least
    power of two that has room for all keys, and merging is advised when there are more than twice
    that many shards. *)
Theorem C65_derived_statistics : forall cfg s m,
  reachable_clean cfg s -> content cfg s m ->
  exists s' t, store_stats cfg s = (s', Ok t) /\ t_shards t = len (shards s') /\
    total_occupied_bytes t = len (shards s') * HEADER_SIZE + total (map_to_list m) + t_wasted t /\
    (m = ∅ -> average_entry_size t = Ok 0) /\
    (m <> ∅ -> exists a, average_entry_size t = Ok a /\
       a * N.of_nat (size m) <= total (map_to_list m) < (a + 1) * N.of_nat (size m)) /\
    (N.of_nat (size m) <= END_OF_SHARDS * EXPECTED_CAPACITY ->
       exists k, required_num_shards t = Ok (2 ^ k) /\ least_shards (N.of_nat (size m)) k /\
         should_merge_small_shards t = Ok (2 * 2 ^ k <? len (shards s'))).
Proof.
  intros cfg s m Hr Hm. destruct (C21_statistics_exact cfg s Hr) as (M & s' & t & HM & Et & H1 & H2 & H3 & H4).
  assert (M = m) as -> by (by eapply content_unique).
  exists s', t. rewrite shards_len. split; [done|]. split; [done|]. split; [|split; [|split]].
  - unfold total_occupied_bytes. rewrite H4, H3. lia.
  - intros ->. unfold average_entry_size. by rewrite H1, H2.
  - intros Hne. unfold average_entry_size. rewrite H1, H2. cbn [rbind].
    assert (size m <> 0%nat) as Hs by (by apply map_size_non_empty_iff).
    destruct (N.eqb_spec (N.of_nat (size m)) 0) as [|_]; [lia|]. eexists. split; [reflexivity|].
    set (d := total _). set (n := N.of_nat (size m)) in *. assert (n <> 0) as Hn by lia.
    pose proof (N.div_mod d n Hn). pose proof (N.mod_lt d n Hn). nia.
  - intros Hs. destruct (calc_num_least _ Hs) as (k & Ek & Hk). exists k.
    assert (required_num_shards t = Ok (2 ^ k)) as Er by (unfold required_num_shards; by rewrite H1).
    split; [done|]. split; [done|]. unfold should_merge_small_shards. rewrite Er. cbn [rbind]. by rewrite H4, N.mul_comm.
Qed.

Lemma stats_eta cfg s (f : stats -> bool) :
  match store_stats cfg s with (_, Ok t) => f t | _ => false end = true ->
  exists s' t, store_stats cfg s = (s', Ok t) /\ f t = true.
Proof. destruct (store_stats cfg s) as [s' [t|e]]; [|done]. eauto. Qed.
Definition is_n (r : res N) (n : N) : bool := match r with Ok x => x =? n | _ => false end.
Lemma is_n_ok r n : is_n r n = true -> r = Ok n.
Proof. destruct r as [x|e]; [|done]. cbn. intros H%N.eqb_eq. by subst. Qed.
Definition is_b (r : res bool) : bool := match r with Ok x => x | _ => false end.
Lemma is_b_ok r : is_b r = true -> r = Ok true.
Proof. destruct r as [[]|e]; done. Qed.
Definition some_key (m : kvmap) : bool := (0 <? size m)%nat.
Lemma some_key_ok m : some_key m = true -> m <> ∅.
Proof. intros H ->. done. Qed.
(** Two shards, one key. *)
Example C65_example : exists cfg s m s' t,
  reachable_clean cfg s /\ content cfg s m /\ m <> ∅ /\ store_stats cfg s = (s', Ok t) /\
  t_shards t = 2 /\ required_num_shards t = Ok 1 /\ average_entry_size t = Ok 404 /\ 0 < t_wasted t.
Proof.
  destruct (rewrites_reach 3) as (H & _ & HI); [by vm_cast_no_check (eq_refl true)|by vm_cast_no_check (eq_refl true)|].
  assert (some_key (after_map ex_cfg2 (rewrites 3)) = true) as Hk by (by vm_cast_no_check (eq_refl true)).
  apply some_key_ok in Hk.
  assert (match store_stats ex_cfg2 (after ex_cfg2 (rewrites 3)) with (_, Ok t) =>
    (t_shards t =? 2) && is_n (required_num_shards t) 1 && is_n (average_entry_size t) 404 && (0 <? t_wasted t) | _ => false end = true) as E
    by (by vm_cast_no_check (eq_refl true)).
  apply (stats_eta ex_cfg2 (after ex_cfg2 (rewrites 3)) (fun t => (t_shards t =? 2) && is_n (required_num_shards t) 1 && is_n (average_entry_size t) 404 && (0 <? t_wasted t))) in E.
  revert H HI Hk E. generalize (after ex_cfg2 (rewrites 3)) (after_map ex_cfg2 (rewrites 3)). intros s m H HI Hk (s' & t & E1 & E2).
  apply andb_prop in E2 as [E2 E5]. apply andb_prop in E2 as [E2 E4]. apply andb_prop in E2 as [E2 E3].
  exists ex_cfg2, s, m, s', t. split; [exact H|]. split; [by eapply SInv_content|]. split; [exact Hk|]. split; [exact E1|].
  split; [by apply N.eqb_eq|]. split; [by apply is_n_ok|]. split; [by apply is_n_ok|]. by apply N.ltb_lt.
Qed.

(** The advice is not what [merge_small_shards] goes by: a store with room for the configured
    number of keys advises merging, and [merge_small_shards] does nothing, whatever [max_fill]. *)
Definition roomy_cfg : config := Config (siphash128 seed_aabbccdd) 1000 300 80000 16 true false.
Theorem C65_advice_refuted : exists cfg s s' t,
  created cfg s /\ store_stats cfg s = (s', Ok t) /\ should_merge_small_shards t = Ok true /\
  len (shards s) = 4 /\
  (forall max_fill, exists s2, store_merge cfg s max_fill = (s2, Ok false) /\ shards s2 = shards s /\
     exists s3 t3, store_stats cfg s2 = (s3, Ok t3) /\ should_merge_small_shards t3 = Ok true).
Proof.
  assert (cfg_ok roomy_cfg) as Hc by (by vm_compute).
  pose proof (new_created roomy_cfg Hc) as Hn.
  assert (match store_stats roomy_cfg (new_store roomy_cfg) with (_, Ok t) => is_b (should_merge_small_shards t) | _ => false end = true) as E
    by (by vm_cast_no_check (eq_refl true)).
  apply (stats_eta roomy_cfg (new_store roomy_cfg) (fun t => is_b (should_merge_small_shards t))) in E as (s' & t & E1 & E2).
  exists roomy_cfg, (new_store roomy_cfg), s', t. split; [exact Hn|]. split; [exact E1|]. split; [by apply is_b_ok|].
  clear Hn E1. split; [apply N.eqb_eq; by vm_cast_no_check (eq_refl true)|]. intros mf.
  assert (snd (store_merge roomy_cfg (new_store roomy_cfg) mf) = Ok false) as M1 by (by vm_cast_no_check (eq_refl (@Ok bool false))).
  assert (shards (fst (store_merge roomy_cfg (new_store roomy_cfg) mf)) = shards (new_store roomy_cfg)) as M2
    by (vm_cast_no_check (eq_refl (shards (new_store roomy_cfg)))).
  assert (match store_stats roomy_cfg (fst (store_merge roomy_cfg (new_store roomy_cfg) mf)) with (_, Ok t) => is_b (should_merge_small_shards t) | _ => false end = true) as M3
    by (by vm_cast_no_check (eq_refl true)).
  revert M1 M2 M3. generalize (shards (new_store roomy_cfg)). destruct (store_merge roomy_cfg (new_store roomy_cfg) mf) as [s2 r].
  cbn [fst snd]. intros l -> Hl M3. exists s2. split; [reflexivity|]. split; [exact Hl|].
  apply (stats_eta roomy_cfg s2 (fun t => is_b (should_merge_small_shards t))) in M3 as (s3 & t3 & E3 & E4).
  exists s3, t3. split; [exact E3|]. by apply is_b_ok.
Qed.
(** After a crash the derived figures may panic. *)
Theorem C65_after_crash_refuted : exists cfg s s' t,
  reachable cfg s /\ store_stats cfg s = (s', Ok t) /\ average_entry_size t = Err EPanic /\
  required_num_shards t = Err EPanic /\ should_merge_small_shards t = Err EPanic.
Proof.
  destruct C22_num_entries_refuted as (cfg0 & s0 & es & cfg & s & s' & t & H1 & H2 & _ & H3 & H4).
  assert (reachable cfg s) as Hr by (by exists cfg0, s0, es).
  exists cfg, s, s', t. split; [done|]. split; [done|].
  destruct (C22_bytes_meaningful_partial cfg s Hr) as (s1 & t1 & n & E1 & E2 & _).
  assert (t1 = t) as -> by congruence.
  unfold average_entry_size, should_merge_small_shards, required_num_shards. by rewrite H4, E2.
Qed.
