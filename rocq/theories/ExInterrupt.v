(** C11: concrete crashes during [clear]. *)
From Verif Require Import Base SipHash Hashing HashingProofs Fs Shard Router RouterPure Wpc Spec FileRep RowOps
  Compact Inv ShardOps Split Insert Open Merge Create Store Limits StoreRefine Kv Lists Queues Api Hist KvSpec
  HistInv KeySpace PlainSpec Plain Check ThmStore Races ThmInterrupt ExStore.

(** A directory listing with the names chosen by [P] first. *)
Definition first (P : fname -> bool) (l : list fname) : list fname := List.filter P l ++ List.filter (fun n => negb (P n)) l.
Lemma first_perm P l : first P l ≡ₚ l.
Proof.
  unfold first. induction l as [|n l IH]; [done|]. cbn. destruct (P n); cbn; [by rewrite IH|].
  rewrite <- Permutation_middle. by rewrite IH.
Qed.

(** Four shards. *)
Definition ex_cfg_four : config := Config (siphash128 seed_aabbccdd) 1000 300 100000 16 true false.
Definition four_script : list cmd := fill 8.
Definition middle (n : fname) : bool := match n with FShard a _ => (a =? 16384) || (a =? 32768) | _ => false end.
Definition four_crash : fs := crash_at 3 (clear_in (first middle) ex_cfg_four) (st_fs (after ex_cfg_four four_script)).
Definition four_after : store := match store_open ex_cfg_four four_crash with (_, Ok s) => s | _ => new_store ex_cfg_four end.
Lemma first_id P : forall l, first P l ≡ₚ l.
Proof. intros l. apply first_perm. Qed.
Lemma four_reach : reachable_clean ex_cfg_four (after ex_cfg_four four_script) /\ reachable ex_cfg_four (after ex_cfg_four four_script) /\
  SInv ex_cfg_four true (after_map ex_cfg_four four_script) (after ex_cfg_four four_script).
Proof. apply after_reach; [by vm_compute|done|by vm_cast_no_check (eq_refl true)]. Qed.
Definition calm_b (s : store) : bool := match compacting s with [] => true | _ => false end.
Lemma calm_ok s : calm_b s = true -> compacting s = [].
Proof. unfold calm_b. by destruct (compacting s). Qed.
Definition finds_b (cfg : config) (s : store) (k : N) (v : option bytes) : bool :=
  match get cfg s (xkey k) with Ok y => bool_decide (y = v) | Err _ => false end.
Lemma finds_ok cfg s k v : finds_b cfg s k v = true -> get cfg s (xkey k) = Ok v.
Proof. unfold finds_b. destruct (get cfg s (xkey k)) as [y|]; [|done]. intros H%bool_decide_eq_true. by subst. Qed.

(** The process dies while [clear] deletes the files: the two shards in the middle are gone. [open]
    succeeds nevertheless (nothing checks that the shards cover all keys), and some of the
    entries are still there, the others not. *)
Theorem C11_part_of_the_entries_refuted : exists s ord n w' s',
  reachable_clean ex_cfg_four s /\ compacting s = [] /\ (forall l, ord l ≡ₚ l) /\
  store_open ex_cfg_four (crash_at n (clear_in ord ex_cfg_four) (st_fs s)) = (w', Ok s') /\
  get ex_cfg_four s' (xkey 1) = get ex_cfg_four s (xkey 1) /\ get ex_cfg_four s (xkey 1) = Ok (Some (xval 96 1)) /\
  get ex_cfg_four s' (xkey 0) = Ok None /\ get ex_cfg_four s (xkey 0) = Ok (Some (xval 96 0)).
Proof.
  exists (after ex_cfg_four four_script), (first middle), 3%nat.
  destruct (open_eta ex_cfg_four four_crash) with (s := four_after) as [w' E]; [by vm_cast_no_check (eq_refl true)|reflexivity|].
  exists w', four_after.
  split; [exact (proj1 four_reach)|]. split; [apply calm_ok; by vm_cast_no_check (eq_refl true)|].
  split; [apply first_id|]. split; [exact E|]. clear E.
  assert (get ex_cfg_four (after ex_cfg_four four_script) (xkey 1) = Ok (Some (xval 96 1))) as E1
    by (apply finds_ok; by vm_cast_no_check (eq_refl true)).
  split; [|split; [exact E1|split; apply finds_ok; by vm_cast_no_check (eq_refl true)]].
  rewrite E1. apply finds_ok. by vm_cast_no_check (eq_refl true).
Qed.
(** The hypotheses of the positive theorem are met by this crash; another process dies while it opens
    the directory, before that. *)
Example clear_crash_case :
  let s := after ex_cfg_four four_script in
  reachable ex_cfg_four s /\ compacting s = [] /\
  exists w w' s', attempts ex_cfg_four (crash_at 3 (clear_in (first middle) ex_cfg_four) (st_fs s)) w /\
    store_open ex_cfg_four w = (w', Ok s') /\ get ex_cfg_four s' (xkey 1) = Ok (Some (xval 96 1)).
Proof.
  cbn zeta. split; [exact (proj1 (proj2 four_reach))|]. split; [apply calm_ok; by vm_cast_no_check (eq_refl true)|].
  set (w := crash_at 5 (router_new ex_cfg_four) four_crash).
  set (s' := match store_open ex_cfg_four w with (_, Ok s) => s | _ => new_store ex_cfg_four end).
  destruct (open_eta ex_cfg_four w) with (s := s') as [w' E]; [by vm_cast_no_check (eq_refl true)|reflexivity|].
  exists w, w', s'. split; [eapply At_dies, At_none|]. split; [exact E|]. clear E.
  apply finds_ok. by vm_cast_no_check (eq_refl true).
Qed.
(** ... and those of the theorem about creation: the first process dies just after it has made the files. *)
Example creation_crash_case : exists w w' s', fresh_dir fs_empty /\ attempts ex_cfg_four fs_empty w /\
  store_open ex_cfg_four w = (w', Ok s') /\ w <> fs_empty.
Proof.
  set (w := crash_at 200 (router_new ex_cfg_four) fs_empty).
  set (s' := match store_open ex_cfg_four w with (_, Ok s) => s | _ => new_store ex_cfg_four end).
  destruct (open_eta ex_cfg_four w) with (s := s') as [w' E]; [by vm_cast_no_check (eq_refl true)|reflexivity|].
  exists w, w', s'. split; [exact fresh_empty|].
  split; [eapply At_dies, At_none|]. split; [exact E|]. clear E.
  intros H. assert (bool_decide (fs_next w = 0) = false) as Hn by (by vm_cast_no_check (eq_refl false)).
  rewrite H in Hn. done.
Qed.

(** A compaction of the upper shard is under way; the row of key 1 has been copied, and the key is
    then set again: the new value is in the target only. *)
Definition stale_script : list cmd :=
  fill 9 ++ [xset 1 96 20; xset 4 96 21; xset 5 96 22; xset 1 96 24; xset 7 96 23] ++
  repeat (XMaint (MBgRow 40000)) 13 ++ [xset 1 96 25].
Definition target (n : fname) : bool := match n with FCompact _ _ => true | _ => false end.
Definition stale_crash : fs := crash_at 2 (clear_in (first target) ex_cfg) (st_fs (after ex_cfg stale_script)).
Definition stale_after : store := match store_open ex_cfg stale_crash with (_, Ok s) => s | _ => new_store ex_cfg end.
(** [clear] deletes the target of the compaction first and the process dies: all shards are there,
    [open] succeeds, and [get] returns the value of before the last [set]. *)
Theorem C11_crash_during_clear_stale_value_refuted : exists s ord n w' s',
  reachable_clean ex_cfg s /\ (forall l, ord l ≡ₚ l) /\
  store_open ex_cfg (crash_at n (clear_in ord ex_cfg) (st_fs s)) = (w', Ok s') /\
  get ex_cfg s (xkey 1) = Ok (Some (xval 96 25)) /\ get ex_cfg s' (xkey 1) = Ok (Some (xval 96 24)).
Proof.
  exists (after ex_cfg stale_script), (first target), 2%nat.
  destruct (open_eta ex_cfg stale_crash) with (s := stale_after) as [w' E]; [by vm_cast_no_check (eq_refl true)|reflexivity|].
  exists w', stale_after.
  split; [apply after_reach; [exact ex_cfg_ok|done|by vm_cast_no_check (eq_refl true)]|].
  split; [apply first_id|]. split; [exact E|]. clear E. split; apply finds_ok; by vm_cast_no_check (eq_refl true).
Qed.
