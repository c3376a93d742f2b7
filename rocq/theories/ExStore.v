(** Concrete stores: the hypotheses of the theorems of ThmStore.v are met by non-trivial
    histories (with splits, background compactions, reopening and crashes), and witnesses
    for the properties that the code violates. *)
From Verif Require Import Base SipHash Hashing HashingProofs Fs Shard Router RouterPure Wpc Spec FileRep RowOps
  Compact Inv ShardOps Split Insert Open Merge Create Store Limits StoreRefine Kv Lists Queues Api Hist KvSpec
  HistInv KeySpace PlainSpec Plain Check ThmStore.

(** SipHash with a fixed key; shards of at most 1000 bytes, compacted from 300 wasted bytes. *)
Definition ex_cfg : config := Config (siphash128 seed_aabbccdd) 1000 300 0 16 true false.
Definition xkey (n : N) : bytes := le_bytes 3 n.
Definition xval (n : nat) (x : N) : bytes := replicate n (byte_of_N x).
Definition xset (k : N) (n : nat) (x : N) : cmd := XCall (CPlain (OSet (xkey k) (xval n x))).
Definition xrem (k : N) : cmd := XCall (CPlain (ORemove (xkey k))).
Definition xget (k : N) : cmd := XCall (CPlain (OGet (xkey k))).
Definition fill (n : nat) : list cmd := map (fun i => xset (N.of_nat i) 96 (N.of_nat i)) (seq 0 n).

Lemma ex_cfg_ok : cfg_ok ex_cfg.
Proof. by vm_compute. Qed.

(** The store after a script (a dummy if the script fails). *)
Definition after (cfg : config) (l : list cmd) : store :=
  match script0 cfg l with Some (_, _, s, _) => s | None => new_store cfg end.
Definition after_map (cfg : config) (l : list cmd) : kvmap :=
  match script0 cfg l with Some (_, _, _, M) => M | None => ∅ end.
Definition no_reopen (c : cmd) : bool := match c with XReopen _ => false | _ => true end.
Lemma script_cfg l : forall cfg s M es cfg' s' M', forallb no_reopen l = true ->
  script cfg s M l = Some (es, cfg', s', M') -> cfg' = cfg.
Proof.
  induction l as [|c l IH]; intros cfg s M es cfg' s' M' Hl Hs; cbn [script forallb] in *; [by simplify_eq|].
  apply andb_true_iff in Hl as [Hl1 Hl2].
  destruct (cmd_step cfg s M c) as [[[[e cfg1] s1] M1]|] eqn:E; [|done].
  destruct (script cfg1 s1 M1 l) as [[[[es1 cfg2] s2] M2]|] eqn:E2; [|done]. simplify_eq.
  assert (cfg1 = cfg) as ->; [|by eapply IH].
  destruct c as [c|m| |cfg3]; cbn [cmd_step no_reopen] in E, Hl1; [| | |done].
  - destruct (krun_b _ _ _ _) as [[[? ?] ?]|]; by simplify_eq.
  - destruct (maint_b _ _ _); [|done]. destruct (exec _ _) as [? [?|?]]; by simplify_eq.
  - destruct (_ <=? _); [|done]. destruct (store_clear _ _) as [? [?|?]]; by simplify_eq.
Qed.
Definition runs (cfg : config) (l : list cmd) : bool := match script0 cfg l with Some _ => true | None => false end.
Lemma after_reach cfg l : cfg_ok cfg -> forallb no_reopen l = true -> runs cfg l = true ->
  reachable_clean cfg (after cfg l) /\ reachable cfg (after cfg l) /\ SInv cfg true (after_map cfg l) (after cfg l).
Proof.
  unfold runs, after, after_map. intros Hc Hl Hr. destruct (script0 cfg l) as [[[[es cfg'] s'] M']|] eqn:E; [|done].
  assert (cfg' = cfg) as -> by (by eapply script_cfg).
  assert (Forall (same_hash cfg) l) as Hs.
  { apply Forall_forall. intros c Hin. apply elem_of_list_In in Hin. rewrite forallb_forall in Hl. specialize (Hl c Hin). by destruct c. }
  destruct (script0_ok cfg l es cfg s' M' Hc Hs E) as (H1 & H2 & H3 & H4).
  split; [by exists cfg, (new_store cfg), es|]. split; [by exists cfg, (new_store cfg), es|done].
Qed.
(** A call that passes the executable capacity check. *)
Lemma kfits_by cfg x M s c : SInv cfg x M s ->
  match krun_b cfg (call_prog cfg c) s M with Some _ => true | None => false end = true -> kfits cfg (call_prog cfg c) s.
Proof.
  intros HI Hb. destruct (krun_b cfg (call_prog cfg c) s M) as [[[s' M'] r]|] eqn:E; [|done].
  by destruct (krun_b_ok cfg x _ _ _ _ _ _ HI E).
Qed.

Lemma script0_some (cfg : config) (l : list cmd) (P : list event -> config -> store -> kvmap -> bool) :
  match script0 cfg l with Some (es, c, s, M) => P es c s M | None => false end = true ->
  exists es c s M, script0 cfg l = Some (es, c, s, M) /\ P es c s M = true.
Proof. destruct (script0 cfg l) as [[[[es c] s] M]|]; [|done]. eauto 10. Qed.

(** A history with a split, removals, a background compaction caught in the middle by calls,
    and a reopening with other settings. *)
Definition ex_script : list cmd :=
  fill 9 ++ [xrem 0; xset 20 96 1; xset 21 96 2; xrem 3; xset 4 96 5; xset 5 96 6; xset 6 96 7; xset 7 96 1; xset 8 96 2] ++
  [XMaint (MBgRow 0); xget 4; XMaint (MBgRow 40000); xset 5 96 8; xrem 6; XMaint (MBgRow 40000); XMaint MStats;
   XReopen (Config (siphash128 seed_aabbccdd) 5000 100 0 16 true false); xget 5].
Example ex_history : exists es cfg' s',
  created ex_cfg (new_store ex_cfg) /\ hist fits ex_cfg (new_store ex_cfg) es cfg' s' /\
  length es = 27%nat /\ (1 < length (leaves (st_root s')))%nat.
Proof.
  destruct (script0_some ex_cfg ex_script (fun es _ s' _ => (length es =? 27)%nat && (1 <? length (leaves (st_root s')))%nat))
    as (es & cfg' & s' & M' & E & H); [by vm_cast_no_check (eq_refl true)|].
  exists es, cfg', s'.
  destruct (script0_ok ex_cfg ex_script es cfg' s' M' ex_cfg_ok) as (H1 & H2 & _); [by repeat constructor|exact E|]. clear E.
  split; [done|]. split; [done|]. apply andb_true_iff in H as [H3 H4]. apply Nat.eqb_eq in H3. by apply Nat.ltb_lt in H4.
Qed.

(** ** Non-vacuity of the theorems about one step *)
Definition sum_woff (w : fs) : N := foldr (fun x a => f_woff (snd x) + a) 0 (map_to_list (fs_files w)).
Lemma fs_differ (P : fs -> bool) w w' : P w = false -> P w' = true -> w <> w'.
Proof. congruence. Qed.

(** A store with a background compaction caught after some rows: 5 keys, one of them removed. *)
Definition ex_busy : list cmd := fill 6 ++ [xrem 0; xset 1 96 3; xset 2 96 4; xset 3 90 4; xset 4 90 1; XMaint (MBgRow 0)].
(** A store that was split. *)
Definition ex_split : list cmd := fill 9 ++ [xset 1 96 3; xset 2 96 4; xrem 4; xset 20 10 1].
Lemma busy_reach : reachable_clean ex_cfg (after ex_cfg ex_busy) /\ reachable ex_cfg (after ex_cfg ex_busy) /\
  SInv ex_cfg true (after_map ex_cfg ex_busy) (after ex_cfg ex_busy).
Proof. apply after_reach; [exact ex_cfg_ok|done|by vm_cast_no_check (eq_refl true)]. Qed.
Example busy_compacting : exists t, sh_tgt (route (st_root (after ex_cfg ex_busy)) 0) = Some (t, false).
Proof. exists 1. by vm_cast_no_check (eq_refl (Some (1, false))). Qed.
Lemma split_reach : reachable_clean ex_cfg (after ex_cfg ex_split) /\ reachable ex_cfg (after ex_cfg ex_split) /\
  SInv ex_cfg true (after_map ex_cfg ex_split) (after ex_cfg ex_split).
Proof. apply after_reach; [exact ex_cfg_ok|done|by vm_cast_no_check (eq_refl true)]. Qed.
Example split_two_shards : length (leaves (st_root (after ex_cfg ex_split))) = 2%nat.
Proof. by vm_cast_no_check (eq_refl 2%nat). Qed.

(** The next insertion is within capacity (C02, C03, C09, C19, C37). *)
Definition ex_op : op := OSet (xkey 2) (xval 50 7).
Example busy_fits : kfits ex_cfg (call_prog ex_cfg (CPlain ex_op)) (after ex_cfg ex_busy).
Proof.
  eapply kfits_by; [apply busy_reach|]. by vm_cast_no_check (eq_refl true).
Qed.
(** A crash in the middle of it, with the bytes half written, leaves a directory within the
    limits (C09); a crash in the middle of one row of the compaction too (C10). *)
Example busy_dies : exists w, dies ex_cfg (after ex_cfg ex_busy) (ACall (CPlain ex_op)) w /\ disk_room w /\
  w <> st_fs (after ex_cfg ex_busy).
Proof.
  exists (kdies_at ex_cfg (call_prog ex_cfg (CPlain ex_op)) (after ex_cfg ex_busy) 0 20).
  split; [apply kdies_at_ok|]. split; [apply disk_room_b_ok; by vm_cast_no_check (eq_refl true)|].
  apply (fs_differ (fun w => sum_woff w =? 1088)); [by vm_cast_no_check (eq_refl false)|by vm_cast_no_check (eq_refl true)].
Qed.
(** Maintenance in progress: a crash in the middle of copying a row. *)
Example busy_maint_dies : exists w, dies ex_cfg (after ex_cfg ex_busy) (AMaint (MBgRow 0)) w /\ disk_room w.
Proof.
  exists (crash_at 3 (maint_prog ex_cfg (MBgRow 0) (st_root (after ex_cfg ex_busy))) (st_fs (after ex_cfg ex_busy))).
  split; [by exists 3%nat|]. apply disk_room_b_ok. by vm_cast_no_check (eq_refl true).
Qed.
(** Splitting a shard of the busy store (C03, C10). *)
Example busy_splittable : sh_start (route (st_root (after ex_cfg ex_busy)) 5) + 1 < sh_end (route (st_root (after ex_cfg ex_busy)) 5).
Proof. by vm_cast_no_check (eq_refl (N.compare 1 2)). Qed.

(** Merging: one key updated until the shards split (no compaction: threshold above the size). *)
Definition ex_cfg2 : config := Config (siphash128 seed_aabbccdd) 1000 10000 0 16 true false.
Definition rewrites (n : nat) : list cmd := map (fun i => xset 1 400 (N.of_nat i)) (seq 0 n).
Lemma ex_cfg2_ok : cfg_ok ex_cfg2.
Proof. by vm_compute. Qed.
Lemma rewrites_reach n : runs ex_cfg2 (rewrites n) = true -> forallb no_reopen (rewrites n) = true ->
  reachable_clean ex_cfg2 (after ex_cfg2 (rewrites n)) /\ reachable ex_cfg2 (after ex_cfg2 (rewrites n)) /\
  SInv ex_cfg2 true (after_map ex_cfg2 (rewrites n)) (after ex_cfg2 (rewrites n)).
Proof. intros H1 H2. by apply after_reach; [exact ex_cfg2_ok|..]. Qed.
Example merge_works : exists s s', reachable ex_cfg2 s /\ maint_fits ex_cfg2 s (MMerge 1000) /\
  store_merge ex_cfg2 s 1000 = (s', Ok true).
Proof.
  destruct (rewrites_reach 3) as (_ & H & HI); [by vm_cast_no_check (eq_refl true)|by vm_cast_no_check (eq_refl true)|].
  exists (after ex_cfg2 (rewrites 3)), (fst (store_merge ex_cfg2 (after ex_cfg2 (rewrites 3)) 1000)).
  split; [exact H|]. split; [eapply maint_b_ok; [exact HI|by vm_cast_no_check (eq_refl true)]|].
  assert (snd (store_merge ex_cfg2 (after ex_cfg2 (rewrites 3)) 1000) = Ok true) as E by (by vm_cast_no_check (eq_refl (@Ok bool true))).
  destruct (store_merge ex_cfg2 (after ex_cfg2 (rewrites 3)) 1000) as [s' r]. cbn in *. by subst r.
Qed.

(** ** C06 is false: on a store with three shards the call waits for a lock it holds itself. *)
Theorem C06_merge_returns_refuted : exists cfg s s',
  reachable_clean cfg s /\ maint_fits cfg s (MMerge 1000) /\ store_merge cfg s 1000 = (s', Err EDeadlock).
Proof.
  destruct (rewrites_reach 4) as (H & _ & HI); [by vm_cast_no_check (eq_refl true)|by vm_cast_no_check (eq_refl true)|].
  exists ex_cfg2, (after ex_cfg2 (rewrites 4)), (fst (store_merge ex_cfg2 (after ex_cfg2 (rewrites 4)) 1000)).
  split; [exact H|]. split; [eapply maint_b_ok; [exact HI|by vm_cast_no_check (eq_refl true)]|].
  assert (snd (store_merge ex_cfg2 (after ex_cfg2 (rewrites 4)) 1000) = Err EDeadlock) as E by (by vm_cast_no_check (eq_refl (@Err bool EDeadlock))).
  destruct (store_merge ex_cfg2 (after ex_cfg2 (rewrites 4)) 1000) as [s' r]. cbn in *. by subst r.
Qed.

(** ** C11 is false: the process dies while the first shard file is being initialized; or when
    only one of two initial shards exists. *)
Definition ex_cfg4 : config := Config (siphash128 seed_aabbccdd) 1000 300 50000 16 true false.
Theorem C11_crash_during_creation_refuted :
  (exists n w', store_open ex_cfg (crash_at n (router_new ex_cfg) fs_empty) = (w', Err EBadMagic)) /\
  (exists n w', store_open ex_cfg4 (crash_at n (router_new ex_cfg4) fs_empty) = (w', Err EPanic)).
Proof.
  split.
  - exists 4%nat. eexists (fst (store_open ex_cfg (crash_at 4 (router_new ex_cfg) fs_empty))).
    assert (snd (store_open ex_cfg (crash_at 4 (router_new ex_cfg) fs_empty)) = Err EBadMagic) as E
      by (by vm_cast_no_check (eq_refl (@Err store EBadMagic))).
    destruct (store_open ex_cfg _) as [w r]. cbn in *. by subst r.
  - exists 8%nat. eexists (fst (store_open ex_cfg4 (crash_at 8 (router_new ex_cfg4) fs_empty))).
    assert (snd (store_open ex_cfg4 (crash_at 8 (router_new ex_cfg4) fs_empty)) = Err EPanic) as E
      by (by vm_cast_no_check (eq_refl (@Err store EPanic))).
    destruct (store_open ex_cfg4 _) as [w r]. cbn in *. by subst r.
Qed.
(** The same while a store is cleared. *)
Theorem C11_crash_during_clear_refuted : exists s n w',
  reachable_clean ex_cfg s /\ store_open ex_cfg (crash_at n (router_clear ex_cfg) (st_fs s)) = (w', Err EBadMagic).
Proof.
  exists (after ex_cfg ex_split), 6%nat. eexists (fst (store_open ex_cfg (crash_at 6 (router_clear ex_cfg) (st_fs (after ex_cfg ex_split))))).
  split; [exact (proj1 split_reach)|].
  assert (snd (store_open ex_cfg (crash_at 6 (router_clear ex_cfg) (st_fs (after ex_cfg ex_split)))) = Err EBadMagic) as E
      by (by vm_cast_no_check (eq_refl (@Err store EBadMagic))).
  destruct (store_open ex_cfg _) as [w r]. cbn in *. by subst r.
Qed.

(** ** C22 is false for entry counts: the process dies after the signature of a new entry is
    stored and before the insertion is counted; removing the entry makes the count negative
    (an arithmetic panic in the code). *)
Definition crash_op : op := OSet (xkey 1) (xval 4 7).
Definition crashed_fs : fs := kdies_at ex_cfg (call_prog ex_cfg (CPlain crash_op)) (new_store ex_cfg) 0 12.
Definition crashed : store := match store_open ex_cfg crashed_fs with (_, Ok s) => s | _ => new_store ex_cfg end.
Lemma open_eta cfg w s : match store_open cfg w with (_, Ok _) => true | _ => false end = true ->
  s = match store_open cfg w with (_, Ok s) => s | _ => new_store cfg end -> exists w', store_open cfg w = (w', Ok s).
Proof. destruct (store_open cfg w) as [w' [s'|e]]; [|done]. intros _ ->. eauto. Qed.
Lemma crashed_step : fits ex_cfg (new_store ex_cfg) (ECrash (ACall (CPlain crash_op))) /\
  hstep ex_cfg (new_store ex_cfg) (ECrash (ACall (CPlain crash_op))) ex_cfg crashed.
Proof.
  split.
  - cbn [fits]. apply (kfits_by ex_cfg true ∅); [apply created_ok, new_created, ex_cfg_ok|by vm_cast_no_check (eq_refl true)].
  - eapply (h_crash _ _ _ crashed_fs); [apply kdies_at_ok|done|].
    destruct (open_eta ex_cfg crashed_fs crashed) as [w' E]; [by vm_cast_no_check (eq_refl true)|reflexivity|].
    eapply rec_done; [|exact E]. apply disk_room_b_ok. by vm_cast_no_check (eq_refl true).
Qed.
Lemma remove_fits cfg s k r : fits cfg s (ECall (CPlain (ORemove k)) r).
Proof. cbn. split; [done|]. destruct (remove_raw _ _ _) as [? [?|?]]; done. Qed.
Theorem C22_num_entries_refuted : exists cfg0 s0 es cfg s s' t,
  created cfg0 s0 /\ hist fits cfg0 s0 es cfg s /\ length es = 2%nat /\
  store_stats cfg s = (s', Ok t) /\ num_entries t = Err EPanic.
Proof.
  set (s2 := fst (step_op ex_cfg crashed (ORemove (xkey 1)))).
  destruct (store_stats ex_cfg s2) as [s3 [t|e]] eqn:E.
  - exists ex_cfg, (new_store ex_cfg). eexists [ECrash (ACall (CPlain crash_op)); ECall (CPlain (ORemove (xkey 1))) (dor x <- snd (step_op ex_cfg crashed (ORemove (xkey 1))); Ok (YOut x))], ex_cfg, s2, s3, t.
    split; [apply new_created, ex_cfg_ok|]. split; [|split; [done|split; [exact E|]]].
    + econstructor; [exact (proj1 crashed_step)|exact (proj2 crashed_step)|]. econstructor; [| |constructor].
      * apply remove_fits.
      * constructor. rewrite call_plain. subst s2. destruct (step_op ex_cfg crashed (ORemove (xkey 1))) as [s' r]. reflexivity.
    + assert ((fun o : store * res stats => match o with (_, Ok t) => num_entries t | (_, Err e) => Err e end)
        (store_stats ex_cfg s2) = Err EPanic) as H by (by vm_cast_no_check (eq_refl (@Err N EPanic))).
      by rewrite E in H.
  - exfalso. assert ((fun o : store * res stats => match o with (_, Ok t) => true | (_, Err e) => false end)
        (store_stats ex_cfg s2) = true) as H by (by vm_cast_no_check (eq_refl true)).
    by rewrite E in H.
Qed.

(** ** C37 is false without the capacity condition on one selector: three keys with one selector
    that do not fit in one shard. The code splits for ever; the model gives up after 17 splits
    although the selector space can be halved only 16 times. *)
Definition ex_cfg3 : config := Config (fun _ => (0, 1)) 1000 300 0 16 true false.
Theorem C37_insert_returns_refuted : exists cfg s k v,
  reachable_clean cfg s /\ rejected cfg k v = None /\ snd (step_op cfg s (OSet k v)) = Err EHang.
Proof.
  exists ex_cfg3, (after ex_cfg3 [xset 1 400 1; xset 2 400 2]), (xkey 3), (xval 400 3).
  split; [|split; [by vm_cast_no_check (eq_refl (@None err))|by vm_cast_no_check (eq_refl (@Err out EHang))]].
  apply after_reach; [by vm_compute|done|by vm_cast_no_check (eq_refl true)].
Qed.

(** ** C46: every accepted write survives reopening -- false.  Three keys, two of them in one
    selector: when their shard covers a single selector and is full with too little waste to be
    compacted, it is "split" into itself, its file is unlinked, and the insertion reports
    success; the next open fails. *)
Definition ex_hash5 (k : bytes) : N * N :=
  match k with b :: _ => (if Byte.to_N b =? 99 then 2 ^ 48 else 0, 1) | [] => (0, 1) end.
Definition ex_cfg5 : config := Config ex_hash5 1000 900 0 16 true false.
Fixpoint run_ops (cfg : config) (s : store) (l : list op) : store * list (res out) :=
  match l with
  | [] => (s, [])
  | o :: l => let '(s1, r) := step_op cfg s o in let '(s2, rs) := run_ops cfg s1 l in (s2, r :: rs)
  end.
Definition all_ok (l : list (res out)) : bool := forallb (fun r => match r with Ok _ => true | _ => false end) l.
Theorem C46_accepted_writes_survive_reopening_refuted : exists cfg ops w,
  let '(s, rs) := run_ops cfg (new_store cfg) ops in
  cfg_ok cfg /\ length ops = 5%nat /\ all_ok rs = true /\ store_open cfg (st_fs s) = (w, Err EBadSpan).
Proof.
  pose (ops := [OSet [x61] (xval 300 1); OSet [x62] (xval 300 2); OSet [x63] (xval 450 3); OSet [x61] (xval 300 4); OSet [x61] (xval 300 5)]).
  exists ex_cfg5, ops. eexists (fst (store_open ex_cfg5 (st_fs (fst (run_ops ex_cfg5 (new_store ex_cfg5) ops))))).
  assert (all_ok (snd (run_ops ex_cfg5 (new_store ex_cfg5) ops)) = true) as H1 by (by vm_cast_no_check (eq_refl true)).
  assert (snd (store_open ex_cfg5 (st_fs (fst (run_ops ex_cfg5 (new_store ex_cfg5) ops)))) = Err EBadSpan) as H2
    by (by vm_cast_no_check (eq_refl (@Err store EBadSpan))).
  destruct (run_ops ex_cfg5 (new_store ex_cfg5) ops) as [s rs]. cbn [fst snd] in *.
  destruct (store_open ex_cfg5 (st_fs s)) as [w r]. cbn in *. subst r. split; [by vm_compute|done].
Qed.
