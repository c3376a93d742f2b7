(** [flush] and machine crashes (property C42).

    Beside the store, the content of each file that is known to be on the disk: what the last
    [sync_data] of that file saw (nothing if there was none since it was created).  A machine
    crash (power cut) keeps the directory and every file whose content is synced; of a file
    that was written since its last sync, anything may be left.

    Simplifications: creating, renaming and removing names is taken to be durable at once
    (the code never syncs the directory, so this favours the code); the write cache of the
    drive is taken to honour the sync. *)
From Verif Require Import Base SipHash Hashing HashingProofs Fs Shard Router RouterPure Wpc Spec FileRep RowOps
  Compact Inv ShardOps Split Insert Open Merge Create Store Limits StoreRefine Kv Lists Queues Api Hist KvSpec
  HistInv KeySpace PlainSpec Plain Check ThmStore ExStore.

Notation durable := (gmap ino file).

(** shard.rs:530-534: [self.files.read().0.file.sync_data()]: the first of the two files of
    the shard, never the target of a running compaction. *)
Definition shard_flush (w : fs) (sh : shard) (D : durable) : durable :=
  match fs_files w !! sh_ino sh with Some f => <[sh_ino sh := f]> D | None => D end.
(** store.rs:256-259 and router.rs: [flush] on every shard of the tree. *)
Definition store_flush (s : store) (D : durable) : durable :=
  foldr (shard_flush (st_fs s)) D (leaves (st_root s)).

(** What a machine crash may leave. *)
Definition power_cut (D : durable) (w w' : fs) : Prop :=
  fs_dir w' = fs_dir w /\ fs_next w' = fs_next w /\
  forall i, match fs_files w !! i with
            | Some f => exists f', fs_files w' !! i = Some f' /\ (D !! i = Some f -> f' = f)
            | None => fs_files w' !! i = None
            end.
(** Histories of a store together with what is on the disk. *)
Inductive devent := DDo (e : event) | DFlush.
Inductive dhist : config -> store -> durable -> list devent -> config -> store -> durable -> Prop :=
| dh_nil cfg s D : dhist cfg s D [] cfg s D
| dh_do cfg s D e cfg1 s1 es cfg' s' D' :
    fits cfg s e -> hstep cfg s e cfg1 s1 -> dhist cfg1 s1 D es cfg' s' D' ->
    dhist cfg s D (DDo e :: es) cfg' s' D'
| dh_flush cfg s D es cfg' s' D' :
    dhist cfg s (store_flush s D) es cfg' s' D' -> dhist cfg s D (DFlush :: es) cfg' s' D'.

(** ** Flushed, with no compaction in progress: nothing is lost. *)
Definition no_compaction (s : store) : Prop := Forall (fun sh => sh_tgt sh = None) (leaves (st_root s)).

Lemma store_flush_leaf s D sh f :
  sh ∈ leaves (st_root s) -> fs_files (st_fs s) !! sh_ino sh = Some f -> store_flush s D !! sh_ino sh = Some f.
Proof.
  unfold store_flush. induction (leaves (st_root s)) as [|a l IH]; intros Hin Hf; [by apply elem_of_nil in Hin|].
  cbn [foldr]. unfold shard_flush at 1. destruct (fs_files (st_fs s) !! sh_ino a) as [fa|] eqn:Ea.
  - destruct (decide (sh_ino a = sh_ino sh)) as [E|Hne].
    + rewrite E in *. rewrite lookup_insert. congruence.
    + rewrite lookup_insert_ne by done. apply elem_of_cons in Hin as [->|Hin]; [done|]. by apply IH.
  - apply elem_of_cons in Hin as [->|Hin]; [congruence|]. by apply IH.
Qed.

Lemma cut_inv cfg x M s D w' :
  SInv cfg x M s -> no_compaction s -> power_cut (store_flush s D) (st_fs s) w' ->
  DiskInv cfg x M w' /\ disk_room w'.
Proof.
  intros HI Hn (Hd & Hx & Hf). pose proof HI as (Hwf & Hrun). pose proof Hrun as (Htr & Hl & Hnames).
  assert (forall a b, fs_dir w' !! FCompact a b = None) as Hnc.
  { intros a b. rewrite Hd. destruct (fs_dir (st_fs s) !! FCompact a b) as [t|] eqn:E; [|done]. exfalso.
    destruct Hnames as [_ Hnames]. destruct (wf_names _ Hwf a b) as [H1 H2]; [by right; eauto|].
    assert ((a, b) ∈ map span_of (leaves (st_root s))) as Hin.
    { apply Hnames; [eauto|]. unfold overlap. change (0 + 2 ^ N.of_nat 16) with 65536. unfold END_OF_SHARDS in H2. lia. }
    apply elem_of_list_fmap in Hin as (sh & Esp & Hin).
    unfold no_compaction in Hn. rewrite Forall_forall in Hn, Hl. specialize (Hn sh Hin). specialize (Hl sh Hin).
    destruct Hl as (f & L & _ & _ & _ & _ & _ & _ & Ht). rewrite Hn in Ht.
    unfold span_of in Esp. injection Esp as -> ->. destruct Ht as [Ht _]. congruence. }
  split.
  - split.
    + split.
      * intros a b i. rewrite Hd. apply (wf_inj _ Hwf).
      * intros a i. rewrite Hd. intros Ha. apply (wf_file _ Hwf) in Ha as [f Hf1]. specialize (Hf i).
        rewrite Hf1 in Hf. destruct Hf as (f' & -> & _). eauto.
      * intros a i. rewrite Hd, Hx. apply (wf_next _ Hwf).
      * intros a b. rewrite Hd. apply (wf_names _ Hwf).
    + apply run_disk in Hrun as (rs & H1 & H2 & H3). clear rs H1 H2 H3.
      exists (map span_of (leaves (st_root s))). split; [by apply tree_ok_dyadic|]. split.
      * apply Forall_fmap. apply Forall_forall. intros sh Hin. unfold no_compaction in Hn. rewrite Forall_forall in Hn, Hl.
        specialize (Hn sh Hin). specialize (Hl sh Hin).
        destruct Hl as (f & L & A1 & A2 & A3 & A4 & A5 & A6 & A7). rewrite Hn in A7. destruct A7 as [A7 A8].
        cbn [compose]. unfold compose, disk_shard, span_of. exists (sh_ino sh), f, L. rewrite Hd. split; [done|]. split.
        { pose proof (Hf (sh_ino sh)) as Hf'. rewrite A2 in Hf'. destruct Hf' as (f' & Hf1 & Hf2).
          rewrite Hf1. f_equal. apply Hf2. by apply store_flush_leaf. }
        repeat (split; [done|]). by rewrite A7.
      * destruct Hnames as [N1 N2]. split; rewrite Hd.
        { intros a b Ha Ho. exists (a, b). split; [by apply N1|]. unfold contained. simpl. lia. }
        { intros a b Ha Ho. by apply N2. }
  - intros a b i t f ft _ Ht. exfalso. rewrite Hnc in Ht. done.
Qed.

Theorem C42_flushed_content_survives_partial : forall cfg s D w' cfg',
  reachable cfg s -> no_compaction s -> power_cut (store_flush s D) (st_fs s) w' -> c_hash cfg' = c_hash cfg ->
  exists w2 s', store_open cfg' w' = (w2, Ok s') /\ same_content cfg s cfg' s'.
Proof.
  intros cfg s D w' cfg' Hr Hn Hc Hh. apply reach_inv in Hr as (x & M & HI).
  destruct (cut_inv cfg x M s D w' HI Hn Hc) as [HD Hdr].
  destruct (open_ok cfg' x M w') as (w2 & s' & Ho & HI'); [by apply (DiskInv_cfg cfg)|done|].
  exists w2, s'. split; [done|]. by eapply SInv_same.
Qed.

(** ** The property itself fails, in three ways. *)
(** The event is a call on another plain key, or background work. *)
Definition leaves_alone (k : bytes) (e : devent) : Prop :=
  match e with
  | DDo (ECall (CPlain o) _) => op_key o <> k
  | DDo (EMaint _) | DFlush => True
  | DDo _ => False
  end.
(** [lost k v cfg s1 es2 r]: right after a flush the store [s1] holds [v] under [k]; then [es2]
    happens (without a further flush), the machine crashes, and the reopened store returns [r]
    for [k]. *)
Record lost (k v : bytes) (cfg : config) (s1 : store) (es2 : list devent) (r : res (option bytes)) : Prop := Lost {
  lost_hist : exists s es1 D, created cfg s /\ dhist cfg s ∅ (es1 ++ [DFlush]) cfg s1 D /\
    exists s2, dhist cfg s1 D es2 cfg s2 D /\
    exists w' w2 s', power_cut D (st_fs s2) w' /\ store_open cfg w' = (w2, Ok s') /\ get cfg s' k = r;
  lost_value : get cfg s1 k = Ok (Some v)
}.

(** What is left of a file, from its last synced and its current content. *)
Definition lose_all (d c : file) : file := d.
(** The header (a mapped page, written back by the kernel at any time) is on the disk, the
    data area is not. *)
Definition header_only (d c : file) : file :=
  File (f_len d) (f_magic c) (f_version c) (f_wasted c) (f_woff c) (f_ins c) (f_rem c) (f_cut c) (f_rows c) (f_data d).
Definition cut_with (mix : file -> file -> file) (D : durable) (w : fs) : fs :=
  Fs (fs_dir w) (map_imap (fun i c => Some (mix (default file_empty (D !! i)) c)) (fs_files w)) (fs_next w).
Lemma cut_with_ok mix D w : (forall f, mix f f = f) -> power_cut D w (cut_with mix D w).
Proof.
  intros Hm. split; [done|]. split; [done|]. intros i. cbn [cut_with fs_files]. rewrite map_lookup_imap.
  destruct (fs_files w !! i) as [f|]; cbn; [|done]. eexists. split; [done|]. intros ->. apply Hm.
Qed.

Lemma dhist_of G cfg s es cfg' s' D : hist G cfg s es cfg' s' -> (forall c s e, G c s e -> fits c s e) ->
  dhist cfg s D (map DDo es) cfg' s' D.
Proof. intros H HG. induction H; cbn; [constructor|]. econstructor; eauto. Qed.
Lemma dhist_snoc cfg s D es cfg' s' D' : dhist cfg s D es cfg' s' D' ->
  dhist cfg s D (es ++ [DFlush]) cfg' s' (store_flush s' D').
Proof. induction 1; cbn; econstructor; eauto. constructor. Qed.

Definition res_is (r r' : res (option bytes)) : bool :=
  match r, r' with
  | Ok a, Ok b => bool_decide (a = b)
  | Err EIo, Err EIo => true
  | _, _ => false
  end.
Lemma res_is_ok r r' : res_is r r' = true -> r = r'.
Proof. destruct r as [a|[]], r' as [b|[]]; cbn; try done. intros H. apply bool_decide_eq_true in H. by subst. Qed.
Definition alone_b (k : bytes) (c : cmd) : bool :=
  match c with XCall (CPlain o) => negb (bool_decide (op_key o = k)) | XMaint _ => true | _ => false end.
Definition lost_b (mix : file -> file -> file) (l1 l2 : list cmd) (k v : bytes) (r : res (option bytes)) : bool :=
  match script0 ex_cfg l1 with
  | Some (_, _, s1, M1) =>
    match script ex_cfg s1 M1 l2 with
    | Some (_, _, s2, _) =>
      match store_open ex_cfg (cut_with mix (store_flush s1 ∅) (st_fs s2)) with
      | (_, Ok s3) => res_is (get ex_cfg s1 k) (Ok (Some v)) && res_is (get ex_cfg s3 k) r
      | _ => false
      end
    | None => false
    end
  | None => false
  end.
Lemma alone_ok k l : forall cfg s M es cfg' s' M', forallb (alone_b k) l = true ->
  script cfg s M l = Some (es, cfg', s', M') -> Forall (leaves_alone k) (map DDo es).
Proof.
  induction l as [|c l IH]; intros cfg s M es cfg' s' M' Hl Hs; cbn [script forallb] in *; [injection Hs as <- _ _ _; constructor|].
  apply andb_true_iff in Hl as [Hl1 Hl2].
  destruct (cmd_step cfg s M c) as [[[[e cfg1] s1] M1]|] eqn:E; [|done].
  destruct (script cfg1 s1 M1 l) as [[[[es1 cfg2] s2] M2]|] eqn:E2; [|done]. injection Hs as <- _ _ _.
  cbn [map]. constructor; [|by eapply IH].
  destruct c as [c|m| |cfg3]; cbn [cmd_step alone_b] in E, Hl1; [| |done|done].
  - destruct c as [o| | | |]; try done. destruct (krun_b _ _ _ _) as [[[? ?] ?]|]; [|done]. injection E as <- _ _ _. cbn [leaves_alone].
    apply negb_true_iff, bool_decide_eq_false in Hl1. done.
  - destruct (maint_b _ _ _); [|done]. destruct (exec _ _) as [? [?|?]]; by simplify_eq.
Qed.
Lemma lost_intro mix l1 l2 k v r : (forall f, mix f f = f) ->
  forallb no_reopen l1 = true -> forallb no_reopen l2 = true -> lost_b mix l1 l2 k v r = true ->
  exists s1 M1 es2 cfg2 s2 M2, script ex_cfg s1 M1 l2 = Some (es2, cfg2, s2, M2) /\ lost k v ex_cfg s1 (map DDo es2) r.
Proof.
  intros Hm H1 H2. unfold lost_b.
  destruct (script0 ex_cfg l1) as [[[[es1 c1] s1] M1]|] eqn:E1; [|done].
  destruct (script ex_cfg s1 M1 l2) as [[[[es2 c2] s2] M2]|] eqn:E2; [|done].
  destruct (store_open ex_cfg _) as [w2 [s3|]] eqn:E3; [|done]. intros H. apply andb_true_iff in H as [H3 H4].
  apply res_is_ok in H3, H4. exists s1, M1, es2, c2, s2, M2. split; [done|].
  assert (c1 = ex_cfg) as -> by (unfold script0 in E1; by eapply script_cfg in E1).
  assert (c2 = ex_cfg) as -> by (by eapply script_cfg in E2).
  assert (forall l, forallb no_reopen l = true -> Forall (same_hash ex_cfg) l) as Hs.
  { intros l Hl. apply Forall_forall. intros c Hin. apply elem_of_list_In in Hin. rewrite forallb_forall in Hl. specialize (Hl c Hin). by destruct c. }
  destruct (script0_ok ex_cfg l1 es1 ex_cfg s1 M1 ex_cfg_ok (Hs l1 H1) E1) as (A1 & A2 & A3 & A4).
  destruct (script_ok l2 ex_cfg s1 M1 es2 ex_cfg s2 M2 true A4 (Hs l2 H2) E2) as (B1 & _).
  split; [|done]. exists (new_store ex_cfg), (map DDo es1), (store_flush s1 ∅). split; [done|].
  split; [apply dhist_snoc; by eapply dhist_of|]. exists s2. split; [by eapply dhist_of|].
  exists (cut_with mix (store_flush s1 ∅) (st_fs s2)), w2, s3. split; [by apply cut_with_ok|]. done.
Qed.

Definition bg_rows (n : nat) : list cmd := repeat (XMaint (MBgRow 0)) n.

(** 1. A value set while its shard is being compacted goes to the target of the compaction,
    which flush does not sync: a crash right after flush returns the old value. *)
Definition d_busy : list cmd := ex_busy ++ bg_rows 64 ++ [xset 1 40 9].
Theorem C42_flush_during_compaction_refuted : exists s1,
  lost (xkey 1) (xval 40 9) ex_cfg s1 [] (Ok (Some (xval 96 3))).
Proof.
  destruct (lost_intro lose_all d_busy [] (xkey 1) (xval 40 9) (Ok (Some (xval 96 3))))
    as (s1 & M1 & es2 & c2 & s2 & M2 & E & H); [done|done|done|by vm_cast_no_check (eq_refl true)|].
  cbn in E. injection E as <- _ _ _. exists s1. exact H.
Qed.
(** 2. A compaction or a split after the flush moves flushed data to new files, which are never
    synced, and removes the synced one: the flushed value is lost although nobody touched it. *)
Theorem C42_compaction_after_flush_refuted : exists s1 es2,
  Forall (leaves_alone (xkey 1)) es2 /\ lost (xkey 1) (xval 96 3) ex_cfg s1 es2 (Ok None).
Proof.
  destruct (lost_intro lose_all (fill 6 ++ [xrem 0; xset 1 96 3; xset 2 96 4])
    ([xset 3 90 4; xset 4 90 1] ++ bg_rows 64 ++ [XMaint (MBgFinish 0)]) (xkey 1) (xval 96 3) (Ok None))
    as (s1 & M1 & es2 & c2 & s2 & M2 & E & H); [done|done|done|by vm_cast_no_check (eq_refl true)|].
  exists s1, (map DDo es2). split; [|exact H]. by eapply alone_ok; [|exact E].
Qed.
Theorem C42_split_after_flush_refuted : exists s1 es2,
  Forall (leaves_alone (xkey 5)) es2 /\ lost (xkey 5) (xval 96 5) ex_cfg s1 es2 (Ok None).
Proof.
  destruct (lost_intro lose_all (fill 9) [xset 1 96 3; xset 2 96 4] (xkey 5) (xval 96 5) (Ok None))
    as (s1 & M1 & es2 & c2 & s2 & M2 & E & H); [done|done|done|by vm_cast_no_check (eq_refl true)|].
  exists s1, (map DDo es2). split; [|exact H]. by eapply alone_ok; [|exact E].
Qed.
(** 3. A later overwrite that was not flushed: its descriptor may reach the disk before its
    data.  The key then has neither the old nor the new value: it is gone. *)
Theorem C42_overwrite_after_flush_refuted : exists s1 s2 M1 M2 es2 cfg2,
  script ex_cfg s1 M1 [xset 1 50 4] = Some (es2, cfg2, s2, M2) /\
  lost (xkey 1) (xval 96 1) ex_cfg s1 (map DDo es2) (Ok None).
Proof.
  destruct (lost_intro header_only (fill 3) [xset 1 50 4] (xkey 1) (xval 96 1) (Ok None))
    as (s1 & M1 & es2 & c2 & s2 & M2 & E & H); [by intros []|done|done|by vm_cast_no_check (eq_refl true)|].
  exists s1, s2, M1, M2, es2, c2. done.
Qed.

(** The positive theorem applies to a store with two shards, and a flush does matter. *)
Lemma example_of s : reachable ex_cfg s ->
  forallb (fun sh => match sh_tgt sh with None => true | _ => false end) (leaves (st_root s)) = true ->
  length (leaves (st_root s)) = 2%nat ->
  exists s, reachable ex_cfg s /\ no_compaction s /\ length (leaves (st_root s)) = 2%nat /\
    power_cut (store_flush s ∅) (st_fs s) (cut_with lose_all (store_flush s ∅) (st_fs s)).
Proof.
  intros Hr H Hl. exists s. split; [done|]. split.
  - rewrite forallb_forall in H. apply Forall_forall. intros sh Hin. apply elem_of_list_In in Hin. specialize (H sh Hin).
    by destruct (sh_tgt sh).
  - split; [done|]. by apply cut_with_ok.
Qed.
Example C42_example : exists s, reachable ex_cfg s /\ no_compaction s /\ length (leaves (st_root s)) = 2%nat /\
  power_cut (store_flush s ∅) (st_fs s) (cut_with lose_all (store_flush s ∅) (st_fs s)).
Proof.
  apply (example_of (after ex_cfg ex_split)).
  - exact (proj1 (proj2 split_reach)).
  - by vm_cast_no_check (eq_refl true).
  - by vm_cast_no_check (eq_refl 2%nat).
Qed.
