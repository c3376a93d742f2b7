(** After concurrent use (C70): once no call is in progress, everything that holds of a store used by one
    thread holds again. *)
From Verif Require Import Base SipHash Hashing HashingProofs Fs Shard Router RouterPure Wpc Spec FileRep RowOps
  Compact Inv ShardOps Split Insert Open Merge Create Store Limits StoreRefine Kv Lists Queues Api Hist KvSpec
  HistInv KeySpace PlainSpec Plain Check ThmStore Iter ThmIter Conc ConcSpec ConcMain ThmConc.
Implicit Types (cfg : config) (s : store) (m : umap) (es : list cevent) (c : cstate) (n : nat) (hs : list choice).

(** [live] (ThmConc.v): stores that arise by sequential histories and concurrent runs, with crashes.
    [live_clean]: the same without crashes. *)
Inductive live_clean : config -> store -> Prop :=
| lc_new cfg s : created cfg s -> live_clean cfg s
| lc_hist cfg s (hes : list event) cfg' s' : live_clean cfg s -> hist fits cfg s hes cfg' s' -> Forall no_crash hes -> live_clean cfg' s'
| lc_conc cfg s n hs es c : live_clean cfg s -> crun cfg calm (conc s n) hs es c -> at_rest c -> live_clean cfg (store_of c).
Lemma live_clean_live cfg s : live_clean cfg s -> live cfg s.
Proof.
  induction 1 as [cfg s Hc|cfg s es cfg' s' _ IH Hh _|cfg s n hs es c _ IH Hr Hq]; [by apply lv_new|by eapply lv_hist|by eapply lv_conc].
Qed.
Lemma live_clean_inv cfg s : live_clean cfg s -> exists (M : kvmap), SInv cfg true M s.
Proof.
  induction 1 as [cfg s Hc|cfg s es cfg' s' _ (M & IH) Hh Hn|cfg s n hs es c _ (M & IH) Hr Hq].
  - exists ∅. by apply created_ok.
  - destruct (hist_lift _ _ _ any_lifts _ _ _ _ _ true M tt Hh IH Logic.I) as (x' & M' & _ & _ & HI & _ & _ & Hx). exists M'. by rewrite <- (Hx Hn eq_refl).
  - destruct (conc_run _ _ _ _ _ _ _ _ IH Hr) as (A & os & HC & _ & Hcalm). exists (a_map A).
    eapply cinv_quiet; [exact HC|exact Hcalm|by apply at_rest_quiet].
Qed.

Lemma view_exists (M : kvmap) : exists m, view M m.
Proof.
  induction M as [|i v M Hi [m Hm]] using map_ind; [exists ∅; intros k; by rewrite !lookup_empty|].
  destruct (iter_pick false (i, v)) as [y|] eqn:E.
  - apply pick_user in E. injection E as -> E2. exists (<[fst y := v]> m). by apply view_insert.
  - exists m. intros k. rewrite lookup_insert_ne; [apply Hm|]. intros ->.
    assert (iter_pick false (user_key k, v) = Some (k, v)) as E2 by (by apply pick_user). congruence.
Qed.

(** ** C70 *)
(** The store is a map, and every later history of calls by one thread is a history of that map (C01). *)
Theorem C70_sequential_use_goes_on : forall cfg s,
  live cfg s -> exists m, (forall k, get cfg s k = Ok (m !! k)) /\
    forall (es : list event) cfg' s', hist fits cfg s es cfg' s' ->
      exists m', trace plain_step cfg m es cfg' m' /\ forall k, get cfg' s' k = Ok (m' !! k).
Proof.
  intros cfg s Hl. destruct (live_inv _ _ Hl) as (x & M & HI). destruct (view_exists M) as [m Hv]. exists m. split.
  - intros k. unfold get. by rewrite (get_raw_ok _ _ _ _ _ HI), Hv.
  - intros es cfg' s' Hh. destruct (hist_lift (fun _ M m => view M m) plain_step fits plain_lifts cfg s es cfg' s' x M m Hh HI Hv)
      as (x' & M' & m' & H1 & H2 & H3 & _). exists m'. split; [done|]. intros k. unfold get. by rewrite (get_raw_ok _ _ _ _ _ H2), H3.
Qed.
(** Iterating returns every key once, with its value (C15). *)
Theorem C70_iteration : forall cfg s, live cfg s ->
  exists l, iterates s (iter_new false) l /\ NoDup (map fst l) /\
    forall k v, In (k, v) l <-> get cfg s k = Ok (Some v).
Proof.
  intros cfg s Hr. destruct (live_inv _ _ Hr) as (x & M & HI).
  destruct (it_rest_new _ _ _ _ false HI) as (l & E & Hn & Hl).
  exists (it_rest s (iter_new false)). split; [|split].
  - eapply iterates_rest; [done|apply iter_new_ok|done|done].
  - rewrite E. clear - Hn. induction l as [|[k v] l IH]; [constructor|]. cbn in Hn. apply NoDup_cons in Hn as [Hk Hn].
    change (omap (M := list) (iter_pick false) ((k, v) :: l)) with
      (match iter_pick false (k, v) with Some y => y :: omap (M := list) (iter_pick false) l | None => omap (M := list) (iter_pick false) l end).
    destruct (iter_pick false (k, v)) as [y|] eqn:Ey; [|by apply IH]. cbn [map]. constructor; [|by apply IH].
    apply pick_user in Ey. injection Ey as -> ->. intros Hin. apply elem_of_list_fmap in Hin as (z & Ez & Hz).
    apply elem_of_list_omap in Hz as (q & Hq & Eq). apply pick_user in Eq. apply Hk. apply elem_of_list_fmap. exists q. split; [|done]. by rewrite Eq, Ez.
  - intros k v. rewrite E. rewrite <- elem_of_list_In, elem_of_list_omap. unfold get. rewrite (get_raw_ok _ _ _ _ _ HI). split.
    + intros (q & Hq & Eq). apply pick_user in Eq. cbn [fst snd] in Eq. subst q. apply Hl in Hq. by rewrite Hq.
    + intros H. injection H as H. exists (user_key k, v). split; [by apply Hl|by apply pick_user].
Qed.
(** Every hash selector belongs to exactly one shard, the one the router finds (C13). *)
Theorem C70_one_home_shard : forall cfg s sel,
  live cfg s -> sel < 65536 ->
  In (route (st_root s) sel) (leaves (st_root s)) /\
  sh_start (route (st_root s) sel) <= sel < sh_end (route (st_root s) sel) /\
  forall sh, In sh (leaves (st_root s)) -> sh_start sh <= sel < sh_end sh -> sh = route (st_root s) sel.
Proof.
  intros cfg s sel Hr Hsel. apply live_inv in Hr as (x & M & HI). destruct HI as (Hwf & Hrun).
  assert (tree_ok (st_root s) 0 16) as Ht by (by destruct Hrun).
  destruct (route_in (st_root s) 0 16 sel Ht) as [H1 H2]; [change (0 + 2 ^ N.of_nat 16) with 65536; lia|].
  split; [exact H1|]. split; [exact H2|]. intros sh Hin Hs. symmetry. by eapply leaf_unique.
Qed.
(** The statistics are exact: no concurrent update of a counter is lost (C21). *)
Theorem C70_statistics_exact : forall cfg s,
  live_clean cfg s ->
  exists M s' t, content cfg s M /\ store_stats cfg s = (s', Ok t) /\
    num_entries t = Ok (N.of_nat (size M)) /\
    data_bytes t = Ok (total (map_to_list M)) /\
    t_occupied t = total (map_to_list M) + t_wasted t /\
    t_shards t = len (leaves (st_root s')).
Proof.
  intros cfg s Hr. apply live_clean_inv in Hr as (M & HI). exists M.
  pose proof (stats_wpc cfg true M (st_root s) (st_fs s) HI) as Hs. apply (exec_wpc cfg) in Hs as [Hs _].
  unfold store_stats. destruct (exec s _) as [s2 [t|e]]; [|by destruct Hs]. exists s2, t.
  cbn in Hs. destruct Hs as (_ & _ & H1 & H2 & H3). destruct (H3 eq_refl) as [H4 H5].
  split; [by eapply SInv_content|]. split; [done|]. split; [|split; [|done]].
  - unfold num_entries. destruct (N.ltb_spec (t_ins t) (t_rem t)); [lia|]. f_equal. lia.
  - unfold data_bytes. destruct (N.ltb_spec (t_occupied t) (t_wasted t)); [lia|]. f_equal. lia.
Qed.
(** Closing the store and opening the directory keeps all entries (C08). *)
Theorem C70_reopening : forall cfg s cfg',
  live cfg s -> disk_room (st_fs s) -> c_hash cfg' = c_hash cfg ->
  exists w' s', store_open cfg' (st_fs s) = (w', Ok s') /\ same_content cfg s cfg' s' /\ live cfg' s'.
Proof.
  intros cfg s cfg' Hr Hd Hh. pose proof Hr as Hr'. apply live_inv in Hr as (x & M & HI).
  destruct (open_ok cfg' x M (st_fs s)) as (w' & s' & Ho & HI'); [|done|].
  { apply (DiskInv_cfg cfg); [done|]. by eapply Inv_disk. }
  exists w', s'. split; [done|]. split; [by eapply SInv_same|].
  eapply lv_hist; [exact Hr'|]. eapply hist_cons; [|by econstructor|constructor]. exact Hd.
Qed.
(** merge_small_shards, called when no other call is in progress, keeps all entries (C05). *)
Theorem C70_merging : forall cfg s max_fill s' b,
  live cfg s -> maint_fits cfg s (MMerge max_fill) -> store_merge cfg s max_fill = (s', Ok b) ->
  same_content cfg s cfg s' /\ (b = true <-> len (leaves (st_root s')) <> len (leaves (st_root s))).
Proof.
  intros cfg s mf s' b Hr [Hf1 Hf2] Hm. apply live_inv in Hr as (x & M & HI).
  destruct (Hf1 M) as [Hf3 Hf4]; [by eapply SInv_content|].
  pose proof (merge_wpc cfg x M (st_root s) (st_fs s) mf HI Hf3 Hf4 Hf2) as Hw. apply (exec_wpc cfg) in Hw as [Hw _].
  unfold store_merge in Hm. rewrite Hm in Hw. cbn in Hw. destruct Hw as (_ & H1 & H2). split.
  - eapply SInv_same; [exact HI|exact H1].
  - rewrite H2. destruct (N.eqb_spec (len (leaves (st_root s'))) (len (leaves (st_root s)))); cbn; split; congruence.
Qed.
(** clear, called when no other call is in progress, empties the store; then it is as good as new (C07). *)
Theorem C70_clearing : forall cfg s,
  live cfg s -> cfg_ok cfg ->
  exists s', store_clear cfg s = (s', Ok tt) /\ (forall k, get_raw cfg s' k = Ok None) /\
    exists s2 t, store_stats cfg s' = (s2, Ok t) /\ num_entries t = Ok 0.
Proof.
  intros cfg s Hr Hc. apply live_inv in Hr as (x & M & HI).
  pose proof (clear_wpc cfg x M (st_root s) (st_fs s) HI Hc) as Hw. apply (exec_wpc cfg) in Hw as [Hw _].
  unfold store_clear. destruct (exec s _) as [s' [[]|e]]; [|by destruct Hw]. exists s'. split; [done|].
  assert (SInv cfg true ∅ s') as HI' by apply Hw. split.
  - intros k. by rewrite (get_raw_ok _ _ _ _ _ HI'), lookup_empty.
  - pose proof (stats_wpc cfg true ∅ (st_root s') (st_fs s') HI') as Hs. apply (exec_wpc cfg) in Hs as [Hs _].
    unfold store_stats. destruct (exec s' _) as [s2 [t|e]]; [|by destruct Hs]. exists s2, t. split; [done|].
    cbn in Hs. destruct Hs as (_ & _ & _ & _ & Hs). destruct (Hs eq_refl) as [_ Hs2].
    unfold num_entries. destruct (N.ltb_spec (t_ins t) (t_rem t)); [lia|]. f_equal. change (size ∅) with 0%nat in *. lia.
Qed.
