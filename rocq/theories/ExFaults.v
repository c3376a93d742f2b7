(** C59: concrete histories with I/O errors, and the errors that lose updates. *)
From Verif Require Import Base SipHash Hashing HashingProofs Fs Shard Router RouterPure Wpc Spec FileRep RowOps
  Compact Inv ShardOps Split Insert Open Merge Create Store Limits StoreRefine Kv Lists Queues Api Hist KvSpec
  HistInv KeySpace PlainSpec Plain Check ThmStore Faults FaultInv ThmFaults OpenAny ExStore.
Implicit Types (M : kvmap) (cfg : config) (s : store).

(** The files when the [n]th (from 0) call of the kind [F] fails. *)
Fixpoint stop_nth {A} (F : forall X, eff X -> bool) (n : nat) (p : prog A) (w : fs) : option fs :=
  match p with
  | Ret _ | Fail _ => None
  | Vis e k =>
    if F _ e then
      match n with
      | O => Some w
      | S n => stop_nth F n (k (snd (run_eff e w))) (fst (run_eff e w))
      end
    else stop_nth F n (k (snd (run_eff e w))) (fst (run_eff e w))
  end.
Lemma stop_nth_ok {A} F (G : forall X, eff X -> Prop) (p : prog A) : (forall X (e : eff X), F X e = true -> G X e) ->
  forall n w w', stop_nth F n p w = Some w' -> stops G p w w'.
Proof.
  intros HF. induction p as [a|e|X e k IH]; intros n w w' H; cbn [stop_nth stops] in *; [done|done|].
  destruct (F X e) eqn:E; [|right; by eapply IH].
  destruct n as [|n]; [injection H as <-; left; by split; [apply HF|]|right; by eapply IH].
Qed.
Definition is_put {X} (e : eff X) : bool := match e with EUpd _ (UPut _ _) => true | _ => false end.
Definition is_rename {X} (e : eff X) : bool := match e with ERename _ _ => true | _ => false end.
Definition is_open_shard {X} (e : eff X) : bool := match e with ECreate (FShard _ _) _ => true | _ => false end.

(** [set] fails at one leaf: the [n]th byte written by the insert, or by the split. *)
Definition leaf_fault_at (cfg : config) (k v : bytes) (in_split : bool) (n : nat) (w : fs) (sh : shard) : option (router * fs) :=
  let p := shard_insert cfg sh (hashk cfg k) k v MSet in
  if in_split then
    match run p w with
    | (w1, Ok (sh1, SSplit)) =>
      match run (wait_compaction cfg sh1) w1 with
      | (w2, Ok sh2) => match stop_nth (@is_put) n (shard_split cfg sh2) w2 with Some w' => Some (RLeaf sh2, w') | None => None end
      | _ => None
      end
    | _ => None
    end
  else match stop_nth (@is_put) n p w with Some w' => Some (RLeaf sh, w') | None => None end.
Fixpoint tree_fault_at (f : shard -> option (router * fs)) (r : router) (sel : N) : option (router * fs) :=
  match r with
  | RLeaf sh => f sh
  | RVertex b t =>
    if sel <? rend b then match tree_fault_at f b sel with Some (b', w) => Some (RVertex b' t, w) | None => None end
    else match tree_fault_at f t sel with Some (t', w) => Some (RVertex b t', w) | None => None end
  end.
Definition set_fault_at (cfg : config) (s : store) (k v : bytes) (in_split : bool) (n : nat) : option store :=
  match ins_err cfg (user_key k) v with
  | None => match tree_fault_at (leaf_fault_at cfg (user_key k) v in_split n (st_fs s)) (st_root s) (ph_selector (hashk cfg (user_key k))) with
            | Some (r, w) => Some (Store r w)
            | None => None
            end
  | Some _ => None
  end.
Lemma leaf_fault_at_ok cfg k v b n w sh r' w' : leaf_fault_at cfg k v b n w sh = Some (r', w') ->
  leaf_fault cfg (hashk cfg k) k v MSet sh w r' w'.
Proof.
  unfold leaf_fault_at. destruct b.
  - destruct (run _ w) as [w1 [[sh1 []]|]] eqn:E1; try done. destruct (run (wait_compaction _ _) _) as [w2 [sh2|]] eqn:E2; [|done].
    destruct (stop_nth _ _ _ _) as [w3|] eqn:E3; [|done]. intros [= <- <-]. eapply lf_split; [exact E1|exact E2|].
    eapply stop_nth_ok; [|exact E3]. intros X e H; destruct e as [| |? u| | |]; try done; destruct u; done.
  - destruct (stop_nth _ _ _ _) as [w3|] eqn:E3; [|done]. intros [= <- <-]. apply lf_insert.
    eapply stop_nth_ok; [|exact E3]. intros X e H; destruct e as [| |? u| | |]; try done; destruct u; done.
Qed.
Lemma tree_fault_at_ok f (P : shard -> router -> fs -> Prop) r : (forall sh r' w', f sh = Some (r', w') -> P sh r' w') ->
  forall sel r' w', tree_fault_at f r sel = Some (r', w') -> tree_fault P r sel r' w'.
Proof.
  intros HF sel. induction r as [sh|b IHb t IHt]; intros r' w' H; cbn [tree_fault_at tree_fault] in *; [by apply HF|].
  destruct (sel <? rend b).
  - destruct (tree_fault_at f b sel) as [[b' w1]|] eqn:E; [|done]. injection H as <- <-. eauto.
  - destruct (tree_fault_at f t sel) as [[t' w1]|] eqn:E; [|done]. injection H as <- <-. eauto.
Qed.
Lemma set_fault_at_ok cfg s k v b n s' : set_fault_at cfg s k v b n = Some s' ->
  insert_fault cfg s (user_key k) v MSet s'.
Proof.
  unfold set_fault_at, insert_fault. destruct (ins_err _ _ _); [done|].
  destruct (tree_fault_at _ _ _) as [[r w]|] eqn:E; [|done]. intros [= <-]. split; [done|]. cbn.
  eapply tree_fault_at_ok; [|exact E]. intros sh r' w' H. by eapply leaf_fault_at_ok.
Qed.
Lemma set_kfaults cfg s k v s' : ensure_sizes k v = Ok tt -> insert_fault cfg s (user_key k) v MSet s' ->
  kfaults cfg (call_prog cfg (CPlain (OSet k v))) s s'.
Proof. intros Hs Hf. cbn [call_prog plain_prog]. rewrite Hs. apply kf_insert. exact Hf. Qed.

Lemma hist_fhist G cfg s es cfg' s' : hist G cfg s es cfg' s' -> fhist G cfg s (map FDo es) cfg' s'.
Proof. induction 1; cbn [map]; [constructor|]. econstructor; [done|by constructor|done]. Qed.
Lemma fhist_app G cfg s es cfg1 s1 es' cfg' s' : fhist G cfg s es cfg1 s1 -> fhist G cfg1 s1 es' cfg' s' ->
  fhist G cfg s (es ++ es') cfg' s'.
Proof. induction 1; intros; cbn [app]; [done|]. econstructor; eauto. Qed.

(** ** A history with two errors *)
(** Nine keys, one rewritten; the next [set] needs a split, in which the disk is full after some
    bytes; then the same [set] succeeds; then the write of a [set] stops half-way; after that
    everything works. *)
Definition full : list cmd := fill 9 ++ [xset 1 96 3].
Definition resume1 : list cmd := [xget 3; xset 20 96 1; xget 20; xrem 4].
Definition resume2 : list cmd := [xget 3; xset 3 20 1; XReopen ex_cfg; xget 3].
Lemma fault_SInv cfg x M s k v b n s' old : SInv cfg x M s -> headroom cfg s M (user_key k) v ->
  set_fault_at cfg s k v b n = Some s' -> get cfg s' k = Ok old -> old <> Some v -> SInv cfg false M s'.
Proof.
  intros HI Hh Hf Hg Ho. apply set_fault_at_ok in Hf.
  destruct (insert_fault_ok cfg x M s (user_key k) v MSet s' HI) as [_ [H|H]]; [by destruct k|done|done|done|].
  exfalso. unfold get in Hg. rewrite (get_raw_ok _ _ _ _ _ H) in Hg. injection Hg as Hg. subst old. apply Ho.
  unfold spec_ins. destruct (M !! user_key k) as [o|]; cbn [fst]; apply lookup_insert.
Qed.
Definition failed (e : fevent) : bool := match e with FFail _ => true | _ => false end.
Definition can_set (s : store) (M : kvmap) (k v : bytes) : bool :=
  match krun_b ex_cfg (call_prog ex_cfg (CPlain (OSet k v))) s M with Some _ => true | None => false end.
Definition check_faults : bool :=
  match script0 ex_cfg full with
  | Some (es0, _, s0, M0) =>
    match set_fault_at ex_cfg s0 (xkey 20) (xval 96 1) true 150 with
    | Some s1 =>
      match script ex_cfg s1 M0 resume1 with
      | Some (es1, _, s2, M2) =>
        match set_fault_at ex_cfg s2 (xkey 3) (xval 20 1) false 10 with
        | Some s3 =>
          match script ex_cfg s3 M2 resume2 with
          | Some (es3, _, s', _) =>
            match get ex_cfg s1 (xkey 20), get ex_cfg s3 (xkey 3) with
            | Ok None, Ok (Some v) =>
              can_set s0 M0 (xkey 20) (xval 96 1) && can_set s2 M2 (xkey 3) (xval 20 1) &&
              headroom_b ex_cfg s0 M0 (user_key (xkey 20)) (xval 96 1) && headroom_b ex_cfg s2 M2 (user_key (xkey 3)) (xval 20 1)
              && (length v =? 96)%nat && (length es0 =? 10)%nat && (length es1 =? 4)%nat && (length es3 =? 4)%nat
              && (length (leaves (st_root s')) =? 2)%nat
            | _, _ => false
            end
          | None => false
          end
        | None => false
        end
      | None => false
      end
    | None => false
    end
  | None => false
  end.
Example faulty_history : exists es cfg' s', created ex_cfg (new_store ex_cfg) /\
  fhist fits ex_cfg (new_store ex_cfg) es cfg' s' /\
  length (List.filter failed es) = 2%nat /\ length es = 20%nat /\ length (leaves (st_root s')) = 2%nat.
Proof.
  assert (check_faults = true) as H by (by vm_cast_no_check (eq_refl true)).
  unfold check_faults in H.
  destruct (script0 ex_cfg full) as [[[[es0 c0] s0] M0]|] eqn:E0; [|done].
  assert (c0 = ex_cfg) as -> by (eapply script_cfg; [|exact E0]; done).
  destruct (script0_ok ex_cfg full es0 ex_cfg s0 M0 ex_cfg_ok) as (Hc & Hh0 & Hn0 & HI0); [by repeat constructor|exact E0|].
  clear E0.
  destruct (set_fault_at ex_cfg s0 _ _ _ _) as [s1|] eqn:E1; [|done].
  destruct (script ex_cfg s1 M0 resume1) as [[[[es1 c1] s2] M2]|] eqn:E2; [|done].
  assert (c1 = ex_cfg) as -> by (eapply script_cfg; [|exact E2]; done).
  destruct (set_fault_at ex_cfg s2 _ _ _ _) as [s3|] eqn:E3; [|done].
  destruct (script ex_cfg s3 M2 resume2) as [[[[es3 c3] s'] M']|] eqn:E4; [|done].
  destruct (get ex_cfg s1 (xkey 20)) as [[?|]|] eqn:G1; [done| |done].
  destruct (get ex_cfg s3 (xkey 3)) as [[v|]|] eqn:G2; [|done|done].
  rewrite !andb_true_iff, !Nat.eqb_eq in H. destruct H as [[[[[[[[F1 F2] R1] R2] Hv] L0] L1] L2] L3].
  apply headroom_b_ok in R1, R2.
  assert (SInv ex_cfg false M0 s1) as HI1 by (by eapply fault_SInv).
  destruct (script_ok resume1 ex_cfg s1 M0 es1 ex_cfg s2 M2 false HI1) as (Hh1 & _ & _ & x2 & HI2 & _); [by repeat constructor|exact E2|].
  assert (SInv ex_cfg false M2 s3) as HI3.
  { eapply fault_SInv; [exact HI2|exact R2|exact E3|exact G2|]. intros [= ->]. done. }
  destruct (script_ok resume2 ex_cfg s3 M2 es3 c3 s' M' false HI3) as (Hh3 & _); [by repeat constructor|exact E4|].
  apply set_fault_at_ok in E1, E3.
  exists (map FDo es0 ++ FFail (CPlain (OSet (xkey 20) (xval 96 1))) :: map FDo es1 ++ FFail (CPlain (OSet (xkey 3) (xval 20 1))) :: map FDo es3), c3, s'.
  assert (forall l, List.filter failed (map FDo l) = []) as Hl by (by induction l).
  split; [done|]. split.
  - eapply fhist_app; [by apply hist_fhist|].
    eapply fh_cons; [..|eapply fhist_app; [by apply hist_fhist|eapply fh_cons; [..|by apply hist_fhist]]].
    + eapply kfits_by; [exact HI0|exact F1].
    + apply fs_fail. by apply set_kfaults.
    + eapply kfits_by; [exact HI2|exact F2].
    + apply fs_fail. by apply set_kfaults.
  - rewrite List.filter_app. cbn [List.filter failed]. rewrite List.filter_app. cbn [List.filter failed]. rewrite !Hl. split; [done|]. split; [|done].
    rewrite app_length. cbn [length]. rewrite app_length. cbn [length]. rewrite !fmap_length. lia.
Qed.

(** ** Errors that lose updates *)
(** merge_small_shards fails in its last part, which opens the shards anew (too many open files,
    say).  The two shards were already replaced by one in the directory, but not in memory.  A
    [set] succeeds and is seen by [get], until the store is reopened: the update is gone. *)
Lemma stop_default_ok {A} F (G : forall X, eff X -> Prop) n (p : prog A) w w0 : (forall X (e : eff X), F X e = true -> G X e) ->
  match stop_nth F n p w with Some _ => true | None => false end = true -> stops G p w (default w0 (stop_nth F n p w)).
Proof. intros HF H. destruct (stop_nth F n p w) as [w'|] eqn:E; [|done]. by eapply stop_nth_ok. Qed.
Definition opened (x : fs * res store) (s : store) : store := match x with (_, Ok s') => s' | _ => s end.
Lemma opened_ok x s : match snd x with Ok _ => true | Err _ => false end = true -> x = (fst x, Ok (opened x s)).
Proof. by destruct x as [w []]. Qed.
Definition m_before : store := after ex_cfg2 (rewrites 3).
Definition m_failed : store :=
  Store (st_root m_before) (default (st_fs m_before)
    (stop_nth (@is_open_shard) 0 (merge_small_shards ex_cfg2 (st_root m_before) 1000) (st_fs m_before))).
Definition m_call : call := CPlain (OSet (xkey 1) (xval 10 9)).
Definition m_after : store := fst (krun ex_cfg2 (call_prog ex_cfg2 m_call) m_failed).
Definition m_open : store := opened (store_open ex_cfg2 (st_fs m_after)) m_after.
Definition is_val (r : res (option bytes)) (v : bytes) : bool := match r with Ok (Some v') => bool_decide (v' = v) | _ => false end.
Lemma is_val_ok r v : is_val r v = true -> r = Ok (Some v).
Proof. destruct r as [[v'|]|]; try done. cbn. intros H. by apply bool_decide_eq_true in H as ->. Qed.
Lemma pair_snd {A B} (p : A * B) y : snd p = y -> p = (fst p, y).
Proof. destruct p. by intros <-. Qed.
Definition idle_b (w : fs) (sh : shard) : bool :=
  match sh_tgt sh, fs_files w !! sh_ino sh with None, Some _ => true | _, _ => false end.
Lemma stats_idle cfg r w : forallb (idle_b w) (leaves r) = true -> exists sts, run (router_stats cfg r) w = (w, Ok (r, sts)).
Proof.
  induction r as [sh|b IHb t IHt]; intros H; cbn [leaves router_stats] in *.
  - cbn [forallb] in H. rewrite andb_true_r in H. unfold idle_b in H.
    destruct sh as [a b i [tg|]]; cbn [sh_tgt sh_ino] in H; [done|]. destruct (fs_files w !! i) as [f|] eqn:E; [|done].
    eexists. unfold shard_get_stats, wait_compaction. cbn. by rewrite E.
  - rewrite forallb_app, andb_true_iff in H. destruct (IHb (proj1 H)) as [s1 E1], (IHt (proj2 H)) as [s2 E2].
    eexists. rewrite run_bind, E1. cbn. rewrite run_bind, E2. done.
Qed.
Theorem C59_failed_merge_refuted : exists cfg s s1 s2 s3 w k v old,
  reachable_clean cfg s /\ maint_fits cfg s (MMerge 1000) /\ merge_fault cfg s 1000 s1 /\
  krun cfg (call_prog cfg (CPlain (OSet k v))) s1 = (s2, Ok (YOut (RSet (PrevValue old)))) /\
  get cfg s2 k = Ok (Some v) /\
  store_open cfg (st_fs s2) = (w, Ok s3) /\ get cfg s3 k = Ok (Some old) /\ old <> v.
Proof.
  destruct (rewrites_reach 3) as (Hr & _ & HI); [by vm_cast_no_check (eq_refl true)|by vm_cast_no_check (eq_refl true)|].
  fold m_before in Hr, HI.
  exists ex_cfg2, m_before, m_failed, m_after, m_open, (fst (store_open ex_cfg2 (st_fs m_after))), (xkey 1), (xval 10 9), (xval 400 2).
  split; [exact Hr|]. split; [eapply maint_b_ok; [exact HI|by vm_cast_no_check (eq_refl true)]|].
  split.
  { destruct (stats_idle ex_cfg2 (st_root m_before) (st_fs m_before)) as [sts Es]; [by vm_cast_no_check (eq_refl true)|].
    exists sts, (st_fs m_before). split; [exact Es|]. unfold m_failed. cbn [st_root st_fs].
    apply stop_default_ok; [intros X e He; by destruct e|]. by vm_cast_no_check (eq_refl true). }
  split. { unfold m_after, m_call. apply pair_snd; by vm_cast_no_check (eq_refl (@Ok reply (YOut (RSet (PrevValue (xval 400 2)))))). }
  split; [apply is_val_ok; by vm_cast_no_check (eq_refl true)|].
  split.
  { unfold m_open. apply opened_ok. by vm_cast_no_check (eq_refl true). }
  split; [apply is_val_ok; by vm_cast_no_check (eq_refl true)|done].
Qed.

(** A background compaction ends with an error (here in its final rename, all rows being copied).
    [set] and [get] go on.  The first merge_small_shards returns the error and changes nothing;
    the second succeeds -- and the update made in between is gone, at once. *)
Definition d_script : list cmd :=
  full ++ [xset 20 96 1; xrem 0; xrem 6; xset 2 90 7; xset 3 90 7] ++ repeat (XMaint (MBgRow 0)) 64.
Definition d_check (s : store) : bool :=
  match stop_nth (@is_rename) 0 (maint_prog ex_cfg (MBgFinish 0) (st_root s)) (st_fs s) with
  | Some w =>
    match krun ex_cfg (call_prog ex_cfg (CPlain (OSet (xkey 2) (xval 50 9)))) (Store (st_root s) w) with
    | (s2, Ok (YOut (RSet (PrevValue old)))) =>
      bool_decide (old = xval 90 7) && is_val (get ex_cfg s2 (xkey 2)) (xval 50 9) &&
      match merge_after_bg_fault ex_cfg s2 0 1000 with
      | (s3, Ok true) => is_val (get ex_cfg s3 (xkey 2)) (xval 90 7)
      | _ => false
      end
    | _ => false
    end
  | None => false
  end.
Theorem C59_failed_compaction_refuted : exists cfg s sel s1 s2 s3 k v old,
  reachable_clean cfg s /\ bg_fault cfg s sel s1 /\
  krun cfg (call_prog cfg (CPlain (OSet k v))) s1 = (s2, Ok (YOut (RSet (PrevValue old)))) /\
  get cfg s2 k = Ok (Some v) /\
  merge_after_bg_fault cfg s2 sel 1000 = (s3, Ok true) /\ get cfg s3 k = Ok (Some old) /\ old <> v.
Proof.
  destruct (after_reach ex_cfg d_script ex_cfg_ok) as (Hr & _ & _); [done|by vm_cast_no_check (eq_refl true)|].
  assert (d_check (after ex_cfg d_script) = true) as H by (by vm_cast_no_check (eq_refl true)).
  revert Hr H. generalize (after ex_cfg d_script) as s. intros s Hr H. unfold d_check in H.
  destruct (stop_nth (@is_rename) 0 (maint_prog ex_cfg (MBgFinish 0) (st_root s)) (st_fs s)) as [w|] eqn:E; [|done].
  destruct (krun ex_cfg (call_prog ex_cfg (CPlain (OSet (xkey 2) (xval 50 9)))) (Store (st_root s) w)) as [s2 [[]|]] eqn:E2; try done.
  match type of E2 with _ = (_, Ok (YOut ?o)) => destruct o as [| | |[]| |]; try done end.
  rewrite !andb_true_iff in H. destruct H as [[H1 H2] H3]. apply bool_decide_eq_true in H1. subst. apply is_val_ok in H2.
  destruct (merge_after_bg_fault ex_cfg s2 0 1000) as [s3 [[]|]] eqn:E3; try done. apply is_val_ok in H3.
  exists ex_cfg, s, 0, (Store (st_root s) w), s2, s3, (xkey 2), (xval 50 9), (xval 90 7).
  split; [exact Hr|]. split.
  { split; [done|]. exists (MBgFinish 0). split; [by right|]. cbn [st_fs]. eapply stop_nth_ok; [|exact E].
    intros X e He. by destruct e. }
  split; [exact E2|]. split; [exact H2|]. split; [exact E3|]. split; [exact H3|done].
Qed.
