(** C46, C37: when accepted writes survive reopening and insertions return, by a condition on the
    stored entries alone (plus the 4 GiB limit of the files). *)
From Verif Require Import Base SipHash Hashing HashingProofs Fs Shard Router RouterPure Wpc Spec FileRep RowOps
  Compact Inv ShardOps Split Insert Open Merge Create Store Limits StoreRefine Kv Lists Queues Api Hist KvSpec
  HistInv KeySpace PlainSpec Plain Check ThmStore ExStore.

(** There is room for the entry (k, v): fewer than 512 stored keys share selector and row with a new
    [k]; the entries that share the selector, the new one and [min_compaction_threshold] fit in a
    shard; the files stay below 4 GiB.  Unlike [headroom] this says nothing about how full the files
    of the shards are. *)
Definition room (cfg : config) (s : store) (M : kvmap) (k v : bytes) : Prop :=
  (M !! k = None -> forall es, stored M (same_row cfg k) es -> (length es < ROW_WIDTH)%nat) /\
  (forall es, stored M (same_selector cfg k) es -> total es + (len k + len v) + c_min_compact cfg <= c_max_shard cfg) /\
  files_room s (route (st_root s) (ph_selector (hashk cfg k))) (len k + len v).

Lemma room_headroom cfg s M k v : SInv cfg true M s -> room cfg s M k v -> headroom cfg s M k v.
Proof.
  intros HI (H1 & H2 & H3). constructor; [done| |done|].
  { intros es Hes. specialize (H2 es Hes). lia. }
  intros He Ht f Hf. set (sh := route _ _) in *.
  destruct (route_ok _ _ _ _ _ (ph_selector (hashk cfg k)) HI (ph_sel_lt _)) as [R1 R2]. fold sh in R1, R2.
  destruct (leaf_idle _ _ _ _ _ R1 Ht) as (f' & L & _ & B2 & _ & _ & B5 & _ & _ & B8).
  rewrite Hf in B2. injection B2 as <-. destruct B5 as [_ B5]. destruct (B5 eq_refl) as [B6 _].
  apply all_hold_entries in B8 as [N1 N2].
  assert (total (row_entries L NUM_ROWS) + (len k + len v) + c_min_compact cfg <= c_max_shard cfg) as Hx.
  { apply H2. split; [done|]. intros k' v' Hk'. apply N2 in Hk' as [? Hs]. split; [done|].
    unfold in_span in Hs. unfold same_selector. lia. }
  rewrite live_entries in B6. change (total (row_entries L NUM_ROWS)) with (bytes_of (row_entries L NUM_ROWS)) in Hx.
  destruct (N.le_gt_cases (c_min_compact cfg) (f_wasted f)); [by left|right; lia].
Qed.

(** The entry an operation may write. *)
Definition writes (o : op) : option (bytes * bytes) :=
  match o with OSet k v | OReplace k v _ | OGetOrCreate k v => Some (k, v) | _ => None end.
(** Histories of plain calls and maintenance with room for all that is written. *)
Definition with_room (cfg : config) (s : store) (e : event) : Prop :=
  match e with
  | ECall (CPlain o) _ =>
    match writes o with
    | Some (k, v) => rejected cfg k v = None -> forall M, content cfg s M -> room cfg s M (user_key k) v
    | None => True
    end
  | EMaint m => maint_fits cfg s m
  | EReopen => disk_room (st_fs s)
  | _ => False
  end.

Lemma plain_fits cfg M s o : SInv cfg true M s ->
  match writes o with
  | Some (k, v) => rejected cfg k v = None -> room cfg s M (user_key k) v
  | None => True
  end -> kfits cfg (call_prog cfg (CPlain o)) s.
Proof.
  intros HI H.
  assert (forall k v, (rejected cfg k v = None -> room cfg s M (user_key k) v) ->
    match ensure_sizes k v with Ok _ => ins_err cfg (user_key k) v = None -> headroom cfg s M (user_key k) v | Err _ => True end) as Hk.
  { intros k v Hr. rewrite rejected_ins in Hr. destruct (ensure_sizes k v); [|done]. intros Hi. apply room_headroom; auto. }
  destruct o as [k|k|k|k v|k v ex|k v]; cbn [writes] in H; cbn [call_prog plain_prog].
  1-3: cbn; split; [done|]; repeat (case_match; try done).
  all: specialize (Hk k v H); destruct (ensure_sizes k v); [|done]; cbn; (split;
    [intros Hi M' HM'; rewrite (content_unique _ _ _ _ HM' (SInv_content _ _ _ _ HI)); by apply Hk|]);
    destruct (insert_raw _ _ _ _ _) as [s1 [st|er]]; [|done]; by destruct st.
Qed.
Lemma room_fits cfg s e : reachable_clean cfg s -> with_room cfg s e -> fits cfg s e /\ no_crash e.
Proof.
  intros Hr Hw. apply clean_inv in Hr as (M & HI).
  destruct e as [[o|tid o|lk c|qk c|b c] r|mt| | |a]; try done. split; [|done]. cbn [fits with_room] in *.
  apply (plain_fits cfg M); [done|]. destruct (writes o) as [[k v]|]; [|done]. intros E. apply (Hw E). by eapply SInv_content.
Qed.

Lemma hist_room cfg s es cfg' s' : reachable_clean cfg s -> hist with_room cfg s es cfg' s' ->
  hist fits cfg s es cfg' s' /\ Forall no_crash es /\ reachable_clean cfg' s'.
Proof.
  intros Hr Hh. induction Hh as [cfg s|cfg s e cfg1 s1 es cfg' s' HG Hs Hh IH]; [split; [constructor|done]|].
  destruct (room_fits _ _ _ Hr HG) as [H1 H2].
  assert (reachable_clean cfg1 s1) as Hr1.
  { destruct Hr as (cfg0 & s0 & es0 & A1 & A2 & A3). exists cfg0, s0, (es0 ++ [e]). split; [done|]. split.
    - clear - A2 H1 Hs. induction A2; cbn; [econstructor; eauto; constructor|econstructor; eauto].
    - apply Forall_app. split; [done|]. by constructor. }
  destruct (IH Hr1) as (I1 & I2 & I3). split; [by econstructor|]. split; [by constructor|done].
Qed.
Lemma room_created cfg s : created cfg s -> reachable_clean cfg s.
Proof. intros H. exists cfg, s, []. split; [done|]. split; [constructor|done]. Qed.

(** The event is not a call that may change key [k]. *)
Definition spares (k : bytes) (e : event) : Prop :=
  match e with
  | ECall (CPlain (OSet k' _ | OReplace k' _ _ | OGetOrCreate k' _ | ORemove k')) _ => k' <> k
  | _ => True
  end.

Lemma spares_step cfg m e cfg' m' k v : spares k e -> e <> EClear -> no_crash e -> plain_step cfg m e cfg' m' -> m !! k = Some v -> m' !! k = Some v.
Proof.
  intros Hs He Hn HT Hk. destruct e as [[o|tid o|lk c|qk c|b c] r|mt| | |a]; cbn [plain_step] in HT; try done; try (by rewrite HT).
  destruct HT as [-> _]. destruct o as [k'|k'|k'|k' v'|k' v' ex|k' v']; cbn [spec_op spares] in *; try done.
  - cbn. by rewrite lookup_delete_ne.
  - destruct (rejected cfg k' v'); [done|]. cbn. by rewrite lookup_insert_ne.
  - destruct (rejected cfg k' v'); [done|]. destruct (m !! k'); [|done]. destruct (expected_ok ex _); [|done]. cbn. by rewrite lookup_insert_ne.
  - destruct (rejected cfg k' v'); [done|]. destruct (m !! k'); [done|]. cbn. by rewrite lookup_insert_ne.
Qed.
Lemma hist_append G cfg s es cfg1 s1 es' cfg2 s2 :
  hist G cfg s es cfg1 s1 -> hist G cfg1 s1 es' cfg2 s2 -> hist G cfg s (es ++ es') cfg2 s2.
Proof. intros H1 H2. induction H1; [done|]. cbn. econstructor; eauto. Qed.
Lemma trace_split {A : Type} (T : config -> A -> event -> config -> A -> Prop) cfg a es es' cfg' a' :
  trace T cfg a (es ++ es') cfg' a' -> exists cfg1 a1, trace T cfg1 a1 es' cfg' a'.
Proof.
  revert cfg a. induction es as [|e es IH]; intros cfg a H; cbn in H; [eauto|].
  inversion H as [|? ? ? cfg1 a1 ? ? ? ? ? Ht]; subst. by eapply IH.
Qed.
Lemma room_events cfg s es cfg' s' : hist with_room cfg s es cfg' s' -> Forall (fun e => e <> EClear /\ no_crash e) es.
Proof.
  intros Hh. induction Hh as [|cfg s e cfg1 s1 es cfg' s' HG Hs Hh IH]; [done|]. constructor; [|done].
  destruct e as [c r|mt| | |a]; try done.
Qed.

(** ** C46 *)
(** As long as there is room, a value that was set (and not changed since) is there after dropping
    the store and opening the directory, with any settings but the hash key; opening succeeds.  The
    writes may be interleaved with anything on other keys, with background compactions stopping at
    any row, and with other reopenings. *)
Theorem C46_accepted_writes_survive_reopening_partial :
  forall cfg0 s0 es1 cfg s k v r s1 es2 cfg2 s2 cfg',
  created cfg0 s0 -> hist with_room cfg0 s0 es1 cfg s ->
  with_room cfg s (ECall (CPlain (OSet k v)) (Ok r)) -> hstep cfg s (ECall (CPlain (OSet k v)) (Ok r)) cfg s1 ->
  hist with_room cfg s1 es2 cfg2 s2 -> Forall (spares k) es2 ->
  disk_room (st_fs s2) -> c_hash cfg' = c_hash cfg2 ->
  exists w s', store_open cfg' (st_fs s2) = (w, Ok s') /\ get cfg' s' k = Ok (Some v).
Proof.
  intros cfg0 s0 es1 cfg s k v r s1 es2 cfg2 s2 cfg' Hc H1 H2 H3 H4 H5 H6 H7.
  destruct (hist_room _ _ _ _ _ (room_created _ _ Hc) H1) as (F1 & _ & R1).
  assert (hist with_room cfg s (ECall (CPlain (OSet k v)) (Ok r) :: es2) cfg2 s2) as H23 by (econstructor; [done|done|done]).
  destruct (hist_room _ _ _ _ _ R1 H23) as (F2 & _ & R2).
  assert (reachable cfg2 s2) as Rb by (destruct R2 as (a & b & c & ? & ? & ?); by exists a, b, c).
  destruct (C08_reopen_same_content cfg2 s2 cfg' Rb H6 H7) as (w & s' & Ho & Hsame & _).
  exists w, s'. split; [done|]. unfold get. rewrite Hsame.
  destruct (C01_store_is_a_map cfg0 s0 _ cfg2 s2 Hc (hist_append _ _ _ _ _ _ _ _ _ F1 F2)) as (m & Ht & Hm).
  specialize (Hm k). unfold get in Hm. rewrite Hm. f_equal.
  apply trace_split in Ht as (c1 & m1 & Ht). apply room_events in H4.
  assert (Forall (fun e => spares k e /\ e <> EClear /\ no_crash e) es2) as H8 by (by apply Forall_and).
  clear - Ht H8. rename H8 into H5.
  inversion Ht as [|ca a e c2 a2 esb c3 a3 Hc HT Ht2]; subst. clear Ht.
  assert (a2 !! k = Some v) as Hk.
  { destruct HT as [-> HT]. cbn [spec_op] in *. destruct (rejected c1 k v); [done|]. cbn. by rewrite lookup_insert. }
  clear HT Hc. induction Ht2 as [|ca a e c2' a2 esb c3 a3 Hc' HT Ht2 IH]; [done|].
  apply Forall_cons in H5 as [Hs H5]. destruct Hs as (S1 & S2 & S3). apply IH; [exact H5|]. by eapply spares_step.
Qed.

(** ** C37 *)
(** With room for it, an entry is stored and the call returns. *)
Theorem C37_insert_with_room_returns_partial : forall cfg s k v,
  reachable_clean cfg s -> rejected cfg k v = None ->
  (forall M, content cfg s M -> room cfg s M (user_key k) v) ->
  exists s' r, step_op cfg s (OSet k v) = (s', Ok r) /\ get cfg s' k = Ok (Some v).
Proof.
  intros cfg s k v Hr He Hro. apply C37_insert_returns_partial; [|done|].
  - destruct Hr as (a & b & c & ? & ? & ?). by exists a, b, c.
  - intros M HM. destruct (clean_inv _ _ Hr) as (M' & HI).
    rewrite (content_unique _ _ _ _ HM (SInv_content _ _ _ _ HI)). apply room_headroom; [done|]. apply Hro. by eapply SInv_content.
Qed.

(** ** Examples *)
Definition same_sel_b (cfg : config) (k k' : bytes) : bool := ph_selector (hashk cfg k') =? ph_selector (hashk cfg k).
Definition room_b (cfg : config) (s : store) (M : kvmap) (k v : bytes) : bool :=
  (size M <? ROW_WIDTH)%nat &&
  (total (List.filter (fun x => same_sel_b cfg k (fst x)) (map_to_list M)) + (len k + len v) + c_min_compact cfg <=? c_max_shard cfg) &&
  files_b s (route (st_root s) (ph_selector (hashk cfg k))) (len k + len v).
Lemma filter_perm_b (f : kv -> bool) a b : a ≡ₚ b -> List.filter f a ≡ₚ List.filter f b.
Proof.
  induction 1 as [|x a b H IH|x y a|a b c H1 IH1 H2 IH2]; cbn [List.filter]; [done| | |by etrans].
  - destruct (f x); [by constructor|done].
  - destruct (f x), (f y); try done. by constructor.
Qed.
Lemma filter_all_b (f : kv -> bool) a : Forall (fun x => f x = true) a -> List.filter f a = a.
Proof. induction 1 as [|x a H1 H2 IH]; cbn [List.filter]; [done|]. by rewrite H1, IH. Qed.
Lemma room_b_ok cfg s M k v : room_b cfg s M k v = true -> room cfg s M k v.
Proof.
  unfold room_b. rewrite !andb_true_iff. intros [[H1 H2] H3]. apply Nat.ltb_lt in H1. apply N.leb_le in H2. split; [|split].
  - intros _ es Hes. apply stored_sub in Hes as [rest Hr]. apply Permutation_length in Hr.
    rewrite app_length in Hr. unfold size, map_size in H1. lia.
  - intros es Hes. pose proof Hes as [_ Hs]. apply stored_sub in Hes as [rest Hr].
    apply (filter_perm_b (fun x => same_sel_b cfg k (fst x))) in Hr. rewrite List.filter_app in Hr.
    rewrite (filter_all_b _ es) in Hr.
    + apply total_perm in Hr. rewrite total_app in Hr. lia.
    + apply Forall_forall. intros [k' v'] Hin. apply Hs in Hin as [_ Hin]. cbn. unfold same_sel_b. by apply N.eqb_eq.
  - intros f Hf. unfold files_b in H3. rewrite Hf in H3. destruct (sh_tgt _) as [[t b]|]; [|by apply N.ltb_lt].
    intros ft Hft. rewrite Hft in H3. by apply N.ltb_lt.
Qed.
(** Runs a script of plain calls and maintenance, checking that there is room. *)
Definition room_cmd (cfg : config) (s : store) (M : kvmap) (c : cmd) : bool :=
  match c with
  | XCall (CPlain o) => match writes o with Some (k, v) => room_b cfg s M (user_key k) v | None => true end
  | XMaint _ | XReopen _ => true
  | _ => false
  end.
Fixpoint room_script (cfg : config) (s : store) (M : kvmap) (l : list cmd) : option (config * store * kvmap) :=
  match l with
  | [] => Some (cfg, s, M)
  | c :: l => if room_cmd cfg s M c then
                match cmd_step cfg s M c with Some (_, cfg1, s1, M1) => room_script cfg1 s1 M1 l | None => None end
              else None
  end.
Lemma cmd_event c cfg s M e cfg' s' M' : cmd_step cfg s M c = Some (e, cfg', s', M') ->
  match c with XCall c => exists r, e = ECall c r | XMaint m => e = EMaint m | XClear => e = EClear | XReopen _ => e = EReopen end.
Proof.
  intros Hc. destruct c as [c|m| |cfg1]; cbn [cmd_step] in Hc.
  - destruct (krun_b _ _ _ _) as [[[? ?] r]|]; [|done]. injection Hc as <- _ _ _. eauto.
  - destruct (maint_b cfg M m); [|done]. destruct (exec _ _) as [? [?|?]]; [|done]. by injection Hc as <- _ _ _.
  - destruct (_ <=? _); [|done]. destruct (store_clear _ _) as [? [?|?]]; [|done]. by injection Hc as <- _ _ _.
  - destruct (disk_room_b _); [|done]. destruct (store_open _ _) as [? [?|?]]; [|done]. by injection Hc as <- _ _ _.
Qed.
(** The commands that match events. *)
Definition cmd_spares (k : bytes) (c : cmd) : bool :=
  match c with
  | XCall (CPlain (OSet k' _ | OReplace k' _ _ | OGetOrCreate k' _ | ORemove k')) => negb (bool_decide (k' = k))
  | _ => true
  end.
Lemma room_script_ok l : forall cfg s M cfg' s' M', SInv cfg true M s -> Forall (same_hash cfg) l ->
  room_script cfg s M l = Some (cfg', s', M') ->
  SInv cfg' true M' s' /\ c_hash cfg' = c_hash cfg /\
  exists es, hist with_room cfg s es cfg' s' /\ forall k, forallb (cmd_spares k) l = true -> Forall (spares k) es.
Proof.
  induction l as [|c l IH]; intros cfg s M cfg' s' M' HI Hh Hs; cbn [room_script] in Hs.
  - injection Hs as <- <- <-. split; [done|]. split; [done|]. exists []. split; [constructor|done].
  - destruct (room_cmd cfg s M c) eqn:Er; [|done].
    destruct (cmd_step cfg s M c) as [[[[e cfg1] s1] M1]|] eqn:E; [|done].
    apply Forall_cons in Hh as [Hh1 Hh2].
    destruct (cmd_step_ok _ _ _ _ _ _ _ _ true HI Hh1 E) as (H1 & H2 & H3 & H4 & x1 & H5 & H6).
    rewrite (H6 eq_refl) in H5.
    assert (Forall (same_hash cfg1) l) as Hh3.
    { eapply Forall_impl; [exact Hh2|]. intros [] ?; cbn in *; congruence. }
    destruct (IH _ _ _ _ _ _ H5 Hh3 Hs) as (H7 & H8 & es & H9 & H10).
    split; [done|]. split; [congruence|]. exists (e :: es). pose proof (cmd_event _ _ _ _ _ _ _ _ E) as He. split.
    + econstructor; [|exact H2|exact H9].
      destruct c as [[o|? ?|? ?|? ?|? ?]|m| |cfg2]; try done; cbn [room_cmd] in Er.
      * destruct He as [r ->]. cbn [with_room]. destruct (writes o) as [[k v]|]; [|done]. intros _ M2 HM2.
        rewrite (content_unique _ _ _ _ HM2 (SInv_content _ _ _ _ HI)). by apply room_b_ok.
      * subst e. exact H1.
      * subst e. exact H1.
    + intros k Hk. cbn [forallb] in Hk. apply andb_prop in Hk as [K1 K2]. constructor; [|by apply H10].
      destruct c as [[o|? ?|? ?|? ?|? ?]|m| |cfg2]; try done; try (by subst e).
      * destruct He as [r ->]. destruct o as [k'|k'|k'|k' v'|k' v' ex|k' v']; cbn [cmd_spares spares] in *; try done;
          apply negb_true_iff in K1; by apply bool_decide_eq_false in K1.
Qed.

(** Settings with little room in a shard: nine keys (the shards split), updates, a background
    compaction caught in the middle, a removal, reopening with other settings. *)
Definition durable_before : list cmd := fill 9 ++ [xset 20 96 1; xrem 1; xrem 2; xset 3 96 4].
Definition durable_after : list cmd :=
  [xset 4 96 5; XMaint (MBgRow 0); XMaint (MBgRow 40000); xset 5 96 6; xget 6; xrem 7; xset 8 96 2; XMaint MStats;
   XReopen (Config (siphash128 seed_aabbccdd) 5000 100 0 16 true false); xset 0 96 9].
Definition durable_run : option (config * store * kvmap) := room_script ex_cfg (new_store ex_cfg) ∅ durable_before.
Lemma room_some (cfg : config) (s : store) (M : kvmap) (l : list cmd) (P : config * store * kvmap -> bool) :
  match room_script cfg s M l with Some o => P o | None => false end = true ->
  exists cfg' s' M', room_script cfg s M l = Some (cfg', s', M') /\ P (cfg', s', M') = true.
Proof. destruct (room_script cfg s M l) as [[[cfg' s'] M']|]; [|done]. eauto 10. Qed.
Definition durable_b (o : config * store * kvmap) : bool :=
  let '(cfg, s, M) := o in
  room_b cfg s M (user_key (xkey 6)) (xval 90 7) &&
  match cmd_step cfg s M (xset 6 90 7) with
  | Some (ECall _ (Ok _), cfg1, s1, M1) =>
    match room_script cfg1 s1 M1 durable_after with
    | Some (cfg2, s2, M2) => disk_room_b (st_fs s2) && (1 <? length (leaves (st_root s2)))%nat
    | None => false
    end
  | _ => false
  end.
Example C46_example : exists cfg0 s0 es1 cfg s k v r s1 es2 cfg2 s2,
  created cfg0 s0 /\ hist with_room cfg0 s0 es1 cfg s /\
  with_room cfg s (ECall (CPlain (OSet k v)) (Ok r)) /\ hstep cfg s (ECall (CPlain (OSet k v)) (Ok r)) cfg s1 /\
  hist with_room cfg s1 es2 cfg2 s2 /\ Forall (spares k) es2 /\ disk_room (st_fs s2) /\
  (1 < length (leaves (st_root s2)))%nat.
Proof.
  pose proof (new_created ex_cfg ex_cfg_ok) as Hn. pose proof (created_ok _ _ Hn) as HI.
  destruct (room_some ex_cfg (new_store ex_cfg) ∅ durable_before durable_b) as (cfg & s & M & E & Hb);
    [by vm_cast_no_check (eq_refl true)|].
  assert (Forall (same_hash ex_cfg) durable_before) as Hsh by (repeat constructor).
  destruct (room_script_ok durable_before _ _ _ _ _ _ HI Hsh E) as (HI1 & Eh & es1 & Hh1 & _).
  revert Hn Hh1 HI1 Hb. clear HI E. generalize (new_store ex_cfg). intros s0 Hn Hh1 HI1 Hb.
  unfold durable_b in Hb. apply andb_prop in Hb as [Hr Hb].
  destruct (cmd_step cfg s M (xset 6 90 7)) as [[[[e cfg1] s1] M1]|] eqn:Ec; [|done].
  destruct (cmd_step_ok _ _ _ _ _ _ _ _ true HI1 (Logic.I : same_hash cfg (xset 6 90 7)) Ec) as (H1 & H2 & _ & H4 & x1 & H5 & H6).
  rewrite (H6 eq_refl) in H5. destruct e as [c [r|]|mt| | |a]; try done.
  pose proof (cmd_event _ _ _ _ _ _ _ _ Ec) as [r' Hr']. injection Hr' as -> <-.
  destruct (room_script cfg1 s1 M1 durable_after) as [[[cfg2 s2] M2]|] eqn:E2; [|done].
  apply andb_prop in Hb as [Hd Hl].
  assert (cfg1 = cfg) as -> by (by inversion H2).
  assert (Forall (same_hash cfg) durable_after) as Hsa.
  { unfold durable_after. repeat (apply Forall_cons; split; [first [exact Logic.I | symmetry; exact Eh]|]). by apply Forall_nil. }
  destruct (room_script_ok durable_after _ _ _ _ _ _ H5 Hsa E2) as (_ & _ & es2 & Hh2 & Hsp).
  exists ex_cfg, s0, es1, cfg, s, (xkey 6), (xval 90 7), r, s1, es2, cfg2, s2.
  split; [exact Hn|]. split; [exact Hh1|]. split.
  { cbn [with_room writes]. intros _ M' HM'. rewrite (content_unique _ _ _ _ HM' (SInv_content _ _ _ _ HI1)).
    by apply room_b_ok. }
  split; [exact H2|]. split; [exact Hh2|]. split; [apply Hsp; by vm_compute|].
  split; [by apply disk_room_b_ok|]. by apply Nat.ltb_lt.
Qed.
Definition insert_b (o : config * store * kvmap) : bool :=
  let '(cfg, s, M) := o in
  room_b cfg s M (user_key (xkey 6)) (xval 90 7) &&
  match rejected cfg (xkey 6) (xval 90 7) with None => true | Some _ => false end && (1 <? length (leaves (st_root s)))%nat.
Example C37_example : exists cfg s k v, reachable_clean cfg s /\ rejected cfg k v = None /\
  (forall M, content cfg s M -> room cfg s M (user_key k) v) /\ (1 < length (leaves (st_root s)))%nat.
Proof.
  pose proof (new_created ex_cfg ex_cfg_ok) as Hn. pose proof (created_ok _ _ Hn) as HI.
  destruct (room_some ex_cfg (new_store ex_cfg) ∅ durable_before insert_b) as (cfg & s & M & E & Hb);
    [by vm_cast_no_check (eq_refl true)|].
  assert (Forall (same_hash ex_cfg) durable_before) as Hsh by (repeat constructor).
  destruct (room_script_ok durable_before _ _ _ _ _ _ HI Hsh E) as (HI1 & _ & es1 & Hh1 & _).
  revert Hn Hh1 HI1 Hb. clear HI E. generalize (new_store ex_cfg). intros s0 Hn Hh1 HI1 Hb.
  apply andb_prop in Hb as [Hb Hl]. apply andb_prop in Hb as [Hb He].
  exists cfg, s, (xkey 6), (xval 90 7). split; [exact (proj2 (proj2 (hist_room _ _ _ _ _ (room_created _ _ Hn) Hh1)))|].
  split; [by destruct (rejected cfg _ _)|]. split; [|by apply Nat.ltb_lt].
  intros M' HM'. rewrite (content_unique _ _ _ _ HM' (SInv_content _ _ _ _ HI1)). by apply room_b_ok.
Qed.
