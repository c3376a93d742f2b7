(** The properties of the plain key-value API (C01-C10, C19, C21, C22, C37). *)
From Verif Require Import Base SipHash Hashing HashingProofs Fs Shard Router RouterPure Wpc Spec FileRep RowOps
  Compact Inv ShardOps Split Insert Open Merge Create Store Limits StoreRefine Kv Lists Queues Api Hist KvSpec
  HistInv KeySpace PlainSpec Plain Check.
Implicit Types (M : kvmap) (cfg : config) (s : store).

(** ** Reachable stores *)
(** A store is reachable if it results from a newly created one by any finite history of calls
    (of every kind), maintenance, clear, reopening and crashes, all within capacity. *)
Definition reachable (cfg : config) (s : store) : Prop :=
  exists cfg0 s0 es, created cfg0 s0 /\ hist fits cfg0 s0 es cfg s.
(** The same without crashes. *)
Definition reachable_clean (cfg : config) (s : store) : Prop :=
  exists cfg0 s0 es, created cfg0 s0 /\ hist fits cfg0 s0 es cfg s /\ Forall no_crash es.

(** The value of a plain key, as [CandyStore::get] returns it. *)
Definition get (cfg : config) (s : store) (k : bytes) : res (option bytes) := get_raw cfg s (user_key k).
Lemma get_step cfg s k : step_op cfg s (OGet k) = (s, dor v <- get cfg s k; Ok (RGet v)).
Proof. done. Qed.
(** Two stores hold exactly the same entries, of all kinds. *)
Definition same_content (cfg : config) (s : store) (cfg' : config) (s' : store) : Prop :=
  forall k, get_raw cfg' s' k = get_raw cfg s k.

Lemma created_plain cfg s es cfg' s' : created cfg s -> hist fits cfg s es cfg' s' ->
  exists x M m, trace plain_step cfg ∅ es cfg' m /\ SInv cfg' x M s' /\ view M m /\ (Forall no_crash es -> x = true).
Proof.
  intros Hc Hh. assert (view ∅ ∅) as Hv by (intros k; by rewrite !lookup_empty).
  destruct (hist_lift (fun _ M m => view M m) plain_step fits plain_lifts cfg s es cfg' s' true ∅ ∅ Hh (created_ok _ _ Hc) Hv)
    as (x & M & m & H1 & H2 & H3 & _ & H4). eauto 10.
Qed.
Lemma reach_inv cfg s : reachable cfg s -> exists x M, SInv cfg x M s.
Proof.
  intros (cfg0 & s0 & es & Hc & Hh). destruct (created_plain _ _ _ _ _ Hc Hh) as (x & M & m & _ & H & _). eauto.
Qed.
Lemma clean_inv cfg s : reachable_clean cfg s -> exists M, SInv cfg true M s.
Proof.
  intros (cfg0 & s0 & es & Hc & Hh & Hn). destruct (created_plain _ _ _ _ _ Hc Hh) as (x & M & m & _ & H & _ & Hx).
  exists M. by rewrite <- (Hx Hn).
Qed.
Lemma SInv_same cfg x M s cfg' x' s' : SInv cfg x M s -> SInv cfg' x' M s' -> same_content cfg s cfg' s'.
Proof. intros H1 H2 k. by rewrite (get_raw_ok _ _ _ _ k H1), (get_raw_ok _ _ _ _ k H2). Qed.
(** ** C01 *)
(** Every history of a store is a history of a map: all replies are those of the map, and at
    the end the keys have exactly the values of the map. *)
Theorem C01_store_is_a_map : forall cfg s es cfg' s',
  created cfg s -> hist fits cfg s es cfg' s' ->
  exists m, trace plain_step cfg ∅ es cfg' m /\ forall k, get cfg' s' k = Ok (m !! k).
Proof.
  intros cfg s es cfg' s' Hc Hh. destruct (created_plain _ _ _ _ _ Hc Hh) as (x & M & m & H1 & H2 & H3 & _).
  exists m. split; [done|]. intros k. unfold get. by rewrite (get_raw_ok _ _ _ _ _ H2), H3.
Qed.

(** No call on plain keys ever fails with an internal error (panic, I/O, hang): the only
    errors are the size limits. *)
Theorem C01_no_internal_errors : forall cfg s es cfg' s' o r,
  created cfg s -> hist fits cfg s es cfg' s' -> ECall (CPlain o) r ∈ es ->
  match r with Ok _ => True | Err (EKeyTooLong _ | EValueTooLong _ | ECannotFit _ _) => True | Err _ => False end.
Proof.
  intros cfg s es cfg' s' o r Hc Hh Hin. destruct (created_plain _ _ _ _ _ Hc Hh) as (x & M & m & H1 & _).
  clear - H1 Hin. induction H1 as [|cfg a e cfg1 a1 es cfg' a' Hcf HT Htr IH]; [by apply elem_of_nil in Hin|].
  apply elem_of_cons in Hin as [<-|Hin]; [|by apply IH]. destruct HT as [_ ->].
  destruct o as [k|k|k|k v|k v ex|k v]; cbn [spec_op snd]; [done|done|done| | |];
    (destruct (rejected cfg k v) as [er|] eqn:E; cbn;
     [unfold rejected in E; repeat (case_match; [by simplify_eq|]); done|]); [done| |].
  - destruct (a !! k); [|done]. by destruct (expected_ok ex _).
  - by destruct (a !! k).
Qed.

(** ** C02 *)
(** The event sets (or may set) key [k] to [v]. *)
Definition wrote (k v : bytes) (e : event) : Prop :=
  exists o, (o = OSet k v \/ o = OGetOrCreate k v \/ exists ex, o = OReplace k v ex) /\
  (e = ECrash (ACall (CPlain o)) \/ exists r, e = ECall (CPlain o) (Ok r)).
(** The event does not end the life of the value [v] of key [k]. *)
Definition keeps (k v : bytes) (e : event) : Prop :=
  e <> EClear /\ (forall r, e <> ECall (CPlain (ORemove k)) r) /\
  (forall v' r, e = ECall (CPlain (OSet k v')) (Ok r) -> v' = v).

Lemma spec_op_wrote cfg m o k v r : snd (spec_op cfg m o) = Ok r ->
  fst (spec_op cfg m o) !! k = Some v -> m !! k = Some v \/ o = OSet k v \/ o = OGetOrCreate k v \/ exists ex, o = OReplace k v ex.
Proof.
  destruct o as [k'|k'|k'|k' v'|k' v' ex|k' v']; cbn [spec_op fst snd]; intros Hr H; auto.
  - apply lookup_delete_Some in H as [_ H]. auto.
  - destruct (rejected cfg k' v'); [done|]. cbn in H. apply lookup_insert_Some in H as [[-> ->]|[_ H]]; auto.
  - destruct (rejected cfg k' v'); [done|]. destruct (m !! k') as [cur|]; [|cbn in H; auto].
    destruct (expected_ok ex cur); cbn in H; [|auto]. apply lookup_insert_Some in H as [[-> ->]|[_ H]]; eauto.
  - destruct (rejected cfg k' v'); [done|]. destruct (m !! k') as [cur|]; cbn in H; [auto|].
    apply lookup_insert_Some in H as [[-> ->]|[_ H]]; auto.
Qed.
Lemma spec_op_err cfg m o e : snd (spec_op cfg m o) = Err e -> fst (spec_op cfg m o) = m.
Proof.
  destruct o as [k'|k'|k'|k' v'|k' v' ex|k' v']; cbn [spec_op fst snd]; try done; destruct (rejected cfg k' v'); try done.
  - destruct (m !! k') as [cur|]; [|done]. by destruct (expected_ok ex cur).
  - by destruct (m !! k').
Qed.
Lemma plain_step_wrote cfg m e cfg' m' k v : plain_step cfg m e cfg' m' -> m' !! k = Some v ->
  wrote k v e \/ (m !! k = Some v /\ keeps k v e).
Proof.
  intros HT Hk. destruct e as [c r|mt| | |[|c|mt]]; cbn [plain_step] in HT; try (rewrite HT in Hk; right; done).
  - destruct c as [o|tid o|lk c|qk c|b c]; try (rewrite HT in Hk; right; done). destruct HT as [-> ->].
    destruct (snd (spec_op cfg m o)) as [y|er] eqn:E.
    + destruct (spec_op_wrote cfg m o k v y E Hk) as [H|H]; [|left; exists o; eauto].
      right. split; [done|]. split; [done|]. split.
      { intros r [= -> _]. cbn in Hk. by rewrite lookup_delete in Hk. }
      intros v' r [= -> <-]. cbn in Hk, E. destruct (rejected cfg k v'); [done|]. cbn in Hk. rewrite lookup_insert in Hk. congruence.
    + rewrite (spec_op_err _ _ _ _ E) in Hk. right. split; [done|]. split; [done|]. split; [|done].
      intros r [= -> _]. by cbn in E.
  - destruct c as [o|tid o|lk c|qk c|b c]; try (rewrite HT in Hk; right; done). destruct HT as [->| ->]; [by right|].
    destruct (snd (spec_op cfg m o)) as [y|er] eqn:E; [|rewrite (spec_op_err _ _ _ _ E) in Hk; by right].
    destruct (spec_op_wrote cfg m o k v y E Hk) as [H|H]; [by right|left; exists o; eauto].
Qed.

(** A value returned for [k] was set under exactly [k], and nothing has replaced or removed it
    since: keys with equal hashes are never confused. *)
Theorem C02_value_was_set_under_this_key : forall cfg s es cfg' s' k v,
  created cfg s -> hist fits cfg s es cfg' s' -> get cfg' s' k = Ok (Some v) ->
  exists es1 e es2, es = es1 ++ e :: es2 /\ wrote k v e /\ Forall (keeps k v) es2.
Proof.
  intros cfg s es cfg' s' k v Hc Hh Hg. destruct (C01_store_is_a_map _ _ _ _ _ Hc Hh) as (m & Ht & Hm).
  rewrite Hm in Hg. injection Hg as Hg. clear Hc Hh Hm.
  assert (forall m0, trace plain_step cfg m0 es cfg' m ->
    m0 !! k = Some v /\ Forall (keeps k v) es \/
    exists es1 e es2, es = es1 ++ e :: es2 /\ wrote k v e /\ Forall (keeps k v) es2) as H.
  { intros m0 Ht0. clear Ht. induction Ht0 as [|cfg a e cfg1 a1 es cfg' a' Hcf HT Htr IH]; [auto|].
    destruct (IH Hg) as [[H1 H2]|(es1 & e1 & es2 & -> & H1 & H2)].
    - destruct (plain_step_wrote _ _ _ _ _ _ _ HT H1) as [H|[H H3]].
      + right. exists [], e, es. auto.
      + left. auto.
    - right. exists (e :: es1), e1, es2. auto. }
  destruct (H ∅ Ht) as [[H1 _]|H1]; [by rewrite lookup_empty in H1|done].
Qed.


(** What a plain operation does to the raw map. *)
Definition raw_after (cfg : config) (M : kvmap) (o : op) : kvmap :=
  let ins k v mode := match ensure_sizes k v with
    | Ok _ => match ins_err cfg (user_key k) v with None => fst (spec_ins M (user_key k) v mode) | Some _ => M end
    | Err _ => M end in
  match o with
  | OGet _ | OContains _ => M
  | ORemove k => delete (user_key k) M
  | OSet k v => ins k v MSet
  | OReplace k v ex => ins k v (MReplace ex)
  | OGetOrCreate k v => ins k v MGetOrCreate
  end.
Lemma raw_after_kwp cfg M o :
  kwp cfg (plain_prog o) (fun X => X = M \/ X = raw_after cfg M o) (fun _ X => X = raw_after cfg M o) (fun _ X => X = raw_after cfg M o) M.
Proof.
  destruct o as [k|k|k|k v|k v ex|k v]; cbn [plain_prog raw_after]; try (cbn; by auto).
  - destruct (ensure_sizes k v); [|cbn; by auto]. cbn. split; [auto|]. split; [apply user_key_ne|].
    destruct (ins_err cfg (user_key k) v); [by auto|]. unfold spec_ins. destruct (M !! user_key k); cbn; auto.
  - destruct (ensure_sizes k v); [|cbn; by auto]. cbn. split; [auto|]. split; [apply user_key_ne|].
    destruct (ins_err cfg (user_key k) v); [by auto|]. unfold spec_ins. destruct (M !! user_key k); cbn; [|auto].
    destruct ex; cbn; [|auto]. case_bool_decide; cbn; auto.
  - destruct (ensure_sizes k v); [|cbn; by auto]. cbn. split; [auto|]. split; [apply user_key_ne|].
    destruct (ins_err cfg (user_key k) v); [by auto|]. unfold spec_ins. destruct (M !! user_key k); cbn; auto.
Qed.
Lemma raw_after_other cfg M o k : k <> user_key (op_key o) -> raw_after cfg M o !! k = M !! k.
Proof.
  intros Hne. destruct o as [k'|k'|k'|k' v|k' v ex|k' v]; cbn [raw_after op_key] in *; try done.
  - by rewrite lookup_delete_ne.
  - destruct (ensure_sizes k' v); [|done]. destruct (ins_err cfg (user_key k') v); [done|].
    apply (spec_ins_outside (fun y => y = user_key k')); [done|]. congruence.
  - destruct (ensure_sizes k' v); [|done]. destruct (ins_err cfg (user_key k') v); [done|].
    apply (spec_ins_outside (fun y => y = user_key k')); [done|]. congruence.
  - destruct (ensure_sizes k' v); [|done]. destruct (ins_err cfg (user_key k') v); [done|].
    apply (spec_ins_outside (fun y => y = user_key k')); [done|]. congruence.
Qed.
Lemma kfits_map {A B} cfg (f : A -> B) (p : kprog A) : forall s, kfits cfg (kmap f p) s -> kfits cfg p s.
Proof.
  induction p as [a|e|X o k IH]; intros s; cbn; [done|done|]. intros [H1 H2]. split; [done|].
  destruct (run_kop cfg o s) as [s' [x|e]]; [|done]. by apply IH.
Qed.
Lemma plain_step_inv cfg x M s o : SInv cfg x M s -> kfits cfg (call_prog cfg (CPlain o)) s ->
  SInv cfg x (raw_after cfg M o) (fst (step_op cfg s o)) /\
  forall w, dies cfg s (ACall (CPlain o)) w -> DiskInv cfg false M w \/ DiskInv cfg false (raw_after cfg M o) w.
Proof.
  intros HI Hf. split.
  - apply kfits_map in Hf. destruct (kwp_krun cfg x _ _ _ _ M s HI Hf (raw_after_kwp cfg M o)) as (M' & HI' & HQ).
    rewrite plain_prog_step in HI', HQ. assert (M' = raw_after cfg M o) as <- by (by destruct (snd (step_op cfg s o))). done.
  - intros w Hd. cbn in Hd.
    assert (kwp cfg (call_prog cfg (CPlain o)) (fun X => X = M \/ X = raw_after cfg M o) (fun _ _ => True) (fun _ _ => True) M) as Hw.
    { cbn [call_prog]. apply kwp_map. eapply kwp_mono; [| | |apply raw_after_kwp]; auto. }
    destruct (kwp_kdies cfg x _ _ _ _ s w Hd M HI Hf Hw) as (M' & [-> | ->] & HD); auto.
Qed.

(** For every hash function, an operation on one key leaves all other entries alone. *)
Theorem C02_other_keys_untouched : forall cfg s o k',
  reachable cfg s -> kfits cfg (call_prog cfg (CPlain o)) s -> k' <> op_key o ->
  get cfg (fst (step_op cfg s o)) k' = get cfg s k'.
Proof.
  intros cfg s o k' Hr Hf Hne. apply reach_inv in Hr as (x & M & HI).
  destruct (plain_step_inv cfg x M s o HI Hf) as [HI' _]. unfold get.
  rewrite (get_raw_ok _ _ _ _ _ HI), (get_raw_ok _ _ _ _ _ HI'). f_equal. apply raw_after_other.
  intros E. by apply user_key_inj in E.
Qed.

(** ** C03 *)
(** An insertion changes no other entry of any kind, however many splits it performs. *)
Theorem C03_splits_invisible : forall cfg s o k',
  reachable cfg s -> kfits cfg (call_prog cfg (CPlain o)) s -> k' <> user_key (op_key o) ->
  get_raw cfg (fst (step_op cfg s o)) k' = get_raw cfg s k'.
Proof.
  intros cfg s o k' Hr Hf Hne. apply reach_inv in Hr as (x & M & HI).
  destruct (plain_step_inv cfg x M s o HI Hf) as [HI' _].
  rewrite (get_raw_ok _ _ _ _ _ HI), (get_raw_ok _ _ _ _ _ HI'). f_equal. by apply raw_after_other.
Qed.

(** ** C04 *)
(** Each step of a background compaction succeeds and changes no entry; so does its end. *)
Theorem C04_compaction_step_invisible : forall cfg s sel,
  reachable cfg s -> sel < 65536 ->
  (exists s', store_bg_row cfg s sel = (s', Ok tt) /\ same_content cfg s cfg s') /\
  (exists s', store_bg_finish s sel = (s', Ok tt) /\ same_content cfg s cfg s').
Proof.
  intros cfg s sel Hr Hsel. apply reach_inv in Hr as (x & M & HI). split.
  - pose proof (bg_row_wpc cfg x M (st_root s) (st_fs s) sel HI Hsel) as Hw. apply (exec_wpc cfg) in Hw as [Hw _].
    unfold store_bg_row. destruct (exec s _) as [s' [[]|e]]; [|by destruct Hw]. exists s'. split; [done|].
    eapply SInv_same; [exact HI|]. apply Hw.
  - pose proof (bg_finish_wpc cfg x M (st_root s) (st_fs s) sel HI Hsel) as Hw. apply (exec_wpc cfg) in Hw as [Hw _].
    unfold store_bg_finish. destruct (exec s _) as [s' [[]|e]]; [|by destruct Hw]. exists s'. split; [done|].
    eapply SInv_same; [exact HI|]. apply Hw.
Qed.
(** All calls of a history behave as in the history without the maintenance steps. *)
Definition not_maint (e : event) : bool := match e with EMaint _ => false | _ => true end.
Theorem C04_calls_see_no_compaction : forall cfg s es cfg' s',
  created cfg s -> hist fits cfg s es cfg' s' ->
  exists m, trace plain_step cfg ∅ (List.filter not_maint es) cfg' m /\ forall k, get cfg' s' k = Ok (m !! k).
Proof.
  intros cfg s es cfg' s' Hc Hh.
  destruct (C01_store_is_a_map _ _ _ _ _ Hc Hh) as (m & Ht & Hm). exists m. split; [|done]. clear - Ht.
  induction Ht as [|cfg a e cfg1 a1 es cfg' a' Hcf HT Htr IH]; [constructor|].
  destruct e as [c r|mt| | |act]; cbn [List.filter not_maint]; try (by econstructor).
  cbn in Hcf, HT. by subst.
Qed.

(** Splitting the shard that holds selector [sel], as the insertion does when it is full
    (router.rs:365-384). *)
Definition store_split (cfg : config) (s : store) (sel : N) : store * res unit :=
  exec s (on_leaf (st_root s) sel
    (fun sh => do! (b, t) <- shard_split cfg sh; Ret (RVertex (RLeaf b) (RLeaf t), tt))).
(** A split of any shard covering more than one selector succeeds and preserves all entries. *)
Theorem C03_split_preserves_content : forall cfg s sel,
  reachable cfg s -> sel < 65536 ->
  sh_start (route (st_root s) sel) + 1 < sh_end (route (st_root s) sel) ->
  exists s', store_split cfg s sel = (s', Ok tt) /\ same_content cfg s cfg s'.
Proof.
  intros cfg s sel Hr Hsel Hw. apply reach_inv in Hr as (x & M & HI).
  assert (wpc (on_leaf (st_root s) sel
    (fun sh => do! (b, t) <- shard_split cfg sh; Ret (RVertex (RLeaf b) (RLeaf t), tt)))
    (fun _ => True) (fun a w' => Inv cfg x M (fst a) w') no_err (st_fs s)) as Hp.
  { destruct HI as (Hwf & Hrun).
    eapply (on_leaf_spec cfg x M M sel _ tt no_err (st_root s) (st_fs s) 0 16); auto.
    - change (0 + 2 ^ N.of_nat 16) with 65536. lia.
    - intros sh st n C Q -> Hrs Hss HC HQ. pose proof Hrs as Hrs'. apply run_leaf in Hrs' as (E1 & E2 & _).
      destruct n as [|n]; [rewrite E1, E2 in Hw; cbn in Hw; lia|]. apply wpc_bind.
      eapply wpc_mono; [exact HC|intros a w' _ Ha; exact Ha|done|].
      eapply (shard_split_leaf cfg x M (st_fs s) (st_fs s) _ st n); auto.
      + split; [done|]. split; [done|done].
      + intros w' H1 H2 H3. split; [done|]. split; [done|]. by left.
      + intros w' b t HQ' _ _ _. apply wpc_ret; [apply HC; by eapply leafQ_C|by apply HQ].
    - intros w' r' HQ. by apply Inv_leafQ in HQ as [_ HQ]. }
  apply (exec_wpc cfg) in Hp as [Hp _]. unfold store_split. destruct (exec s _) as [s' [[]|e]]; [|by destruct Hp].
  exists s'. split; [done|]. eapply SInv_same; [exact HI|]. apply Hp.
Qed.

(** ** C05, C06 *)
(** [merge_small_shards] keeps all entries and tells whether the number of shards changed. *)
Theorem C05_merge_preserves_content : forall cfg s max_fill s' b,
  reachable cfg s -> maint_fits cfg s (MMerge max_fill) -> store_merge cfg s max_fill = (s', Ok b) ->
  same_content cfg s cfg s' /\ (b = true <-> len (leaves (st_root s')) <> len (leaves (st_root s))).
Proof.
  intros cfg s mf s' b Hr [Hf1 Hf2] Hm. apply reach_inv in Hr as (x & M & HI).
  destruct (Hf1 M) as [Hf3 Hf4]; [by eapply SInv_content|].
  pose proof (merge_wpc cfg x M (st_root s) (st_fs s) mf HI Hf3 Hf4 Hf2) as Hw. apply (exec_wpc cfg) in Hw as [Hw _].
  unfold store_merge in Hm. rewrite Hm in Hw. cbn in Hw. destruct Hw as (_ & H1 & H2). split.
  - eapply SInv_same; [exact HI|exact H1].
  - rewrite H2. destruct (N.eqb_spec (len (leaves (st_root s'))) (len (leaves (st_root s)))); cbn; split; congruence.
Qed.
(** When it does not return a result, the only possible reason (without earlier crashes) is the
    deadlock of C06; no file is harmed: see C10. *)
Theorem C06_merge_returns_or_deadlocks_partial : forall cfg s max_fill s' e,
  reachable_clean cfg s -> maint_fits cfg s (MMerge max_fill) -> store_merge cfg s max_fill = (s', Err e) ->
  e = EDeadlock.
Proof.
  intros cfg s mf s' e Hr [Hf1 Hf2] Hm. apply clean_inv in Hr as (M & HI).
  destruct (Hf1 M) as [Hf3 Hf4]; [by eapply SInv_content|].
  pose proof (merge_wpc cfg true M (st_root s) (st_fs s) mf HI Hf3 Hf4 Hf2) as Hw. apply (exec_wpc cfg) in Hw as [Hw _].
  unfold store_merge in Hm. rewrite Hm in Hw. cbn in Hw. destruct Hw as (_ & [->|[? ?]]); done.
Qed.

(** ** C07 *)
Theorem C07_clear_empties : forall cfg s,
  reachable cfg s -> cfg_ok cfg ->
  exists s', store_clear cfg s = (s', Ok tt) /\
    (forall k, get_raw cfg s' k = Ok None) /\
    (exists s2 t, store_stats cfg s' = (s2, Ok t) /\ num_entries t = Ok 0) /\
    (* and it behaves as a new store *)
    (forall es cfg2 s2, hist fits cfg s' es cfg2 s2 ->
       exists m, trace plain_step cfg ∅ es cfg2 m /\ forall k, get cfg2 s2 k = Ok (m !! k)).
Proof.
  intros cfg s Hr Hc. apply reach_inv in Hr as (x & M & HI).
  pose proof (clear_wpc cfg x M (st_root s) (st_fs s) HI Hc) as Hw. apply (exec_wpc cfg) in Hw as [Hw _].
  unfold store_clear. destruct (exec s _) as [s' [[]|e]]; [|by destruct Hw]. exists s'. split; [done|].
  assert (SInv cfg true ∅ s') as HI' by apply Hw. split; [|split].
  - intros k. by rewrite (get_raw_ok _ _ _ _ _ HI'), lookup_empty.
  - pose proof (stats_wpc cfg true ∅ (st_root s') (st_fs s') HI') as Hs. apply (exec_wpc cfg) in Hs as [Hs _].
    unfold store_stats. destruct (exec s' _) as [s2 [t|e]]; [|by destruct Hs]. exists s2, t. split; [done|].
    cbn in Hs. destruct Hs as (_ & _ & _ & _ & Hs). destruct (Hs eq_refl) as [_ Hs2].
    unfold size, map_size in Hs2. rewrite map_to_list_empty in Hs2. cbn in Hs2.
    unfold num_entries. destruct (N.ltb_spec (t_ins t) (t_rem t)); [lia|]. f_equal. lia.
  - intros es cfg2 s2 Hh. assert (view ∅ ∅) as Hv by (intros k; by rewrite !lookup_empty).
    destruct (hist_lift (fun _ M m => view M m) plain_step fits plain_lifts cfg s' es cfg2 s2 true ∅ ∅ Hh HI' Hv)
      as (x2 & M2 & m & H1 & H2 & H3 & _). exists m. split; [done|]. intros k. unfold get. by rewrite (get_raw_ok _ _ _ _ _ H2), H3.
Qed.

(** ** C08 *)
Theorem C08_reopen_same_content : forall cfg s cfg',
  reachable cfg s -> disk_room (st_fs s) -> c_hash cfg' = c_hash cfg ->
  exists w' s', store_open cfg' (st_fs s) = (w', Ok s') /\ same_content cfg s cfg' s' /\
    (* all later operations: the reopened store is reachable, C01 applies to it *)
    reachable cfg' s'.
Proof.
  intros cfg s cfg' Hr Hd Hh. pose proof Hr as Hr'. apply reach_inv in Hr as (x & M & HI).
  destruct (open_ok cfg' x M (st_fs s)) as (w' & s' & Ho & HI'); [|done|].
  { apply (DiskInv_cfg cfg); [done|]. by eapply Inv_disk. }
  exists w', s'. split; [done|]. split; [by eapply SInv_same|].
  destruct Hr' as (cfg0 & s0 & es & Hc & Hhist). exists cfg0, s0, (es ++ [EReopen]). split; [done|].
  assert (hist_snoc : forall G cfg0 s0 es cfg s e cfg' s', hist G cfg0 s0 es cfg s -> G cfg s e -> hstep cfg s e cfg' s' ->
    hist G cfg0 s0 (es ++ [e]) cfg' s').
  { clear. intros G cfg0 s0 es cfg s e cfg' s' H. induction H; intros HG Hs; cbn; [econstructor; eauto; constructor|].
    econstructor; eauto. }
  eapply hist_snoc; [exact Hhist|done|]. by econstructor.
Qed.

(** ** C09 *)
(** The process may die at any micro step of a call on a plain key: reopening succeeds and
    gives the content before or after the call. *)
Theorem C09_crash_during_call : forall cfg s o w cfg',
  reachable cfg s -> kfits cfg (call_prog cfg (CPlain o)) s ->
  dies cfg s (ACall (CPlain o)) w -> disk_room w -> c_hash cfg' = c_hash cfg ->
  exists w' s', store_open cfg' w = (w', Ok s') /\
    (same_content cfg s cfg' s' \/ same_content cfg (fst (step_op cfg s o)) cfg' s').
Proof.
  intros cfg s o w cfg' Hr Hf Hd Hdr Hh. apply reach_inv in Hr as (x & M & HI).
  destruct (plain_step_inv cfg x M s o HI Hf) as [HI' Hcr]. destruct (Hcr w Hd) as [HD|HD].
  - destruct (open_ok cfg' false M w) as (w' & s' & Ho & HI2); [by apply (DiskInv_cfg cfg)|done|].
    exists w', s'. split; [done|]. left. by eapply SInv_same.
  - destruct (open_ok cfg' false (raw_after cfg M o) w) as (w' & s' & Ho & HI2); [by apply (DiskInv_cfg cfg)|done|].
    exists w', s'. split; [done|]. right. by eapply SInv_same.
Qed.

(** ** C10 *)
(** The directory after the process died [any number of times] while opening it. *)
Inductive died_opening (cfg : config) : fs -> fs -> Prop :=
| do_none w : died_opening cfg w w
| do_more w cfg1 n w' : disk_room w -> c_hash cfg1 = c_hash cfg ->
    died_opening cfg (crash_at n (router_new cfg1) w) w' -> died_opening cfg w w'.
Lemma died_opening_inv cfg w w' : died_opening cfg w w' -> forall M, DiskInv cfg false M w -> DiskInv cfg false M w'.
Proof.
  induction 1 as [|w cfg1 n w' Hr Hc _ IH]; intros M HD; [done|]. apply IH. apply (DiskInv_cfg cfg1 cfg); [done|].
  pose proof (open_wpc cfg1 false M w ltac:(by apply (DiskInv_cfg cfg cfg1)) Hr) as Hw. apply wpc_sound in Hw as [Hw _]. apply Hw.
Qed.
(** Dying during maintenance (compaction, statistics, merging, or doing nothing), then any
    number of times while recovering: opening succeeds and the content is unchanged. *)
Theorem C10_crash_during_maintenance : forall cfg s a w w1 cfg',
  reachable cfg s -> match a with ACall _ => False | AMaint m => maint_fits cfg s m | ANothing => True end ->
  dies cfg s a w -> died_opening cfg w w1 -> disk_room w1 -> c_hash cfg' = c_hash cfg ->
  exists w' s', store_open cfg' w1 = (w', Ok s') /\ same_content cfg s cfg' s'.
Proof.
  intros cfg s a w w1 cfg' Hr Ha Hd Hdo Hdr Hh. apply reach_inv in Hr as (x & M & HI).
  assert (DiskInv cfg false M w) as HD.
  { destruct a as [|c|m]; [|done|].
    - cbn in Hd. subst w. by eapply Inv_disk'.
    - cbn in Hd. destruct Hd as [n ->]. pose proof (maint_wpc cfg x M s m HI Ha) as Hw. apply wpc_sound in Hw as [Hw _]. apply Hw. }
  destruct (open_ok cfg' false M w1) as (w' & s' & Ho & HI2); [apply (DiskInv_cfg cfg); [done|]; by eapply died_opening_inv|done|].
  exists w', s'. split; [done|]. by eapply SInv_same.
Qed.
(** The same for a crash during a call followed by crashes during the recovery. *)
Theorem C09_crash_during_call_and_recovery : forall cfg s o w w1 cfg',
  reachable cfg s -> kfits cfg (call_prog cfg (CPlain o)) s ->
  dies cfg s (ACall (CPlain o)) w -> died_opening cfg w w1 -> disk_room w1 -> c_hash cfg' = c_hash cfg ->
  exists w' s', store_open cfg' w1 = (w', Ok s') /\
    (same_content cfg s cfg' s' \/ same_content cfg (fst (step_op cfg s o)) cfg' s').
Proof.
  intros cfg s o w w1 cfg' Hr Hf Hd Hdo Hdr Hh. apply reach_inv in Hr as (x & M & HI).
  destruct (plain_step_inv cfg x M s o HI Hf) as [HI' Hcr]. destruct (Hcr w Hd) as [HD|HD];
    apply (died_opening_inv _ _ _ Hdo) in HD.
  - destruct (open_ok cfg' false M w1) as (w' & s' & Ho & HI2); [by apply (DiskInv_cfg cfg)|done|].
    exists w', s'. split; [done|]. left. by eapply SInv_same.
  - destruct (open_ok cfg' false (raw_after cfg M o) w1) as (w' & s' & Ho & HI2); [by apply (DiskInv_cfg cfg)|done|].
    exists w', s'. split; [done|]. right. by eapply SInv_same.
Qed.
(** A crash while a split of any shard runs changes nothing. *)
Theorem C10_crash_during_split : forall cfg s sel n cfg',
  reachable cfg s -> sel < 65536 -> sh_start (route (st_root s) sel) + 1 < sh_end (route (st_root s) sel) ->
  let w := crash_at n (on_leaf (st_root s) sel
    (fun sh => do! (b, t) <- shard_split cfg sh; Ret (RVertex (RLeaf b) (RLeaf t), tt))) (st_fs s) in
  disk_room w -> c_hash cfg' = c_hash cfg ->
  exists w' s', store_open cfg' w = (w', Ok s') /\ same_content cfg s cfg' s'.
Proof.
  intros cfg s sel n cfg' Hr Hsel Hw w Hdr Hh. apply reach_inv in Hr as (x & M & HI).
  assert (wpc (on_leaf (st_root s) sel
    (fun sh => do! (b, t) <- shard_split cfg sh; Ret (RVertex (RLeaf b) (RLeaf t), tt)))
    (DiskInv cfg false M) (fun a w' => True) no_err (st_fs s)) as Hp.
  { destruct HI as (Hwf & Hrun).
    eapply (on_leaf_spec cfg x M M sel _ tt no_err (st_root s) (st_fs s) 0 16); auto.
    - change (0 + 2 ^ N.of_nat 16) with 65536. lia.
    - intros sh st m C Q -> Hrs Hss HC HQ. pose proof Hrs as Hrs'. apply run_leaf in Hrs' as (E1 & E2 & _).
      destruct m as [|m]; [rewrite E1, E2 in Hw; cbn in Hw; lia|]. apply wpc_bind.
      eapply wpc_mono; [exact HC|intros a w' _ Ha; exact Ha|done|].
      eapply (shard_split_leaf cfg x M (st_fs s) (st_fs s) _ st m); auto.
      + split; [done|]. split; [done|done].
      + intros w' H1 H2 H3. split; [done|]. split; [done|]. by left.
      + intros w' b t HQ' _ _ _. apply wpc_ret; [apply HC; by eapply leafQ_C|by apply HQ].
    - intros w' HC. by eapply leafC_disk'. }
  apply wpc_sound in Hp as [Hp _].
  destruct (open_ok cfg' false M w) as (w' & s' & Ho & HI2); [apply (DiskInv_cfg cfg); [done|]; apply Hp|done|].
  exists w', s'. split; [done|]. by eapply SInv_same.
Qed.

(** ** C19 *)
Definition insert_of (o : op) : option (bytes * bytes) :=
  match o with OSet k v | OReplace k v _ | OGetOrCreate k v => Some (k, v) | _ => None end.
(** Outside the documented limits the call fails with the error naming the limit and the store
    is not changed at all; within the limits (and the capacity of the store) it succeeds. *)
Theorem C19_rejected_changes_nothing : forall cfg s o k v e,
  insert_of o = Some (k, v) -> rejected cfg k v = Some e -> step_op cfg s o = (s, Err e).
Proof.
  intros cfg s o k v e Ho He. rewrite rejected_ins in He.
  destruct o as [|?|?|k' v'|k' v' ex|k' v']; cbn in Ho; simplify_eq; cbn [step_op];
    (destruct (ensure_sizes k v) as [[]|er]; [|by simplify_eq]); unfold insert_raw, exec;
    rewrite (insert_rejected _ _ _ _ _ _ He); cbn; by rewrite store_eta.
Qed.
Theorem C19_within_limits_accepted : forall cfg s o k v,
  reachable cfg s -> kfits cfg (call_prog cfg (CPlain o)) s ->
  insert_of o = Some (k, v) -> rejected cfg k v = None ->
  exists r, snd (step_op cfg s o) = Ok r.
Proof.
  intros cfg s o k v Hr Hf Ho He. destruct Hr as (cfg0 & s0 & es & Hc & Hh).
  destruct (created_plain _ _ _ _ _ Hc Hh) as (x & M & m & _ & HI & HV & _).
  apply kfits_map in Hf. destruct (kwp_krun cfg x _ _ _ _ M s HI Hf (plain_kwp cfg o M m HV)) as (M' & _ & HQ).
  rewrite plain_prog_step in HQ. destruct (snd (step_op cfg s o)) as [r|e]; [by exists r|]. destruct HQ as [HQ _]. exfalso.
  destruct o as [|?|?|k' v'|k' v' ex|k' v']; cbn in Ho; simplify_eq; cbn [spec_op] in HQ; rewrite He in HQ; cbn in HQ.
  - done.
  - destruct (m !! k); [|done]. by destruct (expected_ok ex _).
  - by destruct (m !! k).
Qed.

(** ** C21 *)
(** [M]: the raw entries of the store (user entries and the records of collections). *)
Theorem C21_statistics_exact : forall cfg s,
  reachable_clean cfg s ->
  exists M s' t, content cfg s M /\ store_stats cfg s = (s', Ok t) /\
    num_entries t = Ok (N.of_nat (size M)) /\
    data_bytes t = Ok (total (map_to_list M)) /\
    t_occupied t = total (map_to_list M) + t_wasted t /\
    t_shards t = len (leaves (st_root s')).
Proof.
  intros cfg s Hr. apply clean_inv in Hr as (M & HI). exists M.
  pose proof (stats_wpc cfg true M (st_root s) (st_fs s) HI) as Hs. apply (exec_wpc cfg) in Hs as [Hs _].
  unfold store_stats. destruct (exec s _) as [s2 [t|e]]; [|by destruct Hs]. exists s2, t.
  cbn in Hs. destruct Hs as (_ & _ & H1 & H2 & H3). destruct (H3 eq_refl) as [H4 H5].
  split; [by eapply SInv_content|]. split; [done|]. split; [|split; [|done]].
  - unfold num_entries. destruct (N.ltb_spec (t_ins t) (t_rem t)); [lia|]. f_equal. lia.
  - unfold data_bytes. destruct (N.ltb_spec (t_occupied t) (t_wasted t)); [lia|]. f_equal. lia.
Qed.

(** ** C22 *)
(** After any crashes the byte counters stay consistent (the entry counters do not: see
    [C22_num_entries_refuted]). *)
Theorem C22_bytes_meaningful_partial : forall cfg s,
  reachable cfg s -> exists s' t n, store_stats cfg s = (s', Ok t) /\ data_bytes t = Ok n /\ n + t_wasted t = t_occupied t.
Proof.
  intros cfg s Hr. apply reach_inv in Hr as (x & M & HI).
  pose proof (stats_wpc cfg x M (st_root s) (st_fs s) HI) as Hs. apply (exec_wpc cfg) in Hs as [Hs _].
  unfold store_stats. destruct (exec s _) as [s2 [t|e]]; [|by destruct Hs]. exists s2, t.
  cbn in Hs. destruct Hs as (_ & _ & H1 & H2 & H3). unfold data_bytes.
  destruct (N.ltb_spec (t_occupied t) (t_wasted t)); [lia|]. eexists. split; [done|]. split; [done|]. lia.
Qed.

(** ** C37 *)
(** An insertion within the capacity conditions returns (the only loop of the code, split and
    retry, ends). *)
Theorem C37_insert_returns_partial : forall cfg s k v,
  reachable cfg s -> rejected cfg k v = None ->
  (forall M, content cfg s M -> headroom cfg s M (user_key k) v) ->
  exists s' r, step_op cfg s (OSet k v) = (s', Ok r) /\ get cfg s' k = Ok (Some v).
Proof.
  intros cfg s k v Hr He Hh. pose proof Hr as Hr'. apply reach_inv in Hr' as (x & M & HI).
  assert (kfits cfg (call_prog cfg (CPlain (OSet k v))) s) as Hf.
  { cbn [call_prog plain_prog]. rewrite rejected_ins in He. destruct (ensure_sizes k v); [|done].
    cbn. split; [intros _; exact Hh|]. destruct (insert_raw cfg s (user_key k) v MSet) as [s1 [st|e]]; [|done].
    by destruct (to_set_status st). }
  destruct (C19_within_limits_accepted cfg s (OSet k v) k v Hr Hf eq_refl He) as [r Hrr].
  destruct (plain_step_inv cfg x M s (OSet k v) HI Hf) as [HI' _].
  destruct (step_op cfg s (OSet k v)) as [s' r'] eqn:Es. cbn in Hrr, HI'. subst r'. exists s', r. split; [done|].
  unfold get. rewrite (get_raw_ok _ _ _ _ _ HI'). cbn [raw_after]. rewrite rejected_ins in He.
  destruct (ensure_sizes k v); [|done]. rewrite He. unfold spec_ins. destruct (M !! user_key k); cbn; by rewrite lookup_insert.
Qed.
