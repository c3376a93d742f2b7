(** An executable version of histories: running a script of commands yields a history that
    satisfies all capacity conditions.  Used to show that the hypotheses of the theorems are
    met by concrete stores (and to compute counterexamples). *)
From Verif Require Import Base Hashing HashingProofs Fs Shard Router RouterPure Wpc Spec FileRep RowOps
  Compact Inv ShardOps Split Insert Open Merge Create Store Limits StoreRefine Kv Lists Queues Api Hist KvSpec
  HistInv.
Implicit Types (M : kvmap) (cfg : config) (s : store).

Lemma stored_sub M P es : stored M P es -> exists rest, es ++ rest ≡ₚ map_to_list M.
Proof.
  intros [H1 H2]. assert (es ⊆+ map_to_list M) as Hs.
  { apply NoDup_submseteq; [by eapply NoDup_fmap_1|]. intros [k v] Hkv. apply elem_of_map_to_list. by apply H2. }
  apply submseteq_Permutation in Hs as [rest Hr]. by exists rest.
Qed.
Lemma total_app a b : total (a ++ b) = total a + total b.
Proof. unfold total. induction a as [|x a IH]; cbn; [done|]. cbn in IH. rewrite IH. lia. Qed.
Lemma total_perm a b : a ≡ₚ b -> total a = total b.
Proof. unfold total. induction 1; cbn in *; lia. Qed.

(** ** Capacity *)
Definition files_b (s : store) (sh : shard) (n : N) : bool :=
  match fs_files (st_fs s) !! sh_ino sh with
  | None => true
  | Some f =>
    match sh_tgt sh with
    | None => f_woff f + n <? 2 ^ 32
    | Some (t, _) => match fs_files (st_fs s) !! t with None => true | Some ft => f_woff f + f_woff ft + n <? 2 ^ 32 end
    end
  end.
Definition single_b (cfg : config) (s : store) (sh : shard) (n : N) : bool :=
  if sh_end sh =? sh_start sh + 1 then
    match fs_files (st_fs s) !! sh_ino sh with
    | None => true
    | Some f => (c_min_compact cfg <=? f_wasted f) || (f_woff f + n <=? c_max_shard cfg)
    end
  else true.
Definition headroom_b (cfg : config) (s : store) (M : kvmap) (k v : bytes) : bool :=
  let sh := route (st_root s) (ph_selector (hashk cfg k)) in
  (size M <? ROW_WIDTH)%nat && (total (map_to_list M) + (len k + len v) <=? c_max_shard cfg)
  && files_b s sh (len k + len v) && single_b cfg s sh (len k + len v).
Lemma headroom_b_ok cfg s M k v : headroom_b cfg s M k v = true -> headroom cfg s M k v.
Proof.
  unfold headroom_b. rewrite !andb_true_iff. intros [[[H1 H2] H3] H4].
  apply Nat.ltb_lt in H1. apply N.leb_le in H2. constructor.
  - intros _ es Hes. apply stored_sub in Hes as [rest Hr]. apply Permutation_length in Hr.
    rewrite app_length in Hr. unfold size, map_size in H1. lia.
  - intros es Hes. apply stored_sub in Hes as [rest Hr]. apply total_perm in Hr. rewrite total_app in Hr. lia.
  - intros f Hf. unfold files_b in H3. rewrite Hf in H3. destruct (sh_tgt _) as [[t b]|]; [|by apply N.ltb_lt].
    intros ft Hft. rewrite Hft in H3. by apply N.ltb_lt.
  - intros Hs Ht f Hf. unfold single_b in H4. rewrite Hs, N.eqb_refl, Hf in H4.
    apply orb_true_iff in H4 as [H4|H4]; apply N.leb_le in H4; auto.
Qed.

Definition kop_map {X} (cfg : config) (o : kop X) (M : kvmap) : kvmap :=
  match o with
  | KIns k v mode => match ins_err cfg k v with None => fst (spec_ins M k v mode) | Some _ => M end
  | KRem k => delete k M
  | _ => M
  end.
Definition kop_b {X} (cfg : config) (o : kop X) (s : store) (M : kvmap) : bool :=
  match o with
  | KIns k v mode =>
    match k with [] => false | _ => true end &&
    match ins_err cfg k v with Some _ => true | None => headroom_b cfg s M k v end
  | _ => true
  end.
(** Runs [p], checking the capacity on the way: the store, the abstract map and the result. *)
Fixpoint krun_b {A} (cfg : config) (p : kprog A) (s : store) (M : kvmap) : option (store * kvmap * res A) :=
  match p with
  | KRet a => Some (s, M, Ok a)
  | KFail e => Some (s, M, Err e)
  | KVis o k =>
    if kop_b cfg o s M then
      match run_kop cfg o s with
      | (s', Ok x) => krun_b cfg (k x) s' (kop_map cfg o M)
      | (s', Err e) => Some (s', kop_map cfg o M, Err e)
      end
    else None
  end.
Lemma kop_b_ok {X} cfg x (o : kop X) s M : SInv cfg x M s -> kop_b cfg o s M = true ->
  kop_ne o /\ kop_fits cfg o s /\ SInv cfg x (kop_map cfg o M) (fst (run_kop cfg o s)).
Proof.
  intros HI Hb.
  assert (kop_ne o) as Hne by (by destruct o as [| [|? ?] | | | |]).
  assert (kop_fits cfg o s) as Hf.
  { destruct o; try done. cbn in Hb |- *. intros He M' HM'. rewrite He in Hb. apply andb_true_iff in Hb as [_ Hb].
    rewrite (content_unique cfg s M' M HM'); [by apply headroom_b_ok|by eapply SInv_content]. }
  split; [done|]. split; [done|]. destruct (run_kop_ok cfg x M s o HI Hne Hf) as (M' & HI' & Hp & _).
  assert (M' = kop_map cfg o M) as ->; [|done].
  destruct o; cbn [kop_post kop_map] in *; try (by apply Hp).
  match goal with |- _ = match ?e with _ => _ end => destruct e end; by apply Hp.
Qed.
Lemma krun_b_ok {A} cfg x (p : kprog A) : forall s M s' M' r, SInv cfg x M s ->
  krun_b cfg p s M = Some (s', M', r) -> kfits cfg p s /\ krun cfg p s = (s', r) /\ SInv cfg x M' s'.
Proof.
  induction p as [a|e|X o k IH]; intros s M s' M' r HI Hr; cbn [krun_b krun kfits] in *.
  - by injection Hr as -> -> <-.
  - by injection Hr as -> -> <-.
  - destruct (kop_b cfg o s M) eqn:Hb; [|done].
    destruct (kop_b_ok cfg x o s M HI Hb) as (H1 & H2 & H3).
    destruct (run_kop cfg o s) as [s1 [y|e]]; cbn [fst] in H3.
    + destruct (IH y _ _ _ _ _ H3 Hr) as (H4 & H5 & H6). auto.
    + injection Hr as -> <- <-. auto.
Qed.

(** The files left if the process dies in the [i]th raw operation of [p], after [n] micro steps. *)
Fixpoint kdies_at {A} (cfg : config) (p : kprog A) (s : store) (i n : nat) : fs :=
  match p with
  | KRet _ | KFail _ => st_fs s
  | KVis o k =>
    match i with
    | O => kop_dies cfg o s n
    | S i => match run_kop cfg o s with (s', Ok x) => kdies_at cfg (k x) s' i n | (s', _) => st_fs s end
    end
  end.
Lemma kdies_at_ok {A} cfg (p : kprog A) : forall s i n, kdies cfg p s (kdies_at cfg p s i n).
Proof.
  induction p as [a|e|X o k IH]; intros s i n; cbn [kdies_at]; [constructor|constructor|].
  destruct i as [|i]; [constructor|]. destruct (run_kop cfg o s) as [s' [x|e]] eqn:E; [|constructor].
  by eapply kd_later.
Qed.

(** ** Scripts *)
Inductive cmd :=
| XCall (c : call) | XMaint (m : maint) | XClear | XReopen (cfg : config).

Definition disk_room_b (w : fs) : bool :=
  forallb (fun x : fname * ino =>
    match x with
    | (FShard a b, i) =>
      match fs_dir w !! FCompact a b with
      | None => true
      | Some t =>
        match fs_files w !! i, fs_files w !! t with
        | Some f, Some ft => f_woff f + f_woff ft <? 2 ^ 32
        | _, _ => true
        end
      end
    | _ => true
    end) (map_to_list (fs_dir w)).
Lemma disk_room_b_ok w : disk_room_b w = true -> disk_room w.
Proof.
  unfold disk_room_b. rewrite forallb_forall. intros H a b i t f ft H1 H2 H3 H4.
  specialize (H (FShard a b, i)). cbn in H. rewrite H2, H3, H4 in H. apply N.ltb_lt, H.
  apply elem_of_list_In. by apply elem_of_map_to_list.
Qed.

Definition maint_b (cfg : config) (M : kvmap) (m : maint) : bool :=
  match m with
  | MBgRow sel | MBgFinish sel => sel <? 65536
  | MStats => true
  | MMerge _ => (total (map_to_list M) <? 2 ^ 32) && (N.of_nat (size M) <=? END_OF_SHARDS * EXPECTED_CAPACITY)
                && (c_expected cfg <=? END_OF_SHARDS * EXPECTED_CAPACITY)
  end.
Lemma maint_b_ok cfg x s M m : SInv cfg x M s -> maint_b cfg M m = true -> maint_fits cfg s m.
Proof.
  intros HI. destruct m as [sel|sel| |mf]; cbn [maint_b maint_fits]; [apply N.ltb_lt|apply N.ltb_lt|done|].
  rewrite !andb_true_iff. intros [[H1 H2] H3]. apply N.ltb_lt in H1. apply N.leb_le in H2, H3. split; [|done].
  intros M' HM'. rewrite (content_unique cfg s M' M HM'); [|by eapply SInv_content]. split; [|done].
  intros es Hes. apply stored_sub in Hes as [rest Hr]. apply total_perm in Hr. rewrite total_app in Hr. lia.
Qed.

(** Runs a script: the events, and the settings, store and raw map at the end. *)
Definition cmd_step (cfg : config) (s : store) (M : kvmap) (c : cmd) : option (event * config * store * kvmap) :=
  match c with
  | XCall c => match krun_b cfg (call_prog cfg c) s M with
               | Some (s', M', r) => Some (ECall c r, cfg, s', M')
               | None => None
               end
  | XMaint m => if maint_b cfg M m then
                  match exec s (maint_prog cfg m (st_root s)) with
                  | (s', Ok _) => Some (EMaint m, cfg, s', M)
                  | _ => None
                  end
                else None
  | XClear => if c_expected cfg <=? END_OF_SHARDS * EXPECTED_CAPACITY then
                match store_clear cfg s with
                | (s', Ok _) => Some (EClear, cfg, s', ∅)
                | _ => None
                end
              else None
  | XReopen cfg' => if disk_room_b (st_fs s) then
                      match store_open cfg' (st_fs s) with
                      | (_, Ok s') => Some (EReopen, cfg', s', M)
                      | _ => None
                      end
                    else None
  end.
Fixpoint script (cfg : config) (s : store) (M : kvmap) (l : list cmd) : option (list event * config * store * kvmap) :=
  match l with
  | [] => Some ([], cfg, s, M)
  | c :: l =>
    match cmd_step cfg s M c with
    | Some (e, cfg1, s1, M1) =>
      match script cfg1 s1 M1 l with
      | Some (es, cfg', s', M') => Some (e :: es, cfg', s', M')
      | None => None
      end
    | None => None
    end
  end.
Definition same_hash (cfg : config) (c : cmd) : Prop :=
  match c with XReopen cfg' => c_hash cfg' = c_hash cfg | _ => True end.
Lemma cmd_step_ok c cfg s M e cfg' s' M' x : SInv cfg x M s -> same_hash cfg c ->
  cmd_step cfg s M c = Some (e, cfg', s', M') ->
  fits cfg s e /\ hstep cfg s e cfg' s' /\ no_crash e /\ c_hash cfg' = c_hash cfg /\ exists x', SInv cfg' x' M' s' /\ (x = true -> x' = true).
Proof.
  intros HI Hh Hc. destruct c as [c|m| |cfg1]; cbn [cmd_step] in Hc.
  - destruct (krun_b cfg (call_prog cfg c) s M) as [[[s1 M1] r]|] eqn:E; [|done]. injection Hc as <- <- <- <-.
    destruct (krun_b_ok cfg x _ _ _ _ _ _ HI E) as (H1 & H2 & H3). split; [done|]. split; [by constructor|]. eauto 10.
  - destruct (maint_b cfg M m) eqn:Hm; [|done]. destruct (exec s _) as [s1 [[]|]] eqn:E; [|done].
    injection Hc as <- <- <- <-. pose proof (maint_b_ok cfg x s M m HI Hm) as Hf.
    split; [done|]. split; [by constructor|]. split; [done|]. split; [done|]. exists x. split; [|done].
    pose proof (maint_wpc cfg x M s m HI Hf) as Hw. apply (exec_wpc cfg) in Hw as [Hw _]. rewrite E in Hw. apply Hw.
  - destruct (N.leb_spec (c_expected cfg) (END_OF_SHARDS * EXPECTED_CAPACITY)) as [Hle|]; [|done].
    destruct (store_clear cfg s) as [s1 [[]|]] eqn:E; [|done]. injection Hc as <- <- <- <-.
    split; [done|]. split; [by constructor|]. split; [done|]. split; [done|]. exists true. split; [|done].
    pose proof (clear_wpc cfg x M (st_root s) (st_fs s) HI Hle) as Hw. apply (exec_wpc cfg) in Hw as [Hw _].
    unfold store_clear in E. rewrite E in Hw. apply Hw.
  - destruct (disk_room_b (st_fs s)) eqn:Hr; [|done]. apply disk_room_b_ok in Hr.
    destruct (store_open cfg1 (st_fs s)) as [w1 [s1|]] eqn:E; [|done]. injection Hc as <- <- <- <-. cbn in Hh.
    split; [done|]. split; [by econstructor|]. split; [done|]. split; [done|]. exists x. split; [|done].
    destruct (open_ok cfg1 x M (st_fs s)) as (w2 & s2 & Ho & HI2); [|done|rewrite Ho in E; injection E as _ <-; exact HI2].
    apply (DiskInv_cfg cfg); [done|]. by eapply Inv_disk.
Qed.
Lemma script_ok l : forall cfg s M es cfg' s' M' x, SInv cfg x M s -> Forall (same_hash cfg) l ->
  script cfg s M l = Some (es, cfg', s', M') ->
  hist fits cfg s es cfg' s' /\ Forall no_crash es /\ c_hash cfg' = c_hash cfg /\ exists x', SInv cfg' x' M' s' /\ (x = true -> x' = true).
Proof.
  induction l as [|c l IH]; intros cfg s M es cfg' s' M' x HI Hh Hs; cbn [script] in Hs.
  - injection Hs as <- <- <- <-. split; [constructor|]. eauto.
  - destruct (cmd_step cfg s M c) as [[[[e cfg1] s1] M1]|] eqn:E; [|done].
    destruct (script cfg1 s1 M1 l) as [[[[es1 cfg2] s2] M2]|] eqn:E2; [|done]. injection Hs as <- <- <- <-.
    apply Forall_cons in Hh as [Hh1 Hh2].
    destruct (cmd_step_ok _ _ _ _ _ _ _ _ x HI Hh1 E) as (H1 & H2 & H3 & H4 & x1 & H5 & H6).
    assert (Forall (same_hash cfg1) l) as Hh3.
    { eapply Forall_impl; [exact Hh2|]. intros [] ?; cbn in *; congruence. }
    destruct (IH _ _ _ _ _ _ _ x1 H5 Hh3 E2) as (H7 & H8 & H9 & x2 & H10 & H11).
    split; [by econstructor|]. split; [by constructor|]. split; [congruence|]. eauto.
Qed.

(** A store can be created with every admissible configuration. *)
Lemma fresh_empty : fresh_dir fs_empty.
Proof. split; [done|]. split; done. Qed.
Lemma created_open cfg : cfg_ok cfg -> exists w s, store_open cfg fs_empty = (w, Ok s) /\ created cfg s.
Proof.
  intros Hc. assert (wf fs_empty) as Hwf.
  { constructor; [done|done|done|]. intros a b [[i Hi]|[i Hi]]; done. }
  assert (nocore fs_empty) as Hn by (unfold nocore; done).
  pose proof (open_fresh_wpc cfg fs_empty Hwf Hn Hc) as Hw. apply wpc_sound in Hw as [_ Hw].
  assert (exists w s, store_open cfg fs_empty = (w, Ok s)) as (w & s & E).
  { unfold store_open. destruct (run (router_new cfg) fs_empty) as [w1 [r|e]]; [eauto|]. by destruct Hw. }
  exists w, s. split; [done|]. split; [done|]. exists fs_empty, w. split; [apply fresh_empty|done].
Qed.
(** The store created in an empty directory. *)
Definition new_store (cfg : config) : store :=
  match store_open cfg fs_empty with (_, Ok s) => s | (w, Err _) => Store (RLeaf (Shard 0 0 0 None)) w end.
Lemma new_created cfg : cfg_ok cfg -> created cfg (new_store cfg).
Proof. intros Hc. destruct (created_open cfg Hc) as (w & s & E & H). unfold new_store. by rewrite E. Qed.

(** Running a script on a new store. *)
Definition script0 (cfg : config) (l : list cmd) : option (list event * config * store * kvmap) :=
  script cfg (new_store cfg) ∅ l.
Lemma script0_ok cfg l es cfg' s' M' : cfg_ok cfg -> Forall (same_hash cfg) l ->
  script0 cfg l = Some (es, cfg', s', M') ->
  created cfg (new_store cfg) /\ hist fits cfg (new_store cfg) es cfg' s' /\ Forall no_crash es /\ SInv cfg' true M' s'.
Proof.
  intros Hc Hh Hs. pose proof (new_created cfg Hc) as H1. split; [done|].
  destruct (script_ok l cfg (new_store cfg) ∅ es cfg' s' M' true (created_ok _ _ H1) Hh Hs)
    as (H2 & H3 & _ & x & H4 & H5). rewrite (H5 eq_refl) in H4. auto.
Qed.
