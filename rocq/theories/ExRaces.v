(** C56, C57: [merge_small_shards] and [clear] against a compaction that is under way. *)
From Verif Require Import Base SipHash Hashing HashingProofs Fs Shard Router RouterPure Wpc Spec FileRep RowOps
  Compact Inv ShardOps Split Insert Open Merge Create Store Limits StoreRefine Kv Lists Queues Api Hist KvSpec
  HistInv KeySpace PlainSpec Plain Check ThmStore Races ThmRaces ExStore.

(** Two shards; the keys 1, 4, 5, 7, 8 are in the upper one, which is about to be compacted. *)
Definition race_script : list cmd := fill 9 ++ [xset 1 96 20; xset 4 96 21; xset 5 96 22; xset 1 96 24].
Definition race_op : op := OSet (xkey 7) (xval 96 23).

(** Executable versions of the two relations of Races.v, for the shard of selector [sel]. *)
Definition merge_meets_b (cfg : config) (s : store) (max_fill : N) (o : op) (sel : N) (sched : list (bool * nat))
  : option (store * bool) :=
  match exec s (merge_first cfg (st_root s)) with
  | (s1, Ok (n, m)) =>
    match step_op cfg s1 o with
    | (s2, Ok _) =>
      let sh := route (st_root s2) sel in
      match sh_tgt sh with
      | Some _ =>
        let '(w, p, q) := par sched (merge_second cfg (st_root s2) n m max_fill) (job cfg sh) (st_fs s2) in
        match ended p, ended q with Some (Ok (r', b)), Some _ => Some (Store r' w, b) | _, _ => None end
      | None => None
      end
    | _ => None
    end
  | _ => None
  end.
Lemma route_in r sel : route r sel ∈ leaves r.
Proof.
  induction r as [sh|b IHb t IHt]; cbn; [by apply elem_of_list_singleton|]. apply elem_of_app.
  destruct (sel <? rend b); auto.
Qed.
Lemma merge_meets_ok cfg s max_fill o sel sched s' b :
  merge_meets_b cfg s max_fill o sel sched = Some (s', b) -> merge_meets cfg s max_fill o s' b.
Proof.
  unfold merge_meets_b. destruct (exec s _) as [s1 [[n m]|e]] eqn:E1; [|done].
  destruct (step_op cfg s1 o) as [s2 [x|e]] eqn:E2; [|done].
  destruct (sh_tgt (route (st_root s2) sel)) as [tg|] eqn:E3; [|done].
  destruct (par sched _ _ _) as [[w p] q] eqn:E4. destruct (ended p) as [[[r' b']|e]|] eqn:E5; [|done..].
  destruct (ended q) as [j|] eqn:E6; [|done]. intros [= <- <-].
  eapply (Merge_meets cfg s max_fill o s1 n m s2 x (route (st_root s2) sel) sched w r' b' p q j); try done; [apply route_in|congruence].
Qed.
(** Executable [race_step]: the schedule says whose turn it is ([None]: the program, [Some i]: the
    compaction [i]) and for how many effects. *)
Fixpoint race_take {A} (turn : option nat) (n : nat) (st : fs * prog A * list (prog shard)) : fs * prog A * list (prog shard) :=
  match n with
  | O => st
  | S n =>
    let '(w, p, js) := st in
    match turn with
    | None => match step1 p w with Some (w', p') => race_take turn n (w', p', js) | None => st end
    | Some i => match js !! i with
                | Some q => match step1 q w with Some (w', q') => race_take turn n (w', p, <[i := q']> js) | None => st end
                | None => st end
    end
  end.
Fixpoint race_run {A} (sched : list (option nat * nat)) (st : fs * prog A * list (prog shard)) : fs * prog A * list (prog shard) :=
  match sched with [] => st | (t, n) :: sched => race_run sched (race_take t n st) end.
Lemma race_take_ok {A} turn n : forall st : fs * prog A * list (prog shard), rtc race_step st (race_take turn n st).
Proof.
  induction n as [|n IH]; intros [[w p] js]; [done|]. cbn. destruct turn as [i|].
  - destruct (js !! i) as [q|] eqn:Ei; [|done]. destruct (step1 q w) as [[w' q']|] eqn:E; [|done].
    eapply rtc_l; [|apply IH]. by eapply Race_job.
  - destruct (step1 p w) as [[w' p']|] eqn:E; [|done]. eapply rtc_l; [|apply IH]. by eapply Race_main.
Qed.
Lemma race_run_ok {A} sched : forall st : fs * prog A * list (prog shard), rtc race_step st (race_run sched st).
Proof. induction sched as [|[t n] sched IH]; intros st; [done|]. cbn [race_run]. etrans; [apply race_take_ok|apply IH]. Qed.
Definition all_ended (js : list (prog shard)) : bool := forallb (fun q => match ended q with Some _ => true | None => false end) js.
Definition clear_meets_b (ord : list fname -> list fname) (cfg : config) (s : store) (sched : list (option nat * nat)) : option (store * res unit * list (prog shard)) :=
  match race_run sched (st_fs s, clear_in ord cfg, jobs cfg s) with
  | (w, Ret r, js) => if all_ended js then Some (Store r w, Ok tt, js) else None
  | (w, Fail e, js) => Some (Store (st_root s) w, Err e, js)
  | _ => None
  end.
Lemma clear_meets_ok ord cfg s sched s' y js : (forall l, ord l ≡ₚ l) -> clear_meets_b ord cfg s sched = Some (s', y, js) -> clear_meets cfg s s' y js.
Proof.
  intros Ho.  unfold clear_meets_b. destruct (race_run sched _) as [[w p] js'] eqn:E.
  pose proof (race_run_ok sched (st_fs s, clear_in ord cfg, jobs cfg s)) as H. rewrite E in H.
  destruct p as [r|e|]; [|intros [= <- <- <-]; by eapply Clear_err|done].
  destruct (all_ended js') eqn:Ee; [|done]. intros [= <- <- <-]. eapply Clear_ok; [exact Ho|exact H|].
  intros q Hq. unfold all_ended in Ee. rewrite forallb_forall in Ee. apply elem_of_list_In, Ee in Hq. by destruct (ended q).
Qed.

(** One schedule: the merging thread gives up on merging because the lower shard is full enough;
    it opens the shard file again, then the compaction thread runs to its end, then the merging
    thread looks for a compaction file, finds none, and goes on with the file it opened, which
    has no name any more. *)
Definition race_sched1 : list (bool * nat) := [(true, 9%nat); (false, 1000%nat); (true, 1000%nat)].
(** Another: both threads copy row 11 of the shard, and both count it, so that row 12 is skipped. *)
Definition race_sched2 : list (bool * nat) :=
  [(false, 34%nat); (true, 18%nat); (false, 2%nat); (true, 1000%nat); (false, 1000%nat)].


Lemma race_reach : reachable_clean ex_cfg (after ex_cfg race_script) /\ reachable ex_cfg (after ex_cfg race_script) /\
  SInv ex_cfg true (after_map ex_cfg race_script) (after ex_cfg race_script).
Proof. apply after_reach; [exact ex_cfg_ok|done|by vm_cast_no_check (eq_refl true)]. Qed.

(** ** C56 is false: [merge_small_shards] that meets a compaction loses data, and reports success. *)
(** (a) An entry that was stored long before, and that nobody touched, is gone. *)
Theorem C56_merge_loses_entry_refuted : exists cfg s max_fill o k v s' b,
  reachable_clean cfg s /\ merge_meets cfg s max_fill o s' b /\
  op_key o <> k /\ get cfg s k = Ok (Some v) /\ get cfg s' k = Ok None.
Proof.
  assert ((fun s => match merge_meets_b ex_cfg s 0 race_op 40000 race_sched2 with
    | Some (s', b) => bool_decide (get ex_cfg s (xkey 1) = Ok (Some (xval 96 24))) && bool_decide (get ex_cfg s' (xkey 1) = Ok None)
    | None => false end) (after ex_cfg race_script) = true) as H by (by vm_cast_no_check (eq_refl true)).
  pose proof (proj1 race_reach) as Hr. revert H Hr. generalize (after ex_cfg race_script). intros s H Hr.
  destruct (merge_meets_b ex_cfg s 0 race_op 40000 race_sched2) as [[s' b]|] eqn:E; [|done].
  apply andb_true_iff in H as [H1%bool_decide_eq_true H2%bool_decide_eq_true].
  exists ex_cfg, s, 0, race_op, (xkey 1), (xval 96 24), s', b. split; [done|]. split; [by eapply merge_meets_ok|].
  split; [by vm_compute|done].
Qed.
(** (b) All entries are still there; but what is written from now on goes into a file without a
    name: accepted, read back, and gone when the store is opened again. *)
Theorem C56_merge_detaches_file_refuted : exists cfg s max_fill o s' b k v s2 x w s3,
  reachable_clean cfg s /\ merge_meets cfg s max_fill o s' b /\
  step_op cfg s' (OSet k v) = (s2, Ok x) /\ get cfg s2 k = Ok (Some v) /\
  store_open cfg (st_fs s2) = (w, Ok s3) /\ get cfg s3 k = Ok None.
Proof.
  pose (k := xkey 9). pose (v := xval 10 1).
  assert ((fun s => match merge_meets_b ex_cfg s 0 race_op 40000 race_sched1 with
    | Some (s', b) => match step_op ex_cfg s' (OSet k v) with
      | (s2, Ok _) => match store_open ex_cfg (st_fs s2) with
         | (_, Ok s3) => bool_decide (get ex_cfg s2 k = Ok (Some v)) && bool_decide (get ex_cfg s3 k = Ok None)
         | _ => false end
      | _ => false end
    | None => false end) (after ex_cfg race_script) = true) as H by (by vm_cast_no_check (eq_refl true)).
  pose proof (proj1 race_reach) as Hr. revert H Hr. generalize (after ex_cfg race_script). intros s H Hr.
  destruct (merge_meets_b ex_cfg s 0 race_op 40000 race_sched1) as [[s' b]|] eqn:E; [|done].
  destruct (step_op ex_cfg s' (OSet k v)) as [s2 [x|e]] eqn:E2; [|done].
  destruct (store_open ex_cfg (st_fs s2)) as [w [s3|e]] eqn:E3; [|done].
  apply andb_true_iff in H as [H1%bool_decide_eq_true H2%bool_decide_eq_true].
  exists ex_cfg, s, 0, race_op, s', b, k, v, s2, x, w, s3. split; [done|]. split; [by eapply merge_meets_ok|]. done.
Qed.

(** ** C57 is false *)
(** The store of [race_script] after [race_op]: its upper shard is being compacted. *)
Definition busy_script : list cmd := race_script ++ [xset 7 96 23].
Lemma busy2_reach : reachable_clean ex_cfg (after ex_cfg busy_script) /\ reachable ex_cfg (after ex_cfg busy_script) /\
  SInv ex_cfg true (after_map ex_cfg busy_script) (after ex_cfg busy_script).
Proof. apply after_reach; [exact ex_cfg_ok|done|by vm_cast_no_check (eq_refl true)]. Qed.
(** (a) [clear] lists the directory, the compaction finishes, the file to be removed is not there
    any more: [clear] fails, and the entries are still there. *)
Theorem C57_clear_fails_refuted : exists cfg s s' js k v,
  reachable_clean cfg s /\ clear_meets cfg s s' (Err EIo) js /\ get cfg s' k = Ok (Some v).
Proof.
  assert ((fun s => match clear_meets_b id ex_cfg s [(None, 1%nat); (Some 0%nat, 1000%nat); (None, 1000%nat)] with
    | Some (s', Err EIo, q) => bool_decide (get ex_cfg s' (xkey 1) = Ok (Some (xval 96 24)))
    | _ => false end) (after ex_cfg busy_script) = true) as H by (by vm_cast_no_check (eq_refl true)).
  pose proof (proj1 busy2_reach) as Hr. revert H Hr. generalize (after ex_cfg busy_script). intros s H Hr.
  destruct (clear_meets_b id ex_cfg s _) as [[[s' y] js]|] eqn:E; [|done].
  destruct y as [?|[]]; try done. apply bool_decide_eq_true in H.
  exists ex_cfg, s, s', js, (xkey 1), (xval 96 24). split; [done|]. split; [by eapply (clear_meets_ok id)|done].
Qed.
(** (b) And when it fails this way, the store has lost files that it still uses: what is stored
    afterwards is accepted, and is gone when the store is opened again. *)
Theorem C57_failed_clear_detaches_file_refuted : exists cfg s s' js k v s2 x w s3,
  reachable_clean cfg s /\ clear_meets cfg s s' (Err EIo) js /\
  step_op cfg s' (OSet k v) = (s2, Ok x) /\ get cfg s2 k = Ok (Some v) /\
  store_open cfg (st_fs s2) = (w, Ok s3) /\ get cfg s3 k = Ok None.
Proof.
  pose (k := xkey 2). pose (v := xval 10 1).
  assert ((fun s => match clear_meets_b (@rev fname) ex_cfg s [(None, 1%nat); (Some 0%nat, 1000%nat); (None, 1000%nat)] with
    | Some (s', Err EIo, q) => match step_op ex_cfg s' (OSet k v) with
      | (s2, Ok _) => match store_open ex_cfg (st_fs s2) with
         | (_, Ok s3) => bool_decide (get ex_cfg s2 k = Ok (Some v)) && bool_decide (get ex_cfg s3 k = Ok None)
         | _ => false end
      | _ => false end
    | _ => false end) (after ex_cfg busy_script) = true) as H by (by vm_cast_no_check (eq_refl true)).
  pose proof (proj1 busy2_reach) as Hr. revert H Hr. generalize (after ex_cfg busy_script). intros s H Hr.
  destruct (clear_meets_b (@rev fname) ex_cfg s _) as [[[s' y] js]|] eqn:E; [|done].
  destruct y as [?|[]]; try done.
  destruct (step_op ex_cfg s' (OSet k v)) as [s2 [x|e]] eqn:E2; [|done].
  destruct (store_open ex_cfg (st_fs s2)) as [w [s3|e]] eqn:E3; [|done].
  apply andb_true_iff in H as [H1%bool_decide_eq_true H2%bool_decide_eq_true].
  exists ex_cfg, s, s', js, k, v, s2, x, w, s3. split; [done|]. split; [eapply clear_meets_ok; [|exact E]; intros l; symmetry; apply Permutation_rev|]. done.
Qed.

(** ** The hypotheses of the theorems of ThmRaces.v are met *)
(** C56: a store with two shards, nothing being compacted, counted as four shards before. *)
Example quiet_merge : exists s s' b, reachable ex_cfg2 s /\ maint_fits ex_cfg2 s (MMerge 1000) /\
  Forall (fun sh => sh_tgt sh = None) (leaves (st_root s)) /\
  exec s (merge_second ex_cfg2 (st_root s) 4 1 1000) = (s', Ok b) /\ b = true /\
  length (leaves (st_root s)) = 2%nat /\ length (leaves (st_root s')) = 1%nat.
Proof.
  destruct (rewrites_reach 3) as (_ & H & HI); [by vm_cast_no_check (eq_refl true)|by vm_cast_no_check (eq_refl true)|].
  assert (maint_fits ex_cfg2 (after ex_cfg2 (rewrites 3)) (MMerge 1000)) as Hf by (eapply maint_b_ok; [exact HI|by vm_cast_no_check (eq_refl true)]).
  assert ((fun s => match exec s (merge_second ex_cfg2 (st_root s) 4 1 1000) with
    | (s', Ok true) => (length (leaves (st_root s)) =? 2)%nat && (length (leaves (st_root s')) =? 1)%nat &&
         forallb (fun sh => match sh_tgt sh with None => true | _ => false end) (leaves (st_root s))
    | _ => false end) (after ex_cfg2 (rewrites 3)) = true) as Hb by (by vm_cast_no_check (eq_refl true)).
  revert H HI Hf Hb. generalize (after ex_cfg2 (rewrites 3)). intros s H HI Hf Hb.
  destruct (exec s _) as [s' [[]|]] eqn:E; [|done..]. apply andb_true_iff in Hb as [[H1%Nat.eqb_eq H2%Nat.eqb_eq]%andb_true_iff H3].
  exists s, s', true. split; [done|]. split; [done|]. split; [|done]. apply Forall_forall. intros sh Hsh.
  apply elem_of_list_In in Hsh. rewrite forallb_forall in H3. specialize (H3 sh Hsh). by destruct (sh_tgt sh).
Qed.
(** C57: the listing, 50 effects of the compaction, five more of [clear], the compaction again, the
    rest of [clear], the rest of the compaction, which cannot rename its file any more. *)
Definition clear_sched : list (option nat * nat) :=
  [(Some 0%nat, 20%nat); (None, 1%nat); (Some 0%nat, 50%nat); (None, 5%nat); (Some 0%nat, 30%nat); (None, 1000%nat); (Some 0%nat, 2000%nat)].
Example clear_case : exists s s' q, reachable ex_cfg s /\ cfg_ok ex_cfg /\ clear_meets ex_cfg s s' (Ok tt) [q] /\
  ended q = Some (Err EIo) /\ get ex_cfg s (xkey 1) <> Ok None.
Proof.
  assert ((fun s => match clear_meets_b id ex_cfg s clear_sched with
    | Some (_, Ok _, [q]) => match ended q with Some (Err EIo) => negb (bool_decide (get ex_cfg s (xkey 1) = Ok None)) | _ => false end
    | _ => false end) (after ex_cfg busy_script) = true) as H by (by vm_cast_no_check (eq_refl true)).
  pose proof busy2_reach as (_ & Hr & _). revert H Hr. generalize (after ex_cfg busy_script). intros s H Hr.
  destruct (clear_meets_b id ex_cfg s clear_sched) as [[[s' y] js]|] eqn:E; [|done]. destruct y as [[]|]; [|done].
  destruct js as [|q [|]]; [done| |done]. destruct (ended q) as [[?|[]]|] eqn:Eq; try done. apply negb_true_iff, bool_decide_eq_false in H.
  exists s, s', q. split; [done|]. split; [exact ex_cfg_ok|]. split; [by eapply (clear_meets_ok id)|]. done.
Qed.

(** C58: two compactions at once, one stopped in the middle of a row, the other at its end. *)
Definition two_busy : list cmd := busy_script ++ [xset 0 96 31; xset 2 96 32; xset 3 96 33; xset 6 96 34; xset 0 96 35].
Lemma two_reach : reachable_clean ex_cfg (after ex_cfg two_busy) /\ reachable ex_cfg (after ex_cfg two_busy) /\
  SInv ex_cfg true (after_map ex_cfg two_busy) (after ex_cfg two_busy).
Proof. apply after_reach; [exact ex_cfg_ok|done|by vm_cast_no_check (eq_refl true)]. Qed.
Example closing_case : exists s w, reachable ex_cfg s /\ length (compacting s) = 2%nat /\ closes ex_cfg s w /\ disk_room w /\
  fs_dir w <> fs_dir (st_fs s).
Proof.
  assert ((fun s => match race_run [(Some 0%nat, 60%nat); (Some 1%nat, 50%nat); (Some 0%nat, 3%nat); (Some 1%nat, 2000%nat)]
        (st_fs s, Ret tt, jobs ex_cfg s) with
     | (w, Ret _, js) => disk_room_b w && (length (compacting s) =? 2)%nat && negb (bool_decide (fs_dir w = fs_dir (st_fs s)))
     | _ => false end) (after ex_cfg two_busy) = true) as H by (by vm_cast_no_check (eq_refl true)).
  pose proof two_reach as (_ & Hr & _). revert H Hr. generalize (after ex_cfg two_busy). intros s H Hr.
  destruct (race_run _ _) as [[w p] js] eqn:E. destruct p as [[]|e|]; [|done..].
  apply andb_true_iff in H as [[H1 H2%Nat.eqb_eq]%andb_true_iff H3%negb_true_iff]. apply bool_decide_eq_false in H3.
  exists s, w. split; [done|]. split; [done|]. split; [|split; [by apply disk_room_b_ok|done]].
  exists js. rewrite <- E. apply race_run_ok.
Qed.
