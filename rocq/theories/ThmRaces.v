(** C56, C57, C58: what [merge_small_shards], [clear] and closing guarantee when compactions start
    and go on around them. (Where they guarantee nothing: ExRaces.v.) *)
From Verif Require Import Base Hashing HashingProofs Fs Shard Router RouterPure Wpc Spec FileRep RowOps
  Compact Inv ShardOps Split Insert Open Merge Create Store Limits StoreRefine Kv Lists Queues Api Hist KvSpec
  HistInv KeySpace PlainSpec Plain ThmStore OpenAny Races.

(** ** C56: calls may come between the two halves of [merge_small_shards] *)
Lemma merge_second_wpc cfg x m r w n k mf :
  Inv cfg x m r w -> fits_4G m -> items_ok m -> cfg_ok cfg -> idle r ->
  wpc (merge_second cfg r n k mf) (DiskInv cfg false m) (fun a w' => Inv cfg x m (fst a) w') (merge_err x) w.
Proof.
  intros HI1 Hts Hit Hc Id1. unfold merge_second.
  assert (DiskInv cfg false m w) as HC1 by (by eapply Inv_disk').
  destruct (n <=? k); [by apply wpc_ret|]. pose proof HI1 as (Hwf1 & Hrun1).
  apply wpc_bind. apply (merge_vertex_spec cfg x m mf _ r _ w 0 16); auto.
  { intros ->. by right. }
  { by left. }
  { intros w' HC'. by eapply leafC_disk'. }
  intros w2 o rem2 HM. apply mergeQ_run in HM as (r2 & HQ2 & Id2 & _).
  apply Inv_leafQ in HQ2 as [Hos2 HI2].
  apply wpc_bind. apply (load_spec cfg x m w2); auto.
  { split; [apply HI2|]. eapply run_disk. apply HI2. }
  { by eapply idle_disk_small. }
  intros w3 shs A1 A3 A4 A5.
  destruct (treeify_ok shs A3) as (r3 & Hr3 & Ht3 & Hl3).
  assert (Inv cfg x m r3 w3) as HI3.
  { split; [done|]. split; [done|]. by rewrite Hl3. }
  assert (DiskInv cfg false m w3) as HC3 by (split; [done|]; eapply run_disk'; apply HI3).
  apply wpc_bind. eapply wpc_lift_ok; [exact Hr3|done|]. by apply wpc_ret.
Qed.

(** The store has any history when the write lock of the root is granted, in particular any calls
    of other threads since the statistics were collected ([n], [k]: whatever was counted then).
    If no shard is being compacted at that moment, nothing is lost, and neither if the process
    dies at any point of the second half. *)
Theorem C56_merge_without_compactions_partial : forall cfg s n k max_fill s' b,
  reachable cfg s -> maint_fits cfg s (MMerge max_fill) ->
  Forall (fun sh => sh_tgt sh = None) (leaves (st_root s)) ->
  exec s (merge_second cfg (st_root s) n k max_fill) = (s', Ok b) ->
  same_content cfg s cfg s'.
Proof.
  intros cfg s n k mf s' b Hr [Hf1 Hf2] Hid Hm. apply reach_inv in Hr as (x & M & HI).
  destruct (Hf1 M) as [Hf3 Hf4]; [by eapply SInv_content|].
  pose proof (merge_second_wpc cfg x M (st_root s) (st_fs s) n k mf HI Hf3 Hf4 Hf2 Hid) as Hw.
  apply (exec_wpc cfg) in Hw as [Hw _]. rewrite Hm in Hw. cbn in Hw. destruct Hw as (_ & H1).
  eapply SInv_same; [exact HI|exact H1].
Qed.
Theorem C56_crash_in_second_half_partial : forall cfg s n k max_fill i cfg',
  reachable cfg s -> maint_fits cfg s (MMerge max_fill) ->
  Forall (fun sh => sh_tgt sh = None) (leaves (st_root s)) ->
  c_hash cfg' = c_hash cfg ->
  let w := crash_at i (merge_second cfg (st_root s) n k max_fill) (st_fs s) in
  disk_room w ->
  exists w' s', store_open cfg' w = (w', Ok s') /\ same_content cfg s cfg' s'.
Proof.
  intros cfg s n k mf i cfg' Hr [Hf1 Hf2] Hid Hh w Hd. apply reach_inv in Hr as (x & M & HI).
  destruct (Hf1 M) as [Hf3 Hf4]; [by eapply SInv_content|].
  pose proof (merge_second_wpc cfg x M (st_root s) (st_fs s) n k mf HI Hf3 Hf4 Hf2 Hid) as Hw.
  apply (exec_wpc cfg) in Hw as [_ Hw]. specialize (Hw i). fold w in Hw.
  destruct (open_ok cfg' false M w) as (w' & s' & Ho & HI'); [by apply (DiskInv_cfg cfg)|done|].
  exists w', s'. split; [done|]. by eapply SInv_same.
Qed.

(** ** One step of a compaction *)
(** Programs that only write the file [t], and look only at the files [t] and [src]. *)
Fixpoint copies {A} (t src : ino) (p : prog A) : Prop :=
  match p with
  | Ret _ | Fail _ => True
  | @Vis _ X ef k =>
    match ef in eff X return (X -> prog A) -> Prop with
    | ESnap => fun k => forall w w', fs_files w !! t = fs_files w' !! t -> fs_files w !! src = fs_files w' !! src -> k w = k w'
    | EAlloc i _ | EUpd i _ => fun _ => i = t
    | ECreate _ _ | ERename _ _ | ERemove _ => fun _ => False
    end k /\ forall x, copies t src (k x)
  end.
Section copies.
  Context (t src : ino).
  Lemma copies_bind {A B} (p : prog A) (f : A -> prog B) :
    copies t src p -> (forall a, copies t src (f a)) -> copies t src (pbind p f).
  Proof.
    intros Hp Hf. induction p as [a|er|X ef k IH]; cbn in *; [apply Hf|done|].
    destruct Hp as [H1 H2]. split; [|intros x; by apply IH].
    destruct ef; try done. intros w w' E1 E2. by rewrite (H1 w w' E1 E2).
  Qed.
  Lemma copies_lift {A} (r : res A) : copies t src (lift r).
  Proof. by destruct r. Qed.
  Lemma copies_get i : i = t \/ i = src -> copies t src (get_file i).
  Proof.
    intros Hi. cbn. split; [|intros x; apply copies_lift]. intros w w' E1 E2. destruct Hi as [->| ->]; by rewrite ?E1, ?E2.
  Qed.
  Lemma copies_upd u : copies t src (upd t u).
  Proof. by cbn. Qed.
  Lemma copies_assert b : copies t src (assert_p b).
  Proof. by destruct b. Qed.
  Lemma copies_put l : forall off, copies t src (put_bytes t off l).
  Proof. induction l as [|b l IH]; intros off; [done|]. cbn [put_bytes]. apply copies_bind; [apply copies_upd|]. intros _. apply IH. Qed.
  Lemma copies_slots cfg fsrc r row : forall first col, copies t src (compact_slots cfg fsrc t r first col row).
  Proof.
    induction row as [|x row IH]; intros first col; [done|]. cbn [compact_slots]. destruct (s_sig x =? INVALID_SIG); [apply IH|].
    apply copies_bind; [apply copies_lift|]. intros [k v]. apply copies_bind; [apply copies_get; by left|]. intros ft.
    apply copies_bind; [apply copies_assert|]. intros _. apply copies_bind; [apply copies_assert|]. intros _.
    apply copies_bind. { unfold write_kv. apply copies_bind; [by cbn|]. intros off. apply copies_bind; [apply copies_put|]. intros _. done. }
    intros d. apply copies_bind; [apply copies_assert|]. intros _. do 3 (apply copies_bind; [apply copies_upd|]; intros _). apply IH.
  Qed.
  Lemma copies_compaction cfg fuel : forall first, copies t src (do_compaction cfg fuel src t first).
  Proof.
    induction fuel as [|n IH]; intros first; [done|]. cbn [do_compaction]. apply copies_bind; [apply copies_get; by left|]. intros ft.
    destruct (NUM_ROWS <=? f_cut ft)%nat; [done|]. apply copies_bind; [|intros _; apply IH].
    unfold compact_row. apply copies_bind; [apply copies_get; by right|]. intros fsrc. apply copies_bind; [apply copies_slots|]. intros _.
    apply copies_upd.
  Qed.
End copies.

Definition tgt_of (sh : shard) : ino := match sh_tgt sh with Some (t, _) => t | None => 0 end.
Notation cname sh := (FCompact (sh_start sh) (sh_end sh)).
Notation sname sh := (FShard (sh_start sh) (sh_end sh)).
(** What remains of the compaction of [sh]: copying and then the rename, or nothing. *)
Definition shape (sh : shard) (q : prog shard) : Prop :=
  (exists p : prog unit, copies (tgt_of sh) (sh_ino sh) p /\ q = pbind p (fun _ => finish_compaction sh (tgt_of sh))) \/
  (exists v, q = Ret v) \/ (exists e, q = Fail e).
Lemma shape_job cfg sh : sh_tgt sh <> None -> shape sh (job cfg sh).
Proof.
  unfold shape, tgt_of, job, wait_compaction. destruct (sh_tgt sh) as [[t first]|]; [|done]. intros _. left.
  exists (do_compaction cfg COMPACT_FUEL (sh_ino sh) t first). split; [apply copies_compaction|done].
Qed.

(** Everything but the content of the files in [T] is the same. *)
Definition off (T : list ino) (w w' : fs) : Prop :=
  fs_dir w' = fs_dir w /\ fs_next w' = fs_next w /\ (forall i, i ∉ T -> fs_files w' !! i = fs_files w !! i).
Definition keeps (w w' : fs) : Prop := forall i, is_Some (fs_files w !! i) -> is_Some (fs_files w' !! i).
Lemma shape_step sh q w w' q' : shape sh q -> step1 q w = Some (w', q') ->
  shape sh q' /\
  (off [tgt_of sh] w w' /\ keeps w w' \/
   (exists i v, fs_dir w !! cname sh = Some i /\ w' = rename_fs (cname sh) (sname sh) i w /\ q' = Ret v) \/
   (fs_dir w !! cname sh = None /\ w' = w /\ q' = Fail EIo)).
Proof.
  intros [(p & Hp & ->)|[[v ->]|[e ->]]] Hs; [|done..].
  destruct p as [u|e|X ef k]; [|done|].
  - cbn in Hs. destruct (fs_dir w !! cname sh) as [i|] eqn:E; injection Hs as <- <-.
    + split; [right; left; by eexists|]. right. left. eexists _, _. split; [done|]. split; [|done]. reflexivity.
    + split; [right; right; by eexists|]. by right; right.
  - cbn in Hs. destruct Hp as [H1 H2]. destruct (run_eff ef w) as [w1 x] eqn:Er. injection Hs as <- <-.
    split; [left; exists (k x); split; [apply H2|done]|]. left.
    destruct ef as [|i n|i u|n tr|a b|a]; try done; cbn in Er.
    + injection Er as <- <-. split; [done|by intros i].
    + subst i. destruct (fs_files w !! tgt_of sh) as [f|] eqn:Ef; injection Er as <- <-; [|split; [done|by intros i]].
      split.
      * split; [done|]. split; [done|]. intros i Hi. cbn. apply lookup_insert_ne. intros <-. apply Hi. left.
      * intros i Hi. cbn. destruct (decide (tgt_of sh = i)) as [<-|Hn]; [by rewrite lookup_insert|by rewrite lookup_insert_ne].
    + subst i. injection Er as <- <-. split.
      * split; [done|]. split; [done|]. intros i Hi. cbn. apply lookup_alter_ne. intros <-. apply Hi. left.
      * intros i [f Hi]. cbn. destruct (decide (tgt_of sh = i)) as [<-|Hn]; [rewrite lookup_alter, Hi; by eexists|by rewrite lookup_alter_ne, Hi].
Qed.
Lemma wf_off T w w' : off T w w' -> keeps w w' -> wf w -> wf w'.
Proof.
  intros (O1 & O2 & O3) Hk [H1 H2 H3 H4]. split; rewrite ?O1, ?O2; try done. intros n i Hi. apply Hk. by eapply H2.
Qed.
Lemma shape_wf sh q w w' q' : shape sh q -> step1 q w = Some (w', q') -> wf w -> wf w'.
Proof.
  intros Hsh Hs Hwf. destruct (shape_step _ _ _ _ _ Hsh Hs) as (_ & [[H1 H2]|[(i & v & H1 & -> & _)|(_ & -> & _)]]); [by eapply wf_off| |done].
  apply wf_rename; [done..|]. cbn. apply (wf_names _ Hwf). right. by eexists.
Qed.

(** The files into which these shards are compacted have no other names. *)
Definition owned (shs : list shard) (w : fs) : Prop :=
  forall sh, sh ∈ shs -> tgt_of sh < fs_next w /\ forall n, fs_dir w !! n = Some (tgt_of sh) -> n = cname sh \/ n = sname sh.
Lemma owned_step shs sh q w w' q' : shape sh q -> step1 q w = Some (w', q') -> owned shs w -> owned shs w'.
Proof.
  intros Hsh Hs Hn. destruct (shape_step _ _ _ _ _ Hsh Hs) as (_ & [[(O1 & O2 & O3) _]|[(i & v & H1 & -> & _)|(_ & -> & _)]]); [| |done].
  - intros sh' Hin. rewrite O1, O2. by apply Hn.
  - intros sh' Hin. destruct (Hn sh' Hin) as [N1 N2]. split; [done|]. intros n. unfold rename_fs. cbn [fs_dir].
    destruct (decide (sname sh = n)) as [<-|Hne].
    + rewrite lookup_insert. intros [= ->]. destruct (N2 _ H1) as [Hc|Hc]; [|done]. injection Hc as -> ->. by right.
    + rewrite lookup_insert_ne by done. intros [_ ?]%lookup_delete_Some. by apply N2.
Qed.
Lemma owned_sub shs w w' : (forall n i, fs_dir w' !! n = Some i -> fs_dir w !! n = Some i) -> fs_next w' = fs_next w ->
  owned shs w -> owned shs w'.
Proof. intros Hd En Hn sh Hin. destruct (Hn sh Hin) as [N1 N2]. split; [by rewrite En|]. intros n Hx. by apply N2, Hd. Qed.

Lemma compacting_in s sh : sh ∈ compacting s -> sh ∈ leaves (st_root s) /\ sh_tgt sh <> None.
Proof.
  unfold compacting. intros H%elem_of_list_In%filter_In. destruct H as [H1 H2]. split; [by apply elem_of_list_In|]. by destruct (sh_tgt sh).
Qed.
Lemma shape_jobs cfg s : Forall2 shape (compacting s) (jobs cfg s).
Proof.
  unfold jobs. assert (forall sh, sh ∈ compacting s -> sh_tgt sh <> None) as H by (intros sh Hsh; exact (proj2 (compacting_in s sh Hsh))).
  induction (compacting s) as [|sh l IH]; cbn; constructor; [|apply IH; intros; apply H; by right].
  apply shape_job, H. left.
Qed.
Lemma owned_start cfg x m s : SInv cfg x m s -> owned (compacting s) (st_fs s).
Proof.
  intros (Hwf & _ & Hl & _) sh [H1 H2]%compacting_in. rewrite Forall_forall in Hl.
  destruct (Hl sh H1) as (f & L & _ & _ & _ & _ & _ & _ & H7). unfold tgt_of. destruct (sh_tgt sh) as [[t first]|]; [|done].
  destruct H7 as [H7 _]. split; [by eapply (wf_next _ Hwf)|]. intros n Hn. left. by apply (wf_inj _ Hwf _ _ _ Hn).
Qed.
Lemma shape_upd shs js i q q' : Forall2 shape shs js -> js !! i = Some q ->
  (forall sh, shs !! i = Some sh -> shape sh q -> shape sh q') -> Forall2 shape shs (<[i := q']> js).
Proof.
  intros H Hi Hq. destruct (Forall2_lookup_r _ _ _ _ _ H Hi) as (sh & Hsh & Hs).
  rewrite <- (list_insert_id shs i sh Hsh). apply Forall2_insert; [done|]. by apply Hq.
Qed.

(** ** C57 *)
(** Programs that do not touch the files in [T], nor create a compaction file. *)
Fixpoint blind {A} (T : list ino) (p : prog A) : Prop :=
  match p with
  | Ret _ | Fail _ => True
  | @Vis _ X ef k =>
    match ef in eff X return (X -> prog A) -> (X -> Prop) -> Prop with
    | ESnap => fun k B => (forall w w', (forall i, i ∉ T -> fs_files w' !! i = fs_files w !! i) -> k w' = k w) /\ forall w, B w
    | EAlloc i _ | EUpd i _ => fun _ B => i ∉ T /\ forall x, B x
    | ECreate n _ => fun _ B => (forall a b, n <> FCompact a b) /\ forall x, x ∉ T -> B x
    | ERename _ _ => fun _ _ => False
    | ERemove _ => fun _ B => forall x, B x
    end k (fun x => blind T (k x))
  end.
Section blind.
  Context (T : list ino).
  Lemma blind_bind {A B} (p : prog A) (f : A -> prog B) :
    blind T p -> (forall a, blind T (f a)) -> blind T (pbind p f).
  Proof.
    intros Hp Hf. induction p as [a|er|X ef k IH]; cbn in *; [apply Hf|done|].
    destruct ef; cbn in *; try done.
    - destruct Hp as [H1 H2]. split; [|intros w; by apply IH]. intros w w' E. by rewrite (H1 w w' E).
    - destruct Hp as [H1 H2]. split; [done|]. intros x. by apply IH.
    - destruct Hp as [H1 H2]. split; [done|]. intros x. by apply IH.
    - destruct Hp as [H1 H2]. split; [done|]. intros x Hx. apply IH. by apply H2.
    - intros x. by apply IH.
  Qed.
  Lemma blind_lift {A} (r : res A) : blind T (lift r).
  Proof. by destruct r. Qed.
  Lemma blind_get i : i ∉ T -> blind T (get_file i).
  Proof. intros Hi. cbn. split; [|intros; apply blind_lift]. intros w w' E. by rewrite E. Qed.
  Lemma blind_upd i u : i ∉ T -> blind T (upd i u).
  Proof. intros Hi. by cbn. Qed.
  Lemma blind_open cfg s e : blind T (shard_open cfg s e true).
  Proof.
    unfold shard_open. cbn [eff1 pbind blind]. split; [done|]. intros i Hi.
    apply blind_bind; [by apply blind_get|]. intros f.
    apply blind_bind. { repeat case_match; try done. }
    intros z. apply blind_bind. { repeat case_match; done. }
    intros z2. apply blind_bind. { by case_match. }
    intros _. apply blind_bind. { unfold mmap_new. by repeat (apply blind_bind; [by apply blind_upd|]; intros _). }
    done.
  Qed.
  Lemma blind_ranges cfg l : blind T (open_ranges cfg true l).
  Proof.
    induction l as [|[a b] l IH]; [done|]. cbn [open_ranges]. apply blind_bind; [apply blind_open|]. intros sh.
    apply blind_bind; [done|]. done.
  Qed.

  Definition unnamed (w : fs) : Prop := forall t, t ∈ T -> t < fs_next w /\ forall n, fs_dir w !! n <> Some t.
  Definition nocompact (w : fs) : Prop := forall a b, fs_dir w !! FCompact a b = None.
  (** Such a program does the same whatever is in these files. *)
  Lemma blind_step {A} (p : prog A) wr w w' p' : blind T p -> off T wr w -> unnamed wr -> nocompact wr -> step1 p w = Some (w', p') ->
    exists wr', step1 p wr = Some (wr', p') /\ run p wr = run p' wr' /\ blind T p' /\ off T wr' w' /\ unnamed wr' /\ nocompact wr'.
  Proof.
    intros Hp (O1 & O2 & O3) Hu Hc Hs. destruct p as [a|e|X ef k]; [done..|]. cbn in Hs, Hp |- *.
    destruct ef as [|i n|i u|n tr|a b|a]; cbn in Hs, Hp |- *; try done.
    - injection Hs as <- <-. exists wr. destruct Hp as [H1 H2]. rewrite (H1 wr w O3). done.
    - destruct Hp as [H1 H2]. rewrite (O3 i H1) in Hs. destruct (fs_files wr !! i) as [f|]; injection Hs as <- <-; eexists; (split; [done|]);
        (split; [done|]); (split; [done|]); [|done]. split; [|done]. split; [done|]. split; [done|]. intros j Hj. cbn.
      destruct (decide (i = j)) as [<-|Hn]; [by rewrite !lookup_insert|rewrite !lookup_insert_ne by done; auto].
    - destruct Hp as [H1 H2]. injection Hs as <- <-; eexists; (split; [done|]). split; [done|]. split; [done|]. split; [|done].
      split; [done|]. split; [done|]. intros j Hj. cbn.
      destruct (decide (i = j)) as [<-|Hn]; [by rewrite !lookup_alter, (O3 i)|rewrite !lookup_alter_ne by done; auto].
    - destruct Hp as [H1 H2]. rewrite O1 in Hs. destruct (fs_dir wr !! n) as [i|] eqn:En.
      + injection Hs as <- <-. eexists. split; [done|]. split; [done|]. split; [apply H2; intros Hi; by apply (Hu i Hi) in En|].
        destruct tr; [|done]. split; [|done]. split; [done|]. split; [done|]. intros j Hj. cbn.
        destruct (decide (i = j)) as [<-|Hn]; [by rewrite !lookup_insert|rewrite !lookup_insert_ne by done; auto].
      + rewrite O2 in Hs. injection Hs as <- <-. eexists. split; [done|]. split; [done|].
        split; [apply H2; intros Hi; apply Hu in Hi; lia|]. split; [|split].
        * split; [done|]. split; [done|]. intros j Hj. cbn.
          destruct (decide (fs_next wr = j)) as [<-|Hn]; [by rewrite !lookup_insert|rewrite !lookup_insert_ne by done; auto].
        * intros t Ht. destruct (Hu t Ht) as [U1 U2]. split; cbn; [lia|]. intros n'.
          destruct (decide (n = n')) as [<-|Hn]; [rewrite lookup_insert; intros [= <-]; lia|by rewrite lookup_insert_ne].
        * intros a b. cbn. rewrite lookup_insert_ne by done. apply Hc.
    - rewrite O1 in Hs. destruct (fs_dir wr !! a) as [i|] eqn:En; injection Hs as <- <-; eexists; (split; [done|]); (split; [done|]);
        (split; [done|]); [|done]. split; [done|]. split.
      + intros t Ht. destruct (Hu t Ht) as [U1 U2]. split; [done|]. intros n. cbn. intros [_ Hx]%lookup_delete_Some. by apply (U2 n).
      + intros b c. cbn. destruct (decide (a = FCompact b c)) as [->|Hn]; [by rewrite lookup_delete|by rewrite lookup_delete_ne].
  Qed.
End blind.
Lemma Inv_off cfg x m r T w w' : unnamed T w -> off T w w' -> Inv cfg x m r w -> Inv cfg x m r w'.
Proof.
  intros Hu (O1 & O2 & O3) ([H1 H2 H3 H4] & Ht & Hl & Hn).
  assert (Hd : forall n i, fs_dir w !! n = Some i -> i ∉ T) by (intros n i Hi Hx; by apply (Hu i Hx) in Hi).
  split; [|split; [done|split]].
  - split; rewrite ?O1, ?O2; try done. intros n i Hi. rewrite O3; [by eapply H2|by eapply Hd].
  - eapply Forall_impl; [exact Hl|]. intros sh (f & L & A1 & A2 & A3 & A4 & A5 & A6 & A7). exists f, L. rewrite O1.
    split; [done|]. split; [rewrite O3; [done|by eapply Hd]|]. do 4 (split; [done|]).
    destruct (sh_tgt sh) as [[t' fst']|]; [|done]. destruct A7 as (B1 & ft & Lt & B2 & B3 & B4). split; [done|]. exists ft, Lt.
    split; [rewrite O3; [done|by eapply Hd]|]. done.
  - destruct Hn as [N1 N2]. split; intros a b; rewrite O1; [apply N1|apply N2].
Qed.

(** Clearing, in three phases: before the listing; removing; creating. *)
Definition rest (cfg : config) : prog router := do! shards <- create_initial_shards cfg; lift (treeify shards).
Definition renamed (js : list (prog shard)) : Prop := exists v, Ret v ∈ js.
Definition phase2 (w : fs) (js : list (prog shard)) (l : list fname) : Prop :=
  (NoDup l /\ forall n, clearable n = true -> n ∈ l <-> is_Some (fs_dir w !! n)) \/
  ((exists a b, FCompact a b ∈ l /\ fs_dir w !! FCompact a b = None) /\ renamed js).
Definition phase3 (cfg : config) (T : list ino) (w : fs) (p : prog router) : Prop :=
  exists wr w2 r, off T wr w /\ unnamed T wr /\ nocompact wr /\ blind T p /\ run p wr = (w2, Ok r) /\ Inv cfg true ∅ r w2.
Definition clearing (cfg : config) (shs : list shard) (w : fs) (p : prog router) (js : list (prog shard)) : Prop :=
  (wf w /\ owned shs w /\ exists ord, (forall l, ord l ≡ₚ l) /\ p = clear_in ord cfg) \/
  (wf w /\ owned shs w /\ exists l, p = pbind (clear_files l) (fun _ => rest cfg) /\ phase2 w js l) \/
  phase3 cfg (map tgt_of shs) w p \/
  (p = Fail EIo /\ renamed js).

Lemma clear_files_view l :
  (clear_files l = Ret tt /\ forall n, n ∈ l -> clearable n = false) \/
  (exists l1 n l2, l = l1 ++ n :: l2 /\ clearable n = true /\ (forall n, n ∈ l1 -> clearable n = false) /\
     clear_files l = pbind (remove_file n) (fun _ => clear_files l2)).
Proof.
  induction l as [|n l IH]; [left; split; [done|]; intros n Hn; by apply elem_of_nil in Hn|].
  destruct (clearable n) eqn:En.
  - right. exists [], n, l. split; [done|]. split; [done|]. split; [intros n' Hn; by apply elem_of_nil in Hn|]. by destruct n.
  - assert (clear_files (n :: l) = clear_files l) as -> by (by destruct n). destruct IH as [[H1 H2]|(l1 & n' & l2 & -> & H1 & H2 & H3)].
    + left. split; [done|]. intros n' [->|Hn]%elem_of_cons; auto.
    + right. exists (n :: l1), n', l2. split; [done|]. split; [done|]. split; [|done]. intros n2 [->|Hn]%elem_of_cons; auto.
Qed.
Lemma enter3 cfg shs w js l : cfg_ok cfg -> wf w -> owned shs w -> clear_files l = Ret tt -> (forall n, n ∈ l -> clearable n = false) ->
  phase2 w js l -> phase3 cfg (map tgt_of shs) w (rest cfg).
Proof.
  intros Hc Hwf Hn _ Hl [[_ H2]|[(a & b & H2 & _) _]]; [|by apply Hl in H2].
  assert (forall n, clearable n = true -> fs_dir w !! n = None) as Hno.
  { intros n Hcl. destruct (fs_dir w !! n) eqn:E; [|done]. assert (n ∈ l) as Hx by (apply H2; eauto). apply Hl in Hx. congruence. }
  assert (wpc (rest cfg) (fun _ => True) (fun r w' => Inv cfg true ∅ r w') no_err w) as Hw.
  { apply wpc_bind. apply create_initial_spec; [done| |apply Hc|].
    - intros a b. split; by apply Hno.
    - intros w' shs' A1 A3 A4 A5 _. destruct (create_treeify cfg w' shs') as (r & Hr & HI & _); auto.
      by eapply wpc_lift_ok. }
  destruct (wpc_sound _ _ _ _ _ Hw) as [_ Hr]. destruct (run (rest cfg) w) as [w2 [r|e]] eqn:E; [|by destruct Hr].
  exists w, w2, r. split; [done|]. split.
  - intros t Ht. apply elem_of_list_fmap in Ht as (sh & -> & Hsh). destruct (Hn sh Hsh) as [N1 N2]. split; [done|].
    intros n Hx. destruct (N2 n Hx) as [->| ->]; by rewrite Hno in Hx.
  - split; [intros a b; by apply Hno|]. split.
    + unfold rest, create_initial_shards. apply blind_bind; [|intros; apply blind_lift].
      apply blind_bind; [apply blind_lift|]. intros; apply blind_ranges.
    + split; [done|]. apply Hr.
Qed.

Lemma clearing_main cfg shs w p js w' p' : cfg_ok cfg -> clearing cfg shs w p js -> step1 p w = Some (w', p') -> clearing cfg shs w' p' js.
Proof.
  intros Hc Hx Hs.
  assert (phase3 cfg (map tgt_of shs) w p -> clearing cfg shs w' p' js) as H3.
  { intros (wr & w2 & r & O & U & N & B & R & HI). destruct (blind_step _ p wr w w' p' B O U N Hs) as (wr' & _ & R' & B' & O' & U' & N').
    right. right. left. exists wr', w2, r. rewrite <- R'. done. }
  destruct Hx as [(Hwf & Hn & ord & Ho & ->)|[(Hwf & Hn & l & -> & Hl)|[Hx|[-> _]]]]; [| |by apply H3|done].
  - cbn in Hs. injection Hs as <- <-. right. left. split; [done|]. split; [done|]. exists (ord (dir_names w)). split; [reflexivity|]. left.
    destruct (dir_names_spec w) as [D1 D2]. split; [by rewrite Ho|]. intros n _. rewrite Ho. apply D2.
  - destruct (clear_files_view l) as [[E1 E2]|(l1 & n & l2 & -> & E1 & E2 & E3)].
    { apply H3. rewrite E1. cbn [pbind]. by apply (enter3 cfg shs w js l). }
    rewrite E3 in Hs. cbn in Hs. destruct (fs_dir w !! n) as [i|] eqn:En; injection Hs as <- <-.
    + right. left. split; [by apply (wf_remove n)|]. split.
      { eapply owned_sub; [| |exact Hn]; [|done]. cbn. by intros n' i' [_ ?]%lookup_delete_Some. }
      exists l2. split; [done|]. destruct Hl as [[D1 D2]|[(a & b & D1 & D2) D3]].
      * left. apply NoDup_app in D1 as (_ & _ & D1). apply NoDup_cons in D1 as [D0 D1]. split; [done|]. intros n' Hn'. cbn.
        specialize (D2 n' Hn'). destruct (decide (n = n')) as [<-|Hne].
        -- rewrite lookup_delete. split; [done|]. by intros [? ?].
        -- rewrite lookup_delete_ne by done. rewrite <- D2, elem_of_app, elem_of_cons. split; [by auto|].
           intros [Hq|[->|?]]; [|done..]. apply E2 in Hq. congruence.
      * right. split; [|done]. exists a, b. cbn. apply elem_of_app in D1 as [D1|D1]; [by apply E2 in D1|].
        apply elem_of_cons in D1 as [<-|D1]; [congruence|]. split; [done|].
        destruct (decide (n = FCompact a b)) as [->|?]; [by rewrite lookup_delete|by rewrite lookup_delete_ne].
    + right. right. right. split; [done|]. destruct Hl as [[D1 D2]|[_ D3]]; [|done].
      assert (n ∈ l1 ++ n :: l2) as Hin by (apply elem_of_app; right; left). apply D2 in Hin; [|done]. rewrite En in Hin. by destruct Hin.
Qed.
Lemma renamed_keep js i q q' : js !! i = Some q -> (forall v, q <> Ret v) -> renamed js -> renamed (<[i := q']> js).
Proof.
  intros Hi Hq [v [j Hj]%elem_of_list_lookup]. exists v. apply elem_of_list_lookup. exists j.
  rewrite list_lookup_insert_ne; [done|]. intros ->. rewrite Hi in Hj. injection Hj as ->. by apply (Hq v).
Qed.
Lemma clearing_job cfg shs w p js i q w' q' : cfg_ok cfg -> Forall2 shape shs js -> clearing cfg shs w p js ->
  js !! i = Some q -> step1 q w = Some (w', q') -> clearing cfg shs w' p (<[i := q']> js).
Proof.
  intros Hc Hsh Hx Hi Hs. destruct (Forall2_lookup_r _ _ _ _ _ Hsh Hi) as (sh & Hshi & Hq).
  assert (forall v, q <> Ret v) as Hnr by (by intros v ->).
  pose proof (shape_step _ _ _ _ _ Hq Hs) as (_ & Hcase).
  pose proof (fun H => shape_wf _ _ _ _ _ Hq Hs H) as Hwf'. pose proof (fun H => owned_step shs _ _ _ _ _ Hq Hs H) as Hn'.
  apply elem_of_list_lookup_2 in Hshi.
  destruct Hx as [(Hwf & Hn & ord & Ho & ->)|[(Hwf & Hn & l & -> & Hl)|[Hx|[-> Hr]]]].
  - left. split; [auto|]. split; [auto|]. by exists ord.
  - right. left. split; [auto|]. split; [auto|]. exists l. split; [done|].
    destruct Hcase as [[(O1 & _ & _) _]|[(j & v & E & -> & ->)|(_ & -> & _)]].
    + destruct Hl as [[D1 D2]|[(a & b & D1 & D2) D3]]; [left; by rewrite O1|]. right. split; [|by eapply renamed_keep].
      exists a, b. by rewrite O1.
    + right. split.
      * destruct Hl as [[D1 D2]|[(a & b & D1 & D2) D3]].
        -- exists (sh_start sh), (sh_end sh). split; [apply D2; [done|]; by eexists|]. unfold rename_fs. cbn.
           rewrite lookup_insert_ne by done. by rewrite lookup_delete.
        -- exists a, b. split; [done|]. unfold rename_fs. cbn. rewrite lookup_insert_ne by done. apply lookup_delete_None. by right.
      * exists v. apply elem_of_list_lookup. exists i. apply list_lookup_insert. by eapply lookup_lt_Some.
    + destruct Hl as [Hl|[Hl D3]]; [by left|]. right. split; [done|]. by eapply renamed_keep.
  - right. right. left. destruct Hx as (wr & w2 & r & (O1 & O2 & O3) & U & N & B & R & HI). exists wr, w2, r.
    split; [|done]. destruct Hcase as [[(P1 & P2 & P3) _]|[(j & v & E & _)|(_ & -> & _)]]; [| |done].
    + split; [congruence|]. split; [congruence|]. intros k Hk. rewrite P3; [auto|]. intros ->%elem_of_list_singleton. apply Hk.
      apply elem_of_list_fmap. eauto.
    + rewrite O1, N in E. done.
  - right. right. right. split; [done|]. by eapply renamed_keep.
Qed.
Lemma clearing_steps cfg shs st st' : cfg_ok cfg -> rtc race_step st st' ->
  Forall2 shape shs (snd st) -> clearing cfg shs (fst (fst st)) (snd (fst st)) (snd st) ->
  Forall2 shape shs (snd st') /\ clearing cfg shs (fst (fst st')) (snd (fst st')) (snd st').
Proof.
  intros Hc. induction 1 as [st|st1 st2 st3 H1 _ IH]; intros Hsh Hx; [done|]. apply IH; clear IH.
  - destruct H1 as [w p js w' p' Hs|w p js i q w' q' Hi Hs]; cbn in *; [done|].
    eapply shape_upd; [done|done|]. intros sh _ Hq. by apply (shape_step _ _ _ _ _ Hq Hs).
  - destruct H1 as [w p js w' p' Hs|w p js i q w' q' Hi Hs]; cbn in *; [by eapply clearing_main|by eapply clearing_job].
Qed.
Lemma clear_meets_inv cfg s s' y js : reachable cfg s -> cfg_ok cfg -> clear_meets cfg s s' y js ->
  match y with Ok _ => SInv cfg true ∅ s' | Err e => e = EIo /\ renamed js end.
Proof.
  intros Hr Hc Hm. apply reach_inv in Hr as (x & M & HI).
  assert (forall ord, (forall l, ord l ≡ₚ l) -> clearing cfg (compacting s) (st_fs s) (clear_in ord cfg) (jobs cfg s)) as H0.
  { intros ord Ho. left. split; [apply HI|]. split; [by eapply owned_start|by exists ord]. }
  assert (forall w p js, clearing cfg (compacting s) w p js -> ended p <> None ->
    (exists r, p = Ret r /\ Inv cfg true ∅ r w) \/ (p = Fail EIo /\ renamed js)) as Hend.
  { intros w p js' Hx He.
    assert (phase3 cfg (map tgt_of (compacting s)) w p -> exists r, p = Ret r /\ Inv cfg true ∅ r w) as H3.
    { intros (wr & w2 & r & O & U & N & B & R & HI3). destruct p as [r'|e|]; [|done..]. injection R as -> ->.
      exists r. split; [done|]. by eapply Inv_off. }
    destruct Hx as [(_ & _ & ord & _ & ->)|[(Hwf & Hn & l & -> & Hl)|[Hx|Hx]]]; [done| |left; auto|by right].
    destruct (clear_files_view l) as [[E1 E2]|(l1 & n & l2 & -> & E1 & E2 & E3)]; [|by rewrite E3 in He].
    left. apply H3. rewrite E1. cbn [pbind]. by apply (enter3 cfg (compacting s) w js' l). }
  destruct Hm as [ord w r js Ho Hs _|ord w e js Ho Hs].
  - apply (clearing_steps cfg (compacting s)) in Hs as [_ Hx]; [|done|apply shape_jobs|by apply H0]. cbn in Hx.
    apply Hend in Hx as [(r' & [= <-] & HI')|[? _]]; done.
  - apply (clearing_steps cfg (compacting s)) in Hs as [_ Hx]; [|done|apply shape_jobs|by apply H0]. cbn in Hx.
    apply Hend in Hx as [(r' & ? & _)|[[= ->] Hr]]; done.
Qed.

(** The store is cleared while any number of its shards are being compacted in the background,
    whatever the schedule. If [clear] succeeds, the store is empty; from then on it is the map
    that its history says, and so it stays. *)
Theorem C57_clear_beside_compactions_partial : forall cfg s s' js,
  reachable cfg s -> cfg_ok cfg -> clear_meets cfg s s' (Ok tt) js ->
  (forall k, get cfg s' k = Ok None) /\
  forall es cfg2 s2, hist fits cfg s' es cfg2 s2 ->
    exists m, trace plain_step cfg ∅ es cfg2 m /\ forall k, get cfg2 s2 k = Ok (m !! k).
Proof.
  intros cfg s s' js Hr Hc Hm. apply clear_meets_inv in Hm; [|done..]. split.
  - intros k. unfold get. by rewrite (get_raw_ok _ _ _ _ _ Hm), lookup_empty.
  - intros es cfg2 s2 Hh.
    assert (view ∅ ∅) as Hv by (intros k; by rewrite !lookup_empty).
    destruct (hist_lift (fun _ M m => view M m) plain_step fits plain_lifts cfg s' es cfg2 s2 true ∅ ∅ Hh Hm Hv)
      as (x3 & M3 & m3 & H1 & H2 & H3 & _). exists m3. split; [done|]. intros k. unfold get. by rewrite (get_raw_ok _ _ _ _ _ H2), H3.
Qed.
(** [clear] fails only if one of these compactions has come to its good end in the meantime. *)
Theorem C57_clear_fails_only_then_partial : forall cfg s s' e js,
  reachable cfg s -> cfg_ok cfg -> clear_meets cfg s s' (Err e) js ->
  e = EIo /\ exists q sh, q ∈ js /\ ended q = Some (Ok sh).
Proof.
  intros cfg s s' e js Hr Hc Hm. apply clear_meets_inv in Hm as [-> [v Hv]]; [|done..]. split; [done|]. by exists (Ret v), v.
Qed.

(** ** C58 *)
Lemma wait_wpc cfg x m r w sel : Inv cfg x m r w -> sel < 65536 ->
  wpc (on_leaf r sel (fun sh => do! sh' <- wait_compaction cfg sh; Ret (RLeaf sh', tt)))
      (DiskInv cfg false m) (fun a w' => Inv cfg x m (fst a) w') no_err w.
Proof.
  intros (Hwf & Hrun) Hsel.
  apply (on_leaf_spec cfg x m m sel _ tt no_err r w 0 16); auto.
  - change (0 + 2 ^ N.of_nat 16) with 65536. lia.
  - intros sh s n C Q _ Hr _ HC HQ. apply wpc_bind. apply (wait_compaction_leaf cfg x m w w sh s n).
    + split; [done|]. split; [apply outside_same_refl|done].
    + intros w' H1 H2 H3. apply HC. split; [done|]. split; [done|]. by left.
    + intros w' sh' HQ' _ _. apply wpc_ret; [|by apply HQ]. apply HC. by eapply leafQ_C.
  - intros w' HC. by eapply leafC_disk'.
  - intros w' r' HQ. by apply Inv_leafQ in HQ as [_ HQ].
Qed.

Lemma route_of_leaf r : forall s n sh, tree_ok r s n -> In sh (leaves r) -> route r (sh_start sh) = sh.
Proof.
  induction r as [sh'|b IHb t IHt]; intros s n sh Ht Hin; cbn [leaves route] in *; [by destruct Hin as [->|[]]|].
  cbn [tree_ok] in Ht. destruct n as [|n]; [done|]. destruct Ht as [Hb Ht]. rewrite (tree_ok_end _ _ _ Hb).
  apply in_app_or in Hin as [Hin|Hin].
  - destruct (leaves_bounds _ _ _ _ Hb Hin) as (B1 & B2 & B3). destruct (N.ltb_spec (sh_start sh) (s + 2 ^ N.of_nat n)); [|lia].
    by eapply IHb.
  - destruct (leaves_bounds _ _ _ _ Ht Hin) as (B1 & B2 & B3). destruct (N.ltb_spec (sh_start sh) (s + 2 ^ N.of_nat n)); [lia|].
    by eapply IHt.
Qed.
Lemma crash_bind_ret {A B} (p : prog A) (f : A -> prog B) :
  (forall a n w, crash_at n (f a) w = w) -> forall n w, crash_at n (pbind p f) w = crash_at n p w.
Proof.
  intros Hf. induction p as [a|er|X ef k IH]; intros n w; [by cbn [pbind]; rewrite Hf; destruct n|by destruct n|].
  destruct n as [|n]; [done|]. cbn. destruct (run_eff ef w) as [w1 x]. apply IH.
Qed.
Lemma crash_on_leaf cfg r sel : forall n w,
  crash_at n (on_leaf r sel (fun sh => do! sh' <- wait_compaction cfg sh; Ret (RLeaf sh', tt))) w =
  crash_at n (wait_compaction cfg (route r sel)) w.
Proof.
  induction r as [sh|b IHb t IHt]; intros n w; cbn [on_leaf route].
  - apply crash_bind_ret. by intros ? [].
  - destruct (sel <? rend b); (rewrite crash_bind_ret; [auto|by intros [] []]).
Qed.
Lemma take_crash {A} n : forall (p : prog A) w, fst (take n p w) = crash_at n p w.
Proof.
  induction n as [|n IH]; intros p w; [done|]. destruct p as [a|er|X ef k]; cbn; [done..|]. destruct (run_eff ef w) as [w1 x]. apply IH.
Qed.


(** *** Compactions of different shards do not meet *)
Definition agree (sh : shard) (w wi : fs) : Prop :=
  fs_files w !! tgt_of sh = fs_files wi !! tgt_of sh /\ fs_files w !! sh_ino sh = fs_files wi !! sh_ino sh /\
  fs_dir w !! cname sh = fs_dir wi !! cname sh /\ fs_dir w !! sname sh = fs_dir wi !! sname sh.
Lemma agree_step sh q w wi w' q' : shape sh q -> agree sh w wi -> step1 q w = Some (w', q') ->
  exists wi', step1 q wi = Some (wi', q') /\ agree sh w' wi'.
Proof.
  intros [(p & Hp & ->)|[[v ->]|[e ->]]] (A1 & A2 & A3 & A4) Hs; [|done..].
  destruct p as [u|e|X ef k]; [|done|].
  - cbn in Hs |- *. rewrite A3 in Hs. destruct (fs_dir wi !! cname sh) as [i|] eqn:E; injection Hs as <- <-;
      eexists; (split; [done|]); unfold agree; cbn; rewrite ?E.
    + rewrite !(lookup_insert_ne _ (sname sh) (cname sh)) by done. by rewrite !lookup_insert, !lookup_delete.
    + done.
  - cbn in Hs |- *. destruct Hp as [H1 H2]. destruct ef as [|i n|i u|n tr|a b|a]; try done; cbn in Hs |- *.
    + injection Hs as <- <-. exists wi. rewrite (H1 w wi A1 A2). done.
    + subst i. rewrite A1 in Hs. destruct (fs_files wi !! tgt_of sh) as [f|] eqn:E; injection Hs as <- <-; eexists; (split; [done|]); unfold agree; cbn.
      * rewrite !lookup_insert. split; [done|]. split; [|done].
        destruct (decide (tgt_of sh = sh_ino sh)) as [->|Hn]; [by rewrite !lookup_insert|by rewrite !lookup_insert_ne].
      * by rewrite E.
    + subst i. injection Hs as <- <-; eexists; (split; [done|]); unfold agree; cbn.
      rewrite !lookup_alter, A1. split; [done|]. split; [|done].
      destruct (decide (tgt_of sh = sh_ino sh)) as [->|Hn]; [by rewrite !lookup_alter, A2|by rewrite !lookup_alter_ne].
Qed.
Definition apart (sh sh' : shard) : Prop :=
  span_of sh <> span_of sh' /\ tgt_of sh <> tgt_of sh' /\ tgt_of sh <> sh_ino sh'.
Lemma agree_other sh sh' q w w' q' wi : shape sh q -> step1 q w = Some (w', q') -> apart sh sh' -> agree sh' w wi -> agree sh' w' wi.
Proof.
  intros Hsh Hs (P1 & P2 & P3) (A1 & A2 & A3 & A4). unfold span_of in P1.
  destruct (shape_step _ _ _ _ _ Hsh Hs) as (_ & [[(O1 & O2 & O3) _]|[(i & v & H1 & -> & _)|(_ & -> & _)]]); [| |done].
  - unfold agree. rewrite O1, (O3 (tgt_of sh')), (O3 (sh_ino sh')); [done|intros Hx%elem_of_list_singleton; congruence..].
  - unfold agree, rename_fs. cbn. rewrite !lookup_insert_ne by (intros [=]; congruence).
    rewrite !lookup_delete_ne by (intros [=]; congruence). done.
Qed.
(** What one compaction alone does to the directory. *)
Definition own (sh : shard) (w0 wi : fs) : Prop :=
  (forall n i, n = cname sh \/ n = sname sh -> fs_dir wi !! n = Some i -> i = tgt_of sh \/ i = sh_ino sh) /\
  (forall n, n <> cname sh -> n <> sname sh -> fs_dir wi !! n = fs_dir w0 !! n).
Lemma own_step sh q w0 wi w' q' : shape sh q -> step1 q wi = Some (w', q') -> own sh w0 wi -> own sh w0 w'.
Proof.
  intros Hsh Hs [H1 H2].
  destruct (shape_step _ _ _ _ _ Hsh Hs) as (_ & [[(O1 & O2 & O3) _]|[(i & v & E & -> & _)|(_ & -> & _)]]); [| |done].
  - unfold own. by rewrite O1.
  - unfold own, rename_fs. cbn. split.
    + intros n j [->| ->]; [rewrite lookup_insert_ne by done; by rewrite lookup_delete|].
      rewrite lookup_insert. intros [= <-]. eapply H1; [|exact E]. by left.
    + intros n N1 N2. rewrite lookup_insert_ne, lookup_delete_ne by done. by apply H2.
Qed.
Lemma take_step {A} n : forall (p q q2 : prog A) w w1 w2, take n p w = (w1, q) -> step1 q w1 = Some (w2, q2) -> take (S n) p w = (w2, q2).
Proof.
  induction n as [|n IH]; intros p q q2 w w1 w2 H1 H2.
  - cbn in H1. injection H1 as <- <-. destruct p as [a|e|X ef k]; [done..|]. cbn in *. destruct (run_eff ef w). by injection H2 as <- <-.
  - destruct p as [a|e|X ef k]; [by injection H1 as <- <-..|]. cbn in H1. destruct (run_eff ef w) as [w3 x] eqn:E.
    change (take (S (S n)) (Vis ef k) w) with (let '(w', x) := run_eff ef w in take (S n) (k x) w'). rewrite E. by eapply IH.
Qed.

Definition closing (cfg : config) (shs : list shard) (w0 w : fs) (js : list (prog shard)) : Prop :=
  wf w /\ Forall2 shape shs js /\
  (forall i sh q, shs !! i = Some sh -> js !! i = Some q ->
     exists n wi, take n (job cfg sh) w0 = (wi, q) /\ agree sh w wi /\ own sh w0 wi) /\
  (forall n, (forall sh, sh ∈ shs -> n <> cname sh /\ n <> sname sh) -> fs_dir w !! n = fs_dir w0 !! n) /\
  (forall i, i ∉ map tgt_of shs -> fs_files w !! i = fs_files w0 !! i).
Lemma closing_step {A} cfg shs w0 w (p : prog A) js w' p' js' :
  (forall i j sh sh', i <> j -> shs !! i = Some sh -> shs !! j = Some sh' -> apart sh sh') ->
  ended p <> None -> race_step (w, p, js) (w', p', js') ->
  closing cfg shs w0 w js -> p' = p /\ closing cfg shs w0 w' js'.
Proof.
  intros Hap He Hst (H1 & H2 & H3 & H4 & H5).
  inversion Hst as [? ? ? ? ? Hs|? ? ? i q ? q' Hi Hs]; subst; [by destruct p|]. split; [done|].
  destruct (Forall2_lookup_r _ _ _ _ _ H2 Hi) as (sh & Hsh & Hq). pose proof (shape_step _ _ _ _ _ Hq Hs) as [Hq' Hcase].
  split; [eapply shape_wf; [exact Hq|exact Hs|done]|]. split.
  { eapply shape_upd; [exact H2|exact Hi|]. intros sh' Hsh' _. rewrite Hsh in Hsh'. by injection Hsh' as <-. }
  split; [|split].
  - intros j sh' q1 Hj Hj'. destruct (decide (i = j)) as [<-|Hne].
    + rewrite list_lookup_insert in Hj' by (by eapply lookup_lt_Some). injection Hj' as <-. rewrite Hsh in Hj. injection Hj as <-.
      destruct (H3 i sh q Hsh Hi) as (n & wi & T & Ag & Ow). destruct (agree_step _ _ _ _ _ _ Hq Ag Hs) as (wi' & Hs' & Ag').
      exists (S n), wi'. split; [exact (take_step n _ _ _ _ _ _ T Hs')|]. split; [done|]. exact (own_step sh q w0 wi wi' q' Hq Hs' Ow).
    + rewrite list_lookup_insert_ne in Hj' by done. destruct (H3 j sh' q1 Hj Hj') as (n & wi & T & Ag & Ow).
      exists n, wi. split; [done|]. split; [|done]. eapply agree_other; [exact Hq|exact Hs|by eapply Hap|done].
  - intros n Hn. rewrite <- H4 by done. destruct (Hn sh) as [N1 N2]; [by eapply elem_of_list_lookup_2|].
    destruct Hcase as [[(O1 & _ & _) _]|[(t & v & E & -> & _)|(_ & -> & _)]]; [by rewrite O1| |done].
    unfold rename_fs. cbn. by rewrite lookup_insert_ne, lookup_delete_ne.
  - intros k Hk. rewrite <- H5 by done. destruct Hcase as [[(_ & _ & O3) _]|[(t & v & E & -> & _)|(_ & -> & _)]]; [|done..].
    apply O3. intros ->%elem_of_list_singleton. apply Hk. apply elem_of_list_fmap. exists sh. split; [done|]. by eapply elem_of_list_lookup_2.
Qed.
Lemma closing_steps {A} cfg shs w0 st st' :
  (forall i j sh sh', i <> j -> shs !! i = Some sh -> shs !! j = Some sh' -> apart sh sh') ->
  rtc (@race_step A) st st' -> ended (snd (fst st)) <> None ->
  closing cfg shs w0 (fst (fst st)) (snd st) -> closing cfg shs w0 (fst (fst st')) (snd st').
Proof.
  intros Hap. induction 1 as [st|[[w1 p1] js1] [[w2 p2] js2] st3 H1 _ IH]; intros He Hx; [done|]. cbn in *.
  destruct (closing_step cfg shs w0 w1 p1 js1 w2 p2 js2 Hap He H1 Hx) as [-> Hx']. by apply IH.
Qed.

Lemma dyadic_cover s n rs a : dyadic s n rs -> s <= a < s + 2 ^ N.of_nat n -> exists c d, (c, d) ∈ rs /\ c <= a < d.
Proof.
  intros H. induction H as [s n|s n l1 l2 H1 IH1 H2 IH2]; intros Ha.
  - exists s, (s + 2 ^ N.of_nat n). split; [left|done].
  - rewrite pow2_succ in Ha. destruct (N.lt_ge_cases a (s + 2 ^ N.of_nat n)).
    + destruct IH1 as (c & d & Hin & Hc); [lia|]. exists c, d. split; [|done]. apply elem_of_app. by left.
    + destruct IH2 as (c & d & Hin & Hc); [lia|]. exists c, d. split; [|done]. apply elem_of_app. by right.
Qed.
Lemma leaf_eq r sh sh' : tree_ok r 0 16 -> sh ∈ leaves r -> sh' ∈ leaves r -> span_of sh = span_of sh' -> sh = sh'.
Proof.
  intros Ht H1%elem_of_list_In H2%elem_of_list_In [= E _].
  rewrite <- (route_of_leaf _ _ _ _ Ht H1), <- (route_of_leaf _ _ _ _ Ht H2). by rewrite E.
Qed.
Lemma compacting_apart cfg x m s : SInv cfg x m s ->
  forall i j sh sh', i <> j -> compacting s !! i = Some sh -> compacting s !! j = Some sh' -> apart sh sh'.
Proof.
  intros (Hwf & Htree & Hl & _) i j sh sh' Hij Hi Hj.
  assert (NoDup (map span_of (leaves (st_root s)))) as Hnd.
  { pose proof (dyadic_sorted _ _ _ (tree_ok_dyadic _ _ _ Htree)) as Hs. clear -Hs. induction Hs as [|x l Hs IH Hx]; constructor; auto.
    intros Hin. rewrite Forall_forall in Hx. apply Hx in Hin. unfold strict_incr in Hin. lia. }
  assert (span_of sh <> span_of sh') as Hsp.
  { assert (NoDup (map span_of (compacting s))) as Hnd2.
    { unfold compacting. clear -Hnd. induction (leaves (st_root s)) as [|a l IH]; cbn in *; [done|].
      apply NoDup_cons in Hnd as [Hn Hnd]. specialize (IH Hnd). destruct (sh_tgt a); [|done]. cbn. apply NoDup_cons. split; [|done].
      intros Hx. apply Hn. apply elem_of_list_fmap in Hx as (y & E & Hy). apply elem_of_list_fmap. exists y. split; [done|].
      apply elem_of_list_In in Hy. apply filter_In in Hy as [Hy _]. by apply elem_of_list_In. }
    intros Hx. apply Hij. rewrite NoDup_alt in Hnd2. apply (Hnd2 i j (span_of sh)).
    - by rewrite list_lookup_fmap, Hi.
    - rewrite list_lookup_fmap, Hj. cbn. by rewrite Hx. }
  apply elem_of_list_lookup_2, compacting_in in Hi as [I1 I2]. apply elem_of_list_lookup_2, compacting_in in Hj as [J1 J2].
  rewrite Forall_forall in Hl. destruct (Hl sh I1) as (f & L & A1 & _ & _ & _ & _ & _ & A7). destruct (Hl sh' J1) as (f' & L' & B1 & _ & _ & _ & _ & _ & B7).
  unfold apart. split; [done|]. unfold tgt_of in *. destruct (sh_tgt sh) as [[t b]|]; [|done]. destruct (sh_tgt sh') as [[t' b']|]; [|done].
  destruct A7 as [A7 _]. destruct B7 as [B7 _]. unfold span_of in Hsp. split; intros ->.
  - pose proof (wf_inj _ Hwf _ _ _ A7 B7) as [=]. congruence.
  - pose proof (wf_inj _ Hwf _ _ _ A7 B1) as [=].
Qed.
Lemma job_disk cfg x m s sh n wi q : SInv cfg x m s -> sh ∈ leaves (st_root s) -> take n (job cfg sh) (st_fs s) = (wi, q) -> DiskInv cfg false m wi.
Proof.
  intros HI Hin Ht. assert (wi = crash_at n (job cfg sh) (st_fs s)) as -> by (by rewrite <- take_crash, Ht).
  pose proof HI as (_ & Htree & _). apply elem_of_list_In in Hin as Hin'.
  pose proof (leaves_bounds _ _ _ _ Htree Hin') as (B1 & B2 & B3). change (0 + 2 ^ N.of_nat 16) with 65536 in B3.
  pose proof (wait_wpc cfg x m (st_root s) (st_fs s) (sh_start sh) HI ltac:(lia)) as Hw.
  apply (exec_wpc cfg) in Hw as [_ Hw]. specialize (Hw n). by rewrite crash_on_leaf, (route_of_leaf _ _ _ _ Htree Hin') in Hw.
Qed.
Lemma closing_disk cfg x m s w js : SInv cfg x m s -> closing cfg (compacting s) (st_fs s) w js -> DiskInv cfg false m w.
Proof.
  intros HI (C1 & C2 & C3 & C4 & C5). pose proof HI as (Hwf & Htree & Hl & Hn1 & Hn2). split; [done|].
  pose proof (tree_ok_dyadic _ _ _ Htree) as Hd. exists (map span_of (leaves (st_root s))). split; [done|].
  rewrite Forall_forall in Hl. change (0 + 2 ^ N.of_nat 16) with 65536 in *.
  split.
  - apply Forall_forall. intros r Hr. apply elem_of_list_fmap in Hr as (sh & -> & Hsh).
    assert (span_of sh ∈ map span_of (leaves (st_root s))) as Hspan by (by apply elem_of_list_fmap_1).
    pose proof (dyadic_bounds _ _ _ _ _ Hd Hspan) as (B1 & B2 & B3). cbn in B1, B2. change (0 + 2 ^ N.of_nat 16) with 65536 in B3.
    destruct (sh_tgt sh) as [tg|] eqn:Etg.
    + assert (sh ∈ compacting s) as Hc.
      { unfold compacting. apply elem_of_list_In, filter_In. split; [by apply elem_of_list_In|]. by rewrite Etg. }
      apply elem_of_list_lookup in Hc as [i Hi]. destruct (Forall2_lookup_l _ _ _ _ _ C2 Hi) as (q & Hq & _).
      destruct (C3 i sh q Hi Hq) as (n & wi & Ht & (A1 & A2 & A3 & A4) & O1 & O2).
      pose proof (job_disk cfg x m s sh n wi q HI Hsh Ht) as (_ & rs & D1 & D2 & _).
      destruct (dyadic_cover _ _ _ (sh_start sh) D1) as (c & d & Hin & Hcd); [change (0 + 2 ^ N.of_nat 16) with 65536; lia|].
      pose proof (dyadic_bounds _ _ _ _ _ D1 Hin) as (E1 & E2 & E3). change (0 + 2 ^ N.of_nat 16) with 65536 in E3.
      rewrite Forall_forall in D2. specialize (D2 _ Hin).
      assert ((c, d) = span_of sh) as Ecd.
      { destruct (decide (FShard c d = sname sh)) as [[= -> ->]|Hne]; [done|].
        destruct D2 as (k & f & L & K1 & _). rewrite O2 in K1 by done.
        eapply (dyadic_overlap _ _ _ _ _ _ _ Hd); [apply Hn1; [eauto|]|exact Hspan|]; unfold overlap; lia. }
      rewrite Ecd in D2. unfold span_of in D2 |- *. destruct D2 as (k & f & L & K1 & K2 & K3 & K4 & K5 & K6 & K7).
      exists k, f, L. rewrite A4. split; [done|].
      assert (forall n k, n = cname sh \/ n = sname sh -> fs_dir wi !! n = Some k -> fs_files w !! k = fs_files wi !! k) as Hf.
      { intros n' k' Hn' Hk. destruct (O1 n' k' Hn' Hk) as [->| ->]; done. }
      rewrite (Hf (sname sh) k) by auto. do 5 (split; [done|]). rewrite A3. destruct (fs_dir wi !! cname sh) as [t|] eqn:Ec; [|done].
      rewrite (Hf (cname sh) t) by auto. done.
    + assert (forall sh', sh' ∈ compacting s -> span_of sh <> span_of sh') as Hno.
      { intros sh' [S1 S2]%compacting_in Hx. apply (leaf_eq _ _ _ Htree Hsh S1) in Hx as <-. done. }
      assert (forall n, n = cname sh \/ n = sname sh -> fs_dir w !! n = fs_dir (st_fs s) !! n) as Hdir.
      { intros n Hn. apply C4. intros sh' Hsh'. specialize (Hno sh' Hsh'). unfold span_of in Hno.
        destruct Hn as [->| ->]; split; intros [=]; congruence. }
      destruct (Hl sh Hsh) as (f & L & K1 & K2 & K3 & K4 & K5 & K6 & K7). rewrite Etg in K7. destruct K7 as [K7 K8].
      exists (sh_ino sh), f, L. rewrite !Hdir by auto. split; [done|]. split.
      { rewrite C5; [done|]. intros Hx. apply elem_of_list_fmap in Hx as (sh' & Ei & Hsh').
        apply compacting_in in Hsh' as [S1 S2]. destruct (Hl sh' S1) as (f' & L' & _ & _ & _ & _ & _ & _ & M7).
        unfold tgt_of in Ei. destruct (sh_tgt sh') as [[t b]|]; [|done]. destruct M7 as [M7 _]. subst t.
        pose proof (wf_inj _ Hwf _ _ _ K1 M7) as [=]. }
      do 2 (split; [done|]). split; [by eapply acct_weaken|]. split; [done|]. by rewrite K7.
  - assert (forall n a b, n = FShard a b \/ n = FCompact a b -> is_Some (fs_dir w !! n) -> overlap a b 0 65536 ->
      (a, b) ∈ map span_of (leaves (st_root s))) as Hnames.
    { intros n a b Hn Hs Ho. destruct (decide ((a, b) ∈ map span_of (compacting s))) as [Hin|Hin].
      - apply elem_of_list_fmap in Hin as (sh & E & Hsh). apply elem_of_list_fmap. exists sh. split; [done|]. by apply compacting_in.
      - rewrite C4 in Hs.
        + destruct Hn as [->| ->]; [by apply Hn1|by apply Hn2].
        + intros sh Hsh. assert ((a, b) <> span_of sh) as Hne by (intros Hx; apply Hin, elem_of_list_fmap; by exists sh).
          unfold span_of in Hne. destruct Hn as [->| ->]; split; intros [=]; congruence. }
    split; intros a b Hs Ho; [|by apply (Hnames (FCompact a b) a b); auto].
    exists (a, b). split; [by apply (Hnames (FShard a b) a b); auto|]. unfold contained. cbn. lia.
Qed.

(** The store is closed, with any number of compactions under way, in any interleaving; each has
    come to its end or has stopped somewhere before (with an error, or because the process died).
    Then the directory can be opened, all entries are there, and from then on the store is the map
    that its history says. *)
Theorem C58_reopen_after_closing : forall cfg s w cfg',
  reachable cfg s -> closes cfg s w -> disk_room w -> c_hash cfg' = c_hash cfg ->
  exists w' s', store_open cfg' w = (w', Ok s') /\ same_content cfg s cfg' s' /\
    forall m, (forall k, get cfg s k = Ok (m !! k)) ->
    forall es cfg2 s2, hist fits cfg' s' es cfg2 s2 ->
      exists m2, trace plain_step cfg' m es cfg2 m2 /\ forall k, get cfg2 s2 k = Ok (m2 !! k).
Proof.
  intros cfg s w cfg' Hr [js Hst] Hd Hh. apply reach_inv in Hr as (x & M & HI).
  assert (DiskInv cfg false M w) as Hw.
  { eapply (closing_disk cfg x M s w js); [done|].
    apply (closing_steps cfg (compacting s) (st_fs s)) in Hst; [done|by eapply compacting_apart|done|]. cbn.
    split; [apply HI|]. split; [apply shape_jobs|]. split; [|done]. intros i sh q Hi Hq. exists 0%nat, (st_fs s).
    unfold jobs in Hq. rewrite list_lookup_fmap, Hi in Hq. injection Hq as <-. split; [done|]. split; [done|].
    apply elem_of_list_lookup_2, compacting_in in Hi as [I1 I2]. split; [|done]. intros n j Hn Hj.
    destruct HI as (Hwf & _ & Hl & _). rewrite Forall_forall in Hl. destruct (Hl sh I1) as (f & L & A1 & _ & _ & _ & _ & _ & A7).
    unfold tgt_of. destruct (sh_tgt sh) as [[t b]|]; [|done]. destruct A7 as [A7 _]. destruct Hn as [->| ->]; [left|right]; congruence. }
  destruct (open_ok cfg' false M _ (DiskInv_cfg cfg cfg' false M _ Hh Hw) Hd) as (w' & s' & Ho & HI').
  exists w', s'. split; [done|]. split; [by eapply SInv_same|]. intros m Hm es cfg2 s2 Hhist.
  assert (view M m) as Hv.
  { intros k. specialize (Hm k). unfold get in Hm. rewrite (get_raw_ok _ _ _ _ _ HI) in Hm. by injection Hm. }
  destruct (hist_lift (fun _ M m => view M m) plain_step fits plain_lifts cfg' s' es cfg2 s2 false M m Hhist HI' Hv)
    as (x3 & M3 & m3 & H1 & H2 & H3 & _). exists m3. split; [done|]. intros k. unfold get. by rewrite (get_raw_ok _ _ _ _ _ H2), H3.
Qed.
