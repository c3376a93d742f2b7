(** C68: one open store per directory (the lock file; store.rs:221-227 and 248, [LockFile] of the crate fslock).

    Processes open the same directory at any time. [open] creates or opens the file ".lock" and tries to lock
    it (flock, which belongs to the i-node and to the descriptor); only then it reads the directory. The lock is
    released when the store is dropped (the fields are dropped in order: first the shards, which wait for
    their compactions, shard.rs:1089-1093, and the lock file last), when the opening fails, and when the
    process dies. The file operations between are those of the programs of Shard.v, Router.v and Store.v,
    run by any number of threads, interleaved effect by effect.
    Simplified: writing the process number into the file (it is of no use to the program). *)
From Verif Require Import Base Hashing Fs Shard Router Store Kv Hist Foreign.

Definition LOCK : fname := FOther 0. (* ".lock" *)

(** What threads of a store run. *)
Inductive store_prog : prog unit -> Prop :=
| sp_open cfg : store_prog (do! _ <- router_new cfg; Ret tt)
| sp_insert cfg r k v mode : store_prog (do! _ <- insert_prog cfg r k v mode; Ret tt)
| sp_remove cfg r k : store_prog (do! _ <- remove_prog cfg r k; Ret tt)
| sp_maint cfg r m : store_prog (do! _ <- maint_prog cfg m r; Ret tt)
| sp_clear cfg : store_prog (do! _ <- router_clear cfg; Ret tt).
(** The first effect of a program. *)
Definition first_eff {A} (p : prog A) (w : fs) : option (prog A * fs) :=
  match p with
  | Vis e k => Some (k (snd (run_eff e w)), fst (run_eff e w))
  | _ => None
  end.

Inductive pstate :=
| Wants (i : ino)                          (* has opened the lock file *)
| Has (i : ino) (ts : list (prog unit)).   (* holds the lock; its threads *)
Record sys := Sys { y_fs : fs; y_locks : gmap ino nat; y_procs : gmap nat pstate }.

Inductive label :=
| LOpenFile (p : nat) | LLocked (p : nat) | LRefused (p : nat) | LStart (p : nat) | LEff (p : nat) | LEnd (p : nat)
| LClose (p : nat) | LKill (p : nat).
Definition unlock (p : nat) (locks : gmap ino nat) : gmap ino nat := filter (fun x => x.2 <> p) locks.

Inductive sstep : sys -> label -> sys -> Prop :=
| ss_openfile w lk ps p w' i : ps !! p = None -> run_eff (ECreate LOCK false) w = (w', i) ->
    sstep (Sys w lk ps) (LOpenFile p) (Sys w' lk (<[p := Wants i]> ps))
| ss_locked w lk ps p i : ps !! p = Some (Wants i) -> lk !! i = None ->
    sstep (Sys w lk ps) (LLocked p) (Sys w (<[i := p]> lk) (<[p := Has i []]> ps))
| ss_refused w lk ps p i q : ps !! p = Some (Wants i) -> lk !! i = Some q ->
    sstep (Sys w lk ps) (LRefused p) (Sys w lk (delete p ps))
| ss_start w lk ps p i ts pr : ps !! p = Some (Has i ts) -> store_prog pr ->
    sstep (Sys w lk ps) (LStart p) (Sys w lk (<[p := Has i (ts ++ [pr])]> ps))
| ss_eff w lk ps p i t1 pr t2 pr' w' : ps !! p = Some (Has i (t1 ++ pr :: t2)) -> first_eff pr w = Some (pr', w') ->
    sstep (Sys w lk ps) (LEff p) (Sys w' lk (<[p := Has i (t1 ++ pr' :: t2)]> ps))
| ss_end w lk ps p i t1 pr t2 : ps !! p = Some (Has i (t1 ++ pr :: t2)) -> first_eff pr w = None ->
    sstep (Sys w lk ps) (LEnd p) (Sys w lk (<[p := Has i (t1 ++ t2)]> ps))
| ss_close w lk ps p i : ps !! p = Some (Has i []) ->
    sstep (Sys w lk ps) (LClose p) (Sys w (unlock p lk) (delete p ps))
| ss_kill w lk ps p : is_Some (ps !! p) ->
    sstep (Sys w lk ps) (LKill p) (Sys w (unlock p lk) (delete p ps)).
Inductive srun : sys -> list label -> sys -> Prop :=
| sr_nil y : srun y [] y
| sr_snoc y ls y1 l y2 : srun y ls y1 -> sstep y1 l y2 -> srun y (ls ++ [l]) y2.
(** No process runs yet; the directory is in any state. *)
Definition sys0 (w : fs) : sys := Sys w ∅ ∅.

(** ** Proof *)
Definition NoF (i : ino) : Prop := False.
Lemma noF i : ~ NoF i.
Proof. intros H. exact H. Qed.
Lemma noF_sep w : sep NoF w.
Proof. split; [intros n i _ _; apply noF|by intros i H%noF]. Qed.
Lemma noF_r r : r_ok NoF r.
Proof. apply Forall_forall. intros sh _. split; [apply noF|]. destruct (sh_tgt sh) as [[t b]|]; [apply noF|done]. Qed.
Definition tame (p : prog unit) : Prop := pok NoF any p.
Lemma store_prog_tame p : store_prog p -> tame p.
Proof.
  assert (forall A (Q : A -> Prop) (q : prog A), pok NoF Q q -> tame (do! _ <- q; Ret tt)) as G.
  { intros A Q q Hq. eapply pok_bind; [exact Hq|]. intros a _. by constructor. }
  intros [cfg|cfg r k v mode|cfg r k|cfg r m|cfg].
  - exact (G _ _ _ (router_new_ok NoF cfg)).
  - exact (G _ _ _ (insert_ok NoF cfg r k v mode (noF_r r))).
  - exact (G _ _ _ (remove_ok NoF cfg r k (noF_r r))).
  - exact (G _ _ _ (maint_ok NoF cfg m r (noF_r r))).
  - exact (G _ _ _ (router_clear_ok NoF cfg)).
Qed.
Lemma first_eff_tame p w p' w' : tame p -> first_eff p w = Some (p', w') -> tame p' /\ fs_dir w' !! LOCK = fs_dir w !! LOCK.
Proof.
  intros Hp. assert (forall w', kept NoF w w' -> fs_dir w' !! LOCK = fs_dir w !! LOCK) as G by (intros w1 [H _]; apply H).
  destruct Hp as [a Ha|e|k Hk|i n k Hi Hk|i u k Hi Hk|n t k Hn Hk|a b k Ha Hb Hk|a k Ha Hk]; cbn [first_eff]; intros E; try discriminate E; injection E as <- <-.
  - split; [exact (Hk w (noF_sep w))|done].
  - split; [by apply Hk|]. apply G. exact (proj2 (eff_alloc NoF i n w (noF_sep w) Hi)).
  - split; [by apply Hk|]. apply G. exact (proj2 (eff_upd NoF i u w (noF_sep w) Hi)).
  - destruct (eff_create NoF n t w (noF_sep w) Hn) as (H1 & _ & H2). split; [by apply Hk|]. by apply G.
  - split; [by apply Hk|]. apply G. exact (proj2 (eff_rename NoF a b w (noF_sep w) Ha Hb)).
  - split; [by apply Hk|]. apply G. exact (proj2 (eff_remove NoF a w (noF_sep w) Ha)).
Qed.

Record YInv (y : sys) : Prop := {
  yi_ino : forall p s, y_procs y !! p = Some s -> match s with Wants i => fs_dir (y_fs y) !! LOCK = Some i
    | Has i ts => fs_dir (y_fs y) !! LOCK = Some i /\ y_locks y !! i = Some p /\ Forall tame ts end;
  yi_lock : forall i p, y_locks y !! i = Some p -> exists ts, y_procs y !! p = Some (Has i ts)
}.
Lemma yinv0 w : YInv (sys0 w).
Proof. split; cbn [sys0 y_fs y_locks y_procs]; [intros p s H; by apply lookup_empty_Some in H|intros i p H; by apply lookup_empty_Some in H]. Qed.
Lemma unlock_ok p lk i q : unlock p lk !! i = Some q <-> lk !! i = Some q /\ q <> p.
Proof. unfold unlock. rewrite map_filter_lookup_Some. done. Qed.
Lemma create_lock w w' i : run_eff (ECreate LOCK false) w = (w', i) ->
  fs_dir w' !! LOCK = Some i /\ (is_Some (fs_dir w !! LOCK) -> w' = w).
Proof.
  cbn [run_eff]. destruct (fs_dir w !! LOCK) as [j|] eqn:E; intros H; injection H as <- <-; [done|]. cbn [fs_dir]. rewrite lookup_insert.
  split; [done|]. by intros [x Hx].
Qed.
Lemma ystep y l y' : YInv y -> sstep y l y' -> YInv y'.
Proof.
  intros [I1 I2] Hs. destruct Hs as [w lk ps p w' i Hp E|w lk ps p i Hp Hl|w lk ps p i q Hp Hl|w lk ps p i ts pr Hp Hpr|w lk ps p i t1 pr t2 pr' w' Hp E|w lk ps p i t1 pr t2 Hp E|w lk ps p i Hp|w lk ps p Hp];
    cbn [y_fs y_locks y_procs] in *.
  - destruct (create_lock _ _ _ E) as [H1 H2]. split; cbn [y_fs y_locks y_procs].
    + intros q s. rewrite lookup_insert_Some. intros [[<- <-]|[Hne Hq]]; [done|]. specialize (I1 q s Hq).
      assert (is_Some (fs_dir w !! LOCK)) as Hw by (destruct s as [j|j ts]; [by eexists|destruct I1 as [I1 _]; by eexists]). by rewrite H2.
    + intros j q Hj. destruct (I2 j q Hj) as [ts Ht]. exists ts. rewrite lookup_insert_ne; [done|]. intros ->. congruence.
  - split; cbn [y_fs y_locks y_procs].
    + intros q s. rewrite lookup_insert_Some. intros [[<- <-]|[Hne Hq]].
      * split; [exact (I1 p _ Hp)|]. split; [apply lookup_insert|constructor].
      * specialize (I1 q s Hq). destruct s as [j|j ts]; [done|]. destruct I1 as (K1 & K2 & K3). split; [done|]. split; [|done].
        rewrite lookup_insert_ne; [done|]. intros ->. congruence.
    + intros j q. rewrite lookup_insert_Some. intros [[<- <-]|[Hne Hj]]; [exists []; apply lookup_insert|]. destruct (I2 j q Hj) as [ts Ht].
      exists ts. rewrite lookup_insert_ne; [done|]. intros ->. congruence.
  - split; cbn [y_fs y_locks y_procs].
    + intros r s Hr. apply lookup_delete_Some in Hr as [_ Hr]. by apply I1.
    + intros j r Hj. destruct (I2 j r Hj) as [ts Ht]. exists ts. rewrite lookup_delete_ne; [done|]. intros ->. congruence.
  - destruct (I1 p _ Hp) as (K1 & K2 & K3). split; cbn [y_fs y_locks y_procs].
    + intros q s. rewrite lookup_insert_Some. intros [[<- <-]|[Hne Hq]]; [|by apply I1]. split; [done|]. split; [done|]. apply Forall_app. split; [done|].
      constructor; [by apply store_prog_tame|constructor].
    + intros j q Hj. destruct (I2 j q Hj) as [ts' Ht]. destruct (decide (q = p)) as [->|Hne]; [|exists ts'; by rewrite lookup_insert_ne].
      eexists. rewrite lookup_insert. rewrite Ht in Hp. by injection Hp as -> _.
  - destruct (I1 p _ Hp) as (K1 & K2 & K3). apply Forall_app in K3 as [K3 K4]. apply Forall_cons in K4 as [K4 K5].
    destruct (first_eff_tame pr w pr' w' K4 E) as [H1 H2]. split; cbn [y_fs y_locks y_procs].
    + intros q s. rewrite lookup_insert_Some, H2. intros [[<- <-]|[Hne Hq]]; [|by apply I1]. split; [done|]. split; [done|]. apply Forall_app. split; [done|]. by constructor.
    + intros j q Hj. destruct (I2 j q Hj) as [ts' Ht]. destruct (decide (q = p)) as [->|Hne]; [|exists ts'; by rewrite lookup_insert_ne].
      eexists. rewrite lookup_insert. rewrite Ht in Hp. by injection Hp as -> _.
  - destruct (I1 p _ Hp) as (K1 & K2 & K3). apply Forall_app in K3 as [K3 K4]. apply Forall_cons in K4 as [K4 K5]. split; cbn [y_fs y_locks y_procs].
    + intros q s. rewrite lookup_insert_Some. intros [[<- <-]|[Hne Hq]]; [|by apply I1]. split; [done|]. split; [done|]. by apply Forall_app.
    + intros j q Hj. destruct (I2 j q Hj) as [ts' Ht]. destruct (decide (q = p)) as [->|Hne]; [|exists ts'; by rewrite lookup_insert_ne].
      eexists. rewrite lookup_insert. rewrite Ht in Hp. by injection Hp as -> _.
  - split; cbn [y_fs y_locks y_procs].
    + intros q s Hq. apply lookup_delete_Some in Hq as [Hne Hq]. specialize (I1 q s Hq). destruct s as [j|j ts]; [done|]. destruct I1 as (K1 & K2 & K3). split; [done|]. split; [|done].
      apply unlock_ok. done.
    + intros j q Hj. apply unlock_ok in Hj as [Hj Hne]. destruct (I2 j q Hj) as [ts Ht]. exists ts. by rewrite lookup_delete_ne.
  - split; cbn [y_fs y_locks y_procs].
    + intros q s Hq. apply lookup_delete_Some in Hq as [Hne Hq]. specialize (I1 q s Hq). destruct s as [j|j ts]; [done|]. destruct I1 as (K1 & K2 & K3). split; [done|]. split; [|done].
      apply unlock_ok. done.
    + intros j q Hj. apply unlock_ok in Hj as [Hj Hne]. destruct (I2 j q Hj) as [ts Ht]. exists ts. by rewrite lookup_delete_ne.
Qed.
Lemma yrun w ls y : srun (sys0 w) ls y -> YInv y.
Proof. intros Hr. remember (sys0 w) as y0 eqn:E. induction Hr as [y|y ls y1 l y2 Hr IH Hs]; subst; [apply yinv0|]. eapply ystep; [by apply IH|exact Hs]. Qed.

(** ** C68 *)
(** Any processes open the same directory, use their stores with any number of threads, close them or die at
    any moment. At most one of them has the directory at a time; while one has it, every attempt of another is
    refused and no step of another changes any file; while nobody has it, an attempt succeeds. *)
Theorem C68_one_store_per_directory : forall w ls y, srun (sys0 w) ls y ->
  (forall p q i j ts us, y_procs y !! p = Some (Has i ts) -> y_procs y !! q = Some (Has j us) -> p = q) /\
  (forall p i ts, y_procs y !! p = Some (Has i ts) ->
     (forall q y', ~ sstep y (LLocked q) y') /\
     (forall q j, y_procs y !! q = Some (Wants j) -> exists y', sstep y (LRefused q) y' /\ y_fs y' = y_fs y) /\
     (forall l y', sstep y l y' -> y_fs y' <> y_fs y -> l = LEff p)) /\
  ((forall p i ts, y_procs y !! p <> Some (Has i ts)) -> forall q i, y_procs y !! q = Some (Wants i) ->
     (exists y', sstep y (LLocked q) y') /\ forall y', ~ sstep y (LRefused q) y').
Proof.
  intros w ls y Hr. destruct (yrun _ _ _ Hr) as [I1 I2]. split; [|split].
  - intros p q i j ts us Hp Hq. destruct (I1 p _ Hp) as (H1 & H2 & _). destruct (I1 q _ Hq) as (H3 & H4 & _). congruence.
  - intros p i ts Hp. destruct (I1 p _ Hp) as (H1 & H2 & _). split; [|split].
    + intros q y' Hs. inversion Hs as [|w1 lk ps q1 j Hq Hl| | | | | |]; subst. cbn [y_fs y_locks y_procs] in *. pose proof (I1 q _ Hq) as H3. cbn in H3. congruence.
    + intros q j Hq. pose proof (I1 q _ Hq) as H3. cbn in H3. destruct y as [w1 lk ps]. cbn [y_fs y_locks y_procs] in *.
      assert (j = i) as -> by congruence. eexists. split; [by eapply ss_refused|done].
    + intros l y' Hs Hne. destruct Hs as [w1 lk ps q w' j Hq E|w1 lk ps q j Hq Hl|w1 lk ps q j r Hq Hl|w1 lk ps q j us pr Hq Hpr|w1 lk ps q j t1 pr t2 pr' w' Hq E|w1 lk ps q j t1 pr t2 Hq E|w1 lk ps q j Hq|w1 lk ps q Hq];
        cbn [y_fs y_locks y_procs] in *; try done.
      * destruct (create_lock _ _ _ E) as [_ H3]. destruct Hne. apply H3. by eexists.
      * f_equal. destruct (I1 q _ Hq) as (H3 & H4 & _). congruence.
  - intros Hno q i Hq. destruct y as [w1 lk ps]. cbn [y_fs y_locks y_procs] in *.
    assert (lk !! i = None) as Hl.
    { destruct (lk !! i) as [p|] eqn:E; [|done]. destruct (I2 i p E) as [ts Ht]. by destruct (Hno p i ts). }
    split; [eexists; by eapply ss_locked|]. intros y' Hs. inversion Hs; subst. congruence.
Qed.

(** ** The hypotheses are met *)
(** Process 0 opens the directory and runs the first effect of the opening; process 1 has opened the lock file
    (and would be refused); then 0 dies and 1 gets the directory. *)
Example C68_example : forall (cfg : config), exists ls y ls' y',
  srun (sys0 fs_empty) ls y /\ (exists i ts, y_procs y !! 0%nat = Some (Has i ts) /\ ts <> [] /\ y_procs y !! 1%nat = Some (Wants i)) /\
  srun (sys0 fs_empty) ls' y' /\ (exists i, y_procs y' !! 0%nat = None /\ y_procs y' !! 1%nat = Some (Has i [])).
Proof.
  intros cfg. assert (exists ls y, srun (sys0 fs_empty) ls y /\ (exists i ts, y_procs y !! 0%nat = Some (Has i ts) /\ ts <> [] /\ y_procs y !! 1%nat = Some (Wants i))) as (ls & y & Hr & i & ts & H0 & Hts & H1).
  { eexists _, _. split.
    - eapply sr_snoc; [eapply sr_snoc; [eapply sr_snoc; [eapply sr_snoc; [eapply sr_snoc; [apply sr_nil|]|]|]|]|].
      + eapply (ss_openfile _ _ _ 0%nat); [apply lookup_empty|reflexivity].
      + eapply (ss_locked _ _ _ 0%nat); [apply lookup_insert|apply lookup_empty].
      + eapply (ss_start _ _ _ 0%nat _ [] (do! _ <- router_new cfg; Ret tt)); [apply lookup_insert|constructor].
      + eapply (ss_eff _ _ _ 0%nat _ [] _ []); [apply lookup_insert|reflexivity].
      + eapply (ss_openfile _ _ _ 1%nat); [by rewrite !lookup_insert_ne|reflexivity].
    - cbn [y_procs]. eexists _, _. split; [by rewrite lookup_insert_ne, lookup_insert|]. split; [done|]. rewrite lookup_insert. reflexivity. }
  destruct (yrun _ _ _ Hr) as [I1 I2].
  exists ls, y. destruct y as [w lk ps]. cbn [y_fs y_locks y_procs] in *. eexists _, _. split; [exact Hr|]. split; [by exists i, ts|]. split.
  - eapply sr_snoc; [eapply sr_snoc; [exact Hr|]|].
    + apply (ss_kill _ _ _ 0%nat). by eexists.
    + eapply (ss_locked _ _ _ 1%nat); [by rewrite lookup_delete_ne|]. apply eq_None_not_Some. intros [q Hq]. apply unlock_ok in Hq as [Hq Hne].
      destruct (I1 0%nat _ H0) as (_ & K & _). congruence.
  - cbn [y_procs]. exists i. rewrite lookup_insert_ne, lookup_delete; [|done]. split; [done|]. apply lookup_insert.
Qed.
