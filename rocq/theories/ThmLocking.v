(** C54: calls never deadlock, and every call returns.
    (At least one compaction thread; without the feature flush_aggregation; merges that do not run
    into the lock they hold already, which is the finding of C06. C55 is about these three.) *)
From Verif Require Import Base Hashing Fs Shard Router Store Kv Api Locking LockInv LockSpec LockLive LockFree.

(** In every state that any number of clients can bring about, every thread that is in the middle
    of something either can go on, or waits, directly or through other waiting threads, for one
    that can. *)
Theorem C54_no_deadlock (cfg : config) (pol : policy) (nc nw : nat) (st : lstate) (a : nat) :
  reasonable pol -> (0 < nw)%nat -> lreach false cfg mok pol nc nw st -> in_progress st a ->
  exists b, rtc (waits_for pol st) a b /\ can_step pol st b.
Proof.
  intros Hpol Hnw Hr (t & Ha & Hp). eapply (chain pol st); [by eapply linv_reach|done|by eapply has_worker|done|done|].
  apply Nat.lt_succ_diag_r.
Qed.

(** If no new calls are made, no schedule goes on for ever, ... *)
Theorem C54_no_endless_run (cfg : config) (pol : policy) (nc nw : nat) (f : nat -> lstate) :
  lreach false cfg mok pol nc nw (f 0%nat) -> ~ (forall n, some_step pol (f n) (f (S n))).
Proof.
  intros Hr Hf.
  assert (forall n, linv (f n)) as Hi.
  { induction n as [|n IH]; [by eapply linv_reach|]. destruct (Hf n) as [a Hs]. by eapply linv_step. }
  assert (forall st, Acc smaller st -> forall n, f n = st -> False) as H; [|by eapply (H (f 0%nat)); [apply smaller_acc|]].
  induction 1 as [st _ IH]. intros n <-. destruct (Hf n) as [a Hs].
  by eapply (IH (f (S n))); [eapply step_smaller; [apply Hi|exact Hs]|].
Qed.
(** ... and a schedule that cannot be continued has brought every call to its return and every
    compaction to its end. *)
Theorem C54_ends_idle (cfg : config) (pol : policy) (nc nw : nat) (st st' : lstate) :
  reasonable pol -> (0 < nw)%nat -> lreach false cfg mok pol nc nw st ->
  rtc (some_step pol) st st' -> (forall a, ~ can_step pol st' a) -> all_idle st' /\ s_queue st' = [].
Proof.
  intros Hpol Hnw Hr Hs Hstuck.
  assert (lreach false cfg mok pol nc nw st') as Hr'.
  { clear Hstuck. induction Hs as [st|st1 st2 st3 [a H12] _ IH]; [done|]. apply IH. by eapply lr_step. }
  assert (all_idle st') as Hidle.
  { intros a Ha. destruct (C54_no_deadlock cfg pol nc nw st' a Hpol Hnw Hr' Ha) as (b & _ & Hb). by eapply Hstuck. }
  split; [done|]. destruct (s_queue st') as [|i q] eqn:Hq; [done|]. exfalso.
  pose proof (linv_reach _ _ _ _ _ Hr') as Hi.
  destruct (has_worker _ _ _ _ _ _ _ Hnw Hr') as (b & t & Hb & Hw).
  assert (t_prog t = PEnd) as Hp.
  { destruct (isend (t_prog t)) eqn:E; [by apply isend_spec|]. exfalso. apply (Hidle b). exists t. split; [done|].
    intros Hp. rewrite Hp in E. done. }
  pose proof (li_thr st' Hi b t Hb) as Ht. unfold tinv in Ht. rewrite Hw in Ht.
  destruct Ht as [(Hj & Hh & _)|(i' & s & _ & _ & Hj)].
  - destruct t as [w j h p]. cbn in *. subst. destruct (lookup_lt_is_Some_2 (s_jobs st') i) as [s Hs'].
    { apply (li_queue st' Hi). rewrite Hq. by apply elem_of_list_here. }
    apply (Hstuck b). eexists. by eapply St_job.
  - rewrite Hp in Hj. by destruct Hj as [[_ ?]|[(? & ? & _ & ?)|[_ ?]]].
Qed.
(** So from every reachable state all calls can be completed. *)
Theorem C54_calls_return (cfg : config) (pol : policy) (nc nw : nat) (st : lstate) :
  reasonable pol -> (0 < nw)%nat -> lreach false cfg mok pol nc nw st ->
  exists st', rtc (some_step pol) st st' /\ all_idle st' .
Proof.
  intros Hpol Hnw. induction (smaller_acc st) as [st _ IH]. intros Hr.
  destruct (decide (Forall (fun t => isend (t_prog t) = true) (s_ths st))) as [H|H].
  - exists st. split; [done|]. intros a (t & Ha & Hp). rewrite Forall_lookup in H. specialize (H a t Ha). by apply isend_spec in H.
  - apply not_Forall_Exists in H; [|apply _]. apply Exists_exists in H as (t & Hin & H).
    apply elem_of_list_lookup_1 in Hin as [a Ha].
    destruct (C54_no_deadlock cfg pol nc nw st a Hpol Hnw Hr) as (b & _ & st1 & Hs).
    { exists t. split; [done|]. intros Hp. apply H. by rewrite Hp. }
    destruct (IH st1) as (st' & Hs' & Hi').
    + eapply step_smaller; [by eapply linv_reach|done].
    + by eapply lr_step.
    + exists st'. split; [|done]. eapply rtc_l; [by exists b|done].
Qed.
