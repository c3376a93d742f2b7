(** [flush_aggregation], shard.rs:813-840 (feature "flush_aggregation"): several threads that
    modified a shard share one [sync_data].  Model of the protocol as a transition system, one
    atomic instruction per step, any number of threads, and property C45.

    Not modelled: errors of [sync_data] (shard.rs:826,834 return them), and the file that is
    synced (always [files.0], see Durable.v). *)
From stdpp Require Import prelude list.
Set Default Goal Selector "!".

(** Where a thread is. *)
Inductive fpc :=
| FOut               (* not in a modifying call *)
| FWrote             (* the row is written, the row lock dropped; before [try_lock], shard.rs:825 *)
| FMiss              (* [try_lock] failed; before the load, shard.rs:832 *)
| FWait (b : bool)   (* blocked in [lock()], shard.rs:833; [b] is was_in_delay *)
| FGot               (* holds the mutex, before [store(true)], shard.rs:819 *)
| FDelay             (* sleeping, shard.rs:820 *)
| FAwake             (* after [store(false)], shard.rs:821, before [flush()] *)
| FSync              (* inside [sync_data], shard.rs:822 *)
| FRel.              (* about to drop the guard and return *)

Record agg := Agg {
  g_pc : nat -> fpc;           (* thread id -> position *)
  g_holder : option nat;       (* sync_agg_mutex *)
  g_flag : bool;               (* in_sync_agg_delay *)
  g_was : nat -> bool          (* the flag was true at some time since this thread last held the
                                  mutex: what a relaxed load of it may still return *)
}.

Inductive fev :=
| EvWrite (t : nat)    (* thread t modifies the shard file *)
| EvStart (h : nat)    (* thread h enters sync_data *)
| EvEnd (h : nat)      (* sync_data of thread h returns *)
| EvRet (t : nat).     (* the modifying call of thread t returns *)

Definition set_pc (t : nat) (p : fpc) (g : nat -> fpc) : nat -> fpc :=
  fun u => if decide (u = t) then p else g u.
Definition set_was (t : nat) (b : bool) (g : nat -> bool) : nat -> bool :=
  fun u => if decide (u = t) then b else g u.

(** [relaxed = false]: the load of shard.rs:832 sees the latest store (sequential
    consistency).  [relaxed = true]: it may also see an older [true] (shard.rs:832 uses
    [Ordering::Relaxed], which only promises coherence with what the thread has already
    observed). *)
Inductive agg_step (relaxed : bool) : agg -> option fev -> agg -> Prop :=
| f_write g t : g_pc g t = FOut ->
    agg_step relaxed g (Some (EvWrite t)) (Agg (set_pc t FWrote (g_pc g)) (g_holder g) (g_flag g) (g_was g))
| f_try g t : g_pc g t = FWrote -> g_holder g = None ->
    agg_step relaxed g None (Agg (set_pc t FGot (g_pc g)) (Some t) (g_flag g) (set_was t false (g_was g)))
| f_miss g t h : g_pc g t = FWrote -> g_holder g = Some h ->
    agg_step relaxed g None (Agg (set_pc t FMiss (g_pc g)) (Some h) (g_flag g) (g_was g))
| f_load g t b : g_pc g t = FMiss ->
    b = g_flag g \/ (relaxed = true /\ b = true /\ g_was g t = true) ->
    agg_step relaxed g None (Agg (set_pc t (FWait b) (g_pc g)) (g_holder g) (g_flag g) (g_was g))
| f_lock g t b : g_pc g t = FWait b -> g_holder g = None ->
    agg_step relaxed g None
      (Agg (set_pc t (if b then FRel else FGot) (g_pc g)) (Some t) (g_flag g) (set_was t false (g_was g)))
| f_delay g t : g_pc g t = FGot ->
    agg_step relaxed g None (Agg (set_pc t FDelay (g_pc g)) (g_holder g) true (fun _ => true))
| f_awake g t : g_pc g t = FDelay ->
    agg_step relaxed g None (Agg (set_pc t FAwake (g_pc g)) (g_holder g) false (g_was g))
| f_start g t : g_pc g t = FAwake ->
    agg_step relaxed g (Some (EvStart t)) (Agg (set_pc t FSync (g_pc g)) (g_holder g) (g_flag g) (g_was g))
| f_end g t : g_pc g t = FSync ->
    agg_step relaxed g (Some (EvEnd t)) (Agg (set_pc t FRel (g_pc g)) (g_holder g) (g_flag g) (g_was g))
| f_ret g t : g_pc g t = FRel ->
    agg_step relaxed g (Some (EvRet t)) (Agg (set_pc t FOut (g_pc g)) None (g_flag g) (g_was g)).

Definition agg_init : agg := Agg (fun _ => FOut) None false (fun _ => false).

(** Executions, with the list of visible events (oldest first). *)
Inductive agg_run (relaxed : bool) : list fev -> agg -> Prop :=
| ar_init : agg_run relaxed [] agg_init
| ar_step H g o g' : agg_run relaxed H g -> agg_step relaxed g o g' -> agg_run relaxed (H ++ option_list o) g'.

(** ** Specification: since the last write of [t], some sync started and completed. *)
Definition synced_since_write (t : nat) (H : list fev) : Prop :=
  exists a h b c, H = a ++ [EvStart h] ++ b ++ [EvEnd h] ++ c /\ EvEnd h ∉ b /\
    EvWrite t ∈ a /\ EvWrite t ∉ b /\ EvWrite t ∉ c.
(** A sync of [h] that started after the last write of [t] is under way. *)
Definition syncing_since_write (t h : nat) (H : list fev) : Prop :=
  exists a b, H = a ++ [EvStart h] ++ b /\ EvEnd h ∉ b /\ EvWrite t ∈ a /\ EvWrite t ∉ b.

Lemma synced_app t H o : synced_since_write t H -> o <> EvWrite t -> synced_since_write t (H ++ [o]).
Proof.
  intros (a & h & b & c & -> & H1 & H2 & H3 & H4) Ho. exists a, h, b, (c ++ [o]).
  split; [by rewrite <- !app_assoc|]. split; [done|]. split; [done|]. split; [done|].
  rewrite elem_of_app, elem_of_list_singleton. naive_solver.
Qed.
Lemma syncing_app t h H o :
  syncing_since_write t h H -> o <> EvWrite t -> o <> EvEnd h -> syncing_since_write t h (H ++ [o]).
Proof.
  intros (a & b & -> & H1 & H2 & H3) Ho1 Ho2. exists a, (b ++ [o]).
  split; [by rewrite <- !app_assoc|]. split; [|split; [done|]];
    rewrite elem_of_app, elem_of_list_singleton; naive_solver.
Qed.
Lemma syncing_end t h H : syncing_since_write t h H -> synced_since_write t (H ++ [EvEnd h]).
Proof.
  intros (a & b & -> & H1 & H2 & H3). exists a, h, b, [].
  split; [by rewrite <- !app_assoc|]. split; [done|]. split; [done|]. split; [done|]. apply not_elem_of_nil.
Qed.
Lemma syncing_start t h H : EvWrite t ∈ H -> syncing_since_write t h (H ++ [EvStart h]).
Proof.
  intros Hin. exists H, []. split; [done|]. split; [apply not_elem_of_nil|].
  split; [done|apply not_elem_of_nil].
Qed.

Definition holding (p : fpc) : bool :=
  match p with FGot | FDelay | FAwake | FSync | FRel => true | _ => false end.

Record agg_inv (H : list fev) (g : agg) : Prop := AggInv {
  ai_holder : forall t, holding (g_pc g t) = true <-> g_holder g = Some t;
  ai_flag : g_flag g = true -> exists h, g_pc g h = FDelay;
  ai_wrote : forall t, g_pc g t <> FOut -> EvWrite t ∈ H;
  ai_sync : forall t, g_pc g t = FSync -> syncing_since_write t t H;
  ai_rel : forall t, g_pc g t = FRel -> synced_since_write t H;
  ai_wait : forall t, g_pc g t = FWait true ->
    synced_since_write t H \/
    exists h, g_pc g h = FDelay \/ g_pc g h = FAwake \/
              (g_pc g h = FSync /\ syncing_since_write t h H)
}.

Lemma set_pc_eq t p g : set_pc t p g t = p.
Proof. unfold set_pc. by rewrite decide_True. Qed.
Lemma set_pc_ne t u p g : u <> t -> set_pc t p g u = g u.
Proof. intros. unfold set_pc. by rewrite decide_False. Qed.

Lemma agg_step_inv H g o g' : agg_inv H g -> agg_step false g o g' -> agg_inv (H ++ option_list o) g'.
Proof.
  intros [I1 I2 I3 I4 I5 I6] Hs.
  assert (Huniq : forall t u, holding (g_pc g t) = true -> holding (g_pc g u) = true -> t = u).
  { intros t u Ht Hu. apply I1 in Ht, Hu. congruence. }
  assert (Hmon : forall t o, EvWrite t ∈ H -> EvWrite t ∈ H ++ option_list o).
  { intros t o' Ht. apply elem_of_app. by left. }
  destruct Hs as [g t Hp|g t Hp Hh|g t h Hp Hh|g t b Hp Hb|g t b Hp Hh|g t Hp|g t Hp|g t Hp|g t Hp|g t Hp];
    cbn [option_list]; rewrite ?app_nil_r.
  - (* write *)
    assert (forall u, u <> t -> EvWrite t <> EvWrite u) as Hne by naive_solver.
    split; cbn [g_pc g_holder g_flag]; intros.
    + destruct (decide (t0 = t)) as [->|]; [rewrite set_pc_eq|by rewrite set_pc_ne].
      rewrite <- I1, Hp. done.
    + destruct (I2 H0) as [h Hd]. exists h. rewrite set_pc_ne; [done|]. intros ->. congruence.
    + destruct (decide (t0 = t)) as [->|]; [apply elem_of_app; right; left|].
      rewrite set_pc_ne in H0 by done. auto.
    + destruct (decide (t0 = t)) as [->|]; [rewrite set_pc_eq in *; done|]. rewrite set_pc_ne in * by done.
      apply syncing_app; auto; congruence.
    + destruct (decide (t0 = t)) as [->|]; [rewrite set_pc_eq in *; done|]. rewrite set_pc_ne in * by done.
      apply synced_app; auto.
    + destruct (decide (t0 = t)) as [->|]; [rewrite set_pc_eq in *; done|]. rewrite set_pc_ne in * by done.
      destruct (I6 _ H0) as [Hc|(h & Hc)]; [left; apply synced_app; auto|right]. exists h.
      assert (h <> t) by (intros ->; rewrite Hp in Hc; naive_solver).
      rewrite set_pc_ne by done. destruct Hc as [?|[?|[? ?]]]; [auto|auto|right; right].
      split; [done|]. apply syncing_app; auto.
  - (* try_lock succeeds *)
    split; cbn [g_pc g_holder g_flag]; intros.
    + destruct (decide (t0 = t)) as [->|Hne]; [rewrite set_pc_eq; done|rewrite set_pc_ne by done].
      split; [|naive_solver]. intros Hx. apply I1 in Hx. congruence.
    + destruct (I2 H0) as [h Hd]. exists h. rewrite set_pc_ne; [done|]. intros ->. congruence.
    + destruct (decide (t0 = t)) as [->|]; [apply I3; congruence|]. rewrite set_pc_ne in H0 by done. auto.
    + destruct (decide (t0 = t)) as [->|]; [rewrite set_pc_eq in *; done|]. rewrite set_pc_ne in * by done. auto.
    + destruct (decide (t0 = t)) as [->|]; [rewrite set_pc_eq in *; done|]. rewrite set_pc_ne in * by done. auto.
    + destruct (decide (t0 = t)) as [->|]; [rewrite set_pc_eq in *; done|]. rewrite set_pc_ne in * by done.
      destruct (I6 _ H0) as [Hc|(h & Hc)]; [by left|right]. exists h.
      assert (h <> t) by (intros ->; rewrite Hp in Hc; naive_solver). by rewrite set_pc_ne.
  - (* try_lock fails *)
    split; cbn [g_pc g_holder g_flag]; intros.
    + destruct (decide (t0 = t)) as [->|Hne]; [rewrite set_pc_eq|by rewrite set_pc_ne, I1, Hh].
      rewrite <- Hh, <- I1, Hp. done.
    + destruct (I2 H0) as [h' Hd]. exists h'. rewrite set_pc_ne; [done|]. intros ->. congruence.
    + destruct (decide (t0 = t)) as [->|]; [apply I3; congruence|]. rewrite set_pc_ne in H0 by done. auto.
    + destruct (decide (t0 = t)) as [->|]; [rewrite set_pc_eq in *; done|]. rewrite set_pc_ne in * by done. auto.
    + destruct (decide (t0 = t)) as [->|]; [rewrite set_pc_eq in *; done|]. rewrite set_pc_ne in * by done. auto.
    + destruct (decide (t0 = t)) as [->|]; [rewrite set_pc_eq in *; done|]. rewrite set_pc_ne in * by done.
      destruct (I6 _ H0) as [Hc|(h' & Hc)]; [by left|right]. exists h'.
      assert (h' <> t) by (intros ->; rewrite Hp in Hc; naive_solver). by rewrite set_pc_ne.
  - (* the load *)
    destruct Hb as [->|[? _]]; [|done].
    split; cbn [g_pc g_holder g_flag]; intros.
    + destruct (decide (t0 = t)) as [->|Hne]; [rewrite set_pc_eq|by rewrite set_pc_ne].
      rewrite <- I1, Hp. done.
    + destruct (I2 H0) as [h' Hd]. exists h'. rewrite set_pc_ne; [done|]. intros ->. congruence.
    + destruct (decide (t0 = t)) as [->|]; [apply I3; congruence|]. rewrite set_pc_ne in H0 by done. auto.
    + destruct (decide (t0 = t)) as [->|]; [rewrite set_pc_eq in *; done|]. rewrite set_pc_ne in * by done. auto.
    + destruct (decide (t0 = t)) as [->|]; [rewrite set_pc_eq in *; done|]. rewrite set_pc_ne in * by done. auto.
    + destruct (decide (t0 = t)) as [->|].
      * rewrite set_pc_eq in H0. injection H0 as Hf. destruct (I2 Hf) as [h Hd]. right. exists h. left.
        rewrite set_pc_ne; [done|]. intros ->. congruence.
      * rewrite set_pc_ne in * by done.
        destruct (I6 _ H0) as [Hc|(h' & Hc)]; [by left|right]. exists h'.
        assert (h' <> t) by (intros ->; rewrite Hp in Hc; naive_solver). by rewrite set_pc_ne.
  - (* lock *)
    assert (Hno : forall h, holding (g_pc g h) = true -> False).
    { intros h Hx. apply I1 in Hx. congruence. }
    split; cbn [g_pc g_holder g_flag]; intros.
    + destruct (decide (t0 = t)) as [->|Hne]; [rewrite set_pc_eq; by destruct b|rewrite set_pc_ne by done].
      split; [|naive_solver]. intros Hx. by apply Hno in Hx.
    + destruct (I2 H0) as [h Hd]. exfalso. apply (Hno h). by rewrite Hd.
    + destruct (decide (t0 = t)) as [->|]; [apply I3; congruence|]. rewrite set_pc_ne in H0 by done. auto.
    + destruct (decide (t0 = t)) as [->|]; [rewrite set_pc_eq in *; by destruct b|]. rewrite set_pc_ne in * by done. auto.
    + destruct (decide (t0 = t)) as [->|]; [|rewrite set_pc_ne in * by done; auto].
      rewrite set_pc_eq in H0. destruct b; [|done]. destruct (I6 _ Hp) as [Hc|(h & Hc)]; [done|].
      exfalso. apply (Hno h). destruct Hc as [->|[->|[-> _]]]; done.
    + destruct (decide (t0 = t)) as [->|]; [rewrite set_pc_eq in *; by destruct b|]. rewrite set_pc_ne in * by done.
      destruct (I6 _ H0) as [Hc|(h & Hc)]; [by left|]. exfalso. apply (Hno h). destruct Hc as [->|[->|[-> _]]]; done.
  - (* store(true) *)
    assert (holding (g_pc g t) = true) as Hht by by rewrite Hp.
    split; cbn [g_pc g_holder g_flag]; intros.
    + destruct (decide (t0 = t)) as [->|Hne]; [rewrite set_pc_eq|by rewrite set_pc_ne].
      rewrite <- I1, Hp. done.
    + exists t. by rewrite set_pc_eq.
    + destruct (decide (t0 = t)) as [->|]; [apply I3; congruence|]. rewrite set_pc_ne in H0 by done. auto.
    + destruct (decide (t0 = t)) as [->|]; [rewrite set_pc_eq in *; done|]. rewrite set_pc_ne in * by done. auto.
    + destruct (decide (t0 = t)) as [->|]; [rewrite set_pc_eq in *; done|]. rewrite set_pc_ne in * by done. auto.
    + right. exists t. left. by rewrite set_pc_eq.
  - (* store(false) *)
    assert (holding (g_pc g t) = true) as Hht by by rewrite Hp.
    split; cbn [g_pc g_holder g_flag]; intros.
    + destruct (decide (t0 = t)) as [->|Hne]; [rewrite set_pc_eq|by rewrite set_pc_ne].
      rewrite <- I1, Hp. done.
    + done.
    + destruct (decide (t0 = t)) as [->|]; [apply I3; congruence|]. rewrite set_pc_ne in H0 by done. auto.
    + destruct (decide (t0 = t)) as [->|]; [rewrite set_pc_eq in *; done|]. rewrite set_pc_ne in * by done. auto.
    + destruct (decide (t0 = t)) as [->|]; [rewrite set_pc_eq in *; done|]. rewrite set_pc_ne in * by done. auto.
    + right. exists t. right. left. by rewrite set_pc_eq.
  - (* sync_data starts *)
    assert (holding (g_pc g t) = true) as Hht by by rewrite Hp.
    split; cbn [g_pc g_holder g_flag]; intros.
    + destruct (decide (t0 = t)) as [->|Hne]; [rewrite set_pc_eq|by rewrite set_pc_ne].
      rewrite <- I1, Hp. done.
    + destruct (I2 H0) as [h' Hd]. exists h'. rewrite set_pc_ne; [done|]. intros ->. congruence.
    + apply (Hmon t0 (Some (EvStart t))). destruct (decide (t0 = t)) as [->|]; [apply I3; congruence|]. rewrite set_pc_ne in H0 by done. auto.
    + destruct (decide (t0 = t)) as [->|].
      * apply syncing_start. apply I3. congruence.
      * rewrite set_pc_ne in H0 by done. assert (t0 = t); [|done]. apply Huniq; [by rewrite H0|done].
    + destruct (decide (t0 = t)) as [->|]; [rewrite set_pc_eq in *; done|]. rewrite set_pc_ne in * by done.
      apply synced_app; auto.
    + destruct (decide (t0 = t)) as [->|]; [rewrite set_pc_eq in *; done|]. rewrite set_pc_ne in * by done.
      right. exists t. right. right. rewrite set_pc_eq. split; [done|]. apply syncing_start. apply I3. congruence.
  - (* sync_data returns *)
    assert (holding (g_pc g t) = true) as Hht by by rewrite Hp.
    split; cbn [g_pc g_holder g_flag]; intros.
    + destruct (decide (t0 = t)) as [->|Hne]; [rewrite set_pc_eq|by rewrite set_pc_ne].
      rewrite <- I1, Hp. done.
    + destruct (I2 H0) as [h' Hd]. exists h'. rewrite set_pc_ne; [done|]. intros ->. congruence.
    + apply (Hmon t0 (Some (EvEnd t))). destruct (decide (t0 = t)) as [->|]; [apply I3; congruence|]. rewrite set_pc_ne in H0 by done. auto.
    + destruct (decide (t0 = t)) as [->|]; [rewrite set_pc_eq in *; done|]. rewrite set_pc_ne in * by done.
      assert (t0 = t); [|done]. apply Huniq; [by rewrite H0|done].
    + destruct (decide (t0 = t)) as [->|].
      * apply syncing_end. auto.
      * rewrite set_pc_ne in * by done. apply synced_app; auto.
    + destruct (decide (t0 = t)) as [->|]; [rewrite set_pc_eq in *; done|]. rewrite set_pc_ne in * by done.
      left. destruct (I6 _ H0) as [Hc|(h & Hc)]; [by apply synced_app|].
      assert (h = t) as ->. { apply Huniq; [|done]. destruct Hc as [->|[->|[-> _]]]; done. }
      rewrite Hp in Hc. destruct Hc as [?|[?|[_ Hc]]]; [done|done|]. by apply syncing_end.
  - (* return *)
    assert (holding (g_pc g t) = true) as Hht by by rewrite Hp.
    split; cbn [g_pc g_holder g_flag]; intros.
    + destruct (decide (t0 = t)) as [->|Hne]; [rewrite set_pc_eq; done|rewrite set_pc_ne by done].
      split; [|done]. intros Hx. destruct Hne. by apply Huniq.
    + destruct (I2 H0) as [h' Hd]. exists h'. rewrite set_pc_ne; [done|]. intros ->. congruence.
    + apply (Hmon t0 (Some (EvRet t))). destruct (decide (t0 = t)) as [->|]; [rewrite set_pc_eq in *; done|]. rewrite set_pc_ne in H0 by done. auto.
    + destruct (decide (t0 = t)) as [->|]; [rewrite set_pc_eq in *; done|]. rewrite set_pc_ne in * by done.
      apply syncing_app; auto.
    + destruct (decide (t0 = t)) as [->|]; [rewrite set_pc_eq in *; done|]. rewrite set_pc_ne in * by done.
      apply synced_app; auto.
    + destruct (decide (t0 = t)) as [->|]; [rewrite set_pc_eq in *; done|]. rewrite set_pc_ne in * by done.
      destruct (I6 _ H0) as [Hc|(h & Hc)]; [left; by apply synced_app|]. exfalso.
      assert (h = t) as ->. { apply Huniq; [|done]. destruct Hc as [->|[->|[-> _]]]; done. }
      rewrite Hp in Hc. naive_solver.
Qed.

Lemma agg_run_inv H g : agg_run false H g -> agg_inv H g.
Proof.
  induction 1 as [|H g o g' Hr IH Hs].
  - by split; cbn.
  - by eapply agg_step_inv.
Qed.

(** ** C45 (with a sequentially consistent load): when a modifying call returns, a sync that
    started after its write has completed. *)
Theorem C45_no_sync_is_skipped_partial H g t :
  agg_run false (H ++ [EvRet t]) g -> synced_since_write t H.
Proof.
  intros Hr. remember (H ++ [EvRet t]) as H' eqn:E. revert H E.
  induction Hr as [|H' g o g' Hr IH Hs]; intros H E.
  { apply (f_equal length) in E. rewrite app_length in E. cbn in E. lia. }
  destruct o as [e|]; cbn [option_list] in E; [|rewrite app_nil_r in E; by apply IH].
  apply app_inj_tail in E as [-> ->]. inversion Hs as [| | | | | | | | |g0 t0 Hp]; subst.
  by apply (ai_rel _ _ (agg_run_inv _ _ Hr)).
Qed.

(** At most one thread holds the mutex, so syncs never overlap. *)
Theorem C45_one_sync_at_a_time H g t u :
  agg_run false H g -> g_pc g t = FSync -> g_pc g u = FSync -> t = u.
Proof.
  intros Hr Ht Hu. apply agg_run_inv in Hr as [I1 _ _ _ _ _].
  assert (holding (g_pc g t) = true) as H1 by by rewrite Ht.
  assert (holding (g_pc g u) = true) as H2 by by rewrite Hu.
  apply I1 in H1, H2. congruence.
Qed.

(** ** With the relaxed load of the code, the claim fails: thread 1 writes after the sync of
    thread 0 has started, reads a stale [true], waits for the mutex and returns unsynced. *)
Theorem C45_relaxed_load_refuted :
  exists H g t, agg_run true (H ++ [EvRet t]) g /\ ~ synced_since_write t H.
Proof.
  enough (exists g, agg_run true ([EvWrite 0; EvStart 0; EvWrite 1; EvEnd 0; EvRet 0] ++ [EvRet 1]) g) as [g Hg].
  1: exists [EvWrite 0; EvStart 0; EvWrite 1; EvEnd 0; EvRet 0], g, 1; split; [exact Hg|clear g Hg].
  - intros (a & h & b & c & E & H1 & H2 & H3 & H4).
    destruct a as [|a0 [|a1 [|a2 [|a3 [|a4 [|a5 a]]]]]]; cbn in E; simplify_eq.
    all: repeat match goal with
      | H : _ ∈ _ :: _ |- _ => apply elem_of_cons in H as [?|H]; [congruence|]
      | H : _ ∈ [] |- _ => by apply elem_of_nil in H
      end.
  - pose proof (ar_init true) as R.
    eapply ar_step in R; [|apply (f_write true _ 0); reflexivity]; cbn [g_pc g_holder g_flag g_was] in R.
    eapply ar_step in R; [|apply (f_try true _ 0); reflexivity]; cbn [g_pc g_holder g_flag g_was] in R.
    eapply ar_step in R; [|apply (f_delay true _ 0); reflexivity]; cbn [g_pc g_holder g_flag g_was] in R.
    eapply ar_step in R; [|apply (f_awake true _ 0); reflexivity]; cbn [g_pc g_holder g_flag g_was] in R.
    eapply ar_step in R; [|apply (f_start true _ 0); reflexivity]; cbn [g_pc g_holder g_flag g_was] in R.
    eapply ar_step in R; [|apply (f_write true _ 1); reflexivity]; cbn [g_pc g_holder g_flag g_was] in R.
    eapply ar_step in R; [|apply (f_miss true _ 1 0); reflexivity]; cbn [g_pc g_holder g_flag g_was] in R.
    eapply ar_step in R; [|apply (f_load true _ 1 true); [reflexivity|right; split; [reflexivity|split; reflexivity]]]; cbn [g_pc g_holder g_flag g_was] in R.
    eapply ar_step in R; [|apply (f_end true _ 0); reflexivity]; cbn [g_pc g_holder g_flag g_was] in R.
    eapply ar_step in R; [|apply (f_ret true _ 0); reflexivity]; cbn [g_pc g_holder g_flag g_was] in R.
    eapply ar_step in R; [|apply (f_lock true _ 1 true); reflexivity]; cbn [g_pc g_holder g_flag g_was] in R.
    eapply ar_step in R; [|apply (f_ret true _ 1); reflexivity]; cbn [g_pc g_holder g_flag g_was] in R.
    eexists. exact R.
Qed.

(** A run in which thread 1 shares the sync of thread 0 and then a third write gets its own:
    the hypotheses of the theorem are met by both ways of returning. *)
Lemma C45_example :
  exists g, agg_run false [EvWrite 0; EvWrite 1; EvStart 0; EvEnd 0; EvRet 0; EvRet 1] g.
Proof.
  pose proof (ar_init false) as R.
    eapply ar_step in R; [|apply (f_write false _ 0); reflexivity]; cbn [g_pc g_holder g_flag g_was] in R.
    eapply ar_step in R; [|apply (f_try false _ 0); reflexivity]; cbn [g_pc g_holder g_flag g_was] in R.
    eapply ar_step in R; [|apply (f_write false _ 1); reflexivity]; cbn [g_pc g_holder g_flag g_was] in R.
    eapply ar_step in R; [|apply (f_miss false _ 1 0); reflexivity]; cbn [g_pc g_holder g_flag g_was] in R.
    eapply ar_step in R; [|apply (f_delay false _ 0); reflexivity]; cbn [g_pc g_holder g_flag g_was] in R.
    eapply ar_step in R; [|apply (f_load false _ 1 true); [reflexivity|left; reflexivity]]; cbn [g_pc g_holder g_flag g_was] in R.
    eapply ar_step in R; [|apply (f_awake false _ 0); reflexivity]; cbn [g_pc g_holder g_flag g_was] in R.
    eapply ar_step in R; [|apply (f_start false _ 0); reflexivity]; cbn [g_pc g_holder g_flag g_was] in R.
    eapply ar_step in R; [|apply (f_end false _ 0); reflexivity]; cbn [g_pc g_holder g_flag g_was] in R.
    eapply ar_step in R; [|apply (f_ret false _ 0); reflexivity]; cbn [g_pc g_holder g_flag g_was] in R.
    eapply ar_step in R; [|apply (f_lock false _ 1 true); reflexivity]; cbn [g_pc g_holder g_flag g_was] in R.
    eapply ar_step in R; [|apply (f_ret false _ 1); reflexivity]; cbn [g_pc g_holder g_flag g_was] in R.
    eexists. exact R.
Qed.
