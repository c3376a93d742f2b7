(** What it means not to deadlock (for the machine of Locking.v). *)
From Verif Require Import Base Locking.

(** A thread that is in the middle of a call or of a compaction. *)
Definition in_progress (st : lstate) (a : nat) : Prop :=
  exists t, s_ths st !! a = Some t /\ t_prog t <> PEnd.
Definition is_client (st : lstate) (a : nat) : Prop :=
  exists t, s_ths st !! a = Some t /\ t_worker t = false.
Definition is_worker (st : lstate) (a : nat) : Prop :=
  exists t, s_ths st !! a = Some t /\ t_worker t = true.
(** It can do the next thing, now. *)
Definition can_step (pol : policy) (st : lstate) (a : nat) : Prop := exists st', lstep pol st a st'.

(** The thread asks for the lock in exclusive mode, or to upgrade it. *)
Definition asks_exclusively (st : lstate) (b : nat) (l : lock) : Prop :=
  exists t k, s_ths st !! b = Some t /\ (t_prog t = PAcq l Ex k \/ t_prog t = PUp l k).
(** A reader may be made to wait, though the lock is free for it, only behind somebody who asks for
    the lock exclusively (this covers parking_lot's fairness to writers). *)
Definition reasonable (pol : policy) : Prop := forall st a,
  pol st a = true -> exists t l m k b, s_ths st !! a = Some t /\ t_prog t = PAcq l m k /\
    b <> a /\ asks_exclusively st b l.

(** [a] cannot go on before [b] has done something. *)
Inductive waits_for (pol : policy) (st : lstate) (a b : nat) : Prop :=
| wf_holder t u l m m' k : s_ths st !! a = Some t -> t_prog t = PAcq l m k ->
    s_ths st !! b = Some u -> (l, m') ∈ t_held u -> compat m m' = false -> waits_for pol st a b
| wf_queue t l m k : s_ths st !! a = Some t -> t_prog t = PAcq l m k -> m <> Ex ->
    pol st a = true -> b <> a -> asks_exclusively st b l -> waits_for pol st a b
| wf_readers t u l m k : s_ths st !! a = Some t -> t_prog t = PUp l k -> b <> a ->
    s_ths st !! b = Some u -> (l, m) ∈ t_held u -> waits_for pol st a b
| wf_job t u j k : s_ths st !! a = Some t -> t_prog t = PWait j k \/ t_prog t = PWaitPast j k ->
    s_ths st !! b = Some u -> t_job u = Some j -> j ∉ s_done st -> waits_for pol st a b
| wf_pool t j k : s_ths st !! a = Some t -> t_prog t = PWait j k \/ t_prog t = PWaitPast j k ->
    j ∈ s_queue st -> is_worker st b -> waits_for pol st a b.

(** Steps of the threads, with no new call. *)
Definition some_step (pol : policy) (st st' : lstate) : Prop := exists a, lstep pol st a st'.
Definition all_idle (st : lstate) : Prop := forall a, ~ in_progress st a.

(** The course of a merge (router.rs:396-457) in which no node is locked a second time by the thread that holds
    it, on shards that are given in the order of their spans. *)
Fixpoint mok (r : mrun) : Prop :=
  match r with
  | MStop => True
  | MLeaves _ _ b t _ => b.1 < t.1
  | MLeafVertex _ _ r z | MVertexLeaf _ _ r z => mok r /\ (merged r = true -> z = true)
  | MVertices _ _ r1 r2 z _ => mok r1 /\ mok r2 /\ (merged r1 <> merged r2 -> z = true)
  end.
