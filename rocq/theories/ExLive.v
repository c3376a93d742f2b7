(** The hypotheses of C70 are met by a store that three threads have filled, with splits and a compaction. *)
From Verif Require Import Base SipHash Hashing HashingProofs Fs Shard Router RouterPure Wpc Spec FileRep RowOps
  Compact Inv ShardOps Split Insert Open Merge Create Store Limits StoreRefine Kv Lists Queues Api Hist KvSpec
  HistInv KeySpace PlainSpec Plain Check ThmStore ExStore Conc ConcSpec ThmConc ThmAtomic ExConc ThmLive.

Definition stats_are (s : store) (entries shards : N) : bool :=
  match snd (store_stats ex_cfg s) with
  | Ok t => match num_entries t with Ok n => n =? entries | Err _ => false end && (t_shards t =? shards)
  | Err _ => false
  end.
(** 19 keys were set by two of the threads in turn, while the shard was compacted and split. *)
Example C70_example : exists hs es c, live_clean ex_cfg (store_of c) /\ crun ex_cfg calm (conc (new_store ex_cfg) 3) hs es c /\ at_rest c /\
  pending ∅ es = ∅ /\ length es = 42%nat /\ length (leaves (c_root c)) = 2%nat /\ stats_are (store_of c) 19 2 = true.
Proof.
  destruct (crunx_some ex_cfg (conc (new_store ex_cfg) 3) long_run (fun es c => at_restb c && bool_decide (pending ∅ es = ∅) &&
     (length es =? 42)%nat && (length (leaves (c_root c)) =? 2)%nat && stats_are (store_of c) 19 2)) as (hs & es & c & Hr & HP).
  { by vm_cast_no_check (eq_refl true). }
  repeat (apply andb_true_iff in HP as [HP ?]). exists hs, es, c.
  assert (at_rest c) as Hrest by (by apply at_restb_ok).
  split; [eapply lc_conc; [apply lc_new, new_created, ex_cfg_ok|exact Hr|exact Hrest]|]. split; [exact Hr|]. split; [exact Hrest|].
  split; [by eapply bool_decide_eq_true|]. split; [by apply Nat.eqb_eq|]. split; [by apply Nat.eqb_eq|assumption].
Qed.
