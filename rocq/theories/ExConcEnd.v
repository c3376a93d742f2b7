(** The hypotheses of C73 are met in the middle of things. *)
From Verif Require Import Base Hashing HashingProofs Fs Shard Router Store Kv Lists Queues Api Hist Limits Check Script ThmStore
  Conc ConcSpec ThmConc ConcEnd ThmConcEnd ExStore ExConc.

(** No new calls, and an end. *)
Definition no_calls (hs : list choice) : bool := forallb (fun h => match h with ChRun _ => true | _ => false end) hs.
Definition all_returned_b (c : cstate) : bool := forallb (fun T => match T with TIdle | TDead => true | _ => false end) (c_ths c).
Lemma all_returned_ok c : all_returned_b c = true -> all_returned c.
Proof.
  unfold all_returned_b. rewrite forallb_forall. intros H a T Ha. apply elem_of_list_lookup_2, elem_of_list_In in Ha. specialize (H _ Ha).
  destruct T; auto; done.
Qed.
(** Two clients hold rows and a compaction copies one; this is a state as in C73, and when the threads go on without
    new calls, in one order, all have returned and the compaction has ended after some thousand steps. *)
Example C73_example : exists hs es c hs' es' c', live ex_cfg s1 /\ crun ex_cfg calm (conc s1 3) hs es c /\
  existsb (fun T => match T with TBgRow _ _ _ _ _ => true | _ => false end) (c_ths c) = true /\
  length (List.filter (fun T => match T with TRow _ _ _ _ => true | _ => false end) (c_ths c)) = 2%nat /\
  crun ex_cfg calm c hs' es' c' /\ no_calls hs' = true /\ all_returned c' /\ length es' = 2%nat /\ inevitable ex_cfg calm all_returned c.
Proof.
  pose (good := fun (c : cstate) (y : list choice * list cevent * cstate) =>
     existsb (fun T => match T with TBgRow _ _ _ _ _ => true | _ => false end) (c_ths c) &&
     (length (List.filter (fun T => match T with TRow _ _ _ _ => true | _ => false end) (c_ths c)) =? 2)%nat &&
     no_calls (fst (fst y)) && all_returned_b (snd y) && (length (snd (fst y)) =? 2)%nat).
  destruct (crunx_some ex_cfg (conc s1 3) crashing (fun es c => match crunx ex_cfg c (turns 4 2000) with Some y => good c y | None => false end)) as (hs & es & c & Hr & HP).
  { by vm_cast_no_check (eq_refl true). }
  destruct (crunx ex_cfg c (turns 4 2000)) as [[[hs' es'] c']|] eqn:E; [|done]. unfold good in HP. cbn [fst snd] in HP.
  repeat (apply andb_true_iff in HP as [HP ?]).
  exists hs, es, c, hs', es', c'. split; [apply s1_live|]. split; [exact Hr|]. split; [exact HP|]. split; [by apply Nat.eqb_eq|].
  split; [by eapply crunx_ok|]. split; [done|]. split; [by apply all_returned_ok|]. split; [by apply Nat.eqb_eq|].
  eapply C73_every_call_returns; [apply s1_live|exact Hr].
Qed.
