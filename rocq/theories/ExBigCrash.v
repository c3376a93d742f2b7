(** Concrete big values with crashes: the hypotheses of C63 are met; counterexample. *)
From Verif Require Import Base SipHash Hashing HashingProofs Fs Shard Router RouterPure Wpc Spec FileRep RowOps
  Compact Inv ShardOps Split Insert Open Merge Create Store Limits StoreRefine Kv Lists Queues Api Hist KvSpec
  HistInv KeySpace ListSpec ListRep ListProg ListHist ThmList Check Script ExStore ExList
  QueueSpec QueueRep QueueProg QueueHist ThmQueue ExQueue BigCrash.
Implicit Types (M : kvmap) (cfg : config) (s : store) (k : bytes).

Definition big_gb_crash (k : bytes) (cfg : config) (M : kvmap) (e : event) : bool :=
  match e with
  | ECall (CBig k' (BSet v)) _ | ECrash (ACall (CBig k' (BSet v))) => len v <? 2 ^ 62
  | ECall (CQueue qk _) _ | ECrash (ACall (CQueue qk _)) => negb (bool_decide (qk = k))
  | _ => true
  end.
Lemma big_gb_crash_ok k cfg s x M e : SInv cfg x M s -> fits cfg s e -> big_gb_crash k cfg M e = true -> big_guard_crash k cfg s e.
Proof.
  intros HI Hf Hb. split; [done|].
  destruct e as [[o|tid o|lk' c|qk' c|b c] r|mt| | |[|[o|tid o|lk' c|qk' c|b c]|mt]]; cbn [big_gb_crash] in *; try done.
  - by eapply negb_ne.
  - destruct c; try done. intros _. by apply N.ltb_lt.
  - by eapply negb_ne.
  - destruct c; try done. intros _. by apply N.ltb_lt.
Qed.

(** Crashes before and after the old value is gone, while removing, a rejected value, the empty value, a
    queue with another key. *)
Definition ex_big2 : list gcmd :=
  [xb qa (BSet [x31]); GCrash (CBig qa (BSet [x32])) 1; xb qa BGet;
   GCrash (CBig qa (BSet [x32])) 6; xb qa BGet; xb qa (BSet [x33]);
   GCrash (CBig qa (BSet [x34])) 12; xb qa BGet; xb qa (BSet too_long); xb qa BGet; xb qa (BSet []); xb qa BGet; xb qa (BSet [x35]);
   xq qb (QPush false [x36]); GCrash (CBig qa BRemove) 3; xb qa BGet; xb qa BRemove; xb qa BRemove].
Definition ex_big2_replies : list (res reply) :=
  [Ok (YBool false); Ok (YOpt (Some [x31])); Ok (YOpt None); Ok (YBool false); Ok (YOpt (Some [x34]));
   Err (ECannotFit 1001 1000); Ok (YOpt None); Ok (YBool true); Ok (YOpt None); Ok (YBool true); Ok (YNum i0);
   Ok (YOpt None); Ok (YBool true); Ok (YBool false)].
Example C63_example : exists es cfg' s', created ex_cfg (new_store ex_cfg) /\
  hist (big_guard_crash qa) ex_cfg (new_store ex_cfg) es cfg' s' /\ length es = 18%nat /\ replies es = ex_big2_replies.
Proof.
  exists (gevents (big_gb_crash qa) ex_cfg ex_big2), (gcfg (big_gb_crash qa) ex_cfg ex_big2), (gstore (big_gb_crash qa) ex_cfg ex_big2).
  destruct (gscript0_ok (big_gb_crash qa) (big_guard_crash qa) ex_cfg ex_big2 (big_gb_crash_ok qa) ex_cfg_ok) as (H1 & H2 & _).
  - by repeat constructor.
  - by vm_cast_no_check (eq_refl true).
  - split; [exact H1|]. split; [exact H2|]. split; [by vm_cast_no_check (eq_refl 18%nat)|by vm_cast_no_check (eq_refl ex_big2_replies)].
Qed.

(** The old value has more than one piece: a crash in the set_big that replaces it leaves its last piece,
    neither the old value nor the new one. *)
Definition long_rest : bytes := replicate (N.to_nat 720) x41 ++ [x42].
Theorem C63_crash_leaves_old_or_new_refuted : happens
  [ECall (CBig qa (BSet long_value)) (Ok (YBool false));
   ECall (CBig qa BGet) (Ok (YOpt (Some long_value)));
   ECrash (ACall (CBig qa (BSet [x31])));
   ECall (CBig qa BGet) (Ok (YOpt (Some long_rest)))].
Proof.
  eapply (happens_by big_cfg [xb qa (BSet long_value); xb qa BGet; GCrash (CBig qa (BSet [x31])) 3; xb qa BGet]); [exact big_cfg_ok|no_reopens| |].
  - by vm_cast_no_check (eq_refl true).
  - match goal with |- _ = ?es => by vm_cast_no_check (eq_refl es) end.
Qed.
(** Even short values: neither the old value nor the new one is there. *)
Theorem C63_crash_leaves_nothing_refuted : happens
  [ECall (CBig qa (BSet [x31])) (Ok (YBool false));
   ECrash (ACall (CBig qa (BSet [x32])));
   ECall (CBig qa BGet) (Ok (YOpt None))].
Proof. happens_with [xb qa (BSet [x31]); GCrash (CBig qa (BSet [x32])) 6; xb qa BGet]. Qed.
