(** Concrete concurrent runs that meet the hypotheses of C50. *)
From Verif Require Import Base SipHash Hashing HashingProofs Fs Shard Router RouterPure Wpc Spec FileRep RowOps
  Compact Inv ShardOps Split Insert Open Merge Create Store Limits StoreRefine Kv Lists Queues Api Hist KvSpec
  HistInv KeySpace PlainSpec Plain Check ThmStore ListSpec ListRep ListProg ListHist ThmList Script ExStore ExList Conc ConcSpec ThmConc ThmAtomic
  ExConc ConcLock ConcList ThmConcList ExConcList ConcSeen ConcSess ConcListAll ThmConcListAll.

Definition list_anyb (cfg : config) (lk : bytes) (rd : bool) (e : cevent) : bool :=
  match e with
  | EvCall _ (CList lk' c) =>
    if bool_decide (lk' = lk) then accepts_b cfg lk c && (negb rd || match c with LDiscard => false | _ => true end)
    else negb (list_ph cfg lk' =? list_ph cfg lk)
  | _ => true
  end.
Lemma list_anyb_ok (cfg : config) (lk : bytes) (rd : bool) es : forallb (list_anyb cfg lk rd) es = true -> forall a cl, EvCall a cl ∈ es -> list_any cfg lk rd cl.
Proof.
  rewrite forallb_forall. intros H a cl Hin. apply elem_of_list_In in Hin. specialize (H _ Hin). cbn [list_anyb] in H.
  destruct cl as [o|tid o|lk' c|qk c|b c]; try done. unfold list_any. case_bool_decide; [|by apply negb_true_iff, N.eqb_neq in H].
  apply andb_true_iff in H as [H1 H2]. split; [by apply accepts_b_ok|]. intros ->. by destruct c.
Qed.
(** All kinds of list calls, three at a time. *)
Definition any_run : list choice :=
  ChCall 0 (CList la (LPop true)) :: ChCall 1 (CList la (LSetPromoting ia [x41])) :: ChCall 2 (CList la (LIter true)) :: turns 3 300 ++
  ChCall 0 (CList la (LPop false)) :: ChCall 1 (CList la LLen) :: ChCall 2 (CList lb (LPop true)) :: turns 3 300 ++
  ChCall 0 (CList la (LCompact (fun _ _ => false) 0)) :: ChCall 1 (CList la (LPeek false)) :: ChCall 2 (CList la (LSet ib [x42])) :: turns 3 300 ++
  [ChCall 2 (CPlain (OSet ia [x44])); ChCall 0 (CList la LDiscard); ChCall 1 (CList la (LGet ib))].
Example C50_example : exists cfg0 s0 (es0 : list event) cfg s hs es c,
  created cfg0 s0 /\ hist (list_guard la) cfg0 s0 es0 cfg s /\ room_for cfg s la (weight (list_w la) es) /\
  crun cfg calm (conc s 3) hs es c /\ at_rest c /\ (forall a cl, EvCall a cl ∈ es -> list_any cfg la false cl) /\ length es = 24%nat.
Proof.
  destruct (gscript0_ok (list_gb la) (list_guard la) ex_cfg ex_l3 (list_gb_ok la) ex_cfg_ok) as (H1 & H2 & x & H3).
  { by repeat constructor. }
  { by vm_cast_no_check (eq_refl true). }
  rewrite gcfg_same in H2, H3 by no_reopens.
  destruct (crunx_some ex_cfg (conc (gstore (list_gb la) ex_cfg ex_l3) 3) (any_run ++ turns 3 400)
    (fun es c => at_restb c && forallb (list_anyb ex_cfg la false) es && (length es =? 24)%nat && (weight (list_w la) es <=? 20))) as (hs & es & c & Hr & HP).
  { by vm_cast_no_check (eq_refl true). }
  repeat (apply andb_true_iff in HP as [HP ?]).
  eexists ex_cfg, _, _, ex_cfg, _, hs, es, c. split; [exact H1|]. split; [exact H2|].
  split. { assert (room_for ex_cfg (gstore (list_gb la) ex_cfg ex_l3) la 20) as Hroom by (eapply room_for_b; [exact H3|by vm_cast_no_check (eq_refl true)]).
    intros M HM. destruct (Hroom M HM) as [R1 R2]. split; [done|]. eapply idx_ok_mono; [|exact R2]. by apply N.leb_le. }
  split; [exact Hr|]. split; [by apply at_restb_ok|]. split; [by apply list_anyb_ok|by apply Nat.eqb_eq].
Qed.
(** Three threads empty a list of two items; one of them gets nothing. *)
Definition popsb (lk : bytes) (e : cevent) : bool := match e with EvCall _ (CList lk' (LPop _)) => bool_decide (lk' = lk) | EvCall _ _ => false | _ => true end.
Lemma popsb_ok (lk : bytes) es : forallb (popsb lk) es = true -> forall a cl, EvCall a cl ∈ es -> pops lk cl.
Proof.
  rewrite forallb_forall. intros H a cl Hin. apply elem_of_list_In in Hin. specialize (H _ Hin). cbn [popsb] in H.
  destruct cl as [o|tid o|lk' c|qk c|b c]; try done. destruct c; try done. apply bool_decide_eq_true in H as ->. by eexists.
Qed.
Example C50_draining_example : exists cfg0 s0 (es0 : list event) cfg s hs es c,
  created cfg0 s0 /\ hist (list_guard la) cfg0 s0 es0 cfg s /\ room_for cfg s la (weight (list_w la) es) /\
  crun cfg calm (conc s 3) hs es c /\ at_rest c /\ (forall a cl, EvCall a cl ∈ es -> pops la cl) /\ length es = 6%nat /\ length (popped es) = 2%nat.
Proof.
  destruct (gscript0_ok (list_gb la) (list_guard la) ex_cfg ex_l3 (list_gb_ok la) ex_cfg_ok) as (H1 & H2 & x & H3).
  { by repeat constructor. }
  { by vm_cast_no_check (eq_refl true). }
  rewrite gcfg_same in H2, H3 by no_reopens.
  destruct (crunx_some ex_cfg (conc (gstore (list_gb la) ex_cfg ex_l3) 3) (ChCall 0 (CList la (LPop true)) :: ChCall 1 (CList la (LPop true)) :: ChCall 2 (CList la (LPop false)) :: turns 3 400)
    (fun es c => at_restb c && forallb (popsb la) es && (length es =? 6)%nat && (length (popped es) =? 2)%nat && (weight (list_w la) es <=? 20))) as (hs & es & c & Hr & HP).
  { by vm_cast_no_check (eq_refl true). }
  repeat (apply andb_true_iff in HP as [HP ?]).
  eexists ex_cfg, _, _, ex_cfg, _, hs, es, c. split; [exact H1|]. split; [exact H2|].
  split. { assert (room_for ex_cfg (gstore (list_gb la) ex_cfg ex_l3) la 20) as Hroom by (eapply room_for_b; [exact H3|by vm_cast_no_check (eq_refl true)]).
    intros M HM. destruct (Hroom M HM) as [R1 R2]. split; [done|]. eapply idx_ok_mono; [|exact R2]. by apply N.leb_le. }
  split; [exact Hr|]. split; [by apply at_restb_ok|]. split; [by apply popsb_ok|]. split; by apply Nat.eqb_eq.
Qed.
