(** The hypotheses of C64_get_big_returns_pieces are met by a get_big that overlaps a removal. *)
From Verif Require Import Base SipHash Hashing HashingProofs Fs Shard Router RouterPure Wpc Spec FileRep RowOps
  Compact Inv ShardOps Split Insert Open Merge Create Store Limits StoreRefine Kv Lists Queues Api Hist KvSpec
  HistInv KeySpace PlainSpec Plain Check ThmStore ListSpec ListRep ListProg ListHist ThmList
  QueueSpec QueueRep QueueProg QueueHist ThmQueue Script ExStore ExList ExQueue Conc ConcSpec ThmConc ThmAtomic
  ExConc ConcLock ConcList ThmConcList ExConcList ConcSeen ConcSess ConcListAll ThmConcListAll ConcQueue ThmConcQueue
  BigCrash ExBigCrash ConcBig ThmConcBig ConcBigGet ThmConcBigGet ExConcBig.

(** The value was set in the history; while one thread reads it another one removes it; the first one
    returns the first piece. *)
Example C64_pieces_example : exists cfg0 s0 (es0 : list event) cfg s hs es c es1 a y es2,
  created cfg0 s0 /\ hist (big_guard_crash qa) cfg0 s0 es0 cfg s /\ crun cfg calm (conc s 2) hs es c /\
  (forall a qc, EvCall a (CQueue qa qc) ∉ es) /\
  es = es1 ++ EvRet a (Ok y) :: es2 /\ pending ∅ es1 !! a = Some (CBig qa BGet) /\ y = YOpt (Some first_piece).
Proof.
  destruct C64_get_big_is_atomic_refuted as [(cfg0 & s0 & es0 & cfg & s & hs & c & H1 & H2 & _ & H3 & _ & _) _].
  exists cfg0, s0, es0, cfg, s, hs, torn, c, (take 3 torn), 0%nat, (YOpt (Some first_piece)), [].
  split; [exact H1|]. split; [exact H2|]. split; [exact H3|]. split; [|split; [reflexivity|split; [reflexivity|reflexivity]]].
  intros a qc Hin. unfold torn in Hin. rewrite !elem_of_cons, elem_of_nil in Hin.
  destruct Hin as [E|[E|[E|[E|[]]]]]; discriminate E.
Qed.
