(** Concrete concurrent runs on queues: the hypotheses of C52 are met; a peek that finds nothing (C53). *)
From Verif Require Import Base SipHash Hashing HashingProofs Fs Shard Router RouterPure Wpc Spec FileRep RowOps
  Compact Inv ShardOps Split Insert Open Merge Create Store Limits StoreRefine Kv Lists Queues Api Hist KvSpec
  HistInv KeySpace PlainSpec Plain Check ThmStore ListSpec ListRep ListProg ListHist ThmList
  QueueSpec QueueRep QueueProg QueueHist ThmQueue Script ExStore ExList ExQueue Conc ConcSpec ThmConc ThmAtomic
  ExConc ConcLock ConcList ThmConcList ExConcList ConcSeen ConcSess ConcListAll ThmConcListAll ConcQueue ThmConcQueue ConcQueueAdd ThmConcQueueAdd.

(** ** The hypotheses of C52 are met *)
Definition queue_anyb (cfg : config) (qk : bytes) (ex : bool) (e : cevent) : bool :=
  match e with
  | EvCall _ (CQueue qk' c) =>
    if bool_decide (qk' = qk) then qaccepts_b cfg qk c && match c with QRemove _ => false | QExtend _ => ex | _ => true end else true
  | EvCall _ (CBig k _) => negb (bool_decide (k = qk))
  | _ => true
  end.
Lemma queue_anyb_ok (cfg : config) (qk : bytes) (ex : bool) es : forallb (queue_anyb cfg qk ex) es = true -> forall a cl, EvCall a cl ∈ es -> queue_any cfg qk ex cl.
Proof.
  rewrite forallb_forall. intros H a cl Hin. apply elem_of_list_In in Hin. specialize (H _ Hin). cbn [queue_anyb] in H.
  destruct cl as [o|tid o|lk' c|qk' c|b c]; try done; unfold queue_any.
  - case_bool_decide; [|done]. apply andb_true_iff in H as [H1 H2]. split; [by apply qaccepts_b_ok|]. by destruct c.
  - by eapply negb_ne.
Qed.
Definition qroomfor_b (cfg : config) (M : kvmap) (qk : bytes) (k : N) : bool :=
  entries_b cfg M && (FIRST_IDX + 2 * k + 1 <? U64) &&
  match qrec_b qk M with Some r => (1 + k <=? l_head r) && (l_tail r + l_num r + 2 * k + 1 <? U64) | None => false end.
Lemma qroomfor_b_ok (cfg : config) (x : bool) (M : kvmap) (s : store) (qk : bytes) (k k' : N) : k <= k' -> SInv cfg x M s -> qroomfor_b cfg M qk k' = true -> queue_room_for cfg s qk k.
Proof.
  intros Hk HI H. unfold qroomfor_b in H. apply andb_true_iff in H as [H H3]. apply andb_true_iff in H as [H1 H2]. apply N.ltb_lt in H2.
  split.
  - intros M' HM'. rewrite (content_unique cfg s M' M HM'); [|by eapply SInv_content]. by apply entries_b_ok.
  - split; [lia|]. destruct (qrec_b qk M) as [r|] eqn:E; [|done]. destruct (qrec_reads _ _ _ _ _ _ HI E) as [R1 R2].
    intros h t m E1 E2. unfold reply_to in E1, E2; cbn [call_prog] in E1, E2; rewrite R1 in E1; rewrite R2 in E2.
    injection E1 as <- <-. injection E2 as <-.
    apply andb_true_iff in H3 as [H3 H4]. apply N.leb_le in H3. apply N.ltb_lt in H4. lia.
Qed.
Definition ex_q2 : list gcmd := [xq qa (QPush false [x31]); xq qb (QPush false [x33]); xq qa (QPush true [x32])].
(** All kinds of queue calls, three at a time. *)
Definition queue_run : list choice :=
  ChCall 0 (CQueue qa (QPush true [x41])) :: ChCall 1 (CQueue qa (QPush false [x42])) :: ChCall 2 (CQueue qa (QPop true)) :: turns 3 300 ++
  ChCall 0 (CQueue qa (QPop false)) :: ChCall 1 (CQueue qa (QIter true)) :: ChCall 2 (CQueue qb (QPop true)) :: turns 3 300 ++
  ChCall 0 (CQueue qa (QExtend [[x43]; [x44; x45]])) :: ChCall 1 (CQueue qa (QPeek false)) :: ChCall 2 (CQueue qa (QPop true)) :: turns 3 400 ++
  ChCall 0 (CQueue qa QLen) :: ChCall 1 (CQueue qa QDiscard) :: [ChCall 2 (CQueue qa QRange)].
Example C52_example : exists cfg0 s0 (es0 : list event) cfg s hs es c,
  created cfg0 s0 /\ hist (queue_guard qa) cfg0 s0 es0 cfg s /\ queue_room_for cfg s qa (weight (queue_w qa) es) /\
  crun cfg calm (conc s 3) hs es c /\ at_rest c /\ (forall a cl, EvCall a cl ∈ es -> queue_any cfg qa true cl) /\ length es = 24%nat.
Proof.
  destruct (gscript0_ok (queue_gb qa) (queue_guard qa) ex_cfg ex_q2 (queue_gb_ok qa) ex_cfg_ok) as (H1 & H2 & x & H3).
  { by repeat constructor. }
  { by vm_cast_no_check (eq_refl true). }
  rewrite gcfg_same in H2, H3 by no_reopens.
  destruct (crunx_some ex_cfg (conc (gstore (queue_gb qa) ex_cfg ex_q2) 3) (queue_run ++ turns 3 400)
    (fun es c => at_restb c && forallb (queue_anyb ex_cfg qa true) es && (length es =? 24)%nat && (weight (queue_w qa) es <=? 20))) as (hs & es & c & Hr & HP).
  { by vm_cast_no_check (eq_refl true). }
  repeat (apply andb_true_iff in HP as [HP ?]).
  eexists ex_cfg, _, _, ex_cfg, _, hs, es, c. split; [exact H1|]. split; [exact H2|].
  split. { eapply (qroomfor_b_ok _ _ _ _ _ _ 20); [by apply N.leb_le|exact H3|by vm_cast_no_check (eq_refl true)]. }
  split; [exact Hr|]. split; [by apply at_restb_ok|]. split; [by apply queue_anyb_ok|by apply Nat.eqb_eq].
Qed.
(** Two producers, two consumers. *)
Definition push_popb (qk : bytes) (e : cevent) : bool :=
  match e with EvCall _ (CQueue qk' (QPop _ | QPush _ _)) => bool_decide (qk' = qk) | EvCall _ _ => false | _ => true end.
Lemma push_popb_ok (qk : bytes) es : forallb (push_popb qk) es = true -> forall a cl, EvCall a cl ∈ es -> push_pop qk cl.
Proof.
  rewrite forallb_forall. intros H a cl Hin. apply elem_of_list_In in Hin. specialize (H _ Hin). cbn [push_popb] in H.
  destruct cl as [o|tid o|lk' c|qk' c|b c]; try done. destruct c; try done; apply bool_decide_eq_true in H as ->; eexists; eauto.
Qed.
Example C52_flow_example : exists cfg0 s0 (es0 : list event) cfg s hs es c,
  created cfg0 s0 /\ hist (queue_guard qa) cfg0 s0 es0 cfg s /\ queue_room_for cfg s qa (weight (queue_w qa) es) /\
  crun cfg calm (conc s 4) hs es c /\ at_rest c /\ (forall a cl, EvCall a cl ∈ es -> push_pop qa cl /\ queue_any cfg qa false cl) /\
  length (q_pushed es) = 4%nat /\ length (q_popped es) = 4%nat.
Proof.
  destruct (gscript0_ok (queue_gb qa) (queue_guard qa) ex_cfg ex_q2 (queue_gb_ok qa) ex_cfg_ok) as (H1 & H2 & x & H3).
  { by repeat constructor. }
  { by vm_cast_no_check (eq_refl true). }
  rewrite gcfg_same in H2, H3 by no_reopens.
  destruct (crunx_some ex_cfg (conc (gstore (queue_gb qa) ex_cfg ex_q2) 4)
     (ChCall 0 (CQueue qa (QPush true [x41])) :: ChCall 1 (CQueue qa (QPush false [x42])) :: ChCall 2 (CQueue qa (QPop true)) :: ChCall 3 (CQueue qa (QPop true)) :: turns 4 400 ++
      ChCall 0 (CQueue qa (QPush false [x43])) :: ChCall 1 (CQueue qa (QPush false [x44])) :: ChCall 2 (CQueue qa (QPop true)) :: ChCall 3 (CQueue qa (QPop false)) :: turns 4 400)
    (fun es c => at_restb c && forallb (queue_anyb ex_cfg qa false) es && forallb (push_popb qa) es && (length (q_pushed es) =? 4)%nat && (length (q_popped es) =? 4)%nat && (weight (queue_w qa) es <=? 20))) as (hs & es & c & Hr & HP).
  { by vm_cast_no_check (eq_refl true). }
  repeat (apply andb_true_iff in HP as [HP ?]).
  eexists ex_cfg, _, _, ex_cfg, _, hs, es, c. split; [exact H1|]. split; [exact H2|].
  split. { eapply (qroomfor_b_ok _ _ _ _ _ _ 20); [by apply N.leb_le|exact H3|by vm_cast_no_check (eq_refl true)]. }
  split; [exact Hr|]. split; [by apply at_restb_ok|]. split; [intros a cl Hin; split; [by eapply push_popb_ok|by eapply queue_anyb_ok]|]. split; by apply Nat.eqb_eq.
Qed.

(** The hypotheses of the positive part of C53 are met: pushes at both ends and an extension while two
    threads iterate and peek. *)
Definition queue_addsb (cfg : config) (qk : bytes) (e : cevent) : bool :=
  match e with
  | EvCall _ (CQueue qk' c) =>
    if bool_decide (qk' = qk) then qaccepts_b cfg qk c && match c with QRemove _ | QPop _ | QDiscard => false | _ => true end else true
  | EvCall _ (CBig k _) => negb (bool_decide (k = qk))
  | _ => true
  end.
Lemma queue_addsb_ok (cfg : config) (qk : bytes) es : forallb (queue_addsb cfg qk) es = true -> forall a cl, EvCall a cl ∈ es -> queue_adds cfg qk cl.
Proof.
  rewrite forallb_forall. intros H a cl Hin. apply elem_of_list_In in Hin. specialize (H _ Hin). cbn [queue_addsb] in H.
  destruct cl as [o|tid o|lk' c|qk' c|b c]; try done; unfold queue_adds.
  - case_bool_decide; [|done]. apply andb_true_iff in H as [H1 H2]. split; [by apply qaccepts_b_ok|]. by destruct c.
  - by eapply negb_ne.
Qed.
Example C53_example : exists cfg0 s0 (es0 : list event) cfg s hs es c,
  created cfg0 s0 /\ hist (queue_guard qa) cfg0 s0 es0 cfg s /\ queue_room_for cfg s qa (weight (queue_w qa) es) /\
  crun cfg calm (conc s 4) hs es c /\ at_rest c /\ (forall a cl, EvCall a cl ∈ es -> queue_adds cfg qa cl) /\ length es = 12%nat.
Proof.
  destruct (gscript0_ok (queue_gb qa) (queue_guard qa) ex_cfg ex_q2 (queue_gb_ok qa) ex_cfg_ok) as (H1 & H2 & x & H3).
  { by repeat constructor. }
  { by vm_cast_no_check (eq_refl true). }
  rewrite gcfg_same in H2, H3 by no_reopens.
  destruct (crunx_some ex_cfg (conc (gstore (queue_gb qa) ex_cfg ex_q2) 4)
     (ChCall 0 (CQueue qa (QPush true [x41])) :: ChCall 1 (CQueue qa (QExtend [[x42]; [x43]])) :: ChCall 2 (CQueue qa (QIter false)) :: ChCall 3 (CQueue qa (QPeek true)) :: turns 4 400 ++
      ChCall 2 (CQueue qa (QIter true)) :: [ChCall 3 (CQueue qb (QPop true))] ++ turns 4 400)
    (fun es c => at_restb c && forallb (queue_addsb ex_cfg qa) es && (length es =? 12)%nat && (weight (queue_w qa) es <=? 20))) as (hs & es & c & Hr & HP).
  { by vm_cast_no_check (eq_refl true). }
  repeat (apply andb_true_iff in HP as [HP ?]).
  eexists ex_cfg, _, _, ex_cfg, _, hs, es, c. split; [exact H1|]. split; [exact H2|].
  split. { eapply (qroomfor_b_ok _ _ _ _ _ _ 20); [by apply N.leb_le|exact H3|by vm_cast_no_check (eq_refl true)]. }
  split; [exact Hr|]. split; [by apply at_restb_ok|]. split; [by apply queue_addsb_ok|by apply Nat.eqb_eq].
Qed.

(** ** C53: peeking and iterating are not atomic *)
Lemma queue_call_on cfg qk q c r q' : queue_call cfg qk q (CQueue qk c) r q' -> exists y, r = Ok y /\ queue_spec q c y q'.
Proof. unfold queue_call. cbn [queue_step]. by rewrite bool_decide_eq_true_2. Qed.
Ltac qstep :=
  match goal with H : lrun _ _ _ _ _ _ |- _ => inversion H; clear H; subst end;
  repeat match goal with H : _ !! _ = Some _ |- _ => progress look H end;
  repeat match goal with
  | H : queue_call _ _ _ (CQueue _ _) _ _ |- _ => apply queue_call_on in H as (? & ? & H); subst
  | H : queue_spec _ _ _ _ |- _ => cbn [queue_spec q_end q_rest q_push head tl app] in H
  | H : exists _, _ |- _ => destruct H; subst
  | H : _ /\ _ |- _ => destruct H; subst
  end; simplify_eq.
Lemma peek_nothing cfg qk x i v m' P' :
  ~ lrun (queue_call cfg qk) [x] ∅
    [EvCall 0 (CQueue qk (QPeek true)); EvCall 1 (CQueue qk (QPush false v)); EvRet 1 (Ok (YNum i));
     EvCall 1 (CQueue qk (QPop true)); EvRet 1 (Ok (YElem (Some x))); EvRet 0 (Ok (YElem None))] m' P'.
Proof. intros H. repeat qstep. Qed.
Lemma iter_nothing cfg qk x i v m' P' :
  ~ lrun (queue_call cfg qk) [x] ∅
    [EvCall 0 (CQueue qk (QIter true)); EvCall 1 (CQueue qk (QPush false v)); EvRet 1 (Ok (YNum i));
     EvCall 1 (CQueue qk (QPop true)); EvRet 1 (Ok (YElem (Some x))); EvRet 0 (Ok (YElems []))] m' P'.
Proof. intros H. repeat qstep. Qed.

(** A store that shows the queue [q], and a run of calls of the given kinds on it, all finished,
    that is not possible if every call takes effect at one moment. *)
Definition queue_unexplained (qk : bytes) (which : qcall -> Prop) : Prop :=
  exists cfg0 s0 (es0 : list event) cfg s n hs es c q,
    created cfg0 s0 /\ hist (queue_guard qk) cfg0 s0 es0 cfg s /\ shows_queue cfg s qk q /\
    queue_room_for cfg s qk (weight (queue_w qk) es) /\
    crun cfg calm (conc s n) hs es c /\ at_rest c /\
    (forall a cl, EvCall a cl ∈ es -> exists c, cl = CQueue qk c /\ which c /\ qcall_accepts cfg qk c) /\
    forall q' P, ~ lrun (queue_call cfg qk) q ∅ es q' P.
Definition ex_q1 : list gcmd := [xq qa (QPush false [x31])].
Definition qsched (c : qcall) : list choice :=
  ChCall 0 (CQueue qa c) :: steps 0 6 ++ ChCall 1 (CQueue qa (QPush false [x32])) :: steps 1 500 ++ ChCall 1 (CQueue qa (QPop true)) :: steps 1 500 ++ steps 0 500.
Lemma queue_unexplained_by (c0 : qcall) (y : reply) :
  qaccepts_b ex_cfg qa c0 = true ->
  match crunx ex_cfg (conc (gstore (queue_gb qa) ex_cfg ex_q1) 2) (qsched c0) with Some (_, es', c') => Some (es', at_restb c') | None => None end =
    Some ([EvCall 0 (CQueue qa c0); EvCall 1 (CQueue qa (QPush false [x32])); EvRet 1 (Ok (YNum (i0 + 1)));
     EvCall 1 (CQueue qa (QPop true)); EvRet 1 (Ok (YElem (Some (i0, [x31])))); EvRet 0 (Ok y)], true) ->
  qcall_adds c0 = 0 ->
  (forall q' P, ~ lrun (queue_call ex_cfg qa) [(i0, [x31])] ∅
    [EvCall 0 (CQueue qa c0); EvCall 1 (CQueue qa (QPush false [x32])); EvRet 1 (Ok (YNum (i0 + 1)));
     EvCall 1 (CQueue qa (QPop true)); EvRet 1 (Ok (YElem (Some (i0, [x31])))); EvRet 0 (Ok y)] q' P) ->
  queue_unexplained qa (fun c => c = c0 \/ c = QPush false [x32] \/ c = QPop true).
Proof.
  intros Hacc Hx Hw Hno.
  destruct (gscript0_ok (queue_gb qa) (queue_guard qa) ex_cfg ex_q1 (queue_gb_ok qa) ex_cfg_ok) as (H1 & H2 & x & H3).
  { by repeat constructor. }
  { by vm_cast_no_check (eq_refl true). }
  rewrite gcfg_same in H2, H3 by no_reopens.
  destruct (created_queue qa _ _ _ _ _ H1 H2) as (x' & M' & q & rng & K1 & K2 & K3).
  pose proof (qrep_shows_all _ _ _ _ _ _ _ K2 K3) as Hs.
  assert (q = [(i0, [x31])]) as E.
  { pose proof (Hs (QIter true) (YElems q) eq_refl ltac:(done) (conj eq_refl eq_refl)) as Hi.
    assert (reply_to ex_cfg (gstore (queue_gb qa) ex_cfg ex_q1) (CQueue qa (QIter true)) = Ok (YElems [(i0, [x31])])) as Hit by (vm_cast_no_check (eq_refl (@Ok reply (YElems [(i0, [x31])])))).
    rewrite Hi in Hit. congruence. }
  rewrite E in Hs. pose proof (crunx_es ex_cfg (conc (gstore (queue_gb qa) ex_cfg ex_q1) 2) (qsched c0) _ Hx) as Hx'. clear Hx. destruct Hx' as (hs' & c' & Hc & Hrest).
  lazymatch type of Hc with crun _ _ _ _ ?es _ => eexists ex_cfg, _, _, ex_cfg, _, 2%nat, hs', es, c', _ end. split; [exact H1|]. split; [exact H2|]. split; [exact Hs|].
  split. { eapply (qroomfor_b_ok _ _ _ _ _ _ 20); [|exact H3|by vm_cast_no_check (eq_refl true)].
    assert (forall c, queue_w qa (CQueue qa c) = qcall_adds c) as Hqw by (intros c; cbn [queue_w]; by rewrite bool_decide_eq_true_2). cbn [weight]. rewrite !Hqw, Hw. cbn [qcall_adds]. lia. }
  split; [exact Hc|]. split; [exact Hrest|]. split; [|exact Hno].
  apply qaccepts_b_ok in Hacc.
  intros a cl Hin. rewrite !elem_of_cons, elem_of_nil in Hin.
  destruct Hin as [Hin|[Hin|[Hin|[Hin|[Hin|[Hin|[]]]]]]]; [| |discriminate| |discriminate|discriminate]; injection Hin as -> ->.
  - exists c0. split; [done|]. split; [by left|done].
  - exists (QPush false [x32]). split; [done|]. split; [by right; left|]. apply qaccepts_b_ok. by vm_cast_no_check (eq_refl true).
  - exists (QPop true). split; [done|]. split; [by right; right|done].
Qed.
(** peek_queue_head finds nothing, iter_queue returns nothing, although the queue is never empty: by the time the index
    range they read at first is walked over, other elements have been pushed and those popped. *)
Theorem C53_peek_is_atomic_refuted : queue_unexplained qa (fun c => c = QPeek true \/ c = QPush false [x32] \/ c = QPop true).
Proof.
  eapply queue_unexplained_by; [by vm_cast_no_check (eq_refl true)| |done|intros q' P; apply peek_nothing].
  by vm_cast_no_check (eq_refl (Some ([EvCall 0 (CQueue qa (QPeek true)); EvCall 1 (CQueue qa (QPush false [x32])); EvRet 1 (Ok (YNum (i0 + 1)));
     EvCall 1 (CQueue qa (QPop true)); EvRet 1 (Ok (YElem (Some (i0, [x31])))); EvRet 0 (Ok (YElem None))], true))).
Qed.
Theorem C53_iteration_is_atomic_refuted : queue_unexplained qa (fun c => c = QIter true \/ c = QPush false [x32] \/ c = QPop true).
Proof.
  eapply queue_unexplained_by; [by vm_cast_no_check (eq_refl true)| |done|intros q' P; apply iter_nothing].
  by vm_cast_no_check (eq_refl (Some ([EvCall 0 (CQueue qa (QIter true)); EvCall 1 (CQueue qa (QPush false [x32])); EvRet 1 (Ok (YNum (i0 + 1)));
     EvCall 1 (CQueue qa (QPop true)); EvRet 1 (Ok (YElem (Some (i0, [x31])))); EvRet 0 (Ok (YElems []))], true))).
Qed.
