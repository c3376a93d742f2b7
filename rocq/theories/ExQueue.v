(** Concrete queues and big values: the hypotheses of the theorems of ThmQueue.v are met;
    counterexamples. *)
From Verif Require Import Base SipHash Hashing HashingProofs Fs Shard Router RouterPure Wpc Spec FileRep RowOps
  Compact Inv ShardOps Split Insert Open Merge Create Store Limits StoreRefine Kv Lists Queues Api Hist KvSpec
  HistInv KeySpace ListSpec ListRep ListProg ListHist ThmList Check Script ExStore ExList
  QueueSpec QueueRep QueueProg QueueHist ThmQueue.
Implicit Types (M : kvmap) (cfg : config) (s : store) (qk : bytes).

(** ** Executable guards *)
Definition qrec_b (qk : bytes) (M : kvmap) : option lrec :=
  match M !! queue_key qk with
  | None => Some (LRec FIRST_IDX FIRST_IDX 0)
  | Some b => match dec_rec b with Ok r => Some r | Err _ => None end
  end.
Lemma qrec_reads cfg x M s qk r : SInv cfg x M s -> qrec_b qk M = Some r ->
  snd (krun cfg (queue_prog cfg qk QRange) s) = Ok (YRange (l_head r, l_tail r)) /\
  snd (krun cfg (queue_prog cfg qk QLen) s) = Ok (YNum (l_num r)).
Proof.
  intros HI Hr. unfold qrec_b in Hr.
  assert (Hk : forall A (f : option lrec -> kprog A) (g : option lrec -> A), (forall o, f o = KRet (g o)) ->
    g (match M !! queue_key qk with None => None | Some _ => Some r end) = g (Some r) ->
    kwp cfg (kbind (fetch_queue cfg qk) f) (fun _ => True) (fun a _ => a = g (Some r)) (fun _ _ => False) M).
  { intros A f g Hf Hg. apply kwp_bind. unfold fetch_queue. apply kwp_locked. apply kwp_bind, kwp_get; [done|].
    destruct (M !! queue_key qk) as [b|] eqn:E.
    - destruct (dec_rec b) as [r'|e] eqn:Ed; [|done]. injection Hr as ->. apply kwp_bind. eapply kwp_lift_ok; [done|done|].
      apply kwp_ret; [done|]. rewrite Hf. by apply kwp_ret.
    - apply kwp_ret; [done|]. rewrite Hf. apply kwp_ret; [done|]. exact Hg. }
  split.
  - destruct (kwp_krun cfg x (queue_prog cfg qk QRange) (fun _ => True) (fun y _ => y = YRange (l_head r, l_tail r)) (fun _ _ => False) M s HI) as (M' & _ & H).
    + apply (reads_fits cfg (call_prog cfg (CQueue qk QRange))). by apply queue_reads_writes.
    + cbn [queue_prog]. apply kwp_map. unfold queue_range.
      eapply kwp_mono; [| | |apply (Hk _ _ (fun o => match o with None => (FIRST_IDX, FIRST_IDX) | Some q => (l_head q, l_tail q) end))]; [done| |done|done|].
      * intros a M' _ ->. done.
      * destruct (M !! queue_key qk); [done|]. injection Hr as <-. done.
    + destruct (snd _); [by subst|done].
  - destruct (kwp_krun cfg x (queue_prog cfg qk QLen) (fun _ => True) (fun y _ => y = YNum (l_num r)) (fun _ _ => False) M s HI) as (M' & _ & H).
    + apply (reads_fits cfg (call_prog cfg (CQueue qk QLen))). by apply queue_reads_writes.
    + cbn [queue_prog]. apply kwp_map. unfold queue_len.
      eapply kwp_mono; [| | |apply (Hk _ _ (fun o => match o with None => 0 | Some q => l_num q end))]; [done| |done|done|].
      * intros a M' _ ->. done.
      * destruct (M !! queue_key qk); [done|]. injection Hr as <-. done.
    + destruct (snd _); [by subst|done].
Qed.
Definition qroom_b (cfg : config) (M : kvmap) (qk : bytes) (n : N) : bool :=
  entries_b cfg M && (FIRST_IDX + n + 1 <? U64) &&
  match qrec_b qk M with Some r => (1 <=? l_head r) && (l_tail r + l_num r + n + 1 <? U64) | None => false end.
Lemma qroom_b_ok cfg x M s qk n : SInv cfg x M s -> qroom_b cfg M qk n = true -> queue_room cfg s qk n.
Proof.
  intros HI H. unfold qroom_b in H. apply andb_true_iff in H as [H H3]. apply andb_true_iff in H as [H1 H2].
  split.
  - intros M' HM'. rewrite (content_unique cfg s M' M HM'); [|by eapply SInv_content]. by apply entries_b_ok.
  - split; [by apply N.ltb_lt|]. destruct (qrec_b qk M) as [r|] eqn:E; [|done]. destruct (qrec_reads _ _ _ _ _ _ HI E) as [R1 R2].
    intros h t k E1 E2. rewrite R1 in E1. rewrite R2 in E2. injection E1 as <- <-. injection E2 as <-.
    apply andb_true_iff in H3 as [H3 H4]. apply N.leb_le in H3. apply N.ltb_lt in H4. done.
Qed.
Definition qsole_b (M : kvmap) (qk : bytes) (c : qcall) : bool :=
  match c with
  | QRemove i => (i <? U64) && match qrec_b qk M with Some r => negb ((l_head r =? i) && (l_tail r =? i + 1)) | None => false end
  | _ => true
  end.
Lemma qsole_b_ok cfg x M s qk c : SInv cfg x M s -> qsole_b M qk c = true -> queue_not_sole cfg s qk c.
Proof.
  intros HI H. destruct c; try done. cbn [qsole_b queue_not_sole] in *. apply andb_true_iff in H as [H1 H2]. apply N.ltb_lt in H1. split; [done|].
  destruct (qrec_b qk M) as [r|] eqn:E; [|done]. destruct (qrec_reads _ _ _ _ _ _ HI E) as [R1 R2]. rewrite R1. intros E1. injection E1 as E1 E2.
  rewrite E1, E2, !N.eqb_refl in H2. done.
Qed.
Definition qacc1_b (cfg : config) (qk v : bytes) : bool :=
  none_b (ins_err cfg (queue_key qk) (replicate 24 x00)) && none_b (ins_err cfg (qk ++ replicate 9 x00) v).
Definition qaccepts_b (cfg : config) (qk : bytes) (c : qcall) : bool :=
  match c with
  | QPush _ v => qacc1_b cfg qk v
  | QExtend vs => none_b (ins_err cfg (queue_key qk) (replicate 24 x00)) && forallb (qacc1_b cfg qk) vs
  | _ => true
  end.
Lemma qacc1_b_ok cfg qk v : qacc1_b cfg qk v = true -> queue_accepts cfg qk v.
Proof. intros H. apply andb_true_iff in H as [H1 H2]. by split; apply none_b_ok. Qed.
Lemma qaccepts_b_ok cfg qk c : qaccepts_b cfg qk c = true -> qcall_accepts cfg qk c.
Proof.
  destruct c; try done; cbn [qaccepts_b qcall_accepts].
  - apply qacc1_b_ok.
  - intros H. apply andb_true_iff in H as [H1 H2]. split; [by apply none_b_ok|]. apply Forall_forall. intros v Hv.
    apply qacc1_b_ok. rewrite forallb_forall in H2. apply H2. by apply elem_of_list_In.
Qed.
Definition queue_gb (qk : bytes) (cfg : config) (M : kvmap) (e : event) : bool :=
  match e with
  | ECall (CQueue qk' c) _ =>
    if bool_decide (qk' = qk) then (queue_reads c || qroom_b cfg M qk (qcall_adds c)) && qaccepts_b cfg qk c && qsole_b M qk c else true
  | ECrash (ACall (CQueue qk' c)) => negb (bool_decide (qk' = qk))
  | ECall (CBig k _) _ | ECrash (ACall (CBig k _)) => negb (bool_decide (k = qk))
  | _ => true
  end.
Lemma negb_ne (P : Prop) (D : Decision P) : negb (bool_decide P) = true -> ~ P.
Proof. intros H. apply negb_true_iff, bool_decide_eq_false in H. done. Qed.
Lemma queue_gb_ok qk cfg s x M e : SInv cfg x M s -> fits cfg s e -> queue_gb qk cfg M e = true -> queue_guard qk cfg s e.
Proof.
  intros HI Hf Hb. split; [done|].
  destruct e as [[o|tid o|lk' c|qk' c|b c] r|mt| | |[|[o|tid o|lk' c|qk' c|b c]|mt]]; cbn [queue_gb] in *; try done.
  - intros ->. rewrite bool_decide_true in Hb by done. apply andb_true_iff in Hb as [Hb H3]. apply andb_true_iff in Hb as [H1 H2].
    split; [|split; [by apply qaccepts_b_ok|by eapply qsole_b_ok]]. intros Hr. rewrite Hr in H1. by eapply qroom_b_ok.
  - by eapply negb_ne.
  - by eapply negb_ne.
  - by eapply negb_ne.
Qed.
Definition queue_gb_lost (qk : bytes) (cfg : config) (M : kvmap) (e : event) : bool :=
  match e with
  | ECall (CQueue qk' c) _ =>
    if bool_decide (qk' = qk) then (queue_reads c || qroom_b cfg M qk (qcall_adds c)) && (crash_safe c || qaccepts_b cfg qk c) && qsole_b M qk c else true
  | ECrash (ACall (CQueue qk' c)) =>
    if bool_decide (qk' = qk) then (queue_reads c || qroom_b cfg M qk (qcall_adds c)) && crash_safe c && qsole_b M qk c else true
  | ECall (CBig k _) _ | ECrash (ACall (CBig k _)) => negb (bool_decide (k = qk))
  | _ => true
  end.
Lemma queue_gb_lost_ok qk cfg s x M e : SInv cfg x M s -> fits cfg s e -> queue_gb_lost qk cfg M e = true -> queue_guard_lost qk cfg s e.
Proof.
  intros HI Hf Hb. split; [done|].
  destruct e as [[o|tid o|lk' c|qk' c|b c] r|mt| | |[|[o|tid o|lk' c|qk' c|b c]|mt]]; cbn [queue_gb_lost] in *; try done.
  - intros ->. rewrite bool_decide_true in Hb by done. apply andb_true_iff in Hb as [Hb H3]. apply andb_true_iff in Hb as [H1 H2].
    split; [|split; [|by eapply qsole_b_ok]].
    + intros Hr. rewrite Hr in H1. by eapply qroom_b_ok.
    + intros Hr. rewrite Hr in H2. by apply qaccepts_b_ok.
  - by eapply negb_ne.
  - intros ->. rewrite bool_decide_true in Hb by done. apply andb_true_iff in Hb as [Hb H3]. apply andb_true_iff in Hb as [H1 H2].
    split; [|split; [done|by eapply qsole_b_ok]]. intros Hr. rewrite Hr in H1. by eapply qroom_b_ok.
  - by eapply negb_ne.
Qed.
Definition big_accepts_b (cfg : config) (k : bytes) (c : bcall) : bool :=
  match c with
  | BSet v => negb (bool_decide (v = [])) && (len v <? 2 ^ 62) && none_b (ins_err cfg (queue_key k) (replicate 24 x00)) &&
              none_b (ins_err cfg (k ++ replicate 9 x00) v)
  | _ => true
  end.
Lemma ins_err_mono cfg k (v w : bytes) : len w <= len v -> ins_err cfg k v = None -> ins_err cfg k w = None.
Proof.
  unfold ins_err. intros Hl. destruct (_ <? _) eqn:E1; [done|]. destruct (MAX_TOTAL_VALUE_SIZE <? len v) eqn:E2; [done|].
  destruct (c_max_shard cfg <? len k + len v) eqn:E3; [done|]. intros _. apply N.ltb_ge in E2, E3.
  destruct (MAX_TOTAL_VALUE_SIZE <? len w) eqn:E4; [apply N.ltb_lt in E4; lia|].
  destruct (c_max_shard cfg <? len k + len w) eqn:E5; [apply N.ltb_lt in E5; lia|]. done.
Qed.
Lemma big_accepts_b_ok cfg k c : big_accepts_b cfg k c = true -> big_accepts cfg k c.
Proof.
  destruct c; try done. cbn [big_accepts_b big_accepts]. rewrite !andb_true_iff. intros [[[H1 H2] H3] H4].
  apply negb_ne in H1. apply N.ltb_lt in H2. apply none_b_ok in H3, H4. split; [done|]. split; [done|].
  intros w _ Hw. split; [done|]. by eapply ins_err_mono.
Qed.
Definition big_gb (k : bytes) (cfg : config) (M : kvmap) (e : event) : bool :=
  match e with
  | ECall (CBig k' c) _ => if bool_decide (k' = k) then big_accepts_b cfg k c else true
  | ECrash (ACall (CBig k' c)) => negb (bool_decide (k' = k))
  | ECall (CQueue qk _) _ | ECrash (ACall (CQueue qk _)) => negb (bool_decide (qk = k))
  | _ => true
  end.
Lemma big_gb_ok k cfg s x M e : SInv cfg x M s -> fits cfg s e -> big_gb k cfg M e = true -> big_guard k cfg s e.
Proof.
  intros HI Hf Hb. split; [done|].
  destruct e as [[o|tid o|lk' c|qk' c|b c] r|mt| | |[|[o|tid o|lk' c|qk' c|b c]|mt]]; cbn [big_gb] in *; try done.
  - by eapply negb_ne.
  - intros ->. rewrite bool_decide_true in Hb by done. by apply big_accepts_b_ok.
  - by eapply negb_ne.
  - by eapply negb_ne.
Qed.

(** ** A queue used from both ends, with a hole and an extension, next to another queue and a big
    value; a crash in the other queue; a reopening *)
Definition qa : bytes := [x71; x61].
Definition qb : bytes := [x71; x62].
Definition xq (qk : bytes) (c : qcall) : gcmd := call_of (CQueue qk c).
Definition xb (k : bytes) (c : bcall) : gcmd := call_of (CBig k c).
Definition i0 : N := FIRST_IDX.
Definition ex_queue : list gcmd :=
  [xq qa (QPush false [x31]); xq qa (QPush true [x32]); xq qb (QPush false [x33]); xq qa (QExtend [[x34]; []; [x35; x36]]);
   GCmd (XMaint (MBgRow 0)); xq qa (QRemove (i0 + 1)); xq qa QLen; xq qa (QIter false); GCrash (CQueue qb (QPush true [x37])) 3;
   xb qb (BSet [x38]); xq qa (QPop false); xq qa (QPeek false); xq qa (QPush false [x39]);
   GCmd (XReopen (Config (siphash128 seed_aabbccdd) 5000 100 0 16 true false)); xq qa (QPop true); xq qa (QIter true); xq qa (QRemove (i0 + 1));
   xq qa QDiscard; xq qa QLen].
Definition ex_queue_replies : list (res reply) :=
  [Ok (YNum i0); Ok (YNum (i0 - 1)); Ok (YNum i0); Ok (YRange (i0 + 1, i0 + 4));
   Ok (YOpt (Some [x34])); Ok (YNum 4); Ok (YElems [(i0 + 3, [x35; x36]); (i0 + 2, []); (i0, [x31]); (i0 - 1, [x32])]);
   Ok (YBool true); Ok (YElem (Some (i0 + 3, [x35; x36]))); Ok (YElem (Some (i0 + 2, []))); Ok (YNum (i0 + 3));
   Ok (YElem (Some (i0 - 1, [x32]))); Ok (YElems [(i0, [x31]); (i0 + 2, []); (i0 + 3, [x39])]); Ok (YOpt None);
   Ok (YBool true); Ok (YNum 0)].
Example C28_example : exists es cfg' s', created ex_cfg (new_store ex_cfg) /\
  hist (queue_guard qa) ex_cfg (new_store ex_cfg) es cfg' s' /\ length es = 19%nat /\ replies es = ex_queue_replies.
Proof.
  exists (gevents (queue_gb qa) ex_cfg ex_queue), (gcfg (queue_gb qa) ex_cfg ex_queue), (gstore (queue_gb qa) ex_cfg ex_queue).
  destruct (gscript0_ok (queue_gb qa) (queue_guard qa) ex_cfg ex_queue (queue_gb_ok qa) ex_cfg_ok) as (H1 & H2 & _).
  - by repeat constructor.
  - by vm_cast_no_check (eq_refl true).
  - split; [exact H1|]. split; [exact H2|]. split; [by vm_cast_no_check (eq_refl 19%nat)|by vm_cast_no_check (eq_refl ex_queue_replies)].
Qed.

(** ** Non-vacuity of C20, C29, C30, C31 *)
(** C20, C30: a crash after the record of the queue was updated and before the element is stored,
    a crash while popping, a rejected push. *)
Definition ex_queue2 : list gcmd :=
  [xq qa (QPush false [x31]); GCrash (CQueue qa (QPush false [x32])) 3; xq qa (QIter true); xq qa QLen;
   xq qa (QPush false too_long); xq qa (QPush true [x33]); xq qa (QIter true); xq qa QLen;
   GCrash (CQueue qa (QPop true)) 3; xq qa (QIter true); xq qa (QPush false [x34]);
   GCrash (CQueue qa QDiscard) 3; xq qa (QIter false); xq qa (QPop false); xq qa (QPeek true)].
Definition ex_queue2_replies : list (res reply) :=
  [Ok (YNum i0); Ok (YElems [(i0, [x31])]); Ok (YNum 2);
   Err (ECannotFit 1001 1000); Ok (YNum (i0 - 1)); Ok (YElems [(i0 - 1, [x33]); (i0, [x31])]); Ok (YNum 4);
   Ok (YElems [(i0, [x31])]); Ok (YNum (i0 + 3)); Ok (YElems [(i0 + 3, [x34]); (i0, [x31])]);
   Ok (YElem (Some (i0 + 3, [x34]))); Ok (YElem (Some (i0, [x31])))].
Example C30_example : exists es cfg' s', created ex_cfg (new_store ex_cfg) /\
  hist (queue_guard_lost qa) ex_cfg (new_store ex_cfg) es cfg' s' /\ length es = 15%nat /\ replies es = ex_queue2_replies.
Proof.
  exists (gevents (queue_gb_lost qa) ex_cfg ex_queue2), (gcfg (queue_gb_lost qa) ex_cfg ex_queue2), (gstore (queue_gb_lost qa) ex_cfg ex_queue2).
  destruct (gscript0_ok (queue_gb_lost qa) (queue_guard_lost qa) ex_cfg ex_queue2 (queue_gb_lost_ok qa) ex_cfg_ok) as (H1 & H2 & _).
  - by repeat constructor.
  - by vm_cast_no_check (eq_refl true).
  - split; [exact H1|]. split; [exact H2|]. split; [by vm_cast_no_check (eq_refl 15%nat)|by vm_cast_no_check (eq_refl ex_queue2_replies)].
Qed.
(** C31: values longer than one piece (65280 bytes), next to others. *)
Definition big_cfg : config := Config (siphash128 seed_aabbccdd) 1000000 300 0 16 true false.
Lemma big_cfg_ok : cfg_ok big_cfg. Proof. exact ex_cfg_ok. Qed.
Definition long_value : bytes := replicate (N.to_nat 66000) x41 ++ [x42].
Definition ex_big : list gcmd :=
  [xb qa (BSet [x31]); xb qa BGet; xb qb (BSet [x32]); xb qa (BSet [x33; x34]); xq la (QPush false [x35]);
   GCrash (CBig qb (BSet [x36])) 3; xb qa BGet; xb qa BRemove; xb qa BGet; xb qa BRemove].
Definition ex_big_replies : list (res reply) :=
  [Ok (YBool false); Ok (YOpt (Some [x31])); Ok (YBool false); Ok (YBool true); Ok (YNum i0);
   Ok (YOpt (Some [x33; x34])); Ok (YBool true); Ok (YOpt None); Ok (YBool false)].
Example C31_example : exists es cfg' s', created ex_cfg (new_store ex_cfg) /\
  hist (big_guard qa) ex_cfg (new_store ex_cfg) es cfg' s' /\ length es = 10%nat /\ replies es = ex_big_replies.
Proof.
  exists (gevents (big_gb qa) ex_cfg ex_big), (gcfg (big_gb qa) ex_cfg ex_big), (gstore (big_gb qa) ex_cfg ex_big).
  destruct (gscript0_ok (big_gb qa) (big_guard qa) ex_cfg ex_big (big_gb_ok qa) ex_cfg_ok) as (H1 & H2 & _).
  - by repeat constructor.
  - by vm_cast_no_check (eq_refl true).
  - split; [exact H1|]. split; [exact H2|]. split; [by vm_cast_no_check (eq_refl 10%nat)|by vm_cast_no_check (eq_refl ex_big_replies)].
Qed.
Example C31_long_example : big_accepts big_cfg qa (BSet long_value) /\ length (chunks (length long_value) (N.to_nat MAX_VALUE_SIZE) long_value) = 2%nat.
Proof.
  assert (len long_value = 66001) as Hl by (unfold len, long_value; rewrite app_length, replicate_length; cbn [length]; lia).
  split.
  - cbn [big_accepts]. split; [intros E; rewrite E in Hl; done|]. split; [rewrite Hl; done|]. intros w H1 H2.
    split; [by vm_cast_no_check (eq_refl (@None err))|]. apply (ins_err_mono _ _ (replicate (N.to_nat 65280) x00)).
    + unfold len at 2. rewrite replicate_length, N2Nat.id. exact H1.
    + by vm_cast_no_check (eq_refl (@None err)).
  - by vm_cast_no_check (eq_refl 2%nat).
Qed.

(** ** Counterexamples *)
(** C29: after the removal of the sole element the queue has the range [head = tail + 1]; the next
    pushed element is counted by queue_len, but neither iteration nor pop ever returns it. *)
Theorem C29_sole_element_refuted : happens
  [ECall (CQueue qa (QPush false [x31])) (Ok (YNum i0));
   ECall (CQueue qa (QRemove i0)) (Ok (YOpt (Some [x31])));
   ECall (CQueue qa (QPush false [x32])) (Ok (YNum i0));
   ECall (CQueue qa QLen) (Ok (YNum 1));
   ECall (CQueue qa (QIter true)) (Ok (YElems []));
   ECall (CQueue qa (QPop true)) (Ok (YElem None))].
Proof.
  happens_with [xq qa (QPush false [x31]); xq qa (QRemove i0); xq qa (QPush false [x32]); xq qa QLen; xq qa (QIter true); xq qa (QPop true)].
Qed.
(** C30: after a crash queue_len counts an element that does not exist, for ever. *)
Theorem C30_queue_len_refuted : happens
  [ECall (CQueue qa (QPush false [x31])) (Ok (YNum i0));
   ECrash (ACall (CQueue qa (QPush false [x32])));
   ECall (CQueue qa QLen) (Ok (YNum 2));
   ECall (CQueue qa (QIter true)) (Ok (YElems [(i0, [x31])]))].
Proof. happens_with [xq qa (QPush false [x31]); GCrash (CQueue qa (QPush false [x32])) 3; xq qa QLen; xq qa (QIter true)]. Qed.
(** C30: a crash in extend_queue leaves elements that are in no iteration but can be removed by
    index, and that a later rejected push makes visible. *)
Theorem C30_extend_refuted : happens
  [ECall (CQueue qa (QPush false [x31])) (Ok (YNum i0));
   ECrash (ACall (CQueue qa (QExtend [[x32]; [x33]])));
   ECall (CQueue qa (QIter true)) (Ok (YElems [(i0, [x31])]));
   ECall (CQueue qa (QPush false too_long)) (Err (ECannotFit 1001 1000));
   ECall (CQueue qa (QIter true)) (Ok (YElems [(i0, [x31]); (i0 + 1, [x32])]));
   ECall (CQueue qa (QRemove (i0 + 2))) (Ok (YOpt (Some [x33])))].
Proof.
  happens_with [xq qa (QPush false [x31]); GCrash (CQueue qa (QExtend [[x32]; [x33]])) 4; xq qa (QIter true);
                xq qa (QPush false too_long); xq qa (QIter true); xq qa (QRemove (i0 + 2))].
Qed.
(** C20: a rejected push is counted for ever. *)
Theorem C20_queue_len_refuted : happens
  [ECall (CQueue qa QLen) (Ok (YNum 0));
   ECall (CQueue qa (QPush false too_long)) (Err (ECannotFit 1001 1000));
   ECall (CQueue qa QLen) (Ok (YNum 1));
   ECall (CQueue qa (QIter true)) (Ok (YElems []))].
Proof. happens_with [xq qa QLen; xq qa (QPush false too_long); xq qa QLen; xq qa (QIter true)]. Qed.
(** C31: the empty value is stored as no value; the next call says that there was one. *)
Theorem C31_empty_value_refuted : happens
  [ECall (CBig qa (BSet [])) (Ok (YBool false));
   ECall (CBig qa BGet) (Ok (YOpt None));
   ECall (CBig qa BRemove) (Ok (YBool true))].
Proof. happens_with [xb qa (BSet []); xb qa BGet; xb qa BRemove]. Qed.
