(** Queue calls of many threads that only add and look (C53). *)
From Coq Require Import Sorted.
From Verif Require Import Base Hashing HashingProofs Fs Shard Router RouterPure Wpc Spec FileRep RowOps
  Compact Inv ShardOps Split Insert Open Merge Create Store Limits StoreRefine Kv Lists Queues Api Hist KvSpec
  HistInv KeySpace ListSpec ListRep ListProg ListHist ThmList QueueSpec QueueRep QueueProg QueueHist ThmQueue
  Conc ConcSpec ConcLin ConcLock ConcList ConcSeen ConcSess ConcListAll ConcQueue ConcReads.
Local Arguments u64_bytes : simpl never.
Local Arguments enc_rec : simpl never.

(** ** Specification *)
(** Every call on the queue acts as on a deque; the others leave it alone. *)
Definition queue_call (cfg : config) (qk : bytes) (q : elems) (c : call) (r : res reply) (q' : elems) : Prop := queue_step qk cfg q (ECall c r) cfg q'.
(** The calls on the queue add or look. *)
Definition queue_adds (cfg : config) (qk : bytes) (c : call) : Prop :=
  match c with
  | CQueue qk' qc => if bool_decide (qk' = qk) then qcall_accepts cfg qk qc /\
      match qc with QRemove _ | QPop _ | QDiscard => False | _ => True end else True
  | CBig k _ => k <> qk
  | _ => True
  end.

(** ** The state: the elements and the range in the record *)
Notation qstate := (elems * option (N * N))%type.
Implicit Types (M : kvmap) (l : qstate) (qc : qcall) (v : bytes) (h t n B : N).
(** Within the range nothing changes, and the range grows. *)
Definition qgrows (l l' : qstate) : Prop := forall h t, snd l = Some (h, t) ->
  exists h' t', snd l' = Some (h', t') /\ h' <= h /\ t <= t' /\ forall j, h <= j < t -> q_get (fst l') j = q_get (fst l) j.
Lemma qgrows_refl l : qgrows l l.
Proof. intros h t E. exists h, t. split; [done|]. split; [lia|]. by split; [lia|]. Qed.
Lemma qgrows_trans l1 l2 l3 : qgrows l1 l2 -> qgrows l2 l3 -> qgrows l1 l3.
Proof.
  intros H1 H2 h t E. destruct (H1 _ _ E) as (h' & t' & E' & A1 & A2 & A3). destruct (H2 _ _ E') as (h2 & t2 & E2 & B1 & B2 & B3).
  exists h2, t2. split; [done|]. split; [lia|]. split; [lia|]. intros j Hj. rewrite B3 by lia. by apply A3.
Qed.
Definition qtop (H : list qstate) (l : qstate) : Prop := l ∈ H /\ forall x, x ∈ H -> qgrows x l.
Definition qadd (cfg : config) (qk : bytes) (l : qstate) (c : call) (r : res reply) (l' : qstate) : Prop :=
  queue_call cfg qk (fst l) c r (fst l') /\ qgrows l l'.
Definition qlooks (qk : bytes) (c : call) : bool := match c with CQueue qk' (QIter _ | QPeek _) => bool_decide (qk' = qk) | _ => false end.
Definition qadd_seen (cfg : config) (qk : bytes) := rd_spec (qadd cfg qk) (qlooks qk).

Section inst.
  Context (cfg : config) (qk : bytes).
  Local Notation i := (lock_idx cfg (queue_ph cfg qk)).
  Local Notation K := (queue_keys qk).
  Local Notation T := (fun _ : kvmap => True).
  Local Notation TE := (fun (_ : err) (_ : kvmap) => True).
  Definition aR (B : N) (M : kvmap) (l : qstate) : Prop := qrep qk M (fst l) 0 (snd l) /\ qbud B (M !! queue_key qk).
  Definition aV (M : kvmap) (l : qstate) : Prop := forall h t j, snd l = Some (h, t) -> h <= j < t -> j < U64 ->
    @eq (option bytes) (M !! qitem_key qk j) (q_get (fst l) j).
  Local Notation G := (entries_ok cfg).
  Local Notation w := (queue_w qk).
  Local Notation spec := (qadd_seen cfg qk).
  Local Notation mid := (fun (_ : qstate) (_ : call) (_ : qstate) => False).
  Local Notation sess := (ss cfg i aR aV G w spec mid qtop).
  Local Notation ends := (ends_ok cfg i aR aV G w spec mid qtop).

  Lemma aV_loc M M' l : agree K M M' -> aV M l -> aV M' l.
  Proof. intros Ha HV h t j H1 H2 H3. rewrite (Ha (qitem_key qk j)) by auto with kne. by eapply HV. Qed.
  Lemma aR_loc B M M' l : agree K M M' -> aR B M l -> aR B M' l.
  Proof. intros Ha [HR HB]. split; [by eapply qrep_ext|]. by rewrite (Ha (queue_key qk)) by auto with kne. Qed.
  Lemma qrep_aV M l : qrep qk M (fst l) 0 (snd l) -> aV M l.
  Proof. intros [HC _] h t j _ _ Hj. by apply (qc_items _ _ _ HC). Qed.
  Lemma aR_aV B M l : aR B M l -> aV M l.
  Proof. intros [HR _]. by apply qrep_aV. Qed.
  Lemma aR_mono B B' M l : B <= B' -> aR B' M l -> aR B M l.
  Proof. intros HB [HR HJ]. split; [done|]. by eapply qbud_mono. Qed.
  Lemma aV_rec v M l : aV M l -> aV (<[queue_key qk := v]> M) l.
  Proof. intros HV h t j H1 H2 H3. rewrite lookup_insert_ne by kdiff. by eapply HV. Qed.
  Lemma aV_item v M l k : k < U64 -> (forall h t, snd l = Some (h, t) -> k < h \/ t <= k) -> aV M l -> aV (<[qitem_key qk k := v]> M) l.
  Proof.
    intros Hk Ho HV h t j H1 H2 H3. rewrite lookup_insert_ne; [by eapply HV|]. intros E. apply qitem_key_inj in E; [|done|done]. subst j. destruct (Ho _ _ H1); lia.
  Qed.
  (** The record afterwards. *)
  Definition rgrows (l : qstate) (M' : kvmap) : Prop := forall h t, snd l = Some (h, t) ->
    exists h' t' n', @eq (option bytes) (M' !! queue_key qk) (Some (enc_rec (LRec h' t' n'))) /\ h' < U64 /\ t' < U64 /\ n' < U64 /\ h' <= h /\ t <= t'.
  Lemma rgrows_rec h t n l M : h < U64 -> t < U64 -> n < U64 -> (forall h0 t0, snd l = Some (h0, t0) -> h <= h0 /\ t0 <= t) -> rgrows l (<[queue_key qk := enc_rec (LRec h t n)]> M).
  Proof. intros A1 A2 A3 A4 h0 t0 E. destruct (A4 _ _ E). exists h, t, n. by rewrite lookup_insert. Qed.
  Lemma rgrows_off k v l M : k <> queue_key qk -> rgrows l M -> rgrows l (<[k := v]> M).
  Proof. intros Hk Hg h t E. rewrite lookup_insert_ne by done. by apply Hg. Qed.
  Lemma grows_ok M M' l q' rng' : qrep qk M (fst l) 0 (snd l) -> aV M' l -> rgrows l M' -> qrep qk M' q' 0 rng' -> qgrows l (q', rng').
  Proof.
    intros [_ HR] HV Hg [HC' HR'] h t E. rewrite E in HR. destruct HR as (_ & H1 & H2 & _). destruct (Hg _ _ E) as (h' & t' & n' & Er & A1 & A2 & A3 & A4 & A5).
    destruct rng' as [[h2 t2]|]; [|destruct HR' as [HR' _]; rewrite HR' in Er; done]. destruct HR' as (Er2 & B1 & B2 & B3 & B4).
    rewrite Er2 in Er. apply (inj Some) in Er. apply (f_equal dec_rec) in Er. rewrite !dec_enc_rec in Er by lia. injection Er as <- <- _.
    exists h2, t2. split; [done|]. split; [done|]. split; [done|]. intros j Hj. cbn [fst]. rewrite <- (qc_items _ _ _ HC' j) by lia. apply (HV _ _ _ E); lia.
  Qed.

  Lemma push_grows v at_head M l : qrep qk M (fst l) 0 (snd l) ->
    kwp cfg (push_to_queue cfg qk v at_head) (fun M' => aV M' l) (fun _ M' => aV M' l /\ rgrows l M') TE M.
  Proof.
    intros HR. pose proof (qrep_aV _ _ HR) as HV. destruct HR as [_ HR]. unfold push_to_queue. apply kwp_locked, kwp_bind.
    assert (Hend : forall (idx : N) M1, idx < U64 -> (forall h t, snd l = Some (h, t) -> idx < h \/ t <= idx) -> aV M1 l -> rgrows l M1 ->
      kwp cfg (dok _ <- kset (qitem_key qk idx) v; KRet idx) (fun M' => aV M' l) (fun _ M' => aV M' l /\ rgrows l M') TE M1).
    { intros idx M1 H1 H2 H3 H4. assert (aV (<[qitem_key qk idx := v]> M1) l) by by apply aV_item. apply kwp_bind, kwp_set_C; [auto with kne|done|done|]. intros _. apply kwp_ret; [done|]. split; [done|].
      apply rgrows_off; [kdiff|done]. }
    destruct (snd l) as [[h t]|] eqn:El.
    - destruct HR as (Hr & H1 & H2 & H3 & H4). apply kwp_goc2; [auto with kne|done|done| |].
      2:{ intros _ E. rewrite E in Hr. done. }
      intros qb _ Eqb. rewrite Eqb in Hr. injection Hr as ->. apply kwp_bind. apply kwp_bind. eapply kwp_lift_ok; [apply dec_enc_rec; lia|done|]. apply kwp_bind. cbn [l_head l_tail l_num].
      assert (Hrec : forall idx h' t', idx < U64 -> idx < h \/ t <= idx -> h' < U64 -> t' < U64 -> h' <= h -> t <= t' ->
        kwp cfg (dok num <- klift (inc64 (len (fst l) + 0)); dok _ <- kset (queue_key qk) (enc_rec (LRec h' t' num)); KRet idx) (fun M' => aV M' l)
          (fun a M' => kwp cfg (dok _ <- kset (qitem_key qk a) v; KRet a) (fun M' => aV M' l) (fun _ M' => aV M' l /\ rgrows l M') TE M') TE M).
      { intros idx h' t' B1 B2 B3 B4 B5 B6. apply kwp_bind, kwp_lift_C; [done|]. intros num Hn. apply inc64_inv in Hn as [-> Hn].
        assert (forall x, aV (<[queue_key qk := x]> M) l) by (intros x; by apply aV_rec). apply kwp_bind, kwp_set_C; [auto with kne|done|done|]. intros _. apply kwp_ret; [done|].
        apply Hend; [done| |done|].
        - intros h0 t0 E. try rewrite El in E. injection E as <- <-. done.
        - apply rgrows_rec; [done|done|done|]. intros h0 t0 E. try rewrite El in E. injection E as <- <-. done. }
      destruct at_head.
      + apply kwp_bind, kwp_lift_C; [done|]. intros h' Hh. apply dec64_inv in Hh. apply kwp_ret; [done|]. apply Hrec; lia.
      + apply kwp_bind, kwp_lift_C; [done|]. intros t' Ht. apply inc64_inv in Ht as [-> Ht]. apply kwp_ret; [done|]. apply Hrec; lia.
    - destruct HR as (Hr & _). apply kwp_goc2; [auto with kne|done|done| |].
      { intros qb _ E. rewrite E in Hr. done. }
      assert (forall M', aV M' l) as HVn by (intros M' h t j E; congruence). intros _ _. split; [apply HVn|]. cbn [kbind]. apply Hend; [done| |apply HVn|].
      + intros h t E. congruence.
      + intros h t E. congruence.
  Qed.
  Lemma extend_items_grows vs l : forall t n M, (forall h0 t0, snd l = Some (h0, t0) -> t0 <= t) -> t < U64 -> aV M l -> kwp cfg (extend_items qk vs t n) (fun M' => aV M' l)
    (fun tn M' => aV M' l /\ t <= fst tn) TE M.
  Proof.
    induction vs as [|v vs IH]; intros t n M Ht Ht2 HV; cbn [extend_items].
    - apply kwp_ret; [done|]. split; [done|]. cbn [fst]. lia.
    - assert (aV (<[qitem_key qk t := v]> M) l) as HV'. { apply aV_item; [done| |done]. intros h0 t0 E. right. by eapply Ht. }
      apply kwp_bind, kwp_set_C; [auto with kne|done|done|]. intros _. apply kwp_bind, kwp_lift_C; [done|]. intros t' Et. apply inc64_inv in Et as [-> Et].
      apply kwp_bind, kwp_lift_C; [done|]. intros n' En. apply inc64_inv in En as [-> En]. eapply kwp_mono; [| | |apply (IH (t + 1) (n + 1))]; [done| |done| |done|done].
      + intros tn M' _ [K1 K2]. split; [done|lia].
      + intros h0 t0 E. specialize (Ht _ _ E). lia.
  Qed.
  Lemma extend_grows vs M l : qrep qk M (fst l) 0 (snd l) -> qbud (len vs) (M !! queue_key qk) ->
    kwp cfg (extend_queue cfg qk vs) (fun M' => aV M' l) (fun _ M' => aV M' l /\ rgrows l M') TE M.
  Proof.
    intros HR HB. pose proof (qrep_aV _ _ HR) as HV. destruct HR as [_ HR]. unfold extend_queue. apply kwp_locked, kwp_bind.
    destruct (snd l) as [[h t]|] eqn:El.
    - destruct HR as (Hr & H1 & H2 & H3 & H4). apply kwp_goc2; [auto with kne|done|done| |].
      2:{ intros _ E. rewrite E in Hr. done. }
      intros qb _ Eqb. rewrite Eqb in Hr. injection Hr as ->. rewrite Eqb in HB. cbn [goc_value]. apply kwp_bind. eapply kwp_lift_ok; [apply dec_enc_rec; lia|done|]. cbn [l_head l_tail l_num].
      destruct HB as (_ & h' & t' & n' & E & A1 & A2 & A3 & A4 & A5). apply (f_equal dec_rec) in E. rewrite !dec_enc_rec in E by lia. injection E as <- <- <-.
      apply kwp_bind. eapply kwp_mono; [| | |apply (kwp_and _ _ _ _ _ _ _ _ _ (extend_items_grows vs l t (len (fst l) + 0) M ltac:(intros h0 t0 E; try rewrite El in E; injection E as <- <-; lia) H2 HV) (extend_items_header cfg qk vs t (len (fst l) + 0) M))].
      + by intros M' [? _].
      + intros tn M2 _ ((K1 & K2) & (_ & -> & K3)). cbn [fst] in K2. assert (forall x, aV (<[queue_key qk := x]> M2) l) as K4 by (intros x; by apply aV_rec).
        apply kwp_bind, kwp_set_C; [auto with kne|done|done|]. intros _. apply kwp_ret; [done|]. split; [done|]. apply rgrows_rec; [lia|lia|lia|].
        intros h0 t0 E. try rewrite El in E. injection E as <- <-. lia.
      + done.
    - assert (forall M', aV M' l) as HVn by (intros M' h t j E; congruence). assert (forall M', rgrows l M') as Hgn by (intros M' h t E; congruence).
      assert (Hmain : forall b M1, kwp cfg (dok r <- klift (dec_rec b); dok (tail, num) <- extend_items qk vs (l_tail r) (l_num r);
        dok _ <- kset (queue_key qk) (enc_rec (LRec (l_head r) tail num)); KRet (l_tail r, tail)) (fun M' => aV M' l) (fun _ M' => aV M' l /\ rgrows l M') TE M1).
      { intros b M1. apply kwp_bind, kwp_lift_C; [done|]. intros r _. apply kwp_bind. eapply kwp_mono; [| | |apply (extend_items_header cfg qk)]; [intros; apply HVn| |done].
        intros tn M2 _ _. destruct tn as [tl nm]. apply kwp_bind, kwp_set_C; [auto with kne|done|done|]. intros _. by apply kwp_ret. }
      apply kwp_goc2; [auto with kne|done|done| |]; intros; [apply Hmain|split; [done|apply Hmain]].
  Qed.

  Lemma aw_qk qc : w (CQueue qk qc) = qcall_adds qc.
  Proof. cbn. by rewrite bool_decide_eq_true_2. Qed.
  Lemma spec_add (H : list qstate) l qc y l' : qlooks qk (CQueue qk qc) = false -> queue_spec (fst l) qc y (fst l') -> qgrows l l' -> spec H l (CQueue qk qc) (Ok y) l'.
  Proof. intros Hl Hs Hg. unfold qadd_seen, rd_spec. rewrite Hl. split; [|done]. cbn. rewrite bool_decide_eq_true_2 by done. by exists y. Qed.
  Lemma spec_look (H : list qstate) l l0 qc y : qlooks qk (CQueue qk qc) = true -> l0 ∈ H -> queue_spec (fst l0) qc y (fst l0) -> spec H l (CQueue qk qc) (Ok y) l.
  Proof.
    intros Hl Hin Hs. unfold qadd_seen, rd_spec. rewrite Hl. split; [done|]. exists l0. split; [done|]. split; [|apply qgrows_refl]. cbn. rewrite bool_decide_eq_true_2 by done. by exists y.
  Qed.
  Lemma spec_mono (H H' : list qstate) l c r l' : H ⊆ H' -> spec H l c r l' -> spec H' l c r l'.
  Proof. intros Hs. unfold qadd_seen, rd_spec. destruct (qlooks qk c); [|done]. intros [-> (l0 & H1 & H2)]. split; [done|]. exists l0. split; [by apply Hs|done]. Qed.
  Lemma qtop_one l : qtop [l] l.
  Proof. split; [by apply elem_of_list_singleton|]. intros x Hx. apply elem_of_list_singleton in Hx as ->. apply qgrows_refl. Qed.
  Lemma qtop_in H l : qtop H l -> l ∈ H. Proof. by intros [? _]. Qed.
  Lemma qtop_push H l l' : qtop H l -> moves spec mid l l' -> qtop (l' :: H) l'.
  Proof.
    intros [H1 H2] Hm. assert (qgrows l l') as Hg.
    { destruct Hm as [->|[(H0 & c & r & Hs)|[c []]]]; [apply qgrows_refl|]. unfold qadd_seen, rd_spec in Hs. destruct (qlooks qk c); [destruct Hs as [-> _]; apply qgrows_refl|apply Hs]. }
    split; [apply elem_of_cons; by left|]. intros x Hx. apply elem_of_cons in Hx as [->|Hx]; [apply qgrows_refl|]. eapply qgrows_trans; [by apply H2|done].
  Qed.

  Lemma asess_section {A : Type} qc (H : list qstate) (p : kprog A) (f : A -> kprog reply) (Q : N -> qstate -> A -> kvmap -> Prop) (IK : bytes -> Prop) :
    qsection cfg qk IK p ->
    (forall H' B l x M', H ⊆ H' -> qtop H' l -> Q B l x M' -> ends (CQueue qk qc) H' l B (f x) M') ->
    (forall B l M, G M -> aR (B + qcall_adds qc) M l -> kwp cfg p (fun M' => aV M' l) (Q B l) (fun _ _ => False) M) ->
    sess (CQueue qk qc) H (kbind p f) Out.
  Proof.
    intros (b & -> & H1 & H2) H4 H5.
    eapply (ss_section cfg i aR aV G w spec mid qtop aR_aV IK (CQueue qk qc) H (queue_ph cfg qk) b f (fun l M' => aV M' l) Q); [done|done|done|exact H4|].
    intros B M q HG HR. rewrite aw_qk in HR. eapply kwp_locked_inv. by apply H5.
  Qed.
  (** The calls that hold the lock throughout. *)
  Lemma asess_own {A : Type} (IK : bytes -> Prop) qc (H : list qstate) (p : kprog A) (f : A -> kprog reply) :
    qlocked qc = true -> match qc with QPop _ | QDiscard => False | _ => True end -> qcall_accepts cfg qk qc ->
    keq (kbind p f) (queue_prog cfg qk qc) -> qsection cfg qk IK p -> (forall x, exists r, f x = klift r) ->
    (forall l M, qrep qk M (fst l) 0 (snd l) -> qbud (qcall_adds qc) (M !! queue_key qk) ->
      kwp cfg p (fun M' => aV M' l) (fun _ M' => aV M' l /\ rgrows l M') (fun _ _ => True) M) ->
    (forall B M, qbud (B + qcall_adds qc) (M !! queue_key qk) -> kwp cfg p (fun _ => True) (fun _ M' => qbud B (M' !! queue_key qk)) (fun _ _ => True) M) ->
    sess (CQueue qk qc) H (queue_prog cfg qk qc) Out.
  Proof.
    intros Hlc Hnp Hacc Hk Hs Hf HC HJ. eapply ss_ext; [exact Hk|].
    eapply (asess_section qc H p f (fun B l x M' => kwp cfg (f x) (fun _ => True) (fun y M' => exists l', queue_spec (fst l) qc y (fst l') /\ qgrows l l' /\ aR B M' l') (fun _ _ => False) M')).
    - exact Hs.
    - intros H' B l x M' _ Hl Hw. left. destruct (Hf x) as [r Er]. rewrite Er in *. destruct r as [y|e]; cbn [klift kwp] in Hw; destruct Hw as [_ Hw]; [|done].
      destruct Hw as (l' & K1 & K2 & K3). exists (Ok y), l'. split; [done|]. split; [|done]. apply spec_add; [by destruct qc|done|done].
    - intros B l M HG [HR HB]. pose proof (qbud_room qk B M (fst l) (snd l) _ HR HB) as Hroom.
      assert (qok (snd l) (fst l) 0 qc) as Hok by (split; [done|by destruct qc]).
      pose proof (queue_kwp cfg qk M (fst l) 0 (snd l) qc HR (fun _ => conj HG Hok) (fun _ => Hacc)) as Hw. eapply kwp_ext in Hw; [|apply keq_sym, Hk]. apply kwp_bind_inv in Hw.
      assert (qbud (qcall_adds qc) (M !! queue_key qk)) as HB0 by (eapply qbud_mono; [|exact HB]; lia).
      eapply kwp_mono; [| | |exact (kwp_and _ _ _ _ _ _ _ _ _ (HC l M HR HB0) (kwp_and _ _ _ _ _ _ _ _ _ Hw (HJ B M HB)))].
      + by intros M' [? _].
      + intros x M' _ ((HV' & Hg') & Hx & HB'). destruct (Hf x) as [r Er]. rewrite Er in *. destruct r as [y|e]; cbn [klift kwp] in *; destruct Hx as [_ Hx]; (split; [done|]).
        * destruct Hx as (q' & lost' & rng' & K1 & K2 & K3). assert (lost' = 0) as -> by lia. exists (q', rng'). cbn [fst snd]. split; [by apply queue_spec_0|]. split; [by eapply grows_ok|]. by split.
        * destruct Hx as (_ & K & _). by apply K.
      + intros e M2 _ (_ & (_ & K & _) & _). by apply K.
  Qed.
  Lemma fetch_grows M l : qrep qk M (fst l) 0 (snd l) -> kwp cfg (fetch_queue cfg qk) (fun M' => aV M' l) (fun _ M' => aV M' l /\ rgrows l M') TE M.
  Proof.
    intros HR. apply (kwp_fetch cfg qk M (fst l) 0 (snd l)); [done|by apply qrep_aV|]. split; [by apply qrep_aV|]. destruct HR as [_ HR]. intros h t E. rewrite E in HR.
    destruct HR as (Hr & H1 & H2 & H3 & H4). exists h, t, (len (fst l) + 0). split; [done|]. lia.
  Qed.
  Lemma aown_calls qc H : qlocked qc = true -> match qc with QPop _ | QDiscard => False | _ => True end -> qcall_accepts cfg qk qc -> sess (CQueue qk qc) H (queue_prog cfg qk qc) Out.
  Proof.
    intros Hlc Hnp Hacc. destruct qc as [at_head v|vs|at_head|j| |fwd|fwd| |]; try done.
    - eapply (asess_own (qitem_keys qk) (QPush at_head v) H (push_to_queue cfg qk v at_head) (fun a => KRet (YNum a))); [done|done|done|apply keq_refl|apply push_section| | |].
      + intros x. by eexists (Ok _).
      + intros l M HR _. by apply push_grows.
      + intros B M HB. by apply push_header.
    - eapply (asess_own (fun _ => False) (QExtend vs) H (extend_queue cfg qk vs) (fun a => KRet (YRange a))); [done|done|done|apply keq_refl|apply extend_section| | |].
      + intros x. by eexists (Ok _).
      + intros l M HR HB. by apply extend_grows.
      + intros B M HB. by apply extend_header.
    - eapply (asess_own (fun _ => False) QLen H (fetch_queue cfg qk) (fun r => KRet (YNum (match r with None => 0 | Some r => l_num r end)))); [done|done|done|apply keq_sym, keq_assoc|apply fetch_section| | |].
      + intros x. by eexists (Ok _).
      + intros l M HR _. by apply fetch_grows.
      + intros B M HB. eapply kwp_mono; [| | |apply fetch_T]; [done| |done]. intros ? M' _ ->. eapply qbud_mono; [|exact HB]. lia.
    - eapply (asess_own (fun _ => False) QRange H (fetch_queue cfg qk) (fun r => KRet (YRange (match r with None => (FIRST_IDX, FIRST_IDX) | Some r => (l_head r, l_tail r) end)))); [done|done|done|apply keq_sym, keq_assoc|apply fetch_section| | |].
      + intros x. by eexists (Ok _).
      + intros l M HR _. by apply fetch_grows.
      + intros B M HB. eapply kwp_mono; [| | |apply fetch_T]; [done| |done]. intros ? M' _ ->. eapply qbud_mono; [|exact HB]. lia.
  Qed.

  (** Looking at the elements outside the lock. *)
  Lemma asess_fetch qc (H : list qstate) (f : option lrec -> kprog reply) : qcall_adds qc = 0 ->
    (forall H' l, H ⊆ H' -> l ∈ H' ->
      (exists M, qrep qk M (fst l) 0 (snd l)) ->
      sess (CQueue qk qc) H' (f ((fun r => LRec (fst r) (snd r) (len (fst l) + 0)) <$> snd l)) Out) -> sess (CQueue qk qc) H (kbind (fetch_queue cfg qk) f) Out.
  Proof.
    intros Hz Hf. eapply (asess_section qc H (fetch_queue cfg qk) f (fun B l r M' => aR B M' l /\ r = ((fun r => LRec (fst r) (snd r) (len (fst l) + 0)) <$> snd l))).
    - apply fetch_section.
    - intros H' B l x M' Hs Hl [HR ->]. right. exists l. split; [by left|]. rewrite aw_qk, Hz, N.add_0_r. split; [done|]. apply Hf; [etransitivity; [exact Hs|apply sub_tail]|apply elem_of_cons; by left|].
      exists M'. apply HR.
    - intros B l M HG HRR. rewrite Hz, N.add_0_r in HRR. pose proof HRR as [HR HB]. apply (kwp_fetch cfg qk M (fst l) 0 (snd l)); [done|by apply qrep_aV|]. by split.
  Qed.
  Lemma asess_get c (H : list qstate) l h t (j : N) (f : option bytes -> kprog reply) : l ∈ H -> snd l = Some (h, t) -> h <= j < t -> j < U64 ->
    (forall H', H ⊆ H' -> sess c H' (f (q_get (fst l) j)) Out) -> sess c H (kbind (kop1 (KGet (qitem_key qk j))) f) Out.
  Proof.
    intros Hl El Hj Hj2 Hf. cbn [kop1 kbind ss]. intros H' M l2 Hs [_ Ht] HV. destruct (Ht l (Hs _ Hl) _ _ El) as (h' & t' & E' & A1 & A2 & A3).
    rewrite (HV _ _ _ E') by lia. rewrite A3 by lia. by apply Hf.
  Qed.
  Lemma asess_iter c l h t js : snd l = Some (h, t) -> (forall j, j ∈ js -> h <= j < t /\ j < U64) -> forall (H : list qstate) (f : elems -> kprog reply), l ∈ H ->
    (forall H', H ⊆ H' -> sess c H' (f (omap (q_elem (fst l)) js)) Out) ->
    sess c H (kbind (iter_qitems qk js) f) Out.
  Proof.
    intros El. induction js as [|j js IH]; intros Hj H f Hl Hf; cbn [iter_qitems kbind].
    - by apply Hf.
    - assert (forall i, i ∈ js -> h <= i < t /\ i < U64) as Hj' by (intros i Hi; apply Hj; by right).
      destruct (Hj j) as [Hj1 Hj2]; [by left|].
      eapply ss_ext; [apply keq_sym, keq_assoc|]. eapply asess_get; [exact Hl|exact El|done|done|]. intros H' Hs. cbn [omap list_omap] in Hf. unfold q_elem at 1 in Hf.
      destruct (q_get (fst l) j) as [v|]; cbn [fmap option_fmap option_map] in Hf.
      + eapply ss_ext; [apply keq_sym, keq_assoc|]. cbn [kbind]. apply IH; [done|by apply Hs|]. intros H2 Hs2. apply Hf. by etransitivity.
      + apply IH; [done|by apply Hs|]. intros H2 Hs2. apply Hf. by etransitivity.
  Qed.
  Lemma asess_peek c l h t js : snd l = Some (h, t) -> (forall j, j ∈ js -> h <= j < t /\ j < U64) -> forall (H : list qstate) (f : option (N * bytes) -> kprog reply), l ∈ H ->
    (forall H', H ⊆ H' -> sess c H' (f (head (omap (q_elem (fst l)) js))) Out) ->
    sess c H (kbind (peek_qitems qk js) f) Out.
  Proof.
    intros El. induction js as [|j js IH]; intros Hj H f Hl Hf; cbn [peek_qitems kbind].
    - by apply Hf.
    - assert (forall i, i ∈ js -> h <= i < t /\ i < U64) as Hj' by (intros i Hi; apply Hj; by right).
      destruct (Hj j) as [Hj1 Hj2]; [by left|].
      eapply ss_ext; [apply keq_sym, keq_assoc|]. eapply asess_get; [exact Hl|exact El|done|done|]. intros H' Hs. cbn [omap list_omap] in Hf. unfold q_elem at 1 in Hf.
      destruct (q_get (fst l) j) as [v|]; cbn [fmap option_fmap option_map] in Hf.
      + cbn [kbind]. by apply Hf.
      + apply IH; [done|by apply Hs|]. intros H2 Hs2. apply Hf. by etransitivity.
  Qed.
  Lemma queue_adds_all c : queue_adds cfg qk c ->
    mine cfg i K F0 aR aV G w spec mid qtop c (call_prog cfg c) \/ rdr cfg aV spec qtop c (call_prog cfg c) \/ oth K spec c (call_prog cfg c).
  Proof.
    intros Hok. assert ((exists qc, c = CQueue qk qc) \/ forall qc, c <> CQueue qk qc) as [[qc ->]|Hn].
    { destruct c as [o|tid o|lk' lc|qk' qc|b bc]; try (right; done). destruct (decide (qk' = qk)) as [->|]; [left; eauto|right; congruence]. }
    - cbn [queue_adds] in Hok. rewrite bool_decide_eq_true_2 in Hok by done. destruct Hok as [Hacc Hd]. left. split; [apply queue_local|]. intros q.
      assert ((qlocked qc = true) \/ qlocked qc = false) as [Hlc|Hlc] by (destruct (qlocked qc); auto).
      { apply aown_calls; [done| |done]. by destruct qc. }
      destruct qc as [at_head v|vs|at_head|j| |fwd|fwd| |]; try done; cbn [call_prog queue_prog]; unfold kmap.
      + unfold iter_queue. eapply ss_ext; [apply keq_sym, keq_assoc|]. apply asess_fetch; [done|]. intros H' l Hs Hl [M [HC HR]].
        assert (Hfin : forall H2, H' ⊆ H2 -> sess (CQueue qk (QIter fwd)) H2 (KRet (YElems (if fwd then fst l else rev (fst l)))) Out).
        { intros H2 Hs2. cbn [ss]. intros H3 l3 Hs3 _. apply (spec_look _ _ l); [cbn; by apply bool_decide_eq_true_2|by apply Hs3, Hs2|done]. }
        destruct (snd l) as [[h t]|] eqn:El; cbn [fmap option_fmap option_map kbind fst snd l_head l_tail].
        * destruct HR as (Hr & H1 & H2 & H3 & H4). eapply asess_iter; [exact El| |exact Hl|].
          -- intros j Hj. apply idx_order_in in Hj. lia.
          -- rewrite enum_qorder; [exact Hfin|apply (qc_sorted _ _ _ HC)|done].
        * destruct HR as (_ & E & _). rewrite E in Hfin. destruct fwd; by apply Hfin.
      + unfold peek_queue. eapply ss_ext; [apply keq_sym, keq_assoc|]. apply asess_fetch; [done|]. intros H' l Hs Hl [M [HC HR]].
        assert (Hfin : forall H2, H' ⊆ H2 -> sess (CQueue qk (QPeek fwd)) H2 (KRet (YElem (q_end fwd (fst l)))) Out).
        { intros H2 Hs2. cbn [ss]. intros H3 l3 Hs3 _. apply (spec_look _ _ l); [cbn; by apply bool_decide_eq_true_2|by apply Hs3, Hs2|done]. }
        destruct (snd l) as [[h t]|] eqn:El; cbn [fmap option_fmap option_map kbind fst snd l_head l_tail].
        * destruct HR as (Hr & H1 & H2 & H3 & H4). eapply asess_peek; [exact El| |exact Hl|].
          -- intros j Hj. apply idx_order_in in Hj. lia.
          -- rewrite enum_qorder; [|apply (qc_sorted _ _ _ HC)|done]. unfold q_end in Hfin. destruct fwd; [exact Hfin|]. by rewrite head_rev.
        * destruct HR as (_ & E & _). rewrite E in Hfin. destruct fwd; by apply Hfin.
    - right. right. split.
      + exists (call_keys cfg c). split; [apply call_writes|]. intros k Hk Hk2. destruct (call_keys_queue cfg c qk k Hk Hk2) as [[c' ->]|[c' ->]]; [by destruct (Hn c')|done].
      + intros H l r. unfold qadd_seen, rd_spec. assert (qlooks qk c = false) as ->.
        { destruct c as [o|tid o|lk' lc|qk' qc|b bc]; try done. cbn. destruct qc; try done; apply bool_decide_eq_false_2; intros ->; by eapply Hn. }
        split; [|apply qgrows_refl]. destruct c as [o|tid o|lk' lc|qk' qc|b bc]; try done. cbn. rewrite bool_decide_eq_false_2; [done|]. intros ->. by destruct (Hn qc).
  Qed.
  (** Every concurrent run on the abstract map. *)
  Lemma lin_queue_adds M es A l : arun cfg (AS M ∅ ∅) es A -> (forall a c, EvCall a c ∈ es -> queue_adds cfg qk c) ->
    entries_ok cfg M -> aR (weight w es) M l ->
    exists l' P, lrun (queue_call cfg qk) (fst l) ∅ es (fst l') P /\ (a_ths A = ∅ -> aR 0 (a_map A) l' /\ P = ∅).
  Proof.
    intros Ha Hok HG HR.
    destruct (lin_sess cfg i K F0 (F0_ok qk) aR aV G w spec mid (queue_adds cfg qk) qtop (entries_step cfg) aR_loc aV_loc aR_aV qtop_one qtop_in qtop_push spec_mono queue_adds_all
      _ _ _ Ha l ∅ (weight w es) None []) as (l' & P' & B' & md & X & L1 & L2 & L3 & L4 & L5).
    - done.
    - done.
    - exact HR.
    - intros a. cbn [a_ths]. by rewrite !lookup_empty.
    - cbn [total]. lia.
    - apply hrun_rd in L1. exists l', (forget <$> P'). split.
      + eapply (lrun_view fst); [|exact L1]. intros l1 c r l2 Hs. apply Hs.
      + intros Ht. destruct md as [a|].
        * destruct L3 as (c & H & p & B0 & E & _). by rewrite Ht, lookup_empty in E.
        * cbn [modes] in L3. split; [eapply aR_mono; [|exact L3]; lia|]. assert (P' = ∅) as ->; [|apply fmap_empty]. apply map_eq. intros a. rewrite lookup_empty. specialize (L4 a). rewrite Ht, lookup_empty in L4.
          by destruct (P' !! a) as [[]|].
  Qed.
End inst.
