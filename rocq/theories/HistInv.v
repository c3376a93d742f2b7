(** Lifting of step-wise properties of the abstract map to histories of the store. *)
From Verif Require Import Base Hashing HashingProofs Fs Shard Router RouterPure Wpc Spec FileRep RowOps
  Compact Inv ShardOps Split Insert Open Merge Create Store Limits StoreRefine Kv Api Hist KvSpec.
Implicit Types (M : kvmap).

Lemma open_ok (cfg : config) (x : bool) M (w : fs) :
  DiskInv cfg x M w -> disk_room w ->
  exists w' s, store_open cfg w = (w', Ok s) /\ SInv cfg x M s.
Proof.
  intros H1 H2. pose proof (open_wpc cfg x M w H1 H2) as Hw. apply wpc_sound in Hw as [_ Hw].
  unfold store_open. destruct (run (router_new cfg) w) as [w' [r|e]]; [|by destruct Hw].
  exists w', (Store r w'). split; [done|]. apply Hw.
Qed.
Lemma recovers_ok (cfg : config) (w : fs) (s : store) : recovers cfg w s ->
  forall M, DiskInv cfg false M w -> SInv cfg false M s.
Proof.
  induction 1 as [w w' s Hr Ho|w cfg1 n s Hr Hc Hrec IH]; intros M HD.
  - destruct (open_ok cfg false M w HD Hr) as (w1 & s1 & Ho1 & HI). congruence.
  - apply IH. apply (DiskInv_cfg cfg1 cfg); [done|].
    pose proof (open_wpc cfg1 false M w ltac:(by apply (DiskInv_cfg cfg cfg1)) Hr) as Hw.
    apply wpc_sound in Hw as [Hw _]. apply Hw.
Qed.

Lemma maint_wpc (cfg : config) x M (s : store) m :
  SInv cfg x M s -> maint_fits cfg s m ->
  wpc (maint_prog cfg m (st_root s)) (DiskInv cfg false M)
      (fun a w' => Inv cfg x M (fst a) w')
      (fun e => match m with MMerge _ => merge_err x e | _ => False end) (st_fs s).
Proof.
  intros HI Hf. destruct m as [sel|sel| |mf]; cbn [maint_prog maint_fits] in *.
  - by apply bg_row_wpc.
  - by apply bg_finish_wpc.
  - destruct HI as (Hwf & Hrun). apply wpc_bind.
    apply (router_stats_spec cfg x M _ (st_root s) (st_fs s) 0 16); auto.
    { intros w' HC. by eapply leafC_disk'. }
    intros w' r' l HQ _ _ _. apply Inv_leafQ in HQ as [_ HI].
    apply wpc_ret; [by eapply Inv_disk'|done].
  - destruct Hf as [Hf1 Hf2]. destruct (Hf1 M) as [Hf3 Hf4]; [by eapply SInv_content|].
    apply wpc_bind. eapply wpc_mono; [| | |by apply (merge_wpc cfg x M (st_root s) (st_fs s) mf)]; [done| |done].
    intros [r b] w' HC [HQ _]. by apply wpc_ret.
Qed.

Lemma created_ok cfg s : created cfg s -> SInv cfg true ∅ s.
Proof.
  intros (Hc & w & w' & (H1 & H2 & H3) & Ho).
  assert (wf w) as Hwf.
  { constructor.
    - done.
    - intros a i Ha. by apply H3 in Ha as [Ha _].
    - intros a i Ha. by apply H3 in Ha as [_ Ha].
    - intros a b [[i Hi]|[i Hi]]; destruct (H1 a b) as [E1 E2]; congruence. }
  assert (nocore w) as Hn.
  { unfold nocore. intros a b. apply H1. }
  pose proof (open_fresh_wpc cfg w Hwf Hn Hc) as Hw. apply wpc_sound in Hw as [_ Hw].
  unfold store_open in Ho. destruct (run (router_new cfg) w) as [w1 [r|e]]; [|done].
  injection Ho as <- <-. apply Hw.
Qed.

Lemma hstep_cfg cfg s e cfg' s' : hstep cfg s e cfg' s' -> cfg_step cfg e cfg'.
Proof. by destruct 1. Qed.

Section lift.
Context {A : Type} (I : config -> kvmap -> A -> Prop) (T : config -> A -> event -> config -> A -> Prop)
        (G : config -> store -> event -> Prop).

Record lifts : Prop := Lifts {
  lf_cfg : forall cfg cfg' M a, c_hash cfg' = c_hash cfg -> I cfg M a -> I cfg' M a;
  lf_fits : forall cfg s e, G cfg s e -> fits cfg s e;
  lf_call : forall cfg s x M a c r, SInv cfg x M s -> I cfg M a -> G cfg s (ECall c r) ->
    exists C, kwp cfg (call_prog cfg c) C
      (fun y M' => exists a', T cfg a (ECall c (Ok y)) cfg a' /\ I cfg M' a')
      (fun e M' => exists a', T cfg a (ECall c (Err e)) cfg a' /\ I cfg M' a') M;
  lf_crash : forall cfg s x M a c, SInv cfg x M s -> I cfg M a -> G cfg s (ECrash (ACall c)) ->
    kwp cfg (call_prog cfg c) (fun M' => exists a', (forall cfg', c_hash cfg' = c_hash cfg -> T cfg a (ECrash (ACall c)) cfg' a') /\ I cfg M' a')
      (fun _ _ => True) (fun _ _ => True) M;
  lf_other : forall cfg s x M a e, SInv cfg x M s -> I cfg M a -> G cfg s e ->
    match e with EMaint _ | EReopen | ECrash ANothing | ECrash (AMaint _) => True | _ => False end ->
    exists a', (forall cfg', c_hash cfg' = c_hash cfg -> T cfg a e cfg' a') /\ I cfg M a';
  lf_clear : forall cfg s x M a, SInv cfg x M s -> I cfg M a -> G cfg s EClear ->
    exists a', T cfg a EClear cfg a' /\ I cfg ∅ a'
}.

Lemma step_lift : lifts -> forall cfg s e cfg' s' x M a,
  hstep cfg s e cfg' s' -> G cfg s e -> SInv cfg x M s -> I cfg M a ->
  exists x' M' a', T cfg a e cfg' a' /\ SInv cfg' x' M' s' /\ I cfg' M' a' /\ c_hash cfg' = c_hash cfg /\
    (no_crash e -> x = true -> x' = true).
Proof.
  intros HL cfg s e cfg' s' x M a Hs HG HI Ha. pose proof (lf_fits HL _ _ _ HG) as Hf.
  destruct Hs as [cfg s c s' r Hr|cfg s m s' Hm|cfg s s' Hc|cfg s cfg' w' s' Hh Ho|cfg s act w cfg' s' Hd Hh Hrec].
  - destruct (lf_call HL _ _ _ _ _ _ _ HI Ha HG) as (C & Hw).
    destruct (kwp_krun cfg x _ _ _ _ M s HI Hf Hw) as (M' & HI' & HQ). rewrite Hr in HI', HQ. cbn in HI', HQ.
    exists x, M'. destruct r as [y|er]; destruct HQ as (a' & HT & HI2); exists a'; auto.
  - destruct (lf_other HL _ _ _ _ _ _ HI Ha HG Logic.I) as (a' & HT & Ha').
    pose proof (maint_wpc cfg x M s m HI Hf) as Hw. apply (exec_wpc cfg) in Hw as [Hw _].
    rewrite Hm in Hw. exists x, M, a'. split; [by apply HT|]. split; [apply Hw|]. auto.
  - destruct (lf_clear HL _ _ _ _ _ HI Ha HG) as (a' & HT & Ha').
    pose proof (clear_wpc cfg x M (st_root s) (st_fs s) HI Hf) as Hw. apply (exec_wpc cfg) in Hw as [Hw _].
    unfold store_clear in Hc. rewrite Hc in Hw. exists true, ∅, a'. split; [done|]. split; [apply Hw|]. auto.
  - destruct (lf_other HL _ _ _ _ _ _ HI Ha HG Logic.I) as (a' & HT & Ha').
    destruct (open_ok cfg' x M (st_fs s)) as (w1 & s1 & Ho1 & HI1).
    { apply (DiskInv_cfg cfg); [done|]. by eapply Inv_disk. }
    { exact Hf. }
    assert (s1 = s') as -> by congruence.
    exists x, M, a'. split; [by apply HT|]. split; [done|]. split; [by eapply (lf_cfg HL)|]. auto.
  - assert (exists M' a', (forall cfg', c_hash cfg' = c_hash cfg -> T cfg a (ECrash act) cfg' a') /\ I cfg M' a' /\ DiskInv cfg false M' w) as (M' & a' & HT & Ha' & HD).
    { destruct act as [|c|m].
      - destruct (lf_other HL _ _ _ _ _ _ HI Ha HG Logic.I) as (a' & HT & Ha').
        cbn in Hd. subst w. exists M, a'. split; [done|]. split; [done|]. by eapply Inv_disk'.
      - cbn in Hd, Hf. pose proof (lf_crash HL _ _ _ _ _ _ HI Ha HG) as Hw.
        destruct (kwp_kdies cfg x _ _ _ _ s w Hd M HI Hf Hw) as (M' & (a' & HT & Ha') & HD). eauto.
      - destruct (lf_other HL _ _ _ _ _ _ HI Ha HG Logic.I) as (a' & HT & Ha').
        cbn in Hd, Hf. destruct Hd as [n ->].
        pose proof (maint_wpc cfg x M s m HI Hf) as Hw. apply wpc_sound in Hw as [Hw _].
        exists M, a'. auto. }
    exists false, M', a'. split; [by apply HT|]. split; [eapply recovers_ok; [done|]; by apply (DiskInv_cfg cfg)|].
    split; [by eapply (lf_cfg HL)|]. split; [done|]. intros [].
Qed.

Theorem hist_lift : lifts -> forall cfg s es cfg' s' x M a,
  hist G cfg s es cfg' s' -> SInv cfg x M s -> I cfg M a ->
  exists x' M' a', trace T cfg a es cfg' a' /\ SInv cfg' x' M' s' /\ I cfg' M' a' /\ c_hash cfg' = c_hash cfg /\
    (Forall no_crash es -> x = true -> x' = true).
Proof.
  intros HL cfg s es cfg' s' x M a H. revert x M a.
  induction H as [cfg s|cfg s e cfg1 s1 es cfg' s' HG Hs Hh IH]; intros x M a HI Ha.
  - exists x, M, a. split; [constructor|]. auto.
  - destruct (step_lift HL _ _ _ _ _ _ _ _ Hs HG HI Ha) as (x1 & M1 & a1 & T1 & I1 & A1 & C1 & X1).
    destruct (IH _ _ _ I1 A1) as (x2 & M2 & a2 & T2 & I2 & A2 & C2 & X2).
    exists x2, M2, a2. split; [econstructor; [by eapply hstep_cfg|done|done]|]. split; [done|]. split; [done|]. split; [congruence|].
    intros Hn Hx. apply Forall_cons in Hn as [Hn1 Hn2]. auto.
Qed.
End lift.
