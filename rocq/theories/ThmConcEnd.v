(** The calls made on the concurrent machine (Conc.v) all return (C73). *)
From Verif Require Import Base Hashing HashingProofs Fs Shard Router RouterPure Wpc Spec FileRep RowOps
  Compact Inv ShardOps Split Insert Open Merge Create Store Limits StoreRefine Kv Lists Queues Api Hist KvSpec
  HistInv KeySpace PlainSpec Plain Check ThmStore Conc ConcSpec ConcLocal ConcFile ConcTree
  ConcInv ConcStep ConcRow ConcStruct ConcMain ConcLin ConcLock ThmConc ThmConcLive ConcEnd.
Implicit Types (cfg : config) (s : store) (es : list cevent) (c : cstate) (n : nat) (hs : list choice).

(** ** Specification *)
(** [inevitable cfg P Q c]: from [c] on, if no new calls are made and whatever thread is chosen at every step, after
    finitely many steps a state is reached in which [Q] holds, and until then some thread can always make a step
    (looking at runs of which all states have [P] only). *)
Inductive inevitable (cfg : config) (P Q : cstate -> Prop) (c : cstate) : Prop :=
| in_now : Q c -> inevitable cfg P Q c
| in_later : (exists a c' e, cstep cfg c (ChRun a) = Some (c', e)) ->
    (forall a c' e, cstep cfg c (ChRun a) = Some (c', e) -> P c' -> inevitable cfg P Q c') -> inevitable cfg P Q c.

(** Every client is between calls, every compaction has ended. *)
Definition all_returned (c : cstate) : Prop := forall a T, c_ths c !! a = Some T -> T = TIdle \/ T = TDead.

(** ** Proof *)
Lemma crun_snoc cfg (P : cstate -> Prop) c hs es c1 h c2 e : crun cfg P c hs es c1 -> cstep cfg c1 h = Some (c2, e) -> P c2 ->
  crun cfg P c (hs ++ [h]) (es ++ option_list e) c2.
Proof.
  induction 1 as [c H|c h0 c0 e0 hs es c1 H Hs Hr IH]; intros Hs2 HP; cbn [app].
  - rewrite <- (app_nil_r (option_list e)). eapply crun_step; [done|exact Hs2|by constructor].
  - rewrite <- app_assoc. eapply crun_step; [done|exact Hs|by apply IH].
Qed.
Lemma after_in_conc cfg s n : after_in cfg (conc s n).
Proof.
  intros a o k st e v wo Ha. cbn [conc c_ths] in Ha. apply elem_of_list_lookup_2 in Ha. apply elem_of_app in Ha as [Ha|Ha].
  - by apply elem_of_replicate in Ha as [? _].
  - apply elem_of_list_In, workers_in in Ha as (? & _ & _ & ?). done.
Qed.
Lemma crun_after cfg x c hs es c' : crun cfg calm c hs es c' -> forall A os, CInv cfg x c A os -> after_in cfg c -> after_in cfg c'.
Proof.
  induction 1 as [c H|c h c1 e hs es c' H Hs Hr IH]; intros A os HI Haf; [done|].
  destruct (step_good cfg x c A os h c1 e HI H Hs) as (A1 & os1 & HI1 & _). apply (IH _ _ HI1).
  destruct h as [a y|a].
  - cbn [cstep] in Hs. destruct (c_ths c !! a) as [[]|]; try done. injection Hs as <- _. by apply after_in_set0.
  - exact (proj1 (step_less cfg x c A os a c1 e HI H Haf Hs)).
Qed.
(** The steps of a run without new calls are well-founded. *)
Lemma run_acc cfg x c A os : CInv cfg x c A os -> calm c -> after_in cfg c ->
  Acc (fun c' c => calm c' /\ exists a e, cstep cfg c (ChRun a) = Some (c', e)) c.
Proof.
  remember (measure cfg c) as m eqn:Em. revert c Em A os. induction (mless_acc m) as [m _ IH]. intros c -> A os HI Hcalm Haf.
  constructor. intros c' (Hcalm' & a & e & Hs). destruct (step_good cfg x c A os (ChRun a) c' e HI Hcalm Hs) as (A1 & os1 & HI1 & _).
  destruct (step_less cfg x c A os a c' e HI Hcalm Haf Hs) as [Haf' Hl]. by eapply IH.
Qed.

Lemma run_setup cfg s n hs es c : live cfg s -> crun cfg calm (conc s n) hs es c ->
  exists x A os, CInv cfg x c A os /\ calm c /\ after_in cfg c.
Proof.
  intros Hl Hr. destruct (live_inv _ _ Hl) as (x & M & HI).
  destruct (conc_run _ _ _ _ _ _ _ _ HI Hr) as (A & os & HC & _ & Hcalm). exists x, A, os. split; [done|]. split; [done|].
  eapply crun_after; [exact Hr|by apply conc_init|apply after_in_conc].
Qed.

Lemma all_or_some (l : list thr) : (forall a T, l !! a = Some T -> T = TIdle \/ T = TDead) \/ exists a T, l !! a = Some T /\ T <> TIdle /\ T <> TDead.
Proof.
  induction l as [|T l [IH|(a & T' & Ha & Hx)]]; [left; by intros| |right; by exists (S a), T'].
  assert ((T = TIdle \/ T = TDead) \/ (T <> TIdle /\ T <> TDead)) as [HT|HT] by (destruct T; (by left; auto) || (right; done)).
  - left. intros [|a] T' Ha; [by injection Ha as <-|by eapply IH].
  - right. by exists O, T.
Qed.

(** ** C73 *)
(** There is no endless run without new calls: no loop of retries after splits, no livelock between clients and
    compactions, whatever the scheduler does. *)
Theorem C73_no_endless_run : forall cfg s n hs es c,
  live cfg s -> crun cfg calm (conc s n) hs es c ->
  ~ exists f : nat -> cstate, f 0%nat = c /\ forall i : nat, calm (f i) /\ exists a e, cstep cfg (f i) (ChRun a) = Some (f (S i), e).
Proof.
  intros cfg s n hs es c Hl Hr (f & Hf & Hall). destruct (run_setup _ _ _ _ _ _ Hl Hr) as (x & A & os & HC & Hcalm & Haf).
  pose proof (run_acc _ _ _ _ _ HC Hcalm Haf) as Hacc. rewrite <- Hf in Hacc. clear -Hacc Hall.
  remember (f 0%nat) as c eqn:Ec. revert Ec. generalize 0%nat. induction Hacc as [c _ IH]. intros i ->.
  eapply (IH (f (S i))); [|reflexivity]. split; [apply Hall|]. destruct (Hall i) as (_ & a & e & Hs). by exists a, e.
Qed.
(** From every state of every run: once no new calls are made, all calls in progress return and all compactions
    end, whatever the scheduler does. *)
Theorem C73_every_call_returns : forall cfg s n hs es c,
  live cfg s -> crun cfg calm (conc s n) hs es c -> inevitable cfg calm all_returned c.
Proof.
  intros cfg s n hs es c Hl Hr. destruct (run_setup _ _ _ _ _ _ Hl Hr) as (x & A & os & HC & Hcalm & Haf).
  pose proof (run_acc _ _ _ _ _ HC Hcalm Haf) as Hacc. clear x A os HC Hcalm Haf. revert hs es Hr.
  induction Hacc as [c _ IH]. intros hs es Hr.
  destruct (all_or_some (c_ths c)) as [Hq|(a & T & Ha & H1 & H2)].
  - by apply in_now.
  - apply in_later.
    + destruct (C54_some_thread_goes_on cfg s n hs es c a T Hl Hr Ha H1 H2) as (b & c' & e & Hs). by exists b, c', e.
    + intros d c' e Hs Hcalm'. eapply IH; [split; [exact Hcalm'|by exists d, e]|].
      eapply crun_snoc; [exact Hr|exact Hs|exact Hcalm'].
Qed.
