(** Concrete concurrent runs on lists: non-vacuity of C49 and counterexamples. *)
From Verif Require Import Base SipHash Hashing HashingProofs Fs Shard Router RouterPure Wpc Spec FileRep RowOps
  Compact Inv ShardOps Split Insert Open Merge Create Store Limits StoreRefine Kv Lists Queues Api Hist KvSpec
  HistInv KeySpace PlainSpec Plain Check ThmStore ListSpec ListRep ListProg ListHist ThmList Script ExStore ExList Conc ConcSpec ThmConc ThmAtomic
  ExConc ConcLock ConcList ThmConcList.

(** ** Runs that no order of atomic calls explains *)
Lemma list_call_on cfg lk l c r l' : list_call cfg lk l (CList lk c) r l' -> exists y, r = Ok y /\ list_spec l c y l'.
Proof. unfold list_call. cbn [list_step]. by rewrite bool_decide_eq_true_2. Qed.
Lemma l_get_one ik v : l_get [(ik, v)] ik = Some v.
Proof. unfold l_get. cbn. by rewrite bool_decide_eq_true_2. Qed.
Lemma l_update_one ik v v' : l_update [(ik, v)] ik v' = [(ik, v')].
Proof. unfold l_update. cbn. by rewrite bool_decide_eq_true_2. Qed.
Lemma l_remove_one ik v : l_remove [(ik, v)] ik = [].
Proof. unfold l_remove. cbn. by rewrite bool_decide_eq_true_2. Qed.
Ltac look H := repeat first
  [ apply lookup_insert_Some in H as [[? ?]|[? H]] | apply lookup_delete_Some in H as [? H] | (exfalso; revert H; rewrite lookup_empty; discriminate) ]; simplify_eq.
Ltac lstep :=
  match goal with H : lrun _ _ _ _ _ _ |- _ => inversion H; clear H; subst end;
  repeat match goal with H : _ !! _ = Some _ |- _ => progress look H end;
  repeat match goal with
  | H : list_call _ _ _ (CList _ _) _ _ |- _ => apply list_call_on in H as (? & ? & H); subst
  | H : list_spec _ _ _ _ |- _ => cbn [list_spec direct first rev app] in H; unfold l_set in H; rewrite ?l_get_one, ?l_update_one, ?l_remove_one in H
  | H : _ /\ _ |- _ => destruct H; subst
  end; simplify_eq.
Lemma pop_not_atomic cfg lk ik v1 v2 m' P' : v1 <> v2 ->
  ~ lrun (list_call cfg lk) [(ik, v1)] ∅
    [EvCall 0 (CList lk (LPop true)); EvCall 1 (CList lk (LSet ik v2));
     EvRet 1 (Ok (YSet (PrevValue v1))); EvRet 0 (Ok (YItem (Some (ik, v1))))] m' P'.
Proof.
  intros Hne H. repeat lstep. Qed.



(** A pop or an iteration that finds nothing. *)
Lemma pop_nothing cfg lk few ml x l m' P' :
  ~ lrun (list_call cfg lk) (x :: l) ∅
    [EvCall 0 (CList lk (LPop true)); EvCall 1 (CList lk (LCompact few ml));
     EvRet 1 (Ok (YBool true)); EvRet 0 (Ok (YItem None))] m' P'.
Proof. intros H. destruct x as [ik v]. repeat lstep. all: match goal with H : exists _, _ |- _ => destruct H; simplify_eq end; repeat lstep. Qed.
Lemma iter_nothing cfg lk few ml x l m' P' :
  ~ lrun (list_call cfg lk) (x :: l) ∅
    [EvCall 0 (CList lk (LIter true)); EvCall 1 (CList lk (LCompact few ml));
     EvRet 1 (Ok (YBool true)); EvRet 0 (Ok (YItems []))] m' P'.
Proof. intros H. destruct x as [ik v]. repeat lstep. all: match goal with H : exists _, _ |- _ => destruct H; simplify_eq end; repeat lstep. Qed.
(** A key that is always there is not found. *)
Lemma get_nothing cfg lk ik v1 v2 m' P' :
  ~ lrun (list_call cfg lk) [(ik, v1)] ∅
    [EvCall 0 (CList lk (LSetPromoting ik v2)); EvCall 1 (CList lk (LGet ik));
     EvRet 1 (Ok (YOpt None)); EvRet 0 (Ok (YSet CreatedNew))] m' P'.
Proof. intros H. repeat lstep. Qed.

(** ** Running the schedules *)
Definition idx_b (key : bytes) (n : N) (M : kvmap) : bool :=
  (FIRST_IDX + (n + 1) * (n + 1) + 1 <? U64) &&
  match M !! key with
  | None => true
  | Some b => match dec_rec b with Ok r => l_tail r + (n + 1) * (l_num r + n + 1) <? U64 | Err _ => true end
  end.
Lemma idx_b_ok (key : bytes) (n : N) (M : kvmap) : idx_b key n M = true -> idx_ok key n M.
Proof.
  unfold idx_b. intros H. apply andb_true_iff in H as [H1 H2]. split; [by apply N.ltb_lt|]. intros b r Hb Hr. rewrite Hb, Hr in H2. by apply N.ltb_lt.
Qed.
Lemma room_for_b (cfg : config) (x : bool) (M : kvmap) (s : store) (lk : bytes) (k : N) : SInv cfg x M s -> entries_b cfg M && idx_b (list_key lk) k M = true -> room_for cfg s lk k.
Proof.
  intros HI H M' HM'. rewrite (content_unique cfg s M' M HM'); [|by eapply SInv_content].
  apply andb_true_iff in H as [H1 H2]. split; [by apply entries_b_ok|by apply idx_b_ok].
Qed.
Lemma crunx_es cfg c hs es : match crunx cfg c hs with Some (_, es', c') => Some (es', at_restb c') | None => None end = Some (es, true) ->
  exists hs' c', crun cfg calm c hs' es c' /\ at_rest c'.
Proof.
  destruct (crunx cfg c hs) as [[[hs' es'] c']|] eqn:E; [|done]. intros [= <- H]. exists hs', c'. split; [by eapply crunx_ok|by apply at_restb_ok].
Qed.

(** [unexplained lk which]: there is a store that shows some list [l] as the list [lk], and a
    concurrent run of calls as described by [which] on that list, all finished, that is not
    possible if every call takes effect at one moment. *)
Definition unexplained (lk : bytes) (which : lcall -> Prop) : Prop :=
  exists cfg0 s0 (es0 : list event) cfg s n hs es c l,
    created cfg0 s0 /\ hist (list_guard lk) cfg0 s0 es0 cfg s /\ shows_list cfg s lk l /\
    room_for cfg s lk (weight (list_w lk) es) /\
    crun cfg calm (conc s n) hs es c /\ at_rest c /\
    (forall a cl, EvCall a cl ∈ es -> exists c, cl = CList lk c /\ which c /\ lcall_accepts cfg lk c) /\
    forall l' P, ~ lrun (list_call cfg lk) l ∅ es l' P.
Definition iter_reply (cfg : config) (s : store) (lk : bytes) : option items :=
  match reply_to cfg s (CList lk (LIter true)) with Ok (YItems l) => Some l | _ => None end.
Lemma unexplained_by lk (which : lcall -> Prop) (l0 : list gcmd) hs es c0 c1 r0 r1 l :
  es = [EvCall 0 (CList lk c0); EvCall 1 (CList lk c1); EvRet 1 r1; EvRet 0 r0] ->
  (forall c, GCmd (XReopen c) ∉ l0) -> gruns (list_gb lk) ex_cfg l0 = true ->
  iter_reply ex_cfg (gstore (list_gb lk) ex_cfg l0) lk = Some l ->
  entries_b ex_cfg (gmap_after (list_gb lk) ex_cfg l0) && idx_b (list_key lk) 2 (gmap_after (list_gb lk) ex_cfg l0) = true ->
  match crunx ex_cfg (conc (gstore (list_gb lk) ex_cfg l0) 2) hs with Some (_, es', c') => Some (es', at_restb c') | None => None end = Some (es, true) ->
  accepts_b ex_cfg lk c0 && accepts_b ex_cfg lk c1 = true -> which c0 -> which c1 ->
  (forall l' P, ~ lrun (list_call ex_cfg lk) l ∅ es l' P) ->
  unexplained lk which.
Proof.
  intros -> Hl Hr Hit Hroom Hx Hacc W0 W1 Hno. apply andb_true_iff in Hacc as [A0 A1]. apply accepts_b_ok in A0, A1.
  destruct (gscript0_ok (list_gb lk) (list_guard lk) ex_cfg l0 (list_gb_ok lk) ex_cfg_ok) as (H1 & H2 & x & H3).
  { apply Forall_forall. intros [[| | |c]|] Hin; try done. by destruct (Hl c). }
  { done. }
  rewrite gcfg_same in H2, H3 by done.
  destruct (created_list lk _ _ _ _ _ H1 H2) as (x' & M' & its & K1 & K2 & K3).
  pose proof (rep_shows_all _ _ _ _ _ _ K2 K3) as Hs.
  assert (map snd its = l) as E.
  { pose proof (Hs (LIter true) (YItems (map snd its)) eq_refl (conj eq_refl eq_refl)) as Hi. unfold iter_reply in Hit. rewrite Hi in Hit. congruence. }
  rewrite E in Hs. destruct (crunx_es _ _ _ _ Hx) as (hs' & c' & Hc & Hrest).
  eexists ex_cfg, _, _, ex_cfg, _, 2%nat, hs', [EvCall 0 (CList lk c0); EvCall 1 (CList lk c1); EvRet 1 r1; EvRet 0 r0], c', l. split; [exact H1|]. split; [exact H2|]. split; [exact Hs|].
  split. { eapply room_for_b; [exact H3|]. cbn [weight list_w]. rewrite !bool_decide_eq_true_2 by done. exact Hroom. }
  split; [exact Hc|]. split; [exact Hrest|]. split; [|exact Hno].
  intros a cl Hin. repeat (apply elem_of_cons in Hin as [Hin|Hin]; [simplify_eq; eauto|]). by apply elem_of_nil in Hin.
Qed.

Definition ex_l1 : list gcmd := [xl la (LSet ia [x31])].
Definition ex_l3 : list gcmd := [xl la (LSet ia [x31]); xl la (LSet ib [x32]); xl la (LSet ic [x33]); xl la (LRemove ib)].
Definition sched (c0 c1 : lcall) (n : nat) : list choice :=
  ChCall 0 (CList la c0) :: steps 0 n ++ ChCall 1 (CList la c1) :: steps 1 500 ++ steps 0 500.

(** C36: pop_list_head returns the value that the item had before a set_in_list that had already
    returned; the value that is removed is the new one, which nobody gets. *)
Theorem C36_popping_is_atomic_refuted : unexplained la (fun c => c = LPop true \/ exists ik v, c = LSet ik v).
Proof.
  eapply (unexplained_by la _ ex_l1 (sched (LPop true) (LSet ia [x32]) 14) _ (LPop true) (LSet ia [x32]) _ _ [(ia, [x31])] eq_refl).
  - no_reopens.
  - by vm_cast_no_check (eq_refl true).
  - by vm_cast_no_check (eq_refl (Some [(ia, [x31])])).
  - by vm_cast_no_check (eq_refl true).
  - by vm_cast_no_check (eq_refl (Some ([EvCall 0 (CList la (LPop true)); EvCall 1 (CList la (LSet ia [x32]));
     EvRet 1 (Ok (YSet (PrevValue [x31]))); EvRet 0 (Ok (YItem (Some (ia, [x31]))))], true))).
  - by vm_cast_no_check (eq_refl true).
  - by left.
  - right. by exists ia, [x32].
  - intros l' P. by apply pop_not_atomic.
Qed.
(** C36: pop_list_head finds nothing although the list is never empty, because
    compact_list_if_needed meanwhile moves the items beyond the range that the pop has read. *)
Theorem C36_pop_finds_items_refuted : unexplained la (fun c => c = LPop true \/ exists few ml, c = LCompact few ml).
Proof.
  eapply (unexplained_by la _ ex_l3 (sched (LPop true) (LCompact (fun _ _ => false) 0) 6) _ (LPop true) (LCompact (fun _ _ => false) 0) _ _ [(ia, [x31]); (ic, [x33])] eq_refl).
  - no_reopens.
  - by vm_cast_no_check (eq_refl true).
  - by vm_cast_no_check (eq_refl (Some [(ia, [x31]); (ic, [x33])])).
  - by vm_cast_no_check (eq_refl true).
  - by vm_cast_no_check (eq_refl (Some ([EvCall 0 (CList la (LPop true)); EvCall 1 (CList la (LCompact (fun _ _ => false) 0));
     EvRet 1 (Ok (YBool true)); EvRet 0 (Ok (YItem None))], true))).
  - by vm_cast_no_check (eq_refl true).
  - by left.
  - right. by eexists _, _.
  - intros l' P. by apply pop_nothing.
Qed.
(** C51: the same for iter_list. *)
Theorem C51_iterating_while_compacting_refuted : unexplained la (fun c => c = LIter true \/ exists few ml, c = LCompact few ml).
Proof.
  eapply (unexplained_by la _ ex_l3 (sched (LIter true) (LCompact (fun _ _ => false) 0) 6) _ (LIter true) (LCompact (fun _ _ => false) 0) _ _ [(ia, [x31]); (ic, [x33])] eq_refl).
  - no_reopens.
  - by vm_cast_no_check (eq_refl true).
  - by vm_cast_no_check (eq_refl (Some [(ia, [x31]); (ic, [x33])])).
  - by vm_cast_no_check (eq_refl true).
  - by vm_cast_no_check (eq_refl (Some ([EvCall 0 (CList la (LIter true)); EvCall 1 (CList la (LCompact (fun _ _ => false) 0));
     EvRet 1 (Ok (YBool true)); EvRet 0 (Ok (YItems []))], true))).
  - by vm_cast_no_check (eq_refl true).
  - by left.
  - right. by eexists _, _.
  - intros l' P. by apply iter_nothing.
Qed.
(** C51: while set_in_list_promoting gives an existing key a new value, get_from_list finds neither
    the old nor the new value. *)
Theorem C51_promoting_is_atomic_refuted : unexplained la (fun c => exists ik, c = LGet ik \/ exists v, c = LSetPromoting ik v).
Proof.
  eapply (unexplained_by la _ ex_l1 (sched (LSetPromoting ia [x32]) (LGet ia) 36) _ (LSetPromoting ia [x32]) (LGet ia) _ _ [(ia, [x31])] eq_refl).
  - no_reopens.
  - by vm_cast_no_check (eq_refl true).
  - by vm_cast_no_check (eq_refl (Some [(ia, [x31])])).
  - by vm_cast_no_check (eq_refl true).
  - by vm_cast_no_check (eq_refl (Some ([EvCall 0 (CList la (LSetPromoting ia [x32])); EvCall 1 (CList la (LGet ia));
     EvRet 1 (Ok (YOpt None)); EvRet 0 (Ok (YSet CreatedNew))], true))).
  - by vm_cast_no_check (eq_refl true).
  - exists ia. right. by eexists.
  - exists ia. by left.
  - intros l' P. by apply get_nothing.
Qed.

(** ** The hypotheses of C49 are met *)
Definition list_okb (cfg : config) (lk : bytes) (rd : bool) (e : cevent) : bool :=
  match e with
  | EvCall _ (CList lk' c) =>
    if bool_decide (lk' = lk) then
      accepts_b cfg lk c &&
      ((locked_call c && (negb rd || match c with LDiscard => false | _ => true end)) || (rd && match c with LGet _ => true | _ => false end))
    else negb (list_ph cfg lk' =? list_ph cfg lk)
  | _ => true
  end.
Lemma list_okb_ok (cfg : config) (lk : bytes) (rd : bool) es : forallb (list_okb cfg lk rd) es = true -> forall a cl, EvCall a cl ∈ es -> list_ok cfg lk rd cl.
Proof.
  rewrite forallb_forall. intros H a cl Hin. apply elem_of_list_In in Hin. specialize (H _ Hin). cbn [list_okb] in H.
  destruct cl as [o|tid o|lk' c|qk c|b c]; try done. unfold list_ok. case_bool_decide; [|by apply negb_true_iff, N.eqb_neq in H].
  apply andb_true_iff in H as [H1 H2]. split; [by apply accepts_b_ok|]. apply orb_true_iff in H2 as [H2|H2]; apply andb_true_iff in H2 as [H2 H3].
  - left. split; [done|]. intros ->. by destruct c.
  - right. split; [done|]. destruct c; try done. eauto.
Qed.
(** Three threads: two add, update and remove items, the third reads; then a compaction of the
    list against two more updates; another list and a plain key in between. *)
Definition list_run : list choice :=
  ChCall 0 (CList la (LSet ib [x41])) :: ChCall 1 (CList la (LRemove ia)) :: ChCall 2 (CList la (LGet ic)) :: turns 3 200 ++
  ChCall 0 (CList la (LReplace ic [x42] None)) :: ChCall 1 (CList la (LGetOrCreate ia [x43])) :: ChCall 2 (CList lb (LPop true)) :: turns 3 200 ++
  ChCall 0 (CList la (LCompact (fun _ _ => false) 0)) :: ChCall 1 (CList la (LRemove ic)) :: ChCall 2 (CList la (LGet ia)) :: turns 3 300 ++
  [ChCall 2 (CPlain (OSet ia [x44])); ChCall 0 (CList la (LSet ic [x45])); ChCall 1 (CList la (LGet ib))].
Example C49_example : exists cfg0 s0 (es0 : list event) cfg s hs es c,
  created cfg0 s0 /\ hist (list_guard la) cfg0 s0 es0 cfg s /\ room_for cfg s la (weight (list_w la) es) /\
  crun cfg calm (conc s 3) hs es c /\ at_rest c /\ (forall a cl, EvCall a cl ∈ es -> list_ok cfg la true cl) /\ length es = 22%nat.
Proof.
  destruct (gscript0_ok (list_gb la) (list_guard la) ex_cfg ex_l3 (list_gb_ok la) ex_cfg_ok) as (H1 & H2 & x & H3).
  { by repeat constructor. }
  { by vm_cast_no_check (eq_refl true). }
  rewrite gcfg_same in H2, H3 by no_reopens.
  destruct (crunx_some ex_cfg (conc (gstore (list_gb la) ex_cfg ex_l3) 3) (list_run ++ turns 3 300)
    (fun es c => at_restb c && forallb (list_okb ex_cfg la true) es && (length es =? 22)%nat && (weight (list_w la) es <=? 20))) as (hs & es & c & Hr & HP).
  { by vm_cast_no_check (eq_refl true). }
  repeat (apply andb_true_iff in HP as [HP ?]).
  eexists ex_cfg, _, _, ex_cfg, _, hs, es, c. split; [exact H1|]. split; [exact H2|].
  split. { assert (room_for ex_cfg (gstore (list_gb la) ex_cfg ex_l3) la 20) as Hroom by (eapply room_for_b; [exact H3|by vm_cast_no_check (eq_refl true)]).
    intros M HM. destruct (Hroom M HM) as [R1 R2]. split; [done|]. eapply idx_ok_mono; [|exact R2]. by apply N.leb_le. }
  split; [exact Hr|]. split; [by apply at_restb_ok|]. split; [by apply list_okb_ok|by apply Nat.eqb_eq].
Qed.
(** ... and the process dies while an item is added and another one is waited for. *)
Example C49_crash_example : exists cfg0 s0 (es0 : list event) cfg s hs es c w s',
  created cfg0 s0 /\ hist (list_guard la) cfg0 s0 es0 cfg s /\ room_for cfg s la (weight (list_w la) es) /\
  crun cfg calm (conc s 3) hs es c /\ (forall a cl, EvCall a cl ∈ es -> list_ok cfg la true cl) /\
  cdies cfg c w /\ recovers cfg w s' /\
  length (List.filter (fun T => match T with TIdle => true | _ => false end) (c_ths c)) = 1%nat.
Proof.
  destruct (gscript0_ok (list_gb la) (list_guard la) ex_cfg ex_l3 (list_gb_ok la) ex_cfg_ok) as (H1 & H2 & x & H3).
  { by repeat constructor. }
  { by vm_cast_no_check (eq_refl true). }
  rewrite gcfg_same in H2, H3 by no_reopens.
  destruct (crunx_some ex_cfg (conc (gstore (list_gb la) ex_cfg ex_l3) 3)
    (ChCall 0 (CList la (LSet ib [x41])) :: ChCall 1 (CList la (LRemove ia)) :: ChCall 2 (CList la (LGet ic)) :: turns 3 15)
    (fun es c => disk_room_b (c_fs c) && match store_open ex_cfg (c_fs c) with (_, Ok _) => true | _ => false end &&
      (length (List.filter (fun T => match T with TIdle => true | _ => false end) (c_ths c)) =? 1)%nat &&
      forallb (list_okb ex_cfg la true) es && (weight (list_w la) es <=? 20))) as (hs & es & c & Hr & HP).
  { by vm_cast_no_check (eq_refl true). }
  repeat (apply andb_true_iff in HP as [HP ?]).
  destruct (store_open ex_cfg (c_fs c)) as [w' [s'|]] eqn:Eo; [|done].
  eexists ex_cfg, _, _, ex_cfg, _, hs, es, c, (c_fs c), s'. split; [exact H1|]. split; [exact H2|].
  split. { assert (room_for ex_cfg (gstore (list_gb la) ex_cfg ex_l3) la 20) as Hroom by (eapply room_for_b; [exact H3|by vm_cast_no_check (eq_refl true)]).
    intros M HM. destruct (Hroom M HM) as [R1 R2]. split; [done|]. eapply idx_ok_mono; [|exact R2]. by apply N.leb_le. }
  split; [exact Hr|]. split; [by apply list_okb_ok|]. split; [apply cd_now|].
  split; [eapply rec_done; [by apply disk_room_b_ok|exact Eo]|]. by apply Nat.eqb_eq.
Qed.
