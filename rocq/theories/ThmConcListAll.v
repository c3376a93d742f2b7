(** Concurrent list calls of every kind (C50). *)
From Verif Require Import Base Hashing HashingProofs Fs Shard Router RouterPure Wpc Spec FileRep RowOps
  Compact Inv ShardOps Split Insert Open Merge Create Store Limits StoreRefine Kv Lists Queues Api Hist KvSpec
  HistInv KeySpace PlainSpec Plain Check ThmStore ListSpec ListRep ListProg ListHist ThmList Conc ConcSpec ConcLocal ConcFile ConcTree
  ConcInv ConcStep ConcRow ConcStruct ConcMain ConcLin ThmConc ConcLock ConcList ThmConcList ConcSeen ConcSess ConcListAll.
Implicit Types (cfg : config) (s : store) (es : list cevent) (c : cstate) (n : nat) (hs : list choice) (x rd : bool) (lk : bytes) (its : ixs) (l : items).

Lemma conc_list_all lk rd cfg s n hs es c x (M : kvmap) its :
  SInv cfg x M s -> rep cfg lk M its 0 -> room_for cfg s lk (weight (list_w lk) es) ->
  crun cfg calm (conc s n) hs es c -> (forall a cl, EvCall a cl ∈ es -> list_any cfg lk rd cl) ->
  exists A os l' P, CInv cfg x c A os /\ calm c /\ hrun (list_seen lk rd) (list_mid lk) (map snd its) ∅ es l' P /\ sV cfg lk rd (a_map A) l' /\
    (at_rest c -> lR cfg lk 0 (a_map A) l' /\ P = ∅).
Proof.
  intros HI HR Hroom Hr Hok. destruct (conc_run _ _ _ _ _ _ _ _ HI Hr) as (A & os & HC & Ha & Hcalm).
  destruct (Hroom M) as [H1 H2]; [by eapply SInv_content|].
  destruct (lin_list_all cfg lk rd M es A (map snd its) Ha Hok H1) as (l' & P & L1 & L2 & L3); [by exists its|].
  exists A, os, l', P. split; [done|]. split; [done|]. split; [done|]. split; [done|]. intros Hq. apply L3. by eapply at_rest_idle.
Qed.

(** ** C50 *)
(** A store with any history; then any number [n] of threads make calls, with splits and
    compactions of shards running, scheduled in any way. The calls on the list [lk] are any list
    calls within the limits (if [rd], not discard_list), the others are arbitrary. The calls on
    [lk] and their results are those of an insertion-ordered map as [list_seen] says: every call
    acts at one moment between its call and its return, except that set_in_list_promoting first
    removes the item; the items that iterators, peeks and pops return were in the list, with that
    value, at some moment since the call; a pop that returns an item removes that key, which was
    present, at one moment; the length is off by at most one. Whenever no call is in progress the
    store shows exactly that list. *)
Theorem C50_every_list_call_is_explained : forall lk rd cfg0 s0 (es0 : list event) cfg s n hs es c,
  created cfg0 s0 -> hist (list_guard lk) cfg0 s0 es0 cfg s ->
  room_for cfg s lk (weight (list_w lk) es) ->
  crun cfg calm (conc s n) hs es c -> (forall a cl, EvCall a cl ∈ es -> list_any cfg lk rd cl) ->
  exists l l' P, trace (list_step lk) cfg0 [] es0 cfg l /\ shows_list cfg s lk l /\
    hrun (list_seen lk rd) (list_mid lk) l ∅ es l' P /\
    (at_rest c -> P = ∅ /\ shows_list cfg (store_of c) lk l').
Proof.
  intros lk rd cfg0 s0 es0 cfg s n hs es c Hc Hh Hroom Hr Hok.
  destruct (created_list lk _ _ _ _ _ Hc Hh) as (x & M & its & H1 & H2 & H3).
  destruct (conc_list_all lk rd cfg s n hs es c x M its H2 H3 Hroom Hr Hok) as (A & os & l' & P & K1 & K2 & K3 & _ & K4).
  exists (map snd its), l', P. split; [done|]. split; [by eapply rep_shows_all|]. split; [done|].
  intros Hq. destruct (K4 Hq) as [(its' & L1 & <- & _) ->]. split; [done|]. eapply rep_shows_all; [|exact L1].
  eapply cinv_quiet; [exact K1|exact K2|by apply at_rest_quiet].
Qed.

(** ** Draining *)
(** The items returned. *)
Definition item_of_ret (r : res reply) : option kv := match r with Ok (YItem o) => o | _ => None end.
Fixpoint popped (es : list cevent) : list kv :=
  match es with
  | [] => []
  | EvRet _ r :: es => option_list (item_of_ret r) ++ popped es
  | _ :: es => popped es
  end.
Definition pend_of (x : nat * hphase items) : list kv := match snd x with HDone r => option_list (item_of_ret r) | _ => [] end.
Definition pend (P : gmap nat (hphase items)) : list kv := mjoin (pend_of <$> map_to_list P).
Lemma mjoin_perm {X} (L L' : list (list X)) : L ≡ₚ L' -> mjoin L ≡ₚ mjoin L'.
Proof.
  induction 1 as [|x L L' _ IH|x y L|L1 L2 L3 _ IH1 _ IH2]; [done|cbn; by rewrite IH| |by etransitivity].
  change (y ++ (x ++ mjoin L) ≡ₚ x ++ (y ++ mjoin L)). rewrite !app_assoc. by rewrite (Permutation_app_comm y x).
Qed.
Lemma pend_insert (P : gmap nat (hphase items)) a ph : P !! a = None -> pend (<[a := ph]> P) ≡ₚ pend_of (a, ph) ++ pend P.
Proof. intros Ha. unfold pend. rewrite (mjoin_perm _ (pend_of <$> (a, ph) :: map_to_list P)); [done|]. by apply fmap_Permutation, map_to_list_insert. Qed.
Lemma pend_saw l (P : gmap nat (hphase items)) : pend (saw l <$> P) ≡ₚ pend P.
Proof.
  unfold pend. rewrite (mjoin_perm _ (pend_of <$> (prod_map id (saw l) <$> map_to_list P))) by apply fmap_Permutation, map_to_list_fmap.
  rewrite <- list_fmap_compose. rewrite (list_fmap_ext (pend_of ∘ prod_map id (saw l)) pend_of (map_to_list P)); [done|]. by intros ? [a [c seen|r]].
Qed.
Lemma pend_delete (P : gmap nat (hphase items)) a ph : P !! a = Some ph -> pend P ≡ₚ pend_of (a, ph) ++ pend (delete a P).
Proof. intros Ha. rewrite <- pend_insert by apply lookup_delete. by rewrite insert_delete. Qed.

Lemma l_get_in l ik v : l_get l ik = Some v -> (ik, v) ∈ l.
Proof.
  unfold l_get. intros H. apply fmap_Some in H as ([k w] & Hf & ->). apply List.find_some in Hf as [H1 H2]. apply bool_decide_eq_true in H2. cbn in H2. subst k. by apply elem_of_list_In.
Qed.
Lemma l_remove_perm l ik v : NoDup (map (fst : kv -> bytes) l) -> (ik, v) ∈ l -> l ≡ₚ (ik, v) :: l_remove l ik.
Proof.
  induction l as [|[k w] l IH]; intros Hnd Hin; [by apply elem_of_nil in Hin|]. cbn [map fst] in Hnd. apply NoDup_cons in Hnd as [Hn Hnd].
  unfold l_remove. cbn [List.filter fst]. apply elem_of_cons in Hin as [E0|Hin].
  - injection E0 as Ek Ew. subst ik v. rewrite bool_decide_eq_true_2 by done. cbn [negb]. fold (l_remove l k). rewrite l_remove_none; [done|].
    destruct (l_get l k) as [v'|] eqn:E; [|done]. apply l_get_in in E. destruct Hn. apply elem_of_list_fmap. by exists (k, v').
  - rewrite bool_decide_eq_false_2.
    + cbn [negb]. rewrite (IH Hnd Hin) at 1. apply perm_swap.
    + intros ->. destruct Hn. apply elem_of_list_fmap. by exists (ik, v).
Qed.
Lemma nodup_value l ik v w : NoDup (map (fst : kv -> bytes) l) -> (ik, v) ∈ l -> (ik, w) ∈ l -> v = w.
Proof.
  induction l as [|[k u] l IH]; intros Hnd H1 H2; [by apply elem_of_nil in H1|]. cbn [map fst] in Hnd. apply NoDup_cons in Hnd as [Hn Hnd].
  assert (forall z, (k, z) ∈ l -> False) as Hz by (intros z Hz; apply Hn, elem_of_list_fmap; by exists (k, z)).
  apply elem_of_cons in H1, H2. destruct H1 as [H1|H1], H2 as [H2|H2]; [congruence| | |by apply IH].
  - exfalso. apply (Hz w). congruence.
  - exfalso. apply (Hz v). congruence.
Qed.

(** Only pops. *)
Definition pops (lk : bytes) (cl : call) : Prop := exists fwd, cl = CList lk (LPop fwd).
Lemma drain_run lk rd (L : items) : NoDup (map (fst : kv -> bytes) L) -> forall l P es l' P',
  hrun (list_seen lk rd) (list_mid lk) l P es l' P' -> (forall a cl, EvCall a cl ∈ es -> pops lk cl) ->
  l ⊆ L -> NoDup (map (fst : kv -> bytes) l) ->
  (forall a cl seen, P !! a = Some (HCalled cl seen) -> pops lk cl /\ forall l0, l0 ∈ seen -> l0 ⊆ L) ->
  l ++ pend P ≡ₚ l' ++ pend P' ++ popped es.
Proof.
  intros HL l P es l' P'.
  induction 1 as [l P|l P a cl es l' P' Ha _ IH|l P a cl seen r l1 es l' P' Ha Hs _ IH|l P a cl seen l1 es l' P' Ha Hs _ IH|l P a r es l' P' Ha _ IH]; intros Hok Hsub Hnd HP.
  - cbn [popped]. by rewrite app_nil_r.
  - cbn [popped]. assert (pops lk cl) as Hcl by (apply (Hok a), elem_of_cons; by left).
    rewrite <- IH; [|intros b c' Hin; apply (Hok b), elem_of_cons; by right|done|done|].
    + by rewrite pend_insert.
    + intros b c' seen. destruct (decide (b = a)) as [->|Hne]; [rewrite lookup_insert; intros [= <- <-]|rewrite lookup_insert_ne by done; apply HP].
      split; [done|]. intros l0 Hl0. apply elem_of_list_singleton in Hl0 as ->. done.
  - destruct (HP _ _ _ Ha) as [(fwd & ->) Hseen]. cbn [list_seen] in Hs. rewrite bool_decide_eq_true_2 in Hs by done. destruct Hs as (y & -> & Hs). cbn [lseen] in Hs.
    assert (Hpi : forall l2, pend (saw l2 <$> <[a := HDone (Ok y)]> P) ≡ₚ option_list (item_of_ret (Ok y)) ++ pend P).
    { intros l2. rewrite pend_saw. rewrite <- insert_delete_insert, pend_insert by apply lookup_delete. rewrite (pend_delete P a _ Ha). done. }
    assert (HP' : l1 ⊆ L -> forall b cl' seen', (saw l1 <$> <[a:=HDone (Ok y)]> P) !! b = Some (HCalled cl' seen') -> pops lk cl' /\ forall l0, l0 ∈ seen' -> l0 ⊆ L).
    { intros Hsub1 b cl' seen'. rewrite lookup_fmap. destruct (decide (b = a)) as [->|Hne]; [by rewrite lookup_insert|]. rewrite lookup_insert_ne by done.
      destruct (P !! b) as [[c2 seen2|r2]|] eqn:Eb; cbn; try done. intros [= <- <-]. destruct (HP _ _ _ Eb) as [H1 H2]. split; [done|].
      intros l0 Hl0. apply elem_of_cons in Hl0 as [->|Hl0]; [done|by apply H2]. }
    destruct Hs as [[-> ->]|(ik & v & -> & Hg & -> & (l0 & Hl0 & Hv))].
    + rewrite <- IH; [|done|done|done|by apply HP']. by rewrite Hpi.
    + destruct (l_get l ik) as [v0|] eqn:Eg; [|done]. apply l_get_in in Eg, Hv.
      assert (v0 = v) as -> by (eapply (nodup_value L ik); [done|by apply Hsub|by apply (Hseen _ Hl0)]).
      pose proof (l_remove_perm l ik v Hnd Eg) as Hperm.
      assert (l_remove l ik ⊆ L) as Hsub1.
      { intros z Hz. apply Hsub. rewrite Hperm. apply elem_of_cons. by right. }
      rewrite <- IH; [|done|done| |by apply HP'].
      * rewrite Hpi. cbn [item_of_ret option_list]. transitivity (((ik, v) :: l_remove l ik) ++ pend P); [by apply Permutation_app_tail|]. cbn [app]. apply Permutation_middle.
      * rewrite (fmap_Permutation (fst : kv -> bytes) _ _ Hperm) in Hnd. by apply NoDup_cons in Hnd as [_ Hnd].
  - destruct (HP _ _ _ Ha) as [(fwd & ->) _]. by destruct Hs as (ik & v & ? & _).
  - cbn [popped]. rewrite (pend_delete P a _ Ha). change (pend_of (a, HDone r)) with (option_list (item_of_ret r)).
    assert (Hok' : forall b (k : call), EvCall b k ∈ es -> pops lk k) by (intros b k Hin; apply (Hok b), elem_of_cons; by right).
    assert (HP' : forall b cl seen, delete a P !! b = Some (HCalled cl seen) -> pops lk cl /\ forall l0, l0 ∈ seen -> l0 ⊆ L).
    { intros b cl seen Hb. apply lookup_delete_Some in Hb as [_ Hb]. by eapply HP. }
    specialize (IH Hok' Hsub Hnd HP'). transitivity (option_list (item_of_ret r) ++ (l ++ pend (delete a P))).
    + rewrite !app_assoc. apply Permutation_app_tail, Permutation_app_comm.
    + rewrite IH. rewrite !app_assoc. apply Permutation_app_tail. rewrite <- !app_assoc, (Permutation_app_comm (option_list _)). by rewrite <- app_assoc.
Qed.

(** Any number of threads empty a list with pop_list_head and pop_list_tail: when all have
    returned, the items they got and the items left are together exactly the items that were in
    the list: none is lost, none is given to two threads. *)
Theorem C50_draining_loses_and_repeats_nothing : forall lk cfg0 s0 (es0 : list event) cfg s n hs es c,
  created cfg0 s0 -> hist (list_guard lk) cfg0 s0 es0 cfg s ->
  room_for cfg s lk (weight (list_w lk) es) ->
  crun cfg calm (conc s n) hs es c -> (forall a cl, EvCall a cl ∈ es -> pops lk cl) ->
  at_rest c ->
  exists l l', shows_list cfg s lk l /\ shows_list cfg (store_of c) lk l' /\ NoDup (map (fst : kv -> bytes) l) /\ l ≡ₚ l' ++ popped es.
Proof.
  intros lk cfg0 s0 es0 cfg s n hs es c Hc Hh Hroom Hr Hok Hq.
  destruct (created_list lk _ _ _ _ _ Hc Hh) as (x & M & its & H1 & H2 & H3).
  destruct (conc_list_all lk true cfg s n hs es c x M its H2 H3 Hroom Hr) as (A & os & l' & P & K1 & K2 & K3 & _ & K4).
  { intros a cl Hin. destruct (Hok a cl Hin) as [fwd ->]. cbn. by rewrite bool_decide_eq_true_2. }
  destruct (K4 Hq) as [(its' & L1 & <- & _) ->]. exists (map snd its), (map snd its'). split; [by eapply rep_shows_all|].
  split; [eapply rep_shows_all; [|exact L1]; eapply cinv_quiet; [exact K1|exact K2|by apply at_rest_quiet]|].
  assert (NoDup (map (fst : kv -> bytes) (map snd its))) as Hnd.
  { pose proof (co_keys _ _ _ _ (rep_core _ _ _ _ _ H3)) as Hk. by rewrite map_map. }
  split; [done|]. pose proof (drain_run lk true (map snd its) Hnd _ _ _ _ _ K3 Hok ltac:(done) Hnd ltac:(by intros a cl seen)) as Hd.
  unfold pend in Hd. rewrite !map_to_list_empty in Hd. cbn in Hd. by rewrite app_nil_r in Hd.
Qed.
