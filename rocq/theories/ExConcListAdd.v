(** Concrete concurrent runs for C51: what is not atomic even if nothing is removed, and runs that
    meet the hypotheses of the parts that hold. *)
From Verif Require Import Base SipHash Hashing HashingProofs Fs Shard Router RouterPure Wpc Spec FileRep RowOps
  Compact Inv ShardOps Split Insert Open Merge Create Store Limits StoreRefine Kv Lists Queues Api Hist KvSpec
  HistInv KeySpace PlainSpec Plain Check ThmStore ListSpec ListRep ListProg ListHist ThmList Script ExStore ExList Conc ConcSpec ThmConc ThmAtomic
  ExConc ConcLock ConcList ThmConcList ExConcList ConcSeen ConcSess ConcListAll ThmConcListAll ExConcListAll ConcListAdd ThmConcListAdd.

(** ** Three calls of two threads *)
Lemma unexplained_by3 lk (which : lcall -> Prop) (l0 : list gcmd) hs es c0 c1 c2 r0 r1 r2 l :
  es = [EvCall 0 (CList lk c0); EvCall 1 (CList lk c1); EvRet 1 r1; EvCall 1 (CList lk c2); EvRet 1 r2; EvRet 0 r0] ->
  (forall c, GCmd (XReopen c) ∉ l0) -> gruns (list_gb lk) ex_cfg l0 = true ->
  iter_reply ex_cfg (gstore (list_gb lk) ex_cfg l0) lk = Some l ->
  entries_b ex_cfg (gmap_after (list_gb lk) ex_cfg l0) && idx_b (list_key lk) 3 (gmap_after (list_gb lk) ex_cfg l0) = true ->
  match crunx ex_cfg (conc (gstore (list_gb lk) ex_cfg l0) 2) hs with Some (_, es', c') => Some (es', at_restb c') | None => None end = Some (es, true) ->
  accepts_b ex_cfg lk c0 && accepts_b ex_cfg lk c1 && accepts_b ex_cfg lk c2 = true -> which c0 -> which c1 -> which c2 ->
  (forall l' P, ~ lrun (list_call ex_cfg lk) l ∅ es l' P) ->
  unexplained lk which.
Proof.
  intros -> Hl Hr Hit Hroom Hx Hacc W0 W1 W2 Hno. apply andb_true_iff in Hacc as [Hacc A2]. apply andb_true_iff in Hacc as [A0 A1]. apply accepts_b_ok in A0, A1, A2.
  destruct (gscript0_ok (list_gb lk) (list_guard lk) ex_cfg l0 (list_gb_ok lk) ex_cfg_ok) as (H1 & H2 & x & H3).
  { apply Forall_forall. intros [[| | |c]|] Hin; try done. by destruct (Hl c). }
  { done. }
  rewrite gcfg_same in H2, H3 by done.
  destruct (created_list lk _ _ _ _ _ H1 H2) as (x' & M' & its & K1 & K2 & K3).
  pose proof (rep_shows_all _ _ _ _ _ _ K2 K3) as Hs.
  assert (map snd its = l) as E.
  { pose proof (Hs (LIter true) (YItems (map snd its)) eq_refl (conj eq_refl eq_refl)) as Hi. unfold iter_reply in Hit. rewrite Hi in Hit. congruence. }
  rewrite E in Hs. destruct (crunx_es _ _ _ _ Hx) as (hs' & c' & Hc & Hrest).
  eexists ex_cfg, _, _, ex_cfg, _, 2%nat, hs', [EvCall 0 (CList lk c0); EvCall 1 (CList lk c1); EvRet 1 r1; EvCall 1 (CList lk c2); EvRet 1 r2; EvRet 0 r0], c', l. split; [exact H1|]. split; [exact H2|]. split; [exact Hs|].
  split. { eapply room_for_b; [exact H3|]. cbn [weight list_w]. rewrite !bool_decide_eq_true_2 by done. exact Hroom. }
  split; [exact Hc|]. split; [exact Hrest|]. split; [|exact Hno].
  intros a cl Hin. repeat (apply elem_of_cons in Hin as [Hin|Hin]; [simplify_eq; eauto|]). by apply elem_of_nil in Hin.
Qed.
Definition sched3 (c0 c1 c2 : lcall) (n : nat) : list choice :=
  ChCall 0 (CList la c0) :: steps 0 n ++ ChCall 1 (CList la c1) :: steps 1 500 ++ ChCall 1 (CList la c2) :: steps 1 500 ++ steps 0 500.
Definition ex_l2 : list gcmd := [xl la (LSet ia [x31]); xl la (LSet ib [x31])].

Ltac lstep3 ia ib :=
  match goal with H : lrun _ _ _ _ _ _ |- _ => inversion H; clear H; subst end;
  repeat match goal with H : _ !! _ = Some _ |- _ => progress look H end;
  repeat match goal with
  | H : list_call _ _ _ (CList _ _) _ _ |- _ => apply list_call_on in H as (? & ? & H); subst
  | H : list_spec _ _ _ _ |- _ => cbn [list_spec] in H
  | H : _ /\ _ |- _ => destruct H; subst
  end; simplify_eq.
Lemma iter_mixed cfg lk ia ib (v w : bytes) m' P' : ia <> ib -> v <> w ->
  ~ lrun (list_call cfg lk) [(ia, v); (ib, v)] ∅
    [EvCall 0 (CList lk (LIter true)); EvCall 1 (CList lk (LSet ia w)); EvRet 1 (Ok (YSet (PrevValue v)));
     EvCall 1 (CList lk (LSet ib w)); EvRet 1 (Ok (YSet (PrevValue v))); EvRet 0 (Ok (YItems [(ia, v); (ib, w)]))] m' P'.
Proof.
  intros Hk Hv H.
  assert (forall x, l_set [(ia, v); (ib, x)] ia w = [(ia, w); (ib, x)]) as E1.
  { intros x. unfold l_set, l_get, l_update. cbn. rewrite bool_decide_eq_true_2 by done. cbn. by rewrite bool_decide_eq_false_2. }
  assert (forall x, l_set [(ia, x); (ib, v)] ib w = [(ia, x); (ib, w)]) as E2.
  { intros x. unfold l_set, l_get, l_update. cbn. rewrite (bool_decide_eq_false_2 (ia = ib)) by done. by rewrite !bool_decide_eq_true_2 by done. }
  repeat (lstep3 ia ib; rewrite ?E1, ?E2 in *; cbn [direct] in *; simplify_eq).
Qed.
Lemma len_early cfg lk ia (v : bytes) m' P' :
  ~ lrun (list_call cfg lk) [] ∅
    [EvCall 0 (CList lk (LSet ia v)); EvCall 1 (CList lk LLen); EvRet 1 (Ok (YNum 1));
     EvCall 1 (CList lk (LGet ia)); EvRet 1 (Ok (YOpt None)); EvRet 0 (Ok (YSet CreatedNew))] m' P'.
Proof.
  intros H. assert (l_set [] ia v = [(ia, v)]) as E1 by done. assert (len (@nil kv) = 0) as E2 by done. assert (l_get [(ia, v)] ia = Some v) as E3 by apply l_get_one.
  repeat (lstep3 ia ia; rewrite ?E1, ?E2, ?E3 in *; simplify_eq).
Qed.
(** C51: an iterator returns the old value of the first item and the new value of the second,
    although the first was changed before the second. *)
Theorem C51_iterating_while_setting_is_atomic_refuted : unexplained la (fun c => c = LIter true \/ exists ik v, c = LSet ik v).
Proof.
  eapply (unexplained_by3 la _ ex_l2 (sched3 (LIter true) (LSet ia [x32]) (LSet ib [x32]) 14) _ (LIter true) (LSet ia [x32]) (LSet ib [x32]) _ _ _ [(ia, [x31]); (ib, [x31])] eq_refl).
  - no_reopens.
  - by vm_cast_no_check (eq_refl true).
  - by vm_cast_no_check (eq_refl (Some [(ia, [x31]); (ib, [x31])])).
  - by vm_cast_no_check (eq_refl true).
  - by vm_cast_no_check (eq_refl (Some ([EvCall 0 (CList la (LIter true)); EvCall 1 (CList la (LSet ia [x32])); EvRet 1 (Ok (YSet (PrevValue [x31])));
      EvCall 1 (CList la (LSet ib [x32])); EvRet 1 (Ok (YSet (PrevValue [x31]))); EvRet 0 (Ok (YItems [(ia, [x31]); (ib, [x32])]))], true))).
  - by vm_cast_no_check (eq_refl true).
  - by left.
  - right. by eexists _, _.
  - right. by eexists _, _.
  - intros l' P. by apply iter_mixed.
Qed.
(** C51: list_len counts an item that get_from_list, called afterwards, does not find yet. *)
Theorem C51_length_is_atomic_refuted : unexplained la (fun c => c = LLen \/ exists ik, c = LGet ik \/ exists v, c = LSet ik v).
Proof.
  eapply (unexplained_by3 la _ [] (sched3 (LSet ia [x31]) LLen (LGet ia) 44) _ (LSet ia [x31]) LLen (LGet ia) _ _ _ [] eq_refl).
  - no_reopens.
  - by vm_cast_no_check (eq_refl true).
  - by vm_cast_no_check (eq_refl (Some (@nil kv))).
  - by vm_cast_no_check (eq_refl true).
  - by vm_cast_no_check (eq_refl (Some ([EvCall 0 (CList la (LSet ia [x31])); EvCall 1 (CList la LLen); EvRet 1 (Ok (YNum 1));
      EvCall 1 (CList la (LGet ia)); EvRet 1 (Ok (YOpt None)); EvRet 0 (Ok (YSet CreatedNew))], true))).
  - by vm_cast_no_check (eq_refl true).
  - right. exists ia. right. by eexists.
  - by left.
  - right. exists ia. by left.
  - intros l' P. by apply len_early.
Qed.

(** ** The hypotheses of the positive parts are met *)
Definition list_addsb (cfg : config) (lk : bytes) (vals : bool) (e : cevent) : bool :=
  match e with
  | EvCall _ (CList lk' c) =>
    if bool_decide (lk' = lk) then accepts_b cfg lk c && match c with
      | LGetOrCreate _ _ | LGet _ | LIter _ | LPeek _ => true
      | LSet _ _ | LReplace _ _ _ | LLen => negb vals
      | _ => false
      end
    else negb (list_ph cfg lk' =? list_ph cfg lk)
  | _ => true
  end.
Lemma list_addsb_ok (cfg : config) (lk : bytes) (vals : bool) es : forallb (list_addsb cfg lk vals) es = true -> forall a cl, EvCall a cl ∈ es -> list_adds cfg lk vals cl.
Proof.
  rewrite forallb_forall. intros H a cl Hin. apply elem_of_list_In in Hin. specialize (H _ Hin). cbn [list_addsb] in H.
  destruct cl as [o|tid o|lk' c|qk c|b c]; try done. unfold list_adds. case_bool_decide; [|by apply negb_true_iff, N.eqb_neq in H].
  apply andb_true_iff in H as [H1 H2]. split; [by apply accepts_b_ok|]. destruct c; try done; by apply negb_true_iff in H2.
Qed.
Definition adds_run (vals : bool) : list choice :=
  ChCall 0 (CList la (if vals then LGetOrCreate ib [x41] else LSet ia [x41])) :: ChCall 1 (CList la (LGetOrCreate ib [x42])) :: ChCall 2 (CList la (LIter true)) :: turns 3 300 ++
  ChCall 0 (CList la (if vals then LGet ia else LReplace ic [x43] None)) :: ChCall 1 (CList la (LPeek false)) :: ChCall 2 (CList la (LIter false)) :: turns 3 300 ++
  [ChCall 2 (CPlain (OSet ia [x44])); ChCall 0 (CList lb LDiscard); ChCall 1 (CList la (LGet ib))].
Example C51_example : forall vals, exists cfg0 s0 (es0 : list event) cfg s hs es c,
  created cfg0 s0 /\ hist (list_guard la) cfg0 s0 es0 cfg s /\ room_for cfg s la (weight (list_w la) es) /\
  crun cfg calm (conc s 3) hs es c /\ at_rest c /\ (forall a cl, EvCall a cl ∈ es -> list_adds cfg la vals cl) /\ length es = 18%nat.
Proof.
  intros vals. destruct (gscript0_ok (list_gb la) (list_guard la) ex_cfg ex_l3 (list_gb_ok la) ex_cfg_ok) as (H1 & H2 & x & H3).
  { by repeat constructor. }
  { by vm_cast_no_check (eq_refl true). }
  rewrite gcfg_same in H2, H3 by no_reopens.
  destruct (crunx_some ex_cfg (conc (gstore (list_gb la) ex_cfg ex_l3) 3) (adds_run vals ++ turns 3 400)
    (fun es c => at_restb c && forallb (list_addsb ex_cfg la vals) es && (length es =? 18)%nat && (weight (list_w la) es <=? 20))) as (hs & es & c & Hr & HP).
  { destruct vals; by vm_cast_no_check (eq_refl true). }
  repeat (apply andb_true_iff in HP as [HP ?]).
  eexists ex_cfg, _, _, ex_cfg, _, hs, es, c. split; [exact H1|]. split; [exact H2|].
  split. { assert (room_for ex_cfg (gstore (list_gb la) ex_cfg ex_l3) la 20) as Hroom by (eapply room_for_b; [exact H3|by vm_cast_no_check (eq_refl true)]).
    intros M HM. destruct (Hroom M HM) as [R1 R2]. split; [done|]. eapply idx_ok_mono; [|exact R2]. by apply N.leb_le. }
  split; [exact Hr|]. split; [by apply at_restb_ok|]. split; [by apply list_addsb_ok|by apply Nat.eqb_eq].
Qed.
