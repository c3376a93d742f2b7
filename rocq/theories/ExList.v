(** Concrete lists: the hypotheses of the theorems of ThmList.v are met; counterexamples. *)
From Verif Require Import Base SipHash Hashing HashingProofs Fs Shard Router RouterPure Wpc Spec FileRep RowOps
  Compact Inv ShardOps Split Insert Open Merge Create Store Limits StoreRefine Kv Lists Queues Api Hist KvSpec
  HistInv KeySpace ListSpec ListRep ListProg ListHist ThmList Check Script ExStore.
Implicit Types (M : kvmap) (cfg : config) (s : store).

(** ** Executable guards *)
Definition entries_b (cfg : config) (M : kvmap) : bool :=
  forallb (fun x : bytes * bytes => match ins_err cfg (fst x) (snd x) with None => true | _ => false end) (map_to_list M).
Definition index_b (key : bytes) (M : kvmap) : bool :=
  match M !! key with
  | None => true
  | Some b => match dec_rec b with Ok r => l_tail r + l_num r + 1 <? U64 | Err _ => true end
  end.
Lemma entries_b_ok cfg M : entries_b cfg M = true -> entries_ok cfg M.
Proof.
  unfold entries_b. rewrite forallb_forall. intros H k v Hk. specialize (H (k, v)). cbn in H.
  destruct (ins_err cfg k v); [|done]. exfalso. discriminate H. apply elem_of_list_In, elem_of_map_to_list. done.
Qed.
Lemma index_b_ok key M : index_b key M = true -> index_room key M.
Proof. unfold index_b. intros H b r Hb Hr. rewrite Hb, Hr in H. by apply N.ltb_lt. Qed.
Definition room_b (cfg : config) (M : kvmap) (lk : bytes) : bool := entries_b cfg M && index_b (list_key lk) M.
Lemma room_b_ok cfg x M s lk : SInv cfg x M s -> room_b cfg M lk = true -> list_room cfg s lk.
Proof.
  intros HI H M' HM'. rewrite (content_unique cfg s M' M HM'); [|by eapply SInv_content].
  apply andb_true_iff in H as [H1 H2]. split; [by apply entries_b_ok|by apply index_b_ok].
Qed.
Definition none_b (o : option err) : bool := match o with None => true | _ => false end.
Definition accepts_b (cfg : config) (lk : bytes) (c : lcall) : bool :=
  match c with
  | LSet ik v | LSetPromoting ik v | LReplace ik v _ | LGetOrCreate ik v =>
    none_b (ins_err cfg (list_key lk) (replicate 24 x00)) &&
    none_b (ins_err cfg (replicate 17 x00) (replicate 8 x00)) &&
    none_b (ins_err cfg (ik ++ replicate 9 x00) (v ++ replicate 8 x00))
  | _ => true
  end.
Lemma none_b_ok o : none_b o = true -> o = None. Proof. by destruct o. Qed.
Lemma accepts_b_ok cfg lk c : accepts_b cfg lk c = true -> lcall_accepts cfg lk c.
Proof.
  destruct c; try done; cbn [accepts_b lcall_accepts]; unfold list_accepts; rewrite !andb_true_iff;
    intros [[H1 H2] H3]; apply none_b_ok in H1, H2, H3; done.
Qed.
Definition list_gb (lk : bytes) (cfg : config) (M : kvmap) (e : event) : bool :=
  match e with
  | ECall (CList lk' c) _ =>
    if bool_decide (lk' = lk) then (list_reads c || room_b cfg M lk) && accepts_b cfg lk c
    else negb (list_ph cfg lk' =? list_ph cfg lk)
  | ECrash (ACall (CList lk' c)) => negb (list_ph cfg lk' =? list_ph cfg lk)
  | _ => true
  end.
Lemma list_gb_ok lk cfg s x M e : SInv cfg x M s -> fits cfg s e -> list_gb lk cfg M e = true -> list_guard lk cfg s e.
Proof.
  intros HI Hf Hb. split; [done|].
  destruct e as [[o|tid o|lk' c|qk c|b c] r|mt| | |[|[o|tid o|lk' c|qk c|b c]|mt]]; cbn [list_gb] in *; try done.
  - case_bool_decide as E; [|apply negb_true_iff, N.eqb_neq in Hb; done].
    apply andb_true_iff in Hb as [H1 H2]. split; [|by apply accepts_b_ok]. intros Hr. rewrite Hr in H1. by eapply room_b_ok.
  - apply negb_true_iff, N.eqb_neq in Hb; done.
Qed.
Definition list_gb_lost (lk : bytes) (cfg : config) (M : kvmap) (e : event) : bool :=
  match e with
  | ECall (CList lk' c) _ =>
    if bool_decide (lk' = lk) then list_reads c || room_b cfg M lk
    else negb (list_ph cfg lk' =? list_ph cfg lk)
  | ECrash (ACall (CList lk' c)) =>
    if bool_decide (lk' = lk) then (list_reads c || room_b cfg M lk) && adds_or_reads c
    else negb (list_ph cfg lk' =? list_ph cfg lk)
  | _ => true
  end.
Lemma list_gb_lost_ok lk cfg s x M e : SInv cfg x M s -> fits cfg s e -> list_gb_lost lk cfg M e = true -> list_guard_lost lk cfg s e.
Proof.
  intros HI Hf Hb. split; [done|].
  destruct e as [[o|tid o|lk' c|qk c|b c] r|mt| | |[|[o|tid o|lk' c|qk c|b c]|mt]]; cbn [list_gb_lost] in *; try done.
  - case_bool_decide as E; [|apply negb_true_iff, N.eqb_neq in Hb; done].
    intros Hr. rewrite Hr in Hb. by eapply room_b_ok.
  - case_bool_decide as E; [|apply negb_true_iff, N.eqb_neq in Hb; done].
    apply andb_true_iff in Hb as [H1 H2]. split; [|done]. intros Hr. rewrite Hr in H1. by eapply room_b_ok.
Qed.

(** ** A list with a hole, next to another list; a crash in the other one; a reopening *)
Definition la : bytes := [x6c; x61].
Definition lb : bytes := [x6c; x62].
Definition xl (lk : bytes) (c : lcall) : gcmd := call_of (CList lk c).
Definition ia : bytes := [x61].
Definition ib : bytes := [x62].
Definition ic : bytes := [x63].
Definition ex_list : list gcmd :=
  [xl la (LSet ia [x31]); xl lb (LSet ia [x32]); xl la (LSet ib [x33]); xl la (LGetOrCreate ic [x34]);
   xl la (LSet ia [x35; x35]); GCmd (XMaint (MBgRow 0)); xl la (LReplace ic [x36] None); xl la (LRemove ib);
   GCrash (CList lb (LRemove ia)) 3; xl la (LSetPromoting ia [x37]); xl la (LSet ib []); xl la (LIter true);
   GCmd (XReopen (Config (siphash128 seed_aabbccdd) 5000 100 0 16 true false)); xl la (LPop false)].
Definition ex_list_replies : list (res reply) :=
  [Ok (YSet CreatedNew); Ok (YSet CreatedNew); Ok (YSet CreatedNew); Ok (YGoc (GCreated [x34]));
   Ok (YSet (PrevValue [x31])); Ok (YReplace (RPrevValue [x34])); Ok (YOpt (Some [x33]));
   Ok (YSet CreatedNew); Ok (YSet CreatedNew); Ok (YItems [(ic, [x36]); (ia, [x37]); (ib, [])]);
   Ok (YItem (Some (ib, [])))].
Definition replies (es : list event) : list (res reply) :=
  omap (M := list) (fun e => match e with ECall _ r => Some r | _ => None end) es.
(** The history satisfies the guard of C23 (and the replies are as they should). *)
Example C23_example : exists es cfg' s', created ex_cfg (new_store ex_cfg) /\
  hist (list_guard la) ex_cfg (new_store ex_cfg) es cfg' s' /\ length es = 14%nat /\ replies es = ex_list_replies.
Proof.
  exists (gevents (list_gb la) ex_cfg ex_list), (gcfg (list_gb la) ex_cfg ex_list), (gstore (list_gb la) ex_cfg ex_list).
  destruct (gscript0_ok (list_gb la) (list_guard la) ex_cfg ex_list (list_gb_ok la) ex_cfg_ok) as (H1 & H2 & _).
  - by repeat constructor.
  - by vm_cast_no_check (eq_refl true).
  - split; [exact H1|]. split; [exact H2|]. split; [by vm_cast_no_check (eq_refl 14%nat)|by vm_cast_no_check (eq_refl ex_list_replies)].
Qed.

(** ** Non-vacuity of C20, C24-C27 *)
Definition ex_list2 : list gcmd :=
  [xl la (LSet ia [x31]); xl lb (LSet ia [x32]); xl la (LSet ib [x33]); xl la (LSet ic [x34]); xl la (LRemove ib)].
Notation s2 := (gstore (list_gb la) ex_cfg ex_list2).
Notation M2 := (gmap_after (list_gb la) ex_cfg ex_list2).
Lemma gcfg_same gb cfg l : (forall c, GCmd (XReopen c) ∉ l) -> gcfg gb cfg l = cfg.
Proof.
  unfold gcfg. generalize (new_store cfg), (∅ : kvmap). induction l as [|g l IH]; intros s M Hl; cbn [gscript]; [done|].
  destruct (gstep cfg s M g) as [[[[e cfg1] s1] M1]|] eqn:E; [|done]. destruct (gb cfg M e); [|done].
  assert (cfg1 = cfg) as ->.
  { destruct g as [[c|m| |cfg3]|c i]; cbn [gstep cmd_step] in E.
    - destruct (krun_b _ _ _ _) as [[[? ?] ?]|]; by simplify_eq.
    - destruct (maint_b _ _ _); [|done]. destruct (exec _ _) as [? [?|?]]; by simplify_eq.
    - destruct (_ <=? _); [|done]. destruct (store_clear _ _) as [? [?|?]]; by simplify_eq.
    - exfalso. eapply Hl. left.
    - destruct (krun_b _ _ _ _) as [[[? ?] ?]|]; [|done]. destruct (kprefix _ _ _ _ _). destruct (disk_room_b _); [|done].
      destruct (store_open _ _) as [? [?|?]]; by simplify_eq. }
  assert (forall c, GCmd (XReopen c) ∉ l) as Hl' by (intros c Hc; apply (Hl c); by right).
  specialize (IH s1 M1 Hl'). destruct (gscript gb cfg s1 M1 l) as [[[[es c] s'] M']|]; done.
Qed.
Lemma ex2_reach : created ex_cfg (new_store ex_cfg) /\
  hist (list_guard la) ex_cfg (new_store ex_cfg) (gevents (list_gb la) ex_cfg ex_list2) ex_cfg s2 /\
  exists x, SInv ex_cfg x M2 s2.
Proof.
  destruct (gscript0_ok (list_gb la) (list_guard la) ex_cfg ex_list2 (list_gb_ok la) ex_cfg_ok) as (H1 & H2 & H3).
  - by repeat constructor.
  - by vm_cast_no_check (eq_refl true).
  - rewrite gcfg_same in H2, H3 by (intros c Hc; repeat (apply elem_of_cons in Hc as [Hc|Hc]; [discriminate Hc|]); by apply elem_of_nil in Hc).
    split; [exact H1|]. split; [exact H2|exact H3].
Qed.
Lemma ex2_room : list_room ex_cfg s2 la.
Proof. destruct (proj2 (proj2 ex2_reach)) as [x H]. eapply room_b_ok; [exact H|by vm_cast_no_check (eq_refl true)]. Qed.
Definition fits_b (c : call) : bool := match krun_b ex_cfg (call_prog ex_cfg c) s2 M2 with Some _ => true | None => false end.
Lemma ex2_fits c : fits_b c = true -> kfits ex_cfg (call_prog ex_cfg c) s2.
Proof. intros H. destruct (proj2 (proj2 ex2_reach)) as [x HI]. eapply kfits_by; [exact HI|exact H]. Qed.
(** C24: a call on another list. *)
Example C24_example : list_guard la ex_cfg s2 (ECall (CList lb (LSet ib [x39])) (reply_to ex_cfg s2 (CList lb (LSet ib [x39])))) /\
  not_on la (ECall (CList lb (LSet ib [x39])) (reply_to ex_cfg s2 (CList lb (LSet ib [x39])))) /\
  reply_to ex_cfg s2 (CList lb (LSet ib [x39])) = Ok (YSet CreatedNew).
Proof.
  split; [|split; [|by vm_cast_no_check (eq_refl (@Ok reply (YSet CreatedNew)))]].
  - split; [apply ex2_fits; by vm_cast_no_check (eq_refl true)|]. rewrite bool_decide_false by done.
    apply N.eqb_neq. by vm_cast_no_check (eq_refl false).
  - done.
Qed.
(** C25: the list is really compacted. *)
Example C25_example : list_room ex_cfg s2 la /\ kfits ex_cfg (call_prog ex_cfg (CList la (LCompact (fun _ _ => false) 2))) s2 /\
  reply_to ex_cfg s2 (CList la (LCompact (fun _ _ => false) 2)) = Ok (YBool true).
Proof.
  split; [exact ex2_room|]. split; [apply ex2_fits; by vm_cast_no_check (eq_refl true)|by vm_cast_no_check (eq_refl (@Ok reply (YBool true)))].
Qed.
(** C26: the current value of [ia] is "1". *)
Example C26_example : lcall_accepts ex_cfg la (LReplace ia [x39] (Some [x31])) /\
  kfits ex_cfg (call_prog ex_cfg (CList la (LReplace ia [x39] (Some [x31])))) s2.
Proof.
  split; [apply accepts_b_ok; by vm_cast_no_check (eq_refl true)|]. apply ex2_fits. by vm_cast_no_check (eq_refl true).
Qed.
(** C20: a value that does not fit. *)
Definition too_long : bytes := xval 990 1.
Example C20_example : kfits ex_cfg (call_prog ex_cfg (CList la (LSet [x64] too_long))) s2 /\
  reply_to ex_cfg s2 (CList la (LSet [x64] too_long)) = Err (ECannotFit 1008 1000).
Proof.
  split; [apply ex2_fits; by vm_cast_no_check (eq_refl true)|by vm_cast_no_check (eq_refl (@Err reply (ECannotFit 1008 1000)))].
Qed.
(** C27: a crash after the record of the list was updated and before the item is stored; the
    histories with crashes are possible. *)
Definition ex_list3 : list gcmd :=
  [xl la (LSet ia [x31]); xl la (LSet ib [x33]); GCrash (CList la (LSet ic [x34])) 5; xl la (LIter true); xl la LLen;
   xl la (LSet [x64] too_long); xl la (LSet ic [x35]); xl la (LIter false); xl la LLen; xl la (LRemove ia); xl la (LCompact (fun _ _ => false) 0); xl la LLen].
Definition ex_list3_replies : list (res reply) :=
  [Ok (YSet CreatedNew); Ok (YSet CreatedNew); Ok (YItems [(ia, [x31]); (ib, [x33])]); Ok (YNum 3);
   Err (ECannotFit 1008 1000); Ok (YSet CreatedNew); Ok (YItems [(ic, [x35]); (ib, [x33]); (ia, [x31])]); Ok (YNum 5);
   Ok (YOpt (Some [x31])); Ok (YBool true); Ok (YNum 2)].
Example C27_example : exists es cfg' s', created ex_cfg (new_store ex_cfg) /\
  hist (list_guard_lost la) ex_cfg (new_store ex_cfg) es cfg' s' /\ length es = 12%nat /\ replies es = ex_list3_replies.
Proof.
  exists (gevents (list_gb_lost la) ex_cfg ex_list3), (gcfg (list_gb_lost la) ex_cfg ex_list3), (gstore (list_gb_lost la) ex_cfg ex_list3).
  destruct (gscript0_ok (list_gb_lost la) (list_guard_lost la) ex_cfg ex_list3 (list_gb_lost_ok la) ex_cfg_ok) as (H1 & H2 & _).
  - by repeat constructor.
  - by vm_cast_no_check (eq_refl true).
  - split; [exact H1|]. split; [exact H2|]. split; [by vm_cast_no_check (eq_refl 12%nat)|by vm_cast_no_check (eq_refl ex_list3_replies)].
Qed.

(** ** Counterexamples *)
(** [happens es]: the history [es] is possible on a newly created store. *)
Definition happens (es : list event) : Prop := exists cfg s cfg' s', created cfg s /\ hist fits cfg s es cfg' s'.
Lemma happens_by (cfg : config) (l : list gcmd) (es : list event) : cfg_ok cfg -> (forall c, GCmd (XReopen c) ∉ l) ->
  gruns no_guard cfg l = true -> gevents no_guard cfg l = es -> happens es.
Proof.
  intros Hc Hl Hr <-. destruct (gscript0_ok no_guard fits cfg l ltac:(by intros) Hc) as (H1 & H2 & _).
  - apply Forall_forall. intros [[| | |c]|] Hin; try done. by destruct (Hl c).
  - done.
  - by exists cfg, (new_store cfg), (gcfg no_guard cfg l), (gstore no_guard cfg l).
Qed.
Ltac no_reopens := intros ? Hc; repeat (apply elem_of_cons in Hc as [Hc|Hc]; [discriminate Hc|]); by apply elem_of_nil in Hc.
Ltac happens_with l := eapply (happens_by ex_cfg l); [exact ex_cfg_ok|no_reopens|by vm_cast_no_check (eq_refl true)|match goal with |- _ = ?es => by vm_cast_no_check (eq_refl es) end].

(** C20: the rejected item is counted for ever. *)
Theorem C20_list_len_refuted : happens
  [ECall (CList la LLen) (Ok (YNum 0));
   ECall (CList la (LSet ia too_long)) (Err (ECannotFit 1008 1000));
   ECall (CList la LLen) (Ok (YNum 1));
   ECall (CList la (LIter true)) (Ok (YItems []))].
Proof. happens_with [xl la LLen; xl la (LSet ia too_long); xl la LLen; xl la (LIter true)]. Qed.
(** C20: set_in_list_promoting with a value that is rejected removes the item. *)
Theorem C20_promoting_refuted : happens
  [ECall (CList la (LSet ia [x31])) (Ok (YSet CreatedNew));
   ECall (CList la (LSetPromoting ia too_long)) (Err (ECannotFit 1008 1000));
   ECall (CList la (LGet ia)) (Ok (YOpt None))].
Proof. happens_with [xl la (LSet ia [x31]); xl la (LSetPromoting ia too_long); xl la (LGet ia)]. Qed.

(** C26: the right expected value is refused; a wrong one (the bytes of the index of the item) is
    accepted. *)
Theorem C26_compare_and_swap_refuted : happens
  [ECall (CList la (LSet ia [x31])) (Ok (YSet CreatedNew));
   ECall (CList la (LReplace ia [x32] (Some [x31]))) (Ok (YReplace (RWrongValue [x31])));
   ECall (CList la (LReplace ia [x33] (Some (u64_bytes FIRST_IDX)))) (Ok (YReplace (RPrevValue [x31])));
   ECall (CList la (LGet ia)) (Ok (YOpt (Some [x33])))].
Proof.
  happens_with [xl la (LSet ia [x31]); xl la (LReplace ia [x32] (Some [x31]));
                xl la (LReplace ia [x33] (Some (u64_bytes FIRST_IDX))); xl la (LGet ia)].
Qed.

(** C27: the process dies while an item is removed: afterwards it is still a member, but not
    found by iteration; and removing it makes another item disappear from the iteration. *)
Theorem C27_crash_during_remove_refuted : happens
  [ECall (CList la (LSet ia [x31])) (Ok (YSet CreatedNew));
   ECrash (ACall (CList la (LRemove ia)));
   ECall (CList la (LGet ia)) (Ok (YOpt (Some [x31])));
   ECall (CList la (LIter true)) (Ok (YItems []));
   ECall (CList la (LSet ib [x32])) (Ok (YSet CreatedNew));
   ECall (CList la (LIter true)) (Ok (YItems [(ib, [x32])]));
   ECall (CList la (LRemove ia)) (Ok (YOpt (Some [x31])));
   ECall (CList la (LIter true)) (Ok (YItems []));
   ECall (CList la (LGet ib)) (Ok (YOpt (Some [x32])))].
Proof.
  happens_with [xl la (LSet ia [x31]); GCrash (CList la (LRemove ia)) 4; xl la (LGet ia); xl la (LIter true);
                xl la (LSet ib [x32]); xl la (LIter true); xl la (LRemove ia); xl la (LIter true); xl la (LGet ib)].
Qed.
(** C27: the process dies while the middle item is removed; when the others are gone, removing it
    again makes the counter of the list negative (an arithmetic panic). *)
Theorem C27_crash_then_panic_refuted : happens
  [ECall (CList la (LSet ia [x31])) (Ok (YSet CreatedNew));
   ECall (CList la (LSet ib [x32])) (Ok (YSet CreatedNew));
   ECall (CList la (LSet ic [x33])) (Ok (YSet CreatedNew));
   ECrash (ACall (CList la (LRemove ib)));
   ECrash (ACall (CList la (LRemove ib)));
   ECall (CList la (LRemove ia)) (Ok (YOpt (Some [x31])));
   ECall (CList la (LRemove ic)) (Err EPanic)].
Proof.
  happens_with [xl la (LSet ia [x31]); xl la (LSet ib [x32]); xl la (LSet ic [x33]);
                GCrash (CList la (LRemove ib)) 4; GCrash (CList la (LRemove ib)) 4;
                xl la (LRemove ia); xl la (LRemove ic)].
Qed.
