(** A measure that every step of a thread of the machine of Conc.v makes smaller (for C73). *)
From Verif Require Import Base Hashing HashingProofs Fs Shard Router RouterPure Wpc Spec FileRep RowOps
  Compact Inv ShardOps Split Insert Store Limits Kv KvSpec Api Conc ConcSpec ConcLocal ConcFile ConcTree ConcInv ConcStep ConcRow ConcStruct ConcMain.
Implicit Types (cfg : config) (c : cstate) (w : fs) (r : router) (T : thr).

(** ** Lists of which one element gets smaller *)
Inductive one {D : Type} (R : D -> D -> Prop) : list D -> list D -> Prop :=
| one_here x y l : R x y -> one R (x :: l) (y :: l)
| one_there x l l' : one R l l' -> one R (x :: l) (x :: l').
Lemma one_acc {D} (R : D -> D -> Prop) : (forall d, Acc R d) -> forall l, Acc (one R) l.
Proof.
  intros HR l. induction l as [|d l IH]; [constructor; intros l' H; inversion H|].
  revert l IH. induction (HR d) as [d _ IHd]. intros l Hl. induction Hl as [l Hl IHl].
  constructor. intros l' H. inversion H as [d' ? ? Hd|? l1 ? Hl1]; subst.
  - apply IHd; [done|]. by constructor.
  - by apply IHl.
Qed.
(** The work of the threads that have some. *)
Fixpoint gather {D : Type} (f : thr -> option D) (ths : list thr) : list D :=
  match ths with [] => [] | T :: ths => match f T with Some d => d :: gather f ths | None => gather f ths end end.
Section omap.
  Context {D : Type} (R : D -> D -> Prop).
  Lemma omap_ext_in (f f' : thr -> option D) (ths : list thr) : (forall b T, ths !! b = Some T -> f' T = f T) -> gather f' ths = gather f ths.
  Proof.
    induction ths as [|T ths IH]; intros H; [done|]. cbn. rewrite (H O T) by done. rewrite IH; [done|]. intros b Tb Hb. by apply (H (S b)).
  Qed.
  Lemma omap_one (f f' : thr -> option D) (ths : list thr) a T T' d d' : ths !! a = Some T -> f T = Some d -> f' T' = Some d' -> R d' d ->
    (forall b Tb, b <> a -> ths !! b = Some Tb -> f' Tb = f Tb) -> one R (gather f' (<[a := T']> ths)) (gather f ths).
  Proof.
    revert a. induction ths as [|T0 ths IH]; intros a Ha Hd Hd' HR Ho; [done|]. destruct a as [|a]; cbn in Ha.
    - injection Ha as ->. cbn. rewrite Hd, Hd'. rewrite (omap_ext_in f f'); [by constructor|]. intros b Tb Hb. by apply (Ho (S b)).
    - cbn. rewrite (Ho O T0) by done.
      assert (one R (gather f' (<[a := T']> ths)) (gather f ths)) as Hone.
      { eapply IH; [exact Ha|exact Hd|exact Hd'|exact HR|]. intros b Tb Hne Hb. apply (Ho (S b)); [congruence|done]. }
      destruct (f T0); [by constructor|done].
  Qed.
  Lemma omap_same (f f' : thr -> option D) (ths : list thr) a T T' : ths !! a = Some T -> f' T' = f T ->
    (forall b Tb, b <> a -> ths !! b = Some Tb -> f' Tb = f Tb) -> gather f' (<[a := T']> ths) = gather f ths.
  Proof.
    revert a. induction ths as [|T0 ths IH]; intros a Ha Hd Ho; [done|]. destruct a as [|a]; cbn in Ha.
    - injection Ha as ->. cbn. rewrite Hd. rewrite (omap_ext_in f f'); [done|]. intros b Tb Hb. by apply (Ho (S b)).
    - cbn. rewrite (Ho O T0) by done. assert (gather f' (<[a := T']> ths) = gather f ths) as E.
      { apply IH; [exact Ha|exact Hd|]. intros b Tb Hne Hb. apply (Ho (S b)); [congruence|done]. }
      destruct (f T0); [by f_equal|exact E].
  Qed.
End omap.
Lemma gather_app {D} (f : thr -> option D) l l' : gather f (l ++ l') = gather f l ++ gather f l'.
Proof. induction l as [|T l IH]; [done|]. cbn. rewrite IH. by destruct (f T). Qed.
Lemma omap_len_lt {D} (f : thr -> option D) (ths : list thr) a T T' : ths !! a = Some T -> is_Some (f T) -> f T' = None ->
  (length (gather f (<[a := T']> ths)) < length (gather f ths))%nat.
Proof.
  revert a. induction ths as [|T0 ths IH]; intros a Ha Hd Hd'; [done|]. destruct a as [|a]; cbn in Ha.
  - injection Ha as ->. cbn. destruct Hd as [d ->]. rewrite Hd'. cbn. lia.
  - specialize (IH a Ha Hd Hd'). change (<[S a := T']> (T0 :: ths)) with (T0 :: <[a := T']> ths). cbn [gather]. destruct (f T0); cbn [length]; lia.
Qed.

(** ** Clients *)
(** What is left to do for a client. *)
Inductive cwork :=
| WIdle | WProg (p : kprog reply) | WAgain (k : rval -> kprog reply) | WOp (k : rval -> kprog reply)
| WRow (k : rval -> kprog reply) (p : prog (rval * option N)) | WAfter (k : rval -> kprog reply) | WSplit (k : rval -> kprog reply).
Definition kchild (q p : kprog reply) : Prop :=
  match p with KVis o k => (exists x, q = k x) \/ (exists e, q = KFail e) | _ => False end.
Definition pchild {A} (q p : prog A) : Prop := match p with Vis e k => exists x, q = k x | _ => False end.
Inductive cless : cwork -> cwork -> Prop :=
| cl_ret p : cless WIdle (WProg p)
| cl_go q p : kchild q p -> cless (WProg q) (WProg p)
| cl_op kk p : (forall v, kchild (kk v) p) -> cless (WOp kk) (WProg p)
| cl_row k p : cless (WRow k p) (WOp k)
| cl_vis k p q : pchild q p -> cless (WRow k q) (WRow k p)
| cl_rfail k p e : cless (WProg (KFail e)) (WRow k p)
| cl_rret k p v : cless (WProg (k v)) (WRow k p)
| cl_rafter k p : cless (WAfter k) (WRow k p)
| cl_rsplit k p : cless (WSplit k) (WRow k p)
| cl_after k v : cless (WProg (k v)) (WAfter k)
| cl_asplit k : cless (WSplit k) (WAfter k)
| cl_afail k e : cless (WProg (KFail e)) (WAfter k)
| cl_sfail k e : cless (WProg (KFail e)) (WSplit k)
| cl_again k : cless (WOp k) (WAgain k).

Lemma acc_idle : Acc cless WIdle.
Proof. constructor. intros d H. inversion H. Qed.
Lemma acc_end p : (forall q, ~ kchild q p) -> Acc cless (WProg p).
Proof.
  intros Hn. constructor. intros d H. inversion H as [?|q ? Hq|kk ? Hq| | | | | | | | | | |]; subst; [apply acc_idle|by destruct (Hn q)|].
  by destruct (Hn _ (Hq (VOpt None))).
Qed.
Lemma acc_fail e : Acc cless (WProg (KFail e)).
Proof. apply acc_end. intros q []. Qed.
Section acc.
  Context (k : rval -> kprog reply) (Hk : forall v, Acc cless (WProg (k v))).
  Lemma acc_split : Acc cless (WSplit k).
  Proof. constructor. intros d H. inversion H; subst. apply acc_fail. Qed.
  Lemma acc_after : Acc cless (WAfter k).
  Proof. constructor. intros d H. inversion H; subst; [by apply Hk|apply acc_split|apply acc_fail]. Qed.
  Lemma row_inv d p : cless d (WRow k p) -> (exists q, d = WRow k q /\ pchild q p) \/ Acc cless d.
  Proof.
    intros H. remember (WRow k p) as b eqn:Eb. destruct H; try discriminate Eb; injection Eb as -> ->.
    - left. by eexists.
    - right. apply acc_fail.
    - right. apply Hk.
    - right. apply acc_after.
    - right. apply acc_split.
  Qed.
  Lemma acc_row (p : prog (rval * option N)) : Acc cless (WRow k p).
  Proof.
    induction p as [a|e|X e kk IH]; constructor; intros d H; apply row_inv in H as [(q & -> & Hq)|H]; [destruct Hq|exact H|destruct Hq|exact H| |exact H].
    destruct Hq as [x ->]. apply IH.
  Qed.
  Lemma acc_op : Acc cless (WOp k).
  Proof. constructor. intros d H. inversion H; subst. apply acc_row. Qed.
  Lemma acc_again : Acc cless (WAgain k).
  Proof. constructor. intros d H. inversion H; subst. apply acc_op. Qed.
End acc.
Lemma acc_prog (p : kprog reply) : Acc cless (WProg p).
Proof.
  induction p as [y|e|X o k IH]; [apply acc_end; intros q []..|].
  assert (Hc : forall q, kchild q (KVis o k) -> Acc cless (WProg q)).
  { intros q [[x ->]|[e ->]]; [apply IH|apply acc_fail]. }
  constructor. intros d H. inversion H as [?|q ? Hq|kk ? Hq| | | | | | | | | | |]; subst; [apply acc_idle|by apply Hc|].
  apply acc_op. intros v. by apply Hc.
Qed.
Lemma cless_acc d : Acc cless d.
Proof.
  destruct d as [|p|k|k|k p|k|k]; [apply acc_idle|apply acc_prog|apply acc_again|apply acc_op|apply acc_row|apply acc_after|apply acc_split];
    intros v; apply acc_prog.
Qed.

(** ** Workers *)
(** [n] rows are left to do; in a row: before the rest [p] of its copying. *)
Inductive wwork := WBg (n : nat) | WBgRow (n : nat) (p : prog unit).
Inductive wless : wwork -> wwork -> Prop :=
| wl_start n p : wless (WBgRow n p) (WBg (S n))
| wl_vis n p q : pchild q p -> wless (WBgRow n q) (WBgRow n p)
| wl_next n p : wless (WBg n) (WBgRow n p).
Lemma wacc_row n (p : prog unit) : Acc wless (WBg n) -> Acc wless (WBgRow n p).
Proof.
  intros Hn. assert (Hinv : forall d p, wless d (WBgRow n p) -> (exists q, d = WBgRow n q /\ pchild q p) \/ d = WBg n).
  { intros d p' H. remember (WBgRow n p') as b eqn:Eb. destruct H; try discriminate Eb; injection Eb as -> ->; [left; by eexists|by right]. }
  induction p as [a|e|X e kk IH]; constructor; intros d H; apply Hinv in H as [(q & -> & Hq)| ->]; [destruct Hq|exact Hn|destruct Hq|exact Hn| |exact Hn].
  destruct Hq as [x ->]. apply IH.
Qed.
Lemma wless_acc d : Acc wless d.
Proof.
  assert (forall n, Acc wless (WBg n)) as Hb.
  { induction n as [|n IH]; constructor; intros d' H; inversion H; subst. by apply wacc_row. }
  destruct d as [n|n p]; [apply Hb|by apply wacc_row].
Qed.

(** ** The measure *)
Definition msr : Type := nat * list cwork * nat * list wwork.
Inductive mless : msr -> msr -> Prop :=
| ml_split g' g cl' cl n' n wl' wl : (g' < g)%nat -> mless (g', cl', n', wl') (g, cl, n, wl)
| ml_client g cl' cl n' n wl' wl : one cless cl' cl -> mless (g, cl', n', wl') (g, cl, n, wl)
| ml_done g cl n' n wl' wl : (n' < n)%nat -> mless (g, cl, n', wl') (g, cl, n, wl)
| ml_worker g cl n wl' wl : one wless wl' wl -> mless (g, cl, n, wl') (g, cl, n, wl).
Lemma mless_acc m : Acc mless m.
Proof.
  destruct m as [[[g cl] n] wl]. revert cl n wl. induction (lt_wf g) as [g _ IHg]. intros cl.
  induction (one_acc cless cless_acc cl) as [cl _ IHc]. intros n. induction (lt_wf n) as [n _ IHn]. intros wl.
  induction (one_acc wless wless_acc wl) as [wl _ IHw].
  constructor. intros [[[g' cl'] n'] wl'] H. inversion H; subst; [by apply IHg|by apply IHc|by apply IHn|by apply IHw].
Qed.

Definition cw cfg r T : option cwork :=
  match T with
  | TIdle => Some WIdle
  | TProg p => Some (WProg p)
  | TOp o k => Some (WOp k)
  | TRow o k _ p => Some (WRow k p)
  | TAfter o k _ _ _ _ => Some (WAfter k)
  | TSplit o k s e =>
    let sh := route r (ph_selector (rop_hash cfg o)) in
    Some (if (sh_start sh =? s) && (sh_end sh =? e) then WSplit k else WAgain k)
  | _ => None
  end.
(** How many rows the compaction of the shard at [s] has done. *)
Definition cut_of r w (s : N) : nat :=
  match sh_tgt (route r s) with
  | Some (t, _) => match fs_files w !! t with Some ft => f_cut ft | None => O end
  | None => O
  end.
Definition ww r w T : option wwork :=
  match T with
  | TBg s => Some (WBg (NUM_ROWS - cut_of r w s))
  | TBgRow s _ _ row p => Some (WBgRow (NUM_ROWS - S row) p)
  | _ => None
  end.
Definition splits_left r : nat := (Nat.pow 2 16 - length (leaves r))%nat.
Definition measure cfg c : msr :=
  (splits_left (c_root c), gather (cw cfg (c_root c)) (c_ths c), length (gather worker (c_ths c)), gather (ww (c_root c) (c_fs c)) (c_ths c)).

(** ** The tree *)
Lemma put_leaf_len r sel n : (length (leaves (put_leaf r sel n)) + 1 = length (leaves r) + length (leaves n))%nat.
Proof.
  induction r as [sh|b IHb t IHt]; cbn [put_leaf leaves]; [cbn; lia|].
  destruct (sel <? rend b); cbn [leaves]; rewrite !app_length; lia.
Qed.
Lemma tree_ok_len r : forall s n, tree_ok r s n -> (length (leaves r) <= 2 ^ n)%nat.
Proof.
  induction r as [sh|b IHb t IHt]; intros s n H; cbn [leaves].
  - cbn [length]. pose proof (Nat.pow_nonzero 2 n). lia.
  - destruct n as [|n]; cbn [tree_ok] in H; [done|]. destruct H as [H1 H2]. apply IHb in H1. apply IHt in H2.
    rewrite app_length. cbn [Nat.pow]. lia.
Qed.
Lemma put_leaf_spans r sel sh' : span_of sh' = span_of (route r sel) ->
  rend (put_leaf r sel (RLeaf sh')) = rend r /\ forall u, span_of (route (put_leaf r sel (RLeaf sh')) u) = span_of (route r u).
Proof.
  induction r as [sh|b IHb t IHt]; cbn [put_leaf route rend]; intros E.
  - split; [|done]. unfold span_of in E. congruence.
  - destruct (sel <? rend b) eqn:Es.
    + destruct (IHb E) as [E1 E2]. cbn [rend route]. split; [done|]. intros u. rewrite E1. destruct (u <? rend b); [apply E2|done].
    + destruct (IHt E) as [E1 E2]. cbn [rend route]. split; [done|]. intros u. destruct (u <? rend b); [done|apply E2].
Qed.
Lemma put_leaf_here r sel sh' : span_of sh' = span_of (route r sel) -> route (put_leaf r sel (RLeaf sh')) sel = sh'.
Proof.
  induction r as [sh|b IHb t IHt]; cbn [put_leaf route]; intros E; [done|].
  destruct (sel <? rend b) eqn:Es; cbn [route].
  - destruct (put_leaf_spans b sel sh' E) as [-> _]. rewrite Es. by apply IHb.
  - rewrite Es. by apply IHt.
Qed.
Lemma put_leaf_there r sel sh' u : span_of sh' = span_of (route r sel) -> span_of (route r u) <> span_of (route r sel) ->
  route (put_leaf r sel (RLeaf sh')) u = route r u.
Proof.
  induction r as [sh|b IHb t IHt]; cbn [put_leaf route]; intros E Hn; [by destruct Hn|].
  destruct (sel <? rend b) eqn:Es; cbn [route].
  - destruct (put_leaf_spans b sel sh' E) as [-> _]. destruct (u <? rend b); [by apply IHb|done].
  - destruct (u <? rend b); [done|by apply IHt].
Qed.
Lemma put_leaf_cw cfg r sel sh' T : span_of sh' = span_of (route r sel) -> cw cfg (put_leaf r sel (RLeaf sh')) T = cw cfg r T.
Proof.
  intros E. destruct T as [|p|o k|o k sh p|o k s e v wo|o k s e|s|s sh t b p|]; try done. cbn [cw].
  destruct (put_leaf_spans r sel sh' E) as [_ E2]. specialize (E2 (ph_selector (rop_hash cfg o))). unfold span_of in E2. injection E2 as -> ->. done.
Qed.
Lemma put_leaf_left r sel sh' : splits_left (put_leaf r sel (RLeaf sh')) = splits_left r.
Proof. unfold splits_left. pose proof (put_leaf_len r sel (RLeaf sh')) as E. cbn [leaves length] in E. f_equal. lia. Qed.

(** ** What a program can return *)
Fixpoint rets {A} (Q : A -> Prop) (p : prog A) : Prop :=
  match p with Ret a => Q a | Fail _ => True | Vis e k => forall x, rets Q (k x) end.
Lemma rets_bind {A B} (Q : B -> Prop) (p : prog A) (f : A -> prog B) : (forall a, rets Q (f a)) -> rets Q (pbind p f).
Proof. intros Hf. induction p as [a|e|X e k IH]; cbn; auto. Qed.
Lemma rets_run {A} (Q : A -> Prop) (p : prog A) w w' a : rets Q p -> run p w = (w', Ok a) -> Q a.
Proof.
  revert w. induction p as [b|e|X e k IH]; intros w H; cbn [run].
  - intros [= _ <-]. exact H.
  - done.
  - destruct (run_eff e w) as [w1 x]. apply IH. apply H.
Qed.
Lemma begin_span cfg sh wo w w' sh' : run (begin_compaction cfg sh wo) w = (w', Ok sh') -> span_of sh' = span_of sh.
Proof.
  apply (rets_run (fun sh' => span_of sh' = span_of sh)). unfold begin_compaction. apply rets_bind. intros f.
  destruct (_ <? _); [done|]. destruct (sh_tgt sh); [done|]. apply rets_bind. intros t. apply rets_bind. done.
Qed.
Lemma finish_span sh t w w' sh' : run (finish_compaction sh t) w = (w', Ok sh') -> span_of sh' = span_of sh.
Proof. apply (rets_run (fun sh' => span_of sh' = span_of sh)). unfold finish_compaction. apply rets_bind. done. Qed.
Lemma run_eff_other {X} (e : eff X) w t :
  match e with ESnap => True | EAlloc i _ | EUpd i _ => t <> i | _ => False end -> fs_files (fst (run_eff e w)) !! t = fs_files w !! t.
Proof.
  destruct e as [|i n|i u|n b|a b|a]; cbn [run_eff]; try done.
  - intros Hn. destruct (fs_files w !! i); [|done]. cbn. by rewrite lookup_insert_ne.
  - intros Hn. cbn. by rewrite lookup_alter_ne.
Qed.

(** ** Every step makes the measure smaller *)
(** A client that is about to compact operates on a selector of the shard it compacts. *)
Definition after_in cfg c : Prop := forall a o k s e v wo, c_ths c !! a = Some (TAfter o k s e v wo) -> s <= ph_selector (rop_hash cfg o) < e.
Lemma pair_eqb (s s' e e' : N) : s' = s -> e' = e -> (s' =? s) && (e' =? e) = true.
Proof. intros -> ->. by rewrite !N.eqb_refl. Qed.

Section step.
  Context (cfg : config) (x : bool).
  Notation CInv := (CInv cfg x).

  Lemma cw_go_on r o k s e v : (forall sh, route r (ph_selector (rop_hash cfg o)) = sh -> sh_start sh = s /\ sh_end sh = e) ->
    cw cfg r (go_on o k s e v) = Some (WSplit k) \/ cw cfg r (go_on o k s e v) = Some (WProg (k v)).
  Proof.
    intros Hr. destruct (Hr _ eq_refl) as [E1 E2].
    destruct v as [y|st|l]; cbn [go_on]; [by right| |by right]. destruct st; try (by right). left. cbn [cw]. cbn zeta. by rewrite pair_eqb.
  Qed.
  Lemma after_in_set c a T w r lk nw : after_in cfg c -> (forall o k s e v wo, T = TAfter o k s e v wo -> s <= ph_selector (rop_hash cfg o) < e) ->
    (forall T', In T' nw -> exists s, T' = TBg s) ->
    after_in cfg (CS r w (<[a := T]> (c_ths c) ++ nw) lk).
  Proof.
    intros H HT Hn b o k s e v wo Hb. cbn [c_ths] in Hb. apply lookup_app_Some in Hb as [Hb|[_ Hb]].
    - apply list_lookup_insert_Some in Hb as [(<- & E & _)|[_ Hb]]; [by eapply HT|by eapply H].
    - apply elem_of_list_lookup_2, elem_of_list_In, Hn in Hb as [s' Hb]. done.
  Qed.
  Lemma after_in_set0 c a T w r lk : after_in cfg c -> (forall o k s e v wo, T = TAfter o k s e v wo -> s <= ph_selector (rop_hash cfg o) < e) ->
    after_in cfg (CS r w (<[a := T]> (c_ths c)) lk).
  Proof. intros H HT. rewrite <- (app_nil_r (<[a := T]> _)). by apply after_in_set. Qed.
  Lemma go_on_after o k s e v o' k' s' e' v' wo : go_on o k s e v <> TAfter o' k' s' e' v' wo.
  Proof. destruct v as [|[]|]; done. Qed.

  (** A client does something without splitting. *)
  Lemma less_client c a T T' r w nw lk d d' : c_ths c !! a = Some T -> cw cfg (c_root c) T = Some d -> cw cfg r T' = Some d' -> cless d' d ->
    splits_left r = splits_left (c_root c) -> (forall Tb, cw cfg r Tb = cw cfg (c_root c) Tb) -> (forall Tb, In Tb nw -> exists s, Tb = TBg s) ->
    mless (measure cfg (CS r w (<[a := T']> (c_ths c) ++ nw) lk)) (measure cfg c).
  Proof.
    intros Ha Hd Hd' Hc Hs Hr Hn. unfold measure. cbn [c_root c_fs c_ths]. rewrite Hs. apply ml_client. rewrite gather_app.
    assert (gather (cw cfg r) nw = []) as ->.
    { clear -Hn. induction nw as [|Tn nw IH]; [done|]. destruct (Hn Tn (or_introl eq_refl)) as [s ->]. cbn. apply IH. intros Tb Hb. apply Hn. by right. }
    rewrite app_nil_r. eapply omap_one; eauto.
  Qed.
  Lemma less_client0 c a T T' w lk d d' : c_ths c !! a = Some T -> cw cfg (c_root c) T = Some d -> cw cfg (c_root c) T' = Some d' -> cless d' d ->
    mless (measure cfg (CS (c_root c) w (<[a := T']> (c_ths c)) lk)) (measure cfg c).
  Proof. intros. rewrite <- (app_nil_r (<[a := T']> _)). by eapply less_client. Qed.
  (** The work of the clients does not change if a worker makes a step. *)
  Lemma cw_worker c a T T' sel sh' : c_ths c !! a = Some T -> (forall r, cw cfg r T = None) -> (forall r, cw cfg r T' = None) ->
    span_of sh' = span_of (route (c_root c) sel) ->
    gather (cw cfg (put_leaf (c_root c) sel (RLeaf sh'))) (<[a := T']> (c_ths c)) = gather (cw cfg (c_root c)) (c_ths c).
  Proof.
    intros Ha H1 H2 E. eapply omap_same; [exact Ha|by rewrite H1, H2|]. intros b Tb _ _. by apply put_leaf_cw.
  Qed.

  Lemma step_less c A os a c' e : CInv c A os -> calm c -> after_in cfg c -> thr_step cfg c a = Some (c', e) ->
    after_in cfg c' /\ mless (measure cfg c') (measure cfg c).
  Proof.
    intros H Hcalm Haf Hs. pose proof (step_good cfg x c A os (ChRun a) c' e H Hcalm Hs) as Hgood.
    pose proof (ci_skel _ _ _ _ _ H) as Hsk. unfold thr_step in Hs.
    destruct (c_ths c !! a) as [T|] eqn:Ha; [|done]. pose proof (ci_thr _ _ _ _ _ H _ _ Ha) as (o0 & Ho0 & Tok).
    destruct T as [|p|o k|o k sh p|o k s1 e1 v wo|o k s1 e1|s1|s1 sh t row p|]; try done.
    - (* inside a call *)
      assert (G : forall w lk q ev, Some (CS (c_root c) w (<[a := TProg q]> (c_ths c)) lk, ev) = Some (c', e) -> kchild q p ->
        after_in cfg c' /\ mless (measure cfg c') (measure cfg c)).
      { intros w lk q ev [= <- _] Hq. split; [by apply after_in_set0|]. eapply less_client0; [exact Ha|reflexivity|reflexivity|by apply cl_go]. }
      assert (G2 : forall w lk o k ev, Some (CS (c_root c) w (<[a := TOp o k]> (c_ths c)) lk, ev) = Some (c', e) -> (forall v, kchild (k v) p) ->
        after_in cfg c' /\ mless (measure cfg c') (measure cfg c)).
      { intros w lk o k ev [= <- _] Hq. split; [by apply after_in_set0|]. eapply less_client0; [exact Ha|reflexivity|reflexivity|by apply cl_op]. }
      assert (G3 : forall w lk ev, Some (CS (c_root c) w (<[a := TIdle]> (c_ths c)) lk, ev) = Some (c', e) ->
        after_in cfg c' /\ mless (measure cfg c') (measure cfg c)).
      { intros w lk ev [= <- _]. split; [by apply after_in_set0|]. eapply less_client0; [exact Ha|reflexivity|reflexivity|by apply cl_ret]. }
      destruct p as [y|er|X o k]; cbn [prog_step] in Hs; [by eapply G3..|].
      assert (Hk : forall q, kchild q (KVis o k) <-> (exists z, q = k z) \/ (exists er, q = KFail er)) by done.
      destruct o as [key|key v mode|key|ph|i|i].
      + eapply G2; [exact Hs|]. intros [y|st|l]; apply Hk; eauto.
      + destruct (ins_err cfg key v) as [er|]; [eapply G; [exact Hs|]; apply Hk; eauto|]. eapply G2; [exact Hs|]. intros [y|st|l]; apply Hk; eauto.
      + eapply G2; [exact Hs|]. intros [y|st|l]; apply Hk; eauto.
      + destruct (ph_sig ph =? INVALID_SIG); [eapply G; [exact Hs|]; apply Hk; eauto|]. eapply G2; [exact Hs|]. intros [y|st|l]; apply Hk; eauto.
      + destruct (c_lk c !! i); [done|]. eapply G; [exact Hs|]. apply Hk. eauto.
      + eapply G; [exact Hs|]. apply Hk. eauto.
    - (* takes a row *)
      destruct (row_free _ _ _); [|done]. injection Hs as <- _. split; [by apply after_in_set0|].
      eapply less_client0; [exact Ha|reflexivity|reflexivity|apply cl_row].
    - (* in a row *)
      cbn [tok] in Tok. destruct Tok as (cur & ow & g & _ & Hcur & Hsim & Hsel & _).
      destruct (skel_leaf _ _ _ Hsk Hcur) as (_ & _ & B3). pose proof Hsim as (S1 & S2 & _).
      assert (Hroute : route (c_root c) (ph_selector (rop_hash cfg o)) = cur) by (apply B3; lia).
      destruct p as [[v [wo|]]|er|X ef kk].
      + injection Hs as <- _. split; [apply after_in_set0; [done|]; by intros ? ? ? ? ? ? [= <- <- <- <- <- <-]|].
        eapply less_client0; [exact Ha|reflexivity|reflexivity|apply cl_rafter].
      + injection Hs as <- _. split; [apply after_in_set0; [done|]; intros ? ? ? ? ? ? E; by apply go_on_after in E|].
        destruct (cw_go_on (c_root c) o k (sh_start sh) (sh_end sh) v) as [E|E]; [by intros ? <-; rewrite Hroute| |].
        * eapply less_client0; [exact Ha|reflexivity|exact E|apply cl_rsplit].
        * eapply less_client0; [exact Ha|reflexivity|exact E|apply cl_rret].
      + injection Hs as <- _. split; [by apply after_in_set0|]. eapply less_client0; [exact Ha|reflexivity|reflexivity|apply cl_rfail].
      + destruct (run_eff ef (c_fs c)) as [w y]. injection Hs as <- _. split; [by apply after_in_set0|].
        eapply less_client0; [exact Ha|reflexivity|reflexivity|apply cl_vis]. by exists y.
    - (* begins a compaction *)
      cbn [tok] in Tok. destruct Tok as (_ & _ & _ & cur & Hcur & S1 & S2).
      destruct (skel_leaf _ _ _ Hsk Hcur) as (B1 & _ & B3).
      pose proof (Haf _ _ _ _ _ _ _ Ha) as Hsel.
      assert (Hroute : route (c_root c) (ph_selector (rop_hash cfg o)) = cur) by (apply B3; lia).
      assert (Hroute1 : route (c_root c) s1 = cur) by (apply B3; lia).
      destruct (files_free _ _); [|done]. rewrite Hroute1 in Hs.
      destruct (run (begin_compaction cfg cur wo) (c_fs c)) as [w [sh'|er]] eqn:Er.
      + pose proof (begin_span _ _ _ _ _ _ Er) as Esp. injection Hs as <- _.
        assert (Hnw : forall T', In T' (match sh_tgt cur, sh_tgt sh' with None, Some _ => [TBg s1] | _, _ => [] end) -> exists s, T' = TBg s).
        { destruct (sh_tgt cur); [by intros ? []|]. destruct (sh_tgt sh'); [|by intros ? []]. intros T' [<-|[]]. by exists s1. }
        split; [apply after_in_set; [done| |done]; intros ? ? ? ? ? ? E; by apply go_on_after in E|].
        rewrite <- Hroute1 in Esp. destruct (put_leaf_spans (c_root c) s1 sh' Esp) as [_ Hall].
        destruct (cw_go_on (put_leaf (c_root c) s1 (RLeaf sh')) o k s1 e1 v) as [E|E].
        { intros u <-. specialize (Hall (ph_selector (rop_hash cfg o))). rewrite Hroute in Hall. unfold span_of in Hall. injection Hall as -> ->. done. }
        * eapply less_client; [exact Ha|reflexivity|exact E|apply cl_asplit|apply put_leaf_left|intros Tb; by apply put_leaf_cw|done].
        * eapply less_client; [exact Ha|reflexivity|exact E|apply cl_after|apply put_leaf_left|intros Tb; by apply put_leaf_cw|done].
      + injection Hs as <- _. split; [by apply after_in_set0|]. eapply less_client0; [exact Ha|reflexivity|reflexivity|apply cl_afail].
    - (* splits *)
      set (sel := ph_selector (rop_hash cfg o)) in *.
      destruct ((sh_start (route (c_root c) sel) =? s1) && (sh_end (route (c_root c) sel) =? e1)) eqn:E.
      + destruct (sh_tgt (route (c_root c) sel)); [done|]. destruct (node_free _ _); [|done].
        destruct (run (shard_split cfg (route (c_root c) sel)) (c_fs c)) as [w [[b t]|er]].
        * injection Hs as <- _. split; [by apply after_in_set0|]. destruct Hgood as (A' & os' & H' & _).
          unfold measure. cbn [c_root c_fs c_ths]. apply ml_split. unfold splits_left.
          pose proof (tree_ok_len _ _ _ (sk_tree _ _ (ci_skel _ _ _ _ _ H'))) as Hlen. cbn [c_root] in Hlen.
          pose proof (put_leaf_len (c_root c) sel (RVertex (RLeaf b) (RLeaf t))) as E2. cbn [leaves app length] in E2.
          revert Hlen E2. generalize (Nat.pow 2 16). clear. intros n0 Hlen E2. lia.
        * injection Hs as <- _. split; [by apply after_in_set0|].
          eapply less_client0; [exact Ha|cbn [cw]; cbn zeta; fold sel; by rewrite E|reflexivity|apply cl_sfail].
      + injection Hs as <- _. split; [by apply after_in_set0|].
        eapply less_client0; [exact Ha|cbn [cw]; cbn zeta; fold sel; by rewrite E|reflexivity|apply cl_again].
    - (* a worker between rows *)
      cbn [tok] in Tok. destruct Tok as (_ & _ & cur & Hcur & S1 & _). destruct (skel_leaf _ _ _ Hsk Hcur) as (B1 & _ & B3).
      assert (Hroute : route (c_root c) s1 = cur) by (apply B3; lia). rewrite Hroute in Hs.
      destruct (sh_tgt cur) as [[t fl]|] eqn:Et; [|done]. destruct (fs_files (c_fs c) !! t) as [ft|] eqn:Eft; [|done].
      destruct (NUM_ROWS <=? f_cut ft)%nat eqn:Ec.
      + destruct (files_free _ _); [|done]. destruct (run (finish_compaction cur t) (c_fs c)) as [w [sh'|er]] eqn:Er.
        * pose proof (finish_span _ _ _ _ _ Er) as Esp. rewrite <- Hroute in Esp. injection Hs as <- _. split; [by apply after_in_set0|].
          unfold measure. cbn [c_root c_fs c_ths]. rewrite put_leaf_left. rewrite (cw_worker c a (TBg s1) TDead s1 sh' Ha) by done.
          apply ml_done. eapply omap_len_lt; [exact Ha|done|done].
        * injection Hs as <- _. split; [by apply after_in_set0|]. unfold measure. cbn [c_root c_fs c_ths].
          rewrite (omap_same (cw cfg (c_root c)) (cw cfg (c_root c)) (c_ths c) a (TBg s1) TDead Ha) by done.
          apply ml_done. eapply omap_len_lt; [exact Ha|done|done].
      + destruct (row_free _ _ _); [|done]. injection Hs as <- _. split; [by apply after_in_set0|]. unfold measure, set_thr. cbn [c_root c_fs c_ths].
        rewrite (omap_same (cw cfg (c_root c)) (cw cfg (c_root c)) (c_ths c) a (TBg s1) _ Ha) by done.
        rewrite (omap_same worker worker (c_ths c) a (TBg s1) _ Ha) by done.
        apply ml_worker. eapply omap_one; [exact Ha|reflexivity|reflexivity| |done].
        unfold cut_of. rewrite Hroute, Et, Eft. apply Nat.leb_gt in Ec.
        replace (NUM_ROWS - f_cut ft)%nat with (S (NUM_ROWS - S (f_cut ft))) by lia. apply wl_start.
    - (* a worker in a row *)
      cbn [tok] in Tok. destruct Tok as (_ & cur & ow & j & srow & ls & ft & -> & Hcur & Hsim & S1 & St & Hlt & Ei & Er & Ew & Hft & Hc & HK & _ & _ & Hsafe).
      destruct (skel_leaf _ _ _ Hsk Hcur) as (B1 & _ & B3). pose proof Hsim as (M1 & M2 & M3 & M4).
      assert (Hroute : route (c_root c) s1 = cur) by (apply B3; lia).
      (* the other workers compact other files *)
      assert (Hoth : forall b Tb s, b <> a -> c_ths c !! b = Some Tb -> Tb = TBg s ->
        span_of (route (c_root c) s) <> span_of cur /\ s < 65536 /\ forall t' fl, sh_tgt (route (c_root c) s) = Some (t', fl) -> t' <> t).
      { intros b Tb s Hne Hb ->. destruct (ci_thr _ _ _ _ _ H _ _ Hb) as (ob & _ & (_ & _ & curb & Hcb & Sb & _)).
        destruct (skel_leaf _ _ _ Hsk Hcb) as (C1 & C2 & C3). assert (route (c_root c) s = curb) as -> by (apply C3; lia).
        assert (Hd : sh_start curb <> sh_start cur).
        { intros E. apply Hne. eapply (ci_bg _ _ _ _ _ H); [exact Hb|exact Ha|reflexivity|]. cbn. congruence. }
        split; [unfold span_of; congruence|]. split; [lia|]. intros t' fl Et ->. apply Hd. f_equal.
        eapply same_leaf; [exact Hsk|exact Hcb|exact Hcur|by apply (ci_leaf _ _ _ _ _ H)|by apply (ci_leaf _ _ _ _ _ H)| |].
        - right. by rewrite Et.
        - right. by rewrite M4. }
      destruct p as [[]|er|X ef kk].
      + injection Hs as <- _. split; [by apply after_in_set0|]. unfold measure. cbn [c_root c_fs c_ths]. rewrite put_leaf_left.
        set (sh' := Shard (sh_start sh) (sh_end sh) (sh_ino sh) (Some (t, false))).
        assert (Esp : span_of sh' = span_of (route (c_root c) s1)) by (rewrite Hroute; unfold span_of, sh'; cbn; congruence).
        rewrite (cw_worker c a _ (TBg s1) s1 sh' Ha) by done.
        rewrite (omap_same worker worker (c_ths c) a _ (TBg s1) Ha) by done.
        apply ml_worker. eapply omap_one; [exact Ha|reflexivity|reflexivity| |].
        * unfold cut_of. rewrite put_leaf_here by done. unfold sh'. cbn [sh_tgt run_eff fst fs_files].
          rewrite lookup_alter, Hft. destruct ft as [ln mg ver wa wo ins rem cut rows data]. cbn [fmap option_fmap option_map apply_fupd f_cut] in *. rewrite Hc.
          apply wl_next.
        * intros b Tb Hne Hb. destruct Tb as [|p'|o' k'|o' k' sh2 p'|o' k' s2 e2 v2 wo2|o' k' s2 e2|s2|s2 sh2 t' b' p'|]; try done. cbn [ww]. do 3 f_equal.
          destruct (Hoth _ _ s2 Hne Hb eq_refl) as (Hd & _ & Hn). unfold cut_of. rewrite put_leaf_there; [|done|by rewrite Hroute].
          destruct (sh_tgt (route (c_root c) s2)) as [[t2 fl2]|]; [|done]. cbn [run_eff fst fs_files].
          rewrite lookup_alter_ne; [done|]. intros ->. by eapply Hn.
      + injection Hs as <- _. split; [by apply after_in_set0|]. unfold measure, set_thr. cbn [c_root c_fs c_ths].
        rewrite (omap_same (cw cfg (c_root c)) (cw cfg (c_root c)) (c_ths c) a _ TDead Ha) by done.
        apply ml_done. eapply omap_len_lt; [exact Ha|done|done].
      + assert (Hkeep : forall t', t' <> t -> fs_files (fst (run_eff ef (c_fs c))) !! t' = fs_files (c_fs c) !! t').
        { intros t' Hne. apply run_eff_other. cbn [lsafe] in Hsafe. destruct ef as [|i n|i u|nm b|nm b|nm]; try done.
          - destruct Hsafe as (-> & _). congruence.
          - destruct Hsafe as (ow' & g' & _ & -> & _). congruence. }
        destruct (run_eff ef (c_fs c)) as [w y]. cbn [fst] in Hkeep. injection Hs as <- _. split; [by apply after_in_set0|].
        unfold measure. cbn [c_root c_fs c_ths].
        rewrite (omap_same (cw cfg (c_root c)) (cw cfg (c_root c)) (c_ths c) a _ _ Ha) by done.
        rewrite (omap_same worker worker (c_ths c) a _ (TBgRow s1 sh t row (kk y)) Ha) by done.
        apply ml_worker. eapply omap_one; [exact Ha|reflexivity|reflexivity|apply wl_vis; by exists y|].
        intros b Tb Hne Hb. destruct Tb as [|p'|o' k'|o' k' sh' p'|o' k' s2 e2 v2 wo2|o' k' s2 e2|s2|s2 sh' t' b' p'|]; try done. cbn [ww]. do 3 f_equal.
        destruct (Hoth _ _ s2 Hne Hb eq_refl) as (_ & _ & Hn). unfold cut_of.
        destruct (sh_tgt (route (c_root c) s2)) as [[t2 fl2]|]; [|done]. rewrite Hkeep; [done|by eapply Hn].
  Qed.
End step.
