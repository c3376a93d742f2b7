(** The invariant of the store survives an I/O error. *)
From Verif Require Import Base Hashing HashingProofs Fs Shard Router RouterPure Wpc Spec FileRep RowOps
  Compact Inv ShardOps Split Insert Open Merge Create Store Limits StoreRefine Kv Api Hist KvSpec HistInv Faults.

(** ** A logic for programs with failing calls: [C] holds before every call of kind [F]. *)
Fixpoint wpf {A} (F : forall X, eff X -> Prop) (p : prog A) (C : fs -> Prop) (Q : A -> fs -> Prop) (w : fs) : Prop :=
  match p with
  | Ret a => Q a w
  | Fail e => True
  | Vis e k => (F _ e -> C w) /\ wpf F (k (snd (run_eff e w))) C Q (fst (run_eff e w))
  end.
Lemma wpf_stops {A} F (p : prog A) C Q w w' : wpf F p C Q w -> stops F p w w' -> C w'.
Proof.
  revert w. induction p as [a|e|X e k IH]; intros w; cbn [wpf stops]; [done..|].
  intros [H1 H2] [[H3 ->]|H3]; [auto|]. by eapply IH.
Qed.
Lemma wpf_bind {A B} F (p : prog A) (f : A -> prog B) C Q w :
  wpf F p C (fun a => wpf F (f a) C Q) w -> wpf F (pbind p f) C Q w.
Proof.
  revert w. induction p as [a|e|X e k IH]; intros w; cbn [wpf pbind]; [done..|].
  intros [H1 H2]. split; [done|]. by apply IH.
Qed.
Lemma wpc_wpf {A} F (p : prog A) (C C' : fs -> Prop) (Q Q' : A -> fs -> Prop) E w :
  (forall w, C w -> C' w) -> (forall a w, Q a w -> Q' a w) -> wpc p C Q E w -> wpf F p C' Q' w.
Proof.
  intros HC HQ. revert w. induction p as [a|e|X e k IH]; intros w; cbn [wpf wpc]; [intros []; auto..|].
  intros [H1 H2]. split; [auto|]. by apply IH.
Qed.
(** The leaf as it is in memory, holding [m] or [m']. *)
Definition leafF (cfg : config) (w : fs) (m m' : kvmap) (s : N) (n : nat) (r' : router) (w' : fs) : Prop :=
  leafQ cfg false w m s n r' w' \/ leafQ cfg false w m' s n r' w'.

Lemma insert_row_fault cfg x m w sh s n k v mode i f (Q : ins_status -> fs -> Prop) E :
  wf w -> run_span cfg x m w (RLeaf sh) s n ->
  in_span cfg s (s + 2 ^ N.of_nat n) k ->
  len k < 16384 -> len v < 65536 -> k <> [] -> room w sh (len k + len v) ->
  row_file w sh (ph_row (hashk cfg k)) = Ok (i, f) ->
  let m' := fst (spec_ins m k v mode) in
  (forall w' st, leafF cfg w m m' s n (RLeaf sh) w' -> Q st w') ->
  wpc (insert_row i f (hashk cfg k) k v mode) (leafF cfg w m m' s n (RLeaf sh)) Q E w.
Proof.
  intros Hwf Hrun Hin Hk Hv Hne Hroom Hrf m' HQ.
  apply run_leaf in Hrun as (Hs & He & Hleaf & Hsolo).
  set (r := ph_row (hashk cfg k)) in *.
  assert (r < NUM_ROWS)%nat as Hr by apply ph_row_lt.
  destruct (leaf_focus cfg x m w sh r (len k + len v) Hwf Hleaf Hr)
    as (i0 & f0 & L & nm & F1 & F2 & F3 & F4 & F5 & F6 & F7 & F8 & F9 & F10).
  rewrite Hrf in F1. injection F1 as <- <-. rewrite Hs, He in *.
  assert (Hm : forall k', ph_row (hashk cfg k') <> r -> m' !! k' = m !! k').
  { intros k' Hk'. apply spec_ins_other. intros ->. by apply Hk'. }
  assert (Hwf' : forall f', wf (set_file i f' w)) by (intros; apply wf_set_file; eauto).
  assert (Hos : forall f', outside_same s (s + 2 ^ N.of_nat n) w (set_file i f' w)).
  { intros f'. eapply outside_same_set_file; [done|exact F3|]. by apply leaf_not_out. }
  assert (Hhome : home cfg s (s + 2 ^ N.of_nat n) r k) by done.
  assert (HC : forall f' m1, leaf_ok cfg false m1 (set_file i f' w) sh ->
    leafQ cfg false w m1 s n (RLeaf sh) (set_file i f' w)).
  { intros f' m1 Hl. split; [apply Hwf'|]. split; [apply Hos|]. apply run_leaf. split; [done|]. split; [done|].
    split; [done|]. by eapply solo_dir. }
  rewrite <- (set_file_id i f w F2) at 2.
  apply (insert_row_spec cfg x i f L k v mode w); auto.
  - intros f' L' l' st N1 N2 N3 Hi HL. fold r in HL.
    pose proof (row_ins_holds m _ k v mode _ _ _ Hi Hhome F8) as Hrow.
    destruct HL as [->| ->].
    + left. apply HC. eapply leaf_focus_same; rewrite ?Hs, ?He; eauto.
    + destruct (decide (st = SSplit)).
      * left. destruct Hrow as (-> & _). apply HC. apply (F10 false f' (L r) m); auto.
      * right. destruct Hrow as (Hrow & _). apply HC. apply (F10 false f' l' m'); auto.
  - intros f' l' st N1 N2 N3 Hi Hsame.
    pose proof (row_ins_holds m _ k v mode _ _ _ Hi Hhome F8) as Hrow.
    apply HQ. apply (acct_weaken x) in N3. destruct (decide (st = SSplit)).
    + left. destruct Hrow as (-> & _). apply HC. apply (F10 false f' (L r) m); auto.
    + right. destruct Hrow as (Hrow & _). apply HC. apply (F10 false f' l' m'); auto.
Qed.

Lemma leaf_ok_weaken cfg x m w sh : leaf_ok cfg x m w sh -> leaf_ok cfg false m w sh.
Proof.
  intros (f & L & H1 & H2 & H3 & H4 & H5 & H6 & H7). exists f, L. do 4 (split; [done|]).
  split; [by eapply acct_weaken|]. split; [done|]. destruct (sh_tgt sh) as [[t b]|]; [|done].
  destruct H7 as (T0 & ft & Lt & T1 & T2 & [C1 C2 C3 C4 C5 C6 C7 C8]). split; [done|]. exists ft, Lt.
  split; [done|]. split; [done|]. split; auto. by eapply acct_weaken.
Qed.
Lemma run_span_weaken cfg x m w r s n : run_span cfg x m w r s n -> run_span cfg false m w r s n.
Proof.
  intros (H1 & H2 & H3). split; [done|]. split; [|done]. eapply Forall_impl; [exact H2|].
  intros sh. apply leaf_ok_weaken.
Qed.

Lemma shard_insert_fault cfg x m w sh s n k v mode :
  wf w -> run_span cfg x m w (RLeaf sh) s n ->
  in_span cfg s (s + 2 ^ N.of_nat n) k ->
  len k < 16384 -> len v < 65536 -> k <> [] -> room w sh (len k + len v) ->
  wpf (@io_insert) (shard_insert cfg sh (hashk cfg k) k v mode)
    (leafF cfg w m (fst (spec_ins m k v mode)) s n (RLeaf sh)) (fun _ _ => True) w.
Proof.
  intros Hwf Hrun Hin Hk Hv Hne Hroom. pose proof Hrun as Hrun'.
  set (m' := fst (spec_ins m k v mode)).
  apply run_leaf in Hrun as (Hs & He & Hleaf & Hsolo).
  assert (leafF cfg w m m' s n (RLeaf sh) w) as HC0.
  { left. split; [done|]. split; [apply outside_same_refl|]. by eapply run_span_weaken. }
  unfold shard_insert. cbn [snap eff1 pbind wpf run_eff fst snd]. split; [done|].
  destruct (leaf_focus cfg x m w sh (ph_row (hashk cfg k)) 0 Hwf Hleaf (ph_row_lt _))
    as (i & f & L & nm & F1 & F2 & F3 & F4 & F5 & F6 & _).
  rewrite F1. cbn [lift pbind].
  assert (Hins : forall (p : ins_status -> prog (shard * ins_status)),
    (forall w' st, leafF cfg w m m' s n (RLeaf sh) w' -> wpf (@io_insert) (p st) (leafF cfg w m m' s n (RLeaf sh)) (fun _ _ => True) w') ->
    wpf (@io_insert) (pbind (insert_row i f (hashk cfg k) k v mode) p) (leafF cfg w m m' s n (RLeaf sh)) (fun _ _ => True) w).
  { intros p Hp. apply wpf_bind.
    eapply (wpc_wpf _ _ _ _ _ _ (fun _ => True)); [intros w' Hw'; exact Hw'|intros a w' Ha; exact Ha|].
    eapply (insert_row_fault cfg x m w sh s n k v mode i f _ (fun _ => True)); eauto. }
  destruct (sh_tgt sh) as [[t b]|] eqn:Et.
  - apply Hins. intros w' st _. done.
  - destruct (c_min_compact cfg <=? f_wasted f).
    + apply Hins. intros w' st HF. apply wpf_bind. unfold begin_compaction, get_file. rewrite Et.
      cbn [snap eff1 pbind wpf run_eff fst snd]. split; [done|].
      destruct (fs_files w' !! sh_ino sh) as [f'|]; cbn [lift pbind wpf]; [|done].
      destruct (f_woff f' <? f_woff f); cbn [wpf]; [done|].
      unfold mmap_create. cbn [eff1 pbind wpf]. split; [done|].
      cbn. tauto.
    + destruct (c_max_shard cfg <? _); [done|]. apply Hins. intros w' st _. done.
Qed.

(** ** Split *)
Lemma core_leafQ cfg x m w0 w1 w' sh s n :
  leafQ cfg x w0 m s n (RLeaf sh) w1 -> wf w' -> core_same w1 w' -> leafQ cfg false w0 m s n (RLeaf sh) w'.
Proof.
  intros (H1 & H2 & H3) Hw Hc. split; [done|]. split.
  - eapply outside_same_trans; [exact H2|by apply core_outside].
  - eapply run_span_weaken, run_span_core; [exact Hc|exact H3].
Qed.

Lemma shard_split_fault cfg x m w0 w1 sh s n :
  leafQ cfg x w0 m s (S n) (RLeaf sh) w1 -> sh_tgt sh = None ->
  wpf (@io_split) (shard_split cfg sh) (leafQ cfg false w0 m s (S n) (RLeaf sh)) (fun _ _ => True) w1.
Proof.
  intros HQ0 Htgt. pose proof HQ0 as (Hwf & Hos & Hrun).
  assert (HCcore : forall w', wf w' -> core_same w1 w' -> leafQ cfg false w0 m s (S n) (RLeaf sh) w').
  { intros w' A1 A2. by eapply core_leafQ. }
  unfold shard_split, wait_compaction. rewrite Htgt. cbn [pbind].
  apply run_leaf in Hrun as (Hs & He & Hleaf & Hsolo).
  pose proof (pow2_succ n) as Hp. pose proof (pow2_pos n) as Hpos.
  rewrite Hp in He, Hsolo. clear Hp.
  set (h := 2 ^ N.of_nat n) in *. rewrite Hs, He.
  replace ((s + (s + (h + h))) / 2) with (s + h).
  2:{ replace (s + (s + (h + h))) with ((s + h) * 2) by lia. by rewrite N.div_mul. }
  set (e := s + (h + h)) in *. set (mid := s + h) in *. cbv zeta.
  pose proof Hleaf as (f & L & H1 & H2 & H3 & H4 & H5 & H6 & H7). rewrite Htgt in H7.
  destruct H7 as [H7 H8]. rewrite Hs, He in *.
  set (b := put_ino (FBottom s mid) w1).
  apply wpf_bind. eapply (wpc_wpf _ _ _ _ _ _ (fun _ => True)); [intros w' Hw'; exact Hw'|intros a w' Ha; exact Ha|].
  apply mmap_create_any.
  { by apply HCcore. }
  { intros fb _. apply HCcore; [by apply wf_put_file|by apply core_put_file; [|intros []]]. }
  intros fb Hfb Hhb. set (w2 := put_file (FBottom s mid) fb w1). fold b.
  assert (wf w2) as Hwf2 by (by apply wf_put_file).
  assert (core_same w1 w2) as Hc2 by (by apply core_put_file; [|intros []]).
  set (t := put_ino (FTop mid e) w2).
  apply wpf_bind. eapply (wpc_wpf _ _ _ _ _ _ (fun _ => True)); [intros w' Hw'; exact Hw'|intros a w' Ha; exact Ha|].
  apply mmap_create_any.
  { by apply HCcore. }
  { intros ft _. apply HCcore; [by apply wf_put_file|].
    eapply core_same_trans; [exact Hc2|by apply core_put_file; [|intros []]]. }
  intros ft Hft Hht. set (w3 := put_file (FTop mid e) ft w2). fold t.
  assert (wf w3) as Hwf3 by (by apply wf_put_file).
  assert (core_same w1 w3) as Hc3.
  { eapply core_same_trans; [exact Hc2|by apply core_put_file; [|intros []]]. }
  assert (fs_dir w2 !! FBottom s mid = Some b) as Db2 by apply put_file_dir.
  assert (b <> t) as Hbt by (apply (put_ino_ne _ w2 (FBottom s mid)); [done|discriminate|exact Db2]).
  assert (fs_dir w3 !! FBottom s mid = Some b) as Db.
  { unfold w3. by rewrite put_file_dir_ne. }
  assert (fs_dir w3 !! FTop mid e = Some t) as Dt by apply put_file_dir.
  assert (fs_files w3 !! b = Some fb) as Fb.
  { unfold w3. rewrite put_file_ne by done. apply put_file_get. }
  assert (fs_files w3 !! t = Some ft) as Ft by apply put_file_get.
  assert (HC3 : forall fb' ft', wf (set_file b fb' (set_file t ft' w3)) /\
    core_same w1 (set_file b fb' (set_file t ft' w3))).
  { intros fb' ft'.
    assert (wf (set_file t ft' w3)) as A1 by (apply wf_set_file; eauto).
    assert (core_same w3 (set_file t ft' w3)) as A2.
    { eapply core_set_file; [done|exact Dt|intros []]. }
    split.
    - apply wf_set_file; [done|]. rewrite set_file_ne by done. eauto.
    - eapply core_same_trans; [exact Hc3|]. eapply core_same_trans; [exact A2|].
      eapply core_set_file; [done|exact Db|intros []]. }
  assert (fs_files w3 !! sh_ino sh = Some f) as Hf3.
  { rewrite (proj2 (Hc3 (FShard s e) I) _ H1). done. }
  unfold get_file at 1. cbn [snap eff1 pbind wpf run_eff fst snd]. split; [intros _; by apply HCcore|].
  rewrite Hf3. cbn [lift pbind wpf].
  apply wpf_bind. eapply (wpc_wpf _ _ _ _ _ _ (fun _ => True)); [intros w' Hw'; exact Hw'|intros a w' Ha; exact Ha|].
  replace w3 with (set_file b fb (set_file t ft w3)).
  2:{ rewrite (set_file_id t) by done. by apply set_file_id. }
  eapply (split_rows_spec cfg f L mid b t 0 (f_rows f) fb ft (fun _ => padded []) (fun _ => padded [])).
  { done. }
  { done. }
  { done. }
  { lia. }
  { by apply blank_fresh. }
  { by apply blank_fresh. }
  { done. }
  { done. }
  { rewrite rest_live_0. destruct Hfb as (_ & -> & _), Hft as (_ & -> & _). destruct H5 as [H5 _]. lia. }
  { intros fb' ft'. apply HCcore; apply HC3. }
  intros fb' ft' Lb Lt _ _ _ _. destruct (HC3 fb' ft') as [Hwf4 Hc4].
  unfold rename. cbn [eff1 pbind wpf run_eff fst snd]. split; [intros _; by apply HCcore|].
  destruct (fs_dir (set_file b fb' (set_file t ft' w3)) !! FBottom s mid); cbn [fst snd check pbind wpf]; [|done].
  split; [done|]. cbn [fst snd check pbind wpf].
  destruct (run_eff _ _) as [w5 [|]]; cbn [fst snd check pbind wpf]; [|done].
  unfold remove_file. cbn [eff1 pbind wpf]. split; [done|].
  destruct (run_eff _ _) as [w6 [|]]; done.
Qed.

(** ** One leaf *)
Lemma leaf_fault_ok cfg k v mode n : forall x m w sh s r' w',
  leaf_fault cfg (hashk cfg k) k v mode sh w r' w' ->
  wf w -> run_span cfg x m w (RLeaf sh) s n ->
  in_span cfg s (s + 2 ^ N.of_nat n) k ->
  len k < 16384 -> len v < 65536 -> k <> [] -> room w sh (len k + len v) ->
  row_space cfg m k -> sel_space cfg m k v ->
  (n = 0%nat -> ~ size_full cfg w sh (len k + len v)) ->
  leafF cfg w m (fst (spec_ins m k v mode)) s n r' w'.
Proof.
  induction n as [|n IH]; intros x m w sh s r' w' Hf Hwf Hrun Hin Hk Hv Hne Hroom Hrs Hss Hz.
  - pose proof (shard_insert_leaf cfg x m w sh s 0 k v mode
      (fun a _ => snd a <> SSplit) no_err Hwf Hrun Hin Hk Hv Hne Hroom) as Hw. cbn zeta in Hw.
    assert (forall w1 sh1, run (shard_insert cfg sh (hashk cfg k) k v mode) w <> (w1, Ok (sh1, SSplit))) as Hno.
    { intros w1 sh1 E. apply wpc_sound in Hw as [_ Hw].
      - rewrite E in Hw. by destruct Hw as [_ Hw].
      - intros ? ? ? ? ? ?. done.
      - intros ? ? _ _ [H|H]; exfalso; [by eapply not_row_full|by apply Hz]. }
    inversion Hf; subst.
    + eapply wpf_stops; [|eassumption]. by eapply shard_insert_fault.
    + exfalso. by eapply Hno.
    + exfalso. by eapply Hno.
    + exfalso. by eapply Hno.
  - set (m' := fst (spec_ins m k v mode)) in *.
    pose proof (shard_insert_leaf cfg x m w sh s (S n) k v mode
      (fun a w1 => snd a = SSplit -> leafQ cfg x w m s (S n) (RLeaf (fst a)) w1 /\ room w1 (fst a) (len k + len v))
      no_err Hwf Hrun Hin Hk Hv Hne Hroom) as Hw. cbn zeta in Hw.
    assert (forall w1 sh1, run (shard_insert cfg sh (hashk cfg k) k v mode) w = (w1, Ok (sh1, SSplit)) ->
      leafQ cfg x w m s (S n) (RLeaf sh1) w1 /\ room w1 sh1 (len k + len v)) as Hi.
    { intros w1 sh1 E. apply wpc_sound in Hw as [_ Hw].
      - rewrite E in Hw. by apply Hw.
      - intros ? ? ? ? ? ? ?. done.
      - intros w2 sh2 H1 H2 _ _. done. }
    assert (Hsp : forall w1 sh1 w2 b t, run (shard_insert cfg sh (hashk cfg k) k v mode) w = (w1, Ok (sh1, SSplit)) ->
      run (shard_split cfg sh1) w1 = (w2, Ok (b, t)) ->
      leafQ cfg x w m s (S n) (RVertex (RLeaf b) (RLeaf t)) w2 /\ fresh_leaf cfg m w2 b /\ fresh_leaf cfg m w2 t /\
      room w2 b (len k + len v) /\ room w2 t (len k + len v)).
    { intros w1 sh1 w2 b t E1 E2. destruct (Hi _ _ E1) as [HQ1 Hroom1].
      pose proof (shard_split_leaf cfg x m w w1 sh1 s n (fun _ => True)
        (fun a w2 => leafQ cfg x w m s (S n) (RVertex (RLeaf (fst a)) (RLeaf (snd a))) w2 /\
          fresh_leaf cfg m w2 (fst a) /\ fresh_leaf cfg m w2 (snd a) /\
          room w2 (fst a) (len k + len v) /\ room w2 (snd a) (len k + len v)) no_err HQ1) as Hs2.
      apply wpc_sound in Hs2 as [_ Hs2].
      - rewrite E2 in Hs2. apply Hs2.
      - done.
      - intros w3 b' t' A1 A2 A3 A4. destruct (A4 _ Hroom1). done. }
    assert (Hother : forall s' e', ~ in_span cfg s' e' k -> forall k', in_span cfg s' e' k' -> m !! k' = m' !! k').
    { intros s' e' Hni k' Hk'. symmetry. apply spec_ins_other. intros ->. by apply Hni. }
    unfold in_span in Hin. rewrite pow2_succ in Hin.
    inversion Hf as [? ? ? Hst|? ? sh1 w1 sh2 w2 ? E1 E2 Hst|? ? sh1 w1 b t w2 r1 ? E1 E2 Hsel Hf'|? ? sh1 w1 b t w2 r1 ? E1 E2 Hsel Hf']; subst.
    + eapply wpf_stops; [|eassumption]. eapply shard_insert_fault; eauto. unfold in_span. by rewrite pow2_succ.
    + destruct (Hi _ _ E1) as [HQ1 Hroom1].
      pose proof (wait_compaction_leaf cfg x m w w1 sh1 s (S n) (fun _ => True)
        (fun a w2 => leafQ cfg x w m s (S n) (RLeaf a) w2 /\ sh_tgt a = None) no_err HQ1) as Hw2.
      apply wpc_sound in Hw2 as [_ Hw2]; [|done|by intros].
      rewrite E2 in Hw2. destruct Hw2 as (_ & HQ2 & Ht). left.
      eapply wpf_stops; [|exact Hst]. by eapply shard_split_fault.
    + destruct (Hsp _ _ _ _ _ E1 E2) as (HQ2 & Fb & Ft & Rb & Rt).
      destruct HQ2 as (Hwf2 & Hos2 & Hrun2).
      destruct (run_span_split _ _ _ _ _ _ _ _ Hwf2 Hrun2) as [Hrb Hrt].
      pose proof Hrb as Hrb'. apply run_leaf in Hrb' as (Sb & Eb & _). rewrite Eb in Hsel.
      pose proof (run_span_weaken _ _ _ _ _ _ _ Hrt) as Hrt0.
      assert (~ in_span cfg (s + 2 ^ N.of_nat n) (s + 2 ^ N.of_nat n + 2 ^ N.of_nat n) k) as Hni.
      { unfold in_span. lia. }
      destruct (IH x m w2 b s r1 w' Hf' Hwf2 Hrb) as [HQ'|HQ']; auto.
      { unfold in_span. lia. }
      { intros ->. eapply not_size_full; eauto. unfold in_span. lia. }
      * left. eapply leafQ_trans; [exact Hos2|]. eapply leafQ_low; [exact Hrt0|done|exact HQ'].
      * right. eapply leafQ_trans; [exact Hos2|]. eapply leafQ_low; [exact Hrt0| |exact HQ']. by apply Hother.
    + destruct (Hsp _ _ _ _ _ E1 E2) as (HQ2 & Fb & Ft & Rb & Rt).
      destruct HQ2 as (Hwf2 & Hos2 & Hrun2).
      destruct (run_span_split _ _ _ _ _ _ _ _ Hwf2 Hrun2) as [Hrb Hrt].
      pose proof Hrb as Hrb'. apply run_leaf in Hrb' as (Sb & Eb & _). rewrite Eb in Hsel.
      pose proof Hrt as Hrt'. apply run_leaf in Hrt' as (St & Et & _).
      pose proof (run_span_weaken _ _ _ _ _ _ _ Hrb) as Hrb0.
      assert (~ in_span cfg s (s + 2 ^ N.of_nat n) k) as Hni.
      { unfold in_span. lia. }
      destruct (IH x m w2 t (s + 2 ^ N.of_nat n) r1 w' Hf' Hwf2 Hrt) as [HQ'|HQ']; auto.
      { unfold in_span. lia. }
      { intros ->. eapply not_size_full; eauto. unfold in_span. lia. }
      * left. eapply leafQ_trans; [exact Hos2|]. eapply leafQ_high; [exact Hrb0|done|exact HQ'].
      * right. eapply leafQ_trans; [exact Hos2|]. eapply leafQ_high; [exact Hrb0| |exact HQ']. by apply Hother.
Qed.

(** ** The tree *)
Lemma tree_fault_ok cfg x m m' sel (P : shard -> router -> fs -> Prop) r : forall w s n r' w',
  wf w -> run_span cfg x m w r s n -> s <= sel < s + 2 ^ N.of_nat n ->
  (forall k, ph_selector (hashk cfg k) <> sel -> m !! k = m' !! k) ->
  (forall sh s n r' w', sh = route r sel -> run_span cfg x m w (RLeaf sh) s n -> s <= sel < s + 2 ^ N.of_nat n ->
     P sh r' w' -> leafF cfg w m m' s n r' w') ->
  tree_fault P r sel r' w' -> leafF cfg w m m' s n r' w'.
Proof.
  induction r as [sh|b IHb t IHt]; intros w s n r' w' Hwf Hrun Hsel Hm Hf HP; cbn [tree_fault] in HP.
  - by eapply Hf.
  - pose proof Hrun as (Ht & _). cbn [tree_ok] in Ht. destruct n as [|n]; [done|].
    destruct (run_span_split _ _ _ _ _ _ _ _ Hwf Hrun) as [Hb Ht'].
    pose proof (run_span_weaken _ _ _ _ _ _ _ Hb) as Hb0.
    pose proof (run_span_weaken _ _ _ _ _ _ _ Ht') as Ht0.
    rewrite (tree_rend b s n) in HP by apply Hb. rewrite pow2_succ in Hsel.
    cbn [route] in Hf. rewrite (tree_rend b s n) in Hf by apply Hb.
    assert (Hother : forall s' e', ~ (s' <= sel < e') -> forall k', in_span cfg s' e' k' -> m !! k' = m' !! k').
    { intros s' e' Hni k' Hk'. apply Hm. intros <-. by apply Hni. }
    destruct (N.ltb_spec sel (s + 2 ^ N.of_nat n)) as [Hlow|Hhigh]; destruct HP as (r1 & -> & HP).
    + destruct (IHb w s n r1 w') as [HQ'|HQ']; auto; [lia|..].
      * left. eapply leafQ_low; [exact Ht0|done|exact HQ'].
      * right. eapply leafQ_low; [exact Ht0| |exact HQ']. apply Hother. lia.
    + destruct (IHt w (s + 2 ^ N.of_nat n) n r1 w') as [HQ'|HQ']; auto; [lia|..].
      * left. eapply leafQ_high; [exact Hb0|done|exact HQ'].
      * right. eapply leafQ_high; [exact Hb0| |exact HQ']. apply Hother. lia.
Qed.

Implicit Types (M : kvmap).
Lemma insert_fault_ok cfg x M s k v mode s' :
  SInv cfg x M s -> k <> [] -> headroom cfg s M k v ->
  insert_fault cfg s k v mode s' ->
  ins_err cfg k v = None /\ (SInv cfg false M s' \/ SInv cfg false (fst (spec_ins M k v mode)) s').
Proof.
  intros HI Hne Hhr [Herr Hf]. split; [done|].
  destruct (headroom_parts cfg x M s k v HI Hhr) as (A1 & A2 & A3 & A4).
  unfold ins_err in Herr.
  destruct (N.ltb_spec MAX_TOTAL_KEY_SIZE (len k)) as [|Hk]; [done|].
  destruct (N.ltb_spec MAX_TOTAL_VALUE_SIZE (len v)) as [|Hv]; [done|].
  destruct (N.ltb_spec (c_max_shard cfg) (len k + len v)) as [|Hc]; [done|]. clear Herr Hc.
  unfold MAX_TOTAL_KEY_SIZE, MAX_TOTAL_VALUE_SIZE in *.
  assert (len k < 16384) as Hk' by (clear -Hk; lia). assert (len v < 65536) as Hv' by (clear -Hv; lia).
  pose proof HI as (Hwf & Hrun).
  apply (tree_fault_ok cfg x M (fst (spec_ins M k v mode)) _ _ (st_root s) (st_fs s) 0 16) in Hf.
  - destruct Hf as [Hf|Hf]; [left|right]; apply Inv_leafQ in Hf as [_ Hf]; exact Hf.
  - done.
  - done.
  - apply sel_in.
  - intros k' Hk2. symmetry. apply spec_ins_other. intros ->. done.
  - intros sh st n r' w' -> Hrs Hsel HP.
    eapply (leaf_fault_ok cfg k v mode n x); try done.
    intros ->. apply A4. apply run_leaf in Hrs as (-> & -> & _). done.
Qed.

Lemma kwp_kfaults {A} (cfg : config) (x : bool) (p : kprog A) (C : kvmap -> Prop) (Q : A -> kvmap -> Prop) E : forall s s',
  kfaults cfg p s s' -> forall M, SInv cfg x M s -> kfits cfg p s -> kwp cfg p C Q E M ->
  exists M', C M' /\ SInv cfg false M' s'.
Proof.
  assert (Hsame : forall M s (p : kprog A), SInv cfg x M s -> kwp cfg p C Q E M -> exists M', C M' /\ SInv cfg false M' s).
  { intros M s p' [H1 H2] Hw. exists M. split; [by eapply kwp_C|]. split; [done|]. by eapply run_span_weaken. }
  induction 1 as [key v mode k s s' Hf|key k s|key k s|ph k s|X o k s s1 y s' Hr Hf IH]; intros M HI Hfit Hw; [|by eapply Hsame..|].
  - cbn [kfits] in Hfit. destruct Hfit as [Hfit _]. cbn [kwp] in Hw. destruct Hw as [HC [Hne Hw]].
    pose proof Hf as [Herr _]. rewrite Herr in Hw.
    destruct (insert_fault_ok cfg x M s key v mode s' HI Hne) as [_ [H|H]]; auto.
    + apply Hfit; [done|]. by eapply SInv_content.
    + eauto.
    + eexists. split; [|exact H]. by eapply kwp_C.
  - cbn [kfits] in Hfit. destruct Hfit as [Hf1 Hf2]. rewrite Hr in Hf2. cbn [kwp] in Hw. destruct Hw as [_ Hw].
    assert (kop_ne o) as Hne by (destruct o; try done; apply Hw).
    destruct (run_kop_ok cfg x M s o HI Hne Hf1) as (M' & HI' & Hp & _). rewrite Hr in HI', Hp. cbn [fst snd] in HI', Hp.
    apply (IH M' HI' Hf2).
    destruct o as [key|key v mode|key|ph|i|i]; cbn [kop_post] in Hp.
    + destruct Hp as [[= ->] ->]. done.
    + destruct (ins_err cfg key v) as [e|]; [by destruct Hp|]. destruct Hp as [[= ->] ->]. apply Hw.
    + destruct Hp as [[= ->] ->]. done.
    + destruct Hp as [-> Hp]. destruct (ph_sig ph =? INVALID_SIG); [done|]. destruct Hp as (l & [= ->] & Hl). by apply Hw.
    + destruct Hp as [[= ->] ->]. done.
    + destruct Hp as [[= ->] ->]. done.
Qed.

(** ** Histories *)
Section lift.
Context {A : Type} (I : config -> kvmap -> A -> Prop) (T : config -> A -> event -> config -> A -> Prop)
        (G : config -> store -> event -> Prop).
Theorem fhist_lift : lifts I T G -> forall cfg s es cfg' s' x M a,
  fhist G cfg s es cfg' s' -> SInv cfg x M s -> I cfg M a ->
  exists x' M' a', ftrace T cfg a es cfg' a' /\ SInv cfg' x' M' s' /\ I cfg' M' a' /\ c_hash cfg' = c_hash cfg.
Proof.
  intros HL cfg s es cfg' s' x M a H. revert x M a.
  induction H as [cfg s|cfg s e cfg1 s1 es cfg' s' HG Hs Hh IH]; intros x M a HI Ha.
  - exists x, M, a. split; [constructor|]. auto.
  - destruct Hs as [cfg s e cfg1 s1 Hs|cfg s c s1 Hs]; cbn [as_crash] in *.
    + destruct (step_lift _ _ _ HL _ _ _ _ _ _ _ _ Hs HG HI Ha) as (x1 & M1 & a1 & T1 & I1 & A1 & C1 & _).
      destruct (IH _ _ _ I1 A1) as (x2 & M2 & a2 & T2 & I2 & A2 & C2).
      exists x2, M2, a2. split; [by eapply ft_do; [eapply hstep_cfg|..]|]. split; [done|]. split; [done|]. congruence.
    + pose proof (lf_fits _ _ _ HL _ _ _ HG) as Hf. cbn [fits] in Hf.
      pose proof (lf_crash _ _ _ HL _ _ _ _ _ _ HI Ha HG) as Hw.
      destruct (kwp_kfaults cfg x _ _ _ _ s s1 Hs M HI Hf Hw) as (M1 & (a1 & HT & Ha1) & HI1).
      destruct (IH _ _ _ HI1 Ha1) as (x2 & M2 & a2 & T2 & I2 & A2 & C2).
      exists x2, M2, a2. split; [by eapply ft_fail; [apply HT|]|]. auto.
Qed.
End lift.
