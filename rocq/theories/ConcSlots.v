(** A step of the threads changes at most one slot of a row, unless the row is moved to another file:
    the entry of a key that is not touched stays in its slot. *)
From Verif Require Import Base Hashing HashingProofs Fs Shard Router RouterPure Wpc Spec FileRep RowOps
  Compact Inv ShardOps Split Insert Open Merge Create Store Limits StoreRefine Kv Lists Queues Api Hist KvSpec
  HistInv KeySpace PlainSpec Plain Check ThmStore Refine Iter Conc ConcSpec ConcLocal ConcFile ConcTree
  ConcInv ConcStep ConcRow ConcStruct ConcMain ConcIter ConcWalk.
Implicit Types (cfg : config) (w : fs) (f : file) (c : cstate) (sh : shard).

(** At most one slot is changed, and the bytes of the entries in the others are kept. *)
Definition one_slot f f' : Prop :=
  dkeep f f' /\ exists r0 c0 : nat, forall r j : nat, ~ (r = r0 /\ j = c0) -> row_of f' r !! j = row_of f r !! j.
Lemma one_slot_refl f : one_slot f f.
Proof. split; [by apply dkeep_same|]. by exists 0%nat, 0%nat. Qed.
Lemma one_slot_rows f f' : dkeep f f' -> f_rows f' = f_rows f -> one_slot f f'.
Proof. intros Hd Hr. split; [done|]. exists 0%nat, 0%nat. intros r j _. unfold row_of. by rewrite Hr. Qed.
Lemma set_slot_one f f' (r c : nat) g : f_rows f' = set_slot (f_rows f) r c g ->
  forall r' j : nat, ~ (r' = r /\ j = c) -> row_of f' r' !! j = row_of f r' !! j.
Proof.
  intros H r' j Hn. rewrite (row_of_set_slot f f' r c g r' H). destruct (decide (r' = r)) as [->|]; [|done].
  rewrite list_lookup_alter_ne; [done|]. intros ->. by apply Hn.
Qed.
Lemma ustep_one cfg i r ow u ow' f : ustep cfg i r ow u ow' ->
  exists r0 c0 : nat, forall r' j : nat, ~ (r' = r0 /\ j = c0) -> row_of (apply_fupd u f) r' !! j = row_of f r' !! j.
Proof.
  intros Hu. assert ((exists (r0 c0 : nat) g, f_rows (apply_fupd u f) = set_slot (f_rows f) r0 c0 g) \/ f_rows (apply_fupd u f) = f_rows f) as [(r0 & c0 & g & E)|E].
  { destruct Hu; destruct f; cbn; (by right) || (left; by do 3 eexists). }
  - exists r0, c0. by eapply set_slot_one.
  - exists 0%nat, 0%nat. intros r' j _. unfold row_of. by rewrite E.
Qed.

Lemma cleaf_file cfg x m w os bz sh i f : wf w -> cleaf cfg x m w os bz sh -> has_file sh i -> fs_files w !! i = Some f ->
  exists L, file_rep cfg f L /\ regs f i os.
Proof.
  intros Hwf (f0 & L & H1 & H2 & H3 & H4 & H5 & H6 & H7) [<-|Hi] Hf.
  - assert (f0 = f) as -> by congruence. by exists L.
  - destruct (sh_tgt sh) as [[t b]|]; [|done]. injection Hi as <-. destruct H7 as (H7 & ft & Lt & j & T1 & T2 & T3 & T4 & T5 & T6).
    assert (ft = f) as -> by congruence. exists Lt. split; [apply T5|done].
Qed.

(** What a row of a shard holds, at any time. *)
Lemma cleaf_row cfg x m w os bz sh r : wf w -> cleaf cfg x m w os bz sh -> (r < NUM_ROWS)%nat ->
  exists i f L, row_file w sh r = Ok (i, f) /\ fs_files w !! i = Some f /\ has_file sh i /\ file_rep cfg f L /\
    holds m (home cfg (sh_start sh) (sh_end sh) r) (entries (L r)).
Proof.
  intros Hwf (f0 & L & H1 & H2 & H3 & H4 & H5 & H6 & H7) Hr. unfold row_file, src_file. rewrite H2. destruct (sh_tgt sh) as [[t b]|] eqn:Et.
  - destruct H7 as (H7 & ft & Lt & j & T1 & T2 & T3 & T4 & T5 & T6). rewrite T1. destruct (Nat.ltb_spec r (f_cut ft)) as [Hlt|Hge].
    + exists t, ft, Lt. split; [done|]. split; [done|]. split; [right; by rewrite Et|]. split; [apply T5|]. by apply T5.
    + exists (sh_ino sh), f0, L. split; [done|]. split; [done|]. split; [by left|]. split; [done|]. apply T5. lia.
  - destruct H7 as [_ H7]. exists (sh_ino sh), f0, L. split; [done|]. split; [done|]. split; [by left|]. split; [done|]. by apply H7.
Qed.

(** [begin_compaction] writes to no file that exists. *)
Lemma begin_files cfg sh woff w w' r : run (begin_compaction cfg sh woff) w = (w', r) ->
  (sh_tgt sh = None -> fs_dir w !! FCompact (sh_start sh) (sh_end sh) = None) ->
  forall i, i < fs_next w -> fs_files w' !! i = fs_files w !! i.
Proof.
  intros Hr Hd i Hi. unfold begin_compaction, get_file, snap, eff1 in Hr. cbn [pbind run run_eff] in Hr.
  destruct (fs_files w !! sh_ino sh) as [f|]; cbn [lift pbind run] in Hr; [|by injection Hr as <- _].
  destruct (f_woff f <? woff); [by injection Hr as <- _|]. destruct (sh_tgt sh) as [|] eqn:Et; [by injection Hr as <- _|].
  unfold mmap_create, mmap_new, upd, eff1 in Hr. cbn [pbind run run_eff] in Hr. rewrite (Hd eq_refl) in Hr.
  cbn [run run_eff pbind fs_files fs_dir fs_next] in Hr. injection Hr as <- _. cbn [fs_files].
  rewrite !lookup_alter_ne by lia. rewrite lookup_insert_ne by lia. done.
Qed.

Section slots.
  Context (cfg : config) (x : bool).

  (** The files of a shard are written only as described above, unless the shard is split. *)
  Lemma step_one c A os h c' e A' os' sel (i : ino) f : CInv cfg x c A os -> CInv cfg x c' A' os' -> calm c ->
    cstep cfg c h = Some (c', e) -> sel < 65536 -> span_of (route (c_root c') sel) = span_of (route (c_root c) sel) ->
    has_file (route (c_root c) sel) i -> fs_files (c_fs c) !! i = Some f ->
    exists f', fs_files (c_fs c') !! i = Some f' /\ one_slot f f'.
  Proof.
    intros H H' Hcalm Hs Hsel Hspan Hhas Hf.
    pose proof (ci_skel _ _ _ _ _ H) as Hsk. pose proof (ci_skel _ _ _ _ _ H') as Hsk'.
    destruct (skel_route _ _ _ Hsk Hsel) as [Rin Rsel]. set (sh := route (c_root c) sel) in *.
    pose proof (ci_leaf _ _ _ _ _ H sh Rin) as Hleaf. destruct (cleaf_dir _ _ _ _ _ _ _ _ Hleaf Hhas) as (nm & Hnm & Hnm2).
    assert (c_fs c' = c_fs c -> exists f', fs_files (c_fs c') !! i = Some f' /\ one_slot f f') as Hsame.
    { intros ->. exists f. split; [done|]. apply one_slot_refl. }
    assert (fs_files (c_fs c') !! i = fs_files (c_fs c) !! i -> exists f', fs_files (c_fs c') !! i = Some f' /\ one_slot f f') as Hfile.
    { intros ->. exists f. split; [done|]. apply one_slot_refl. }
    (* shards other than the one that is changed *)
    assert (forall cur, In cur (leaves (c_root c)) -> cur <> sh -> outside_same (sh_start cur) (sh_end cur) (c_fs c) (c_fs c') ->
       fs_files (c_fs c') !! i = fs_files (c_fs c) !! i) as Hother.
    { intros cur Hcur Hne Ho. destruct (skel_leaf _ _ _ Hsk Hcur) as (B1 & B2 & B3). destruct (skel_leaf _ _ _ Hsk Rin) as (D1 & D2 & D3).
      apply (Ho nm); [|done].
      assert (sh_end sh <= sh_start cur \/ sh_end cur <= sh_start sh) as Hd.
      { destruct (N.le_gt_cases (sh_end sh) (sh_start cur)) as [|G1]; [by left|]. destruct (N.le_gt_cases (sh_end cur) (sh_start sh)) as [|G2]; [by right|].
        exfalso. apply Hne. destruct (N.le_gt_cases (sh_start sh) (sh_start cur)).
        - transitivity (route (c_root c) (sh_start cur)); [symmetry; apply B3|apply D3]; lia.
        - transitivity (route (c_root c) (sh_start sh)); [symmetry; apply B3|apply D3]; lia. }
      unfold outside. destruct Hnm2 as [->| ->]; cbn [name_span]; lia. }
    (* one effect of the owner of a row *)
    assert (forall a ow f0 f' L, os !! a = Some (Some ow) -> fs_files (c_fs c) !! o_ino ow = Some f0 -> c_fs c' = set_file (o_ino ow) f' (c_fs c) ->
       (forall r0 c0 : nat, True) -> (o_ino ow = i -> file_rep cfg f L -> regs f i os -> one_slot f f') ->
       (o_ino ow = i -> file_rep cfg f L /\ regs f i os) -> exists f', fs_files (c_fs c') !! i = Some f' /\ one_slot f f') as Heff.
    { intros a ow f0 f' L Ho Hf0 -> _ H1 H2. cbn [set_file fs_files]. destruct (decide (o_ino ow = i)) as [E|Hne].
      - destruct (H2 E). rewrite E, lookup_insert. eexists. split; [done|]. by apply H1.
      - rewrite lookup_insert_ne by done. exists f. split; [done|]. apply one_slot_refl. }
    destruct (cleaf_file _ _ _ _ _ _ _ _ _ (sk_wf _ _ Hsk) Hleaf Hhas Hf) as (L & HL & Hreg).
    destruct h as [a y|a]; cbn [cstep] in Hs.
    { destruct (c_ths c !! a) as [[]|]; try done. injection Hs as <- <-. by apply Hsame. }
    unfold thr_step in Hs. destruct (c_ths c !! a) as [T|] eqn:Ha; [|done].
    destruct (ci_thr _ _ _ _ _ H _ _ Ha) as (oa & Ho & Tok).
    destruct T as [|p|o k|o k sh1 p|o k s e0 v wo|o k s e0|s|s sh1 t r p|]; try done.
    - apply Hsame. destruct p as [y|er|X o k]; cbn [prog_step] in Hs; [by injection Hs as <- <-..|].
      destruct o; repeat (case_match; try done); by injection Hs as <- <-.
    - apply Hsame. destruct (row_free _ _ _); [|done]. by injection Hs as <- <-.
    - (* a section of a client *)
      destruct p as [[v [wo|]]|er|X ef kk]; [by injection Hs as <- <-; apply Hsame..|].
      destruct Tok as (cur & ow & g & -> & Hcur & Hsim & Hss & Hr & Hw & Hok & Hg & HK & Hsafe). destruct HK as (f0 & Hrf & Hown).
      destruct (row_file_get _ _ _ _ _ Hrf) as [Hf0 _].
      assert ((o_r ow < NUM_ROWS)%nat) as Hrlt by (rewrite Hr; apply ph_row_lt).
      destruct ef as [|i1 n|i1 u|n t|n1 n2|n1]; cbn [lsafe] in Hsafe; try done.
      + cbn [run_eff] in Hs. injection Hs as <- <-. by apply Hsame.
      + destruct Hsafe as (-> & Hwt & Hpn & Hn & _). cbn [run_eff] in Hs. rewrite Hf0 in Hs. injection Hs as <- <-.
        apply (Heff a ow f0 (alloc_file n f0) L); [done|done|done|done| |done]. intros E _ _. subst i. assert (f0 = f) as -> by congruence.
        apply one_slot_rows; [|by destruct f]. eapply st_dkeep. by eapply (alloc_fstep cfg x f L).
      + destruct Hsafe as (ow' & g' & Hu & -> & _ & _). pose proof (upd_set_file _ _ _ u Hf0) as Ew. cbn [run_eff fst] in Ew, Hs.
        injection Hs as <- <-. apply (Heff a ow f0 (apply_fupd u f0) L); [done|done|done|done| |done].
        intros E _ _. subst i. assert (f0 = f) as -> by congruence. split; [|by eapply ustep_one].
        eapply st_dkeep. by eapply (ustep_fstep cfg x f L).
    - (* [begin_compaction] *)
      cbn [tok] in Tok. destruct Tok as (_ & _ & _ & cur & Hcur & Es & Ee).
      destruct (skel_leaf _ _ _ Hsk Hcur) as (B1 & B2 & B3). destruct (files_free _ _); [|done]. rewrite (B3 s) in Hs by lia.
      destruct (run _ _) as [w1 r1] eqn:Er. apply Hfile.
      assert (c_fs c' = w1) as ->. { destruct r1; by injection Hs as <- <-. }
      refine (begin_files _ _ _ _ _ _ Er _ i _); [|by eapply (wf_next _ (sk_wf _ _ Hsk))].
      intros Et. destruct (ci_leaf _ _ _ _ _ H cur Hcur) as (f1 & L1 & _ & _ & _ & _ & _ & _ & G). rewrite Et in G. apply G.
    - (* a split *)
      cbn zeta in Hs. destruct (_ && _) eqn:Eq; [|injection Hs as <- <-; by apply Hsame].
      apply andb_true_iff in Eq as [E1 E2]. apply N.eqb_eq in E1, E2.
      destruct (sh_tgt _) as [|] eqn:Et; [done|]. destruct (node_free _ _) eqn:Hnf; [|done].
      destruct (skel_route _ _ (ph_selector (rop_hash cfg o)) Hsk (ph_sel_lt _)) as [Hcur Hin].
      set (cur := route (c_root c) (ph_selector (rop_hash cfg o))) in *.
      destruct (skel_leaf _ _ _ Hsk Hcur) as (B1 & B2 & B3). pose proof (proj2 Hcalm _ _ _ _ _ Ha) as Hlt.
      pose proof (node_free_others _ _ _ Hnf) as Hnode. rewrite <- E1 in Hnode.
      assert (Hno : forall b Tb, c_ths c !! b = Some Tb -> worker Tb <> Some (sh_start cur)).
      { intros b Tb Hb Hwb. destruct (ci_thr _ _ _ _ _ H _ _ Hb) as (ob & _ & Tob). destruct Tb; try done; cbn in Hwb; injection Hwb as ->.
        - destruct Tob as (_ & _ & cb & X1 & X2 & X3). pose proof (skel_same _ _ _ _ Hsk Hcur X1) as E. rewrite <- E, Et in X3 by done. by destruct X3.
        - destruct Tob as (_ & cb & _ & _ & _ & _ & _ & _ & X1 & X2 & X3 & X4 & _). pose proof X2 as (X5 & _ & _ & X6).
          pose proof (skel_same _ _ _ _ Hsk Hcur X1) as E. rewrite <- E, Et, X4 in X6 by congruence. done. }
      assert (Hfree : forall b Tb, b <> a -> c_ths c !! b = Some Tb -> holds_files (sh_start cur) Tb = false).
      { intros b Tb Hne Hb. pose proof (Hnode _ _ Hne Hb) as Hx. destruct Tb; try done. specialize (Hno _ _ Hb). cbn in Hno |- *.
        apply N.eqb_neq. congruence. }
      destruct (free_leafQ _ _ _ _ _ _ _ _ H Hcalm Hcur Ha eq_refl Hfree) as (n & En & HQ & Hun).
      destruct n as [|n]. { change (2 ^ N.of_nat 0) with 1 in En. lia. }
      assert (wpc (shard_split cfg cur) (fun w' => outside_same (sh_start cur) (sh_start cur + 2 ^ N.of_nat (S n)) (c_fs c) w') (fun _ _ => True) (fun _ => False) (c_fs c)) as Hwp.
      { eapply shard_split_leaf; [exact HQ|done|done]. }
      apply wpc_sound in Hwp as [_ Hwp]. rewrite <- En in Hwp.
      destruct (run (shard_split cfg cur) (c_fs c)) as [w1 [[b t]|er]] eqn:Er; [|by destruct Hwp as [_ ?]]. destruct Hwp as [Hout _].
      injection Hs as <- <-. cbn [c_root c_fs] in *. apply Hfile. apply (Hother cur); [done| |done].
      intros Heq. pose proof (outs_run _ _ _ _ _ (split_span cfg cur ltac:(lia)) Er) as (P1 & P2 & P3 & P4). cbn [fst snd] in *.
      destruct (skel_route _ _ _ Hsk' Hsel) as [Q1 Q2]. set (sh' := route (put_leaf _ _ _) sel) in *. injection Hspan as Q3 Q4. rewrite <- Heq in Q3, Q4.
      destruct (put_leaf_in _ _ _ _ _ _ (sk_tree _ _ Hsk) (conj (N.le_0_l _) (ph_sel_lt (rop_hash cfg o) : _ < 0 + 2 ^ N.of_nat 16)) Q1) as [Hn|[Ho2 Hdis]].
      + assert (forall q, In q [b; t] -> sh_start q < sh_end q) as Hpos.
        { intros q Hq. apply (skel_leaf _ _ _ Hsk'). by apply put_leaf_new. }
        pose proof (Hpos b (or_introl eq_refl)). pose proof (Hpos t (or_intror (or_introl eq_refl))).
        cbn [leaves app] in Hn. destruct Hn as [<-|[<-|[]]]; lia.
      + change (route (c_root c) (ph_selector (rop_hash cfg o))) with cur in Hdis. lia.
    - cbn [tok] in Tok. destruct Tok as (_ & _ & cur & Hcur & Es & _).
      destruct (sh_tgt _) as [[t fl]|]; [|done].
      destruct (fs_files (c_fs c) !! t) as [ft|]; [|done]. destruct (_ <=? _)%nat.
      + destruct (files_free _ _); [|done]. apply Hfile. unfold finish_compaction, rename, eff1 in Hs. cbn [pbind run run_eff] in Hs.
        destruct (fs_dir (c_fs c) !! _); cbn [check pbind run] in Hs; by injection Hs as <- <-.
      + destruct (row_free _ _ _); [|done]. injection Hs as <- <-. by apply Hsame.
    - (* the compaction thread *)
      cbn [tok] in Tok. destruct Tok as (_ & cur & ow & j & srow & ls & ft & -> & Hcur & Hsim & Es & Et & Hr & Ei & Er & Ew & Hft & Hcut & HbK & Hj & El & Hsafe).
      pose proof HbK as (_ & ft' & Hft' & Hown). rewrite Ei in Hft'. assert (ft' = ft) as -> by congruence.
      rewrite <- Ei in Hft. assert ((o_r ow < NUM_ROWS)%nat) as Hrlt by (by rewrite Er).
      destruct p as [[]|er|X ef kk].
      + cbn [run_eff fst] in Hs. injection Hs as <- <-. cbn [c_fs fs_files]. destruct (decide (t = i)) as [->|Hne].
        * rewrite lookup_alter, Hf. exists (apply_fupd UCut f). split; [done|].
          pose proof (ucut_fields f) as (U1&U2&U3&U4&U5&U6&U7&U8&U9&U10). apply one_slot_rows; [apply dkeep_same; congruence|done].
        * rewrite lookup_alter_ne by done. exists f. split; [done|]. apply one_slot_refl.
      + injection Hs as <- <-. by apply Hsame.
      + destruct ef as [|i1 n|i1 u|n ty|n1 n2|n1]; cbn [lsafe] in Hsafe; try done.
        * cbn [run_eff] in Hs. injection Hs as <- <-. by apply Hsame.
        * destruct Hsafe as (-> & Hwt & Hpn & Hn & _). cbn [run_eff] in Hs. rewrite Hft in Hs. injection Hs as <- <-.
          apply (Heff a ow ft (alloc_file n ft) L); [done|done|done|done| |done]. intros E _ _. subst i. assert (ft = f) as -> by congruence.
          apply one_slot_rows; [|by destruct f]. refine (st_dkeep _ _ _ _ _ _ _ _ _ _ (alloc_fstep cfg x f L _ os a ow n HL Hrlt Hown eq_refl Ho Hreg Ew Hpn)).
        * destruct Hsafe as (ow' & g' & Hu & -> & _ & _). pose proof (upd_set_file _ _ _ u Hft) as Ewf. cbn [run_eff fst] in Ewf, Hs.
          injection Hs as <- <-. apply (Heff a ow ft (apply_fupd u ft) L); [done|done|done|done| |done].
          intros E _ _. subst i. assert (ft = f) as -> by congruence. split; [|by eapply ustep_one].
          refine (st_dkeep _ _ _ _ _ _ _ _ _ _ (ustep_fstep cfg x f L _ os a ow u ow' HL Hrlt Hown eq_refl Ho Hreg Hu)).
  Qed.

  (** What a slot holds, by the entries of the row. *)
  Lemma slot_of_row c A os K : CInv cfg x c A os -> exists (i : ino) f (L : rows_t),
    row_file (c_fs c) (shard_of cfg c K) (ph_row (hashk cfg K)) = Ok (i, f) /\ fs_files (c_fs c) !! i = Some f /\
    has_file (shard_of cfg c K) i /\ file_rep cfg f L /\
    (forall j v, slot_of cfg c K j = Ok (Some (K, v)) <-> L (ph_row (hashk cfg K)) !! j = Some (Some (K, v))) /\
    NoDup (fst <$> entries (L (ph_row (hashk cfg K)))) /\
    (forall (j : nat) v, L (ph_row (hashk cfg K)) !! j = Some (Some (K, v)) -> a_map A !! K = Some v) /\
    forall v, a_map A !! K = Some v -> exists j, L (ph_row (hashk cfg K)) !! j = Some (Some (K, v)).
  Proof.
    intros H. pose proof (ci_skel _ _ _ _ _ H) as Hsk. destruct (skel_route _ _ _ Hsk (ph_sel_lt (hashk cfg K))) as [R1 R2].
    fold (shard_of cfg c K) in R1, R2. set (r := ph_row (hashk cfg K)). assert ((r < NUM_ROWS)%nat) as Hr by apply ph_row_lt.
    destruct (cleaf_row _ _ _ _ _ _ _ r (sk_wf _ _ Hsk) (ci_leaf _ _ _ _ _ H _ R1) Hr) as (i & f & L & Hrf & Hf & Hhas & Hrep & Hnd & Hh).
    exists i, f, L. do 4 (split; [done|]). split; [|split; [done|split]].
    - intros j v. unfold slot_of, shard_read_at. fold r. rewrite Hrf. cbn [rbind]. pose proof (file_rep_row _ _ _ _ Hrep Hr) as Hrow.
      destruct (L r !! j) as [o|] eqn:Ej.
      + destruct (Forall2_lookup_r _ _ _ _ _ Hrow Ej) as (sl & Hsl & Hok). rewrite Hsl. destruct o as [[k' v']|].
        * destruct Hok as (Hne & Hs & Hrr & Hrk & _). destruct (N.eqb_spec (s_sig sl) INVALID_SIG) as [E|_].
          { exfalso. rewrite Hs in E. by apply (hashk_sig cfg k'). }
          rewrite Hrk. cbn [rbind]. split; [intros [= -> ->]; done|intros [= -> ->]; done].
        * cbn [slot_ok] in Hok. rewrite Hok, N.eqb_refl. split; done.
      + assert (row_of f r !! j = None) as ->; [|done]. apply lookup_ge_None. apply lookup_ge_None in Ej. apply Forall2_length in Hrow. lia.
    - intros j v Hj. apply (Hh K v). apply elem_of_entries. by eapply elem_of_list_lookup_2.
    - intros v Hv. assert ((K, v) ∈ entries (L r)) as Hin by (apply Hh; done). apply elem_of_entries in Hin. by apply elem_of_list_lookup in Hin.
  Qed.
End slots.

Lemma entries_nodup (l : row_t) (K a b : bytes) : NoDup (fst <$> entries l) ->
  forall j j' : nat, l !! j = Some (Some (K, a)) -> l !! j' = Some (Some (K, b)) -> j = j'.
Proof.
  induction l as [|o l IH]; intros Hn j j' Hj Hj'; [done|].
  assert (forall v (i : nat), l !! i = Some (Some (K, v)) -> K ∈ fst <$> entries l) as Hin.
  { intros v i Hi. apply elem_of_list_fmap. exists (K, v). split; [done|]. apply elem_of_entries. by eapply elem_of_list_lookup_2. }
  destruct o as [[k v]|].
  - change (entries (Some (k, v) :: l)) with ((k, v) :: entries l) in Hn. cbn [fmap list_fmap fst] in Hn. apply NoDup_cons in Hn as [H1 H2].
    destruct j as [|j], j' as [|j']; cbn in Hj, Hj'; [done| | |].
    + injection Hj as -> ->. destruct H1. by eapply Hin.
    + injection Hj' as -> ->. destruct H1. by eapply Hin.
    + f_equal. by apply IH.
  - change (entries (None :: l)) with (entries l) in Hn. destruct j as [|j], j' as [|j']; try done. f_equal. by apply IH.
Qed.

(** The key's shard is not split, and its row is not moved to another file, from [c] to [c']. *)
Definition row_kept (cfg : config) (K : bytes) (c c' : cstate) : Prop :=
  span_of (shard_of cfg c' K) = span_of (shard_of cfg c K) /\
  exists (i : ino) f f', row_file (c_fs c) (shard_of cfg c K) (ph_row (hashk cfg K)) = Ok (i, f) /\
    row_file (c_fs c') (shard_of cfg c' K) (ph_row (hashk cfg K)) = Ok (i, f').
(** ... while the iterator number [i] is in the middle of the key's row. *)
Definition unmoved (cfg : config) (K : bytes) (i : nat) (b b' : wstate) : Prop :=
  forall T, w_its b !! i = Some T -> amid cfg (w_c b) K (w_it T) -> row_kept cfg K (w_c b) (w_c b').

Lemma kept_slot cfg x c A os h c' e A' os' K v : CInv cfg x c A os -> CInv cfg x c' A' os' -> calm c ->
  cstep cfg c h = Some (c', e) -> row_kept cfg K c c' -> a_map A !! K = Some v -> a_map A' !! K = Some v ->
  forall (j : nat) v', slot_of cfg c K j = Ok (Some (K, v')) -> slot_of cfg c' K j = Ok (Some (K, v')).
Proof.
  intros H H' Hcalm Hs (Hspan & i & f & f1 & Hrf & Hrf') HK0 HK j v' Hj.
  destruct (slot_of_row cfg x c A os K H) as (i0 & f0 & L & E & Hf & Hhas & Hrep & HL & Hnd & Hval & _).
  destruct (slot_of_row cfg x c' A' os' K H') as (i0' & f0' & L' & E' & Hf' & Hhas' & Hrep' & HL' & Hnd' & _ & Hex).
  rewrite Hrf in E. injection E as <- <-. rewrite Hrf' in E'. injection E' as <- <-.
  destruct (step_one cfg x c A os h c' e A' os' _ i f H H' Hcalm Hs (ph_sel_lt (hashk cfg K)) Hspan Hhas Hf) as (f2 & Hf2 & Hd & r0 & c0 & Hone).
  rewrite Hf' in Hf2. injection Hf2 as <-. set (r := ph_row (hashk cfg K)) in *. assert ((r < NUM_ROWS)%nat) as Hr by apply ph_row_lt.
  pose proof (file_rep_row _ _ _ _ Hrep Hr) as Hrow. pose proof (file_rep_row _ _ _ _ Hrep' Hr) as Hrow'.
  (* a slot that is not the one changed holds the same entry *)
  assert (forall (j1 : nat) o, ~ (r = r0 /\ j1 = c0) -> L r !! j1 = Some o -> L' r !! j1 = Some o) as Hkeep.
  { intros j1 o Hn Ho. destruct (Forall2_lookup_r _ _ _ _ _ Hrow Ho) as (sl & Hsl & Hok).
    assert (row_of f1 r !! j1 = Some sl) as Hsl' by (by rewrite Hone).
    destruct (Forall2_lookup_l _ _ _ _ _ Hrow' Hsl') as (o' & Ho' & Hok'). rewrite Ho'. f_equal.
    eapply slot_ok_inj; [exact Hok'|]. by eapply slot_keep. }
  apply HL in Hj. apply HL'. destruct (decide (r = r0 /\ j = c0)) as [[E1 E2]|Hn]; [|by apply Hkeep].
  destruct (Hex v HK) as (j' & Hj'). destruct (decide (j' = j)) as [->|Hne].
  - pose proof (Hval _ _ Hj) as Ev. rewrite HK0 in Ev. by injection Ev as <-.
  - exfalso. assert (~ (r = r0 /\ j' = c0)) as Hn by (intros [_ ->]; congruence).
    assert (exists o, L r !! j' = Some o) as (o & Ho).
    { apply lookup_lt_is_Some_2. rewrite (file_rep_length _ _ _ _ Hrep Hr), <- (file_rep_length _ _ _ _ Hrep' Hr). by eapply lookup_lt_Some. }
    pose proof (Hkeep _ _ Hn Ho) as E. rewrite Hj' in E. injection E as <-. apply Hne. by eapply (entries_nodup (L r)).
Qed.
