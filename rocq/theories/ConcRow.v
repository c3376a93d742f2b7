(** Steps inside the sections under a row lock: clients and the compaction worker. *)
From Verif Require Import Base Hashing HashingProofs Fs Shard Router RouterPure Store Kv KvSpec Limits Api KeySpace Wpc Spec FileRep RowOps Compact Inv
  ShardOps Insert Split StoreRefine Conc ConcSpec ConcLocal ConcFile ConcTree ConcInv ConcStep.
Implicit Types (m : kvmap) (os : list (option own)).

Lemma upd_set_file w i f u : fs_files w !! i = Some f -> fst (run_eff (EUpd i u) w) = set_file i (apply_fupd u f) w.
Proof.
  intros H. cbn [run_eff fst]. unfold set_file. f_equal. apply map_eq. intros j. destruct (decide (i = j)) as [<-|Hne].
  - by rewrite lookup_alter, lookup_insert, H.
  - by rewrite lookup_alter_ne, lookup_insert_ne.
Qed.

Section row.
  Context (cfg : config) (x : bool).
  Notation good := (good cfg x).
  Notation CInv := (CInv cfg x).

  (** A section makes one effect. *)
  Lemma row_effect c A os a o k sh p cur ow g f f' p' ow' g' :
    CInv c A os -> c_ths c !! a = Some (TRow o k sh p) -> os !! a = Some (Some ow) ->
    In cur (leaves (c_root c)) -> sim cur sh -> sh_start sh <= ph_selector (rop_hash cfg o) < sh_end sh ->
    o_r ow = rop_row cfg o -> o_w ow = rop_write o -> opk cfg o k -> gst cfg (a_ths A !! a) o k g ->
    row_file (c_fs c) sh (rop_row cfg o) = Ok (o_ino ow, f) -> own_ok cfg f ow ->
    let w' := set_file (o_ino ow) f' (c_fs c) in let os' := <[a := Some ow']> os in
    fkeep f f' ->
    (forall L, file_rep cfg f L -> cacct x f L (o_ino ow) os -> regs f (o_ino ow) os ->
       file_rep cfg f' (upd_row (rop_row cfg o) (o_l ow') L) /\
       cacct x f' (upd_row (rop_row cfg o) (o_l ow') L) (o_ino ow) os' /\ regs f' (o_ino ow) os') ->
    (forall b Tb ob, b <> a -> c_ths c !! b = Some Tb -> os !! b = Some ob ->
       tok cfg (c_root c) (c_fs c) (a_ths A !! b) Tb ob -> tok cfg (c_root c) w' (a_ths A !! b) Tb ob) ->
    own_ok cfg f' ow' -> o_ino ow' = o_ino ow -> o_r ow' = o_r ow -> o_w ow' = o_w ow ->
    gop cfg (sh_start sh) (sh_end sh) o g (o_l ow) g' (o_l ow') ->
    lsafe cfg (cK cfg sh (rop_row cfg o)) (gop cfg (sh_start sh) (sh_end sh) o) cpost p' ow' g' ->
    good A (CS (c_root c) w' (<[a := TRow o k sh p']> (c_ths c)) (c_lk c)) None.
  Proof.
    intros H Ha Ho Hcur Hsim Hsel Hr Hw Hok Hg Hrf Hown w' os' Hk Hst Hoth Hown' Ei Er Ew Hgop Hsafe.
    pose proof (ci_skel _ _ _ _ _ H) as Hsk. pose proof Hsim as (S1 & S2 & S3 & S4).
    destruct (row_file_get _ _ _ _ _ Hrf) as [Hf Hhas].
    destruct (leaves_client cfg x c A os cur (rop_row cfg o) (rop_write o) (o_ino ow) f a (TRow o k sh p) H Hcur) as (L & L1 & L2 & L3 & L4 & L5); [| |exact Ha| | |].
    { by rewrite (sim_row_file _ _ _ _ Hsim). }
    { apply ph_row_lt. }
    { left. cbn [row_lock]. rewrite S1. done. }
    { done. }
    destruct (Hst L L1 L2 L3) as (F1 & F2 & F3).
    assert (L (rop_row cfg o) = o_l ow) as EL.
    { rewrite <- Hr. eapply own_row; [exact L1| |exact Hown]. rewrite Hr. apply ph_row_lt. }
    rewrite EL in L4.
    assert (Hcase : exists m' P', holds m' (home cfg (sh_start cur) (sh_end cur) (rop_row cfg o)) (entries (o_l ow')) /\
       (forall k, ~ home cfg (sh_start cur) (sh_end cur) (rop_row cfg o) k -> m' !! k = a_map A !! k) /\
       (forall b, b <> a -> P' !! b = a_ths A !! b) /\ gst cfg (P' !! a) o k g' /\
       arun cfg A [] (AS m' P' (a_lk A))).
    { rewrite <- S1, <- S2 in Hgop. remember (o_l ow) as l eqn:El. remember (o_l ow') as l' eqn:El'.
      destruct Hgop as [g l|l l' v Hv Hop].
      - exists (a_map A), (a_ths A). split; [done|]. split; [done|]. split; [done|]. split; [done|].
        destruct A. apply arun_nil.
      - destruct (Hop _ L4) as (m' & Hsp & Hh). destruct Hg as (pa & Epa & Hpa).
        exists m', (<[a := k v]> (a_ths A)). split; [exact Hh|]. split.
        { intros k' Hk'. eapply rspec_other; [exact Hsp|]. intros E. apply Hk'. unfold home. rewrite E.
          split; [rewrite S1, S2; exact Hsel|done]. }
        split; [intros b Hb; by rewrite lookup_insert_ne|]. split; [cbn; by rewrite lookup_insert|].
        destruct A as [m P lk]. cbn [a_map a_ths a_lk] in *. apply (arun_step cfg (AS m P lk) None (AS m' (<[a := k v]> P) lk) []); [|apply arun_nil].
        eapply as_op; [exact Epa|]. by apply Hpa. }
    destruct Hcase as (m' & P' & Hh & Hm & HP & Hg' & Hrun).
    exists (AS m' P' (a_lk A)), os'. split; [|exact Hrun].
    eapply (cinv_thread cfg x c A os a _ (TRow o k sh p') w' (AS m' P' (a_lk A)) os'); [exact H|exact Ha|by left|done|done| | | | | | |].
    - apply skel_set_file; [done|]. by rewrite Hf.
    - apply insert_length.
    - cbn [a_map]. apply (L5 f' (o_l ow')); try done. intros i' Hi'. eapply os_same_insert; [exact Ho|..].
      + by intros ? [= <-].
      + intros ? [= <-]. congruence.
    - intros b Hb. split; [by apply list_lookup_insert_ne|]. cbn [a_ths]. auto.
    - exact Hoth.
    - exists (Some ow'). split; [apply list_lookup_insert; by eapply lookup_lt_Some|].
      exists cur, ow', g'. split; [done|]. split; [done|]. split; [done|]. split; [done|]. split; [congruence|]. split; [congruence|].
      split; [done|]. split; [done|]. split; [|done]. exists f'. split; [|done].
      unfold w'. rewrite (row_file_set _ _ _ _ _ (o_ino ow) f f' Hrf Hf) by apply Hk. rewrite decide_True by done. by rewrite Ei.
    - cbn. apply (ci_lk _ _ _ _ _ H).
  Qed.

  (** The effects of an owner that writes. *)
  Lemma row_fstep c A os a o k sh p cur ow g f f' p' ow' g' :
    CInv c A os -> c_ths c !! a = Some (TRow o k sh p) -> os !! a = Some (Some ow) ->
    In cur (leaves (c_root c)) -> sim cur sh -> sh_start sh <= ph_selector (rop_hash cfg o) < sh_end sh ->
    o_r ow = rop_row cfg o -> o_w ow = rop_write o -> opk cfg o k -> gst cfg (a_ths A !! a) o k g ->
    row_file (c_fs c) sh (rop_row cfg o) = Ok (o_ino ow, f) -> own_ok cfg f ow ->
    o_w ow = true ->
    (forall L, file_rep cfg f L -> regs f (o_ino ow) os -> fstep cfg x f L (o_ino ow) os a ow f' ow') ->
    gop cfg (sh_start sh) (sh_end sh) o g (o_l ow) g' (o_l ow') ->
    lsafe cfg (cK cfg sh (rop_row cfg o)) (gop cfg (sh_start sh) (sh_end sh) o) cpost p' ow' g' ->
    good A (CS (c_root c) (set_file (o_ino ow) f' (c_fs c)) (<[a := TRow o k sh p']> (c_ths c)) (c_lk c)) None.
  Proof.
    intros H Ha Ho Hcur Hsim Hsel Hr Hw Hok Hg Hrf Hown Hwt Hst Hgop Hsafe.
    pose proof Hsim as (S1 & S2 & S3 & S4). destruct (row_file_get _ _ _ _ _ Hrf) as [Hf Hhas].
    assert (exists L, file_rep cfg f L /\ regs f (o_ino ow) os) as (L & L1 & L2).
    { destruct (leaves_client cfg x c A os cur (rop_row cfg o) (rop_write o) (o_ino ow) f a (TRow o k sh p) H Hcur) as (L & L1 & L2 & L3 & _); [| |exact Ha| | |eauto].
      - by rewrite (sim_row_file _ _ _ _ Hsim).
      - apply ph_row_lt.
      - left. cbn [row_lock]. rewrite S1. done.
      - done. }
    destruct (Hst L L1 L2) as [T1 T2 T3 T4 T5 T6 T7 T8 T9].
    eapply row_effect; [exact H|exact Ha|exact Ho|exact Hcur|exact Hsim|exact Hsel|exact Hr|exact Hw|exact Hok|exact Hg|exact Hrf|exact Hown|exact T1| | |exact T5|apply T9|apply T9|destruct T9 as (_ & _ & ->); done|exact Hgop|exact Hsafe].
    - intros L' G1 G2 G3. destruct (Hst L' G1 G3) as [U1 U2 U3 U4 U5 U6 U7 U8 U9]. rewrite <- Hr. auto.
    - intros b Tb ob Hne Hb Hob. eapply tok_set_file; [exact H|exact Hcur|by eapply sim_file|exact Hf|exact T1|exact T4|exact Hb|exact Hob| |].
      + intros l' Hl'. rewrite S1, <- Hwt. rewrite Hr, Hw. eapply (ci_excl _ _ _ _ _ H a b); [done|exact Ha|exact Hb|done|done].
      + intros owb -> Hi Hrb. by eapply T7.
  Qed.

  Lemma calm_woff c A os cur i f r :
    CInv c A os -> In cur (leaves (c_root c)) -> calm c -> row_file (c_fs c) cur r = Ok (i, f) -> f_woff f + 81920 < 2 ^ 32.
  Proof.
    intros H Hcur [Hc _] Hrf. unfold row_file, src_file in Hrf.
    destruct (ci_leaf _ _ _ _ _ H cur Hcur) as (f0 & L & H1 & H2 & H3 & H4 & H5 & H6 & H7).
    specialize (Hc cur f0 Hcur H2). rewrite H2 in Hrf. destruct (sh_tgt cur) as [[t b]|].
    - destruct (fs_files (c_fs c) !! t) as [ft|] eqn:Ef; [|done]. specialize (Hc ft eq_refl).
      destruct (r <? f_cut ft)%nat; injection Hrf as <- <-; lia.
    - injection Hrf as <- <-. lia.
  Qed.

  Lemma step_row c A os a o k sh p c' e :
    CInv c A os -> calm c -> c_ths c !! a = Some (TRow o k sh p) -> thr_step cfg c a = Some (c', e) -> good A c' e.
  Proof.
    intros H Hcalm Ha. unfold thr_step. rewrite Ha.
    destruct (ci_thr _ _ _ _ _ H _ _ Ha) as (oo & Ho & (cur & ow & g & -> & Hcur & Hsim & Hsel & Hr & Hw & Hok & Hg & HK & Hsafe)).
    pose proof HK as (f & Hrf & Hown). destruct (row_file_get _ _ _ _ _ Hrf) as [Hf Hhas].
    destruct p as [[v aft]|er|X ef kk].
    - cbn [lsafe] in Hsafe. destruct (cpost_g _ _ _ _ Hsafe) as [Hcl ->].
      destruct aft as [woff|]; intros [= <- <-].
      + eapply good0. apply (cinv_eta cfg x c _ _ _ _ (a_lk A)); [apply (ci_lk _ _ _ _ _ H)|]. rewrite <- (astate_eta A).
        eapply (cinv_local cfg x c A os a _ _ (a_ths A) (a_lk A) (Some ow) None); try done.
        * by right.
        * by intros ? [= <-].
        * split; [done|]. split; [done|]. split; [done|]. exists cur. destruct Hsim as (? & ? & _). done.
      + eapply good0. apply (cinv_eta cfg x c _ _ _ _ (a_lk A)); [apply (ci_lk _ _ _ _ _ H)|]. rewrite <- (astate_eta A).
        destruct (go_on_lock cfg o k (sh_start sh) (sh_end sh) v) as (G1 & G2 & G3).
        eapply (cinv_local cfg x c A os a _ _ (a_ths A) (a_lk A) (Some ow) None); try done.
        * by right.
        * by intros ? [= <-].
        * by apply tok_go_on.
    - done.
    - destruct ef as [|i n|i u|n t|n1 n2|n1]; cbn [lsafe] in Hsafe; try done.
      + (* snapshot *)
        destruct (Hsafe (c_fs c) HK) as (g' & Hgop & Hs'). cbn [run_eff]. intros [= <- <-].
        rewrite <- (set_file_id (o_ino ow) f (c_fs c) Hf) at 1.
        eapply (row_effect c A os a o k sh _ cur ow g f f (kk (c_fs c)) ow g'); try done.
        * intros L L1 L2 L3. assert (L (rop_row cfg o) = o_l ow) as EL.
          { rewrite <- Hr. eapply own_row; [exact L1| |exact Hown]. rewrite Hr. apply ph_row_lt. }
          rewrite (list_insert_id _ _ _ Ho). rewrite <- EL. split; [|split; [|done]].
          -- eapply file_rep_pointwise; [|exact L1]. intros r'. by rewrite upd_row_self.
          -- unfold cacct. rewrite (live_ext _ L) by (intros; by rewrite upd_row_self). rewrite (count_ext _ L) by (intros; by rewrite upd_row_self). done.
        * intros b Tb ob _ _ _. by rewrite (set_file_id (o_ino ow) f (c_fs c) Hf).
      + (* allocation *)
        destruct Hsafe as (-> & Hwt & Hpn & Hn & Hs'). cbn [run_eff]. rewrite Hf. intros [= <- <-].
        eapply row_fstep; [exact H|exact Ha|exact Ho|exact Hcur|exact Hsim|exact Hsel|exact Hr|exact Hw|exact Hok|exact Hg|exact Hrf|exact Hown|exact Hwt| | |apply Hs'].
        * intros L L1 L2. apply alloc_fstep; auto. rewrite Hr. apply ph_row_lt.
        * cbn [o_l]. apply gop_id.
        * rewrite <- (sim_row_file _ _ _ _ Hsim) in Hrf. pose proof (calm_woff _ _ _ _ _ _ _ H Hcur Hcalm Hrf). lia.
      + (* update *)
        destruct Hsafe as (ow' & g' & Hu & -> & Hgop & Hs').
        pose proof (upd_set_file _ _ _ u Hf) as Ew. cbn [run_eff fst] in Ew |- *. intros [= <- <-]. rewrite Ew.
        assert (o_w ow = true) as Hwt by (by inversion Hu).
        eapply row_fstep; [exact H|exact Ha|exact Ho|exact Hcur|exact Hsim|exact Hsel|exact Hr|exact Hw|exact Hok|exact Hg|exact Hrf|exact Hown|exact Hwt| |exact Hgop|exact Hs'].
        intros L L1 L2. apply ustep_fstep; auto. rewrite Hr. apply ph_row_lt.
  Qed.

  (** ** The compaction worker *)
  Lemma busy_own c s sh t r p a : c_ths c !! a = Some (TBgRow s sh t r p) -> busy (c_ths c) s = true.
  Proof. intros Ha. eapply busy_true; [exact Ha|]. cbn. apply N.eqb_refl. Qed.

  (** It changes its row of the new file. *)
  Lemma bg_effect c A os a s sh t r p cur ow j srow ls ft f' p' ow' j' :
    CInv c A os -> c_ths c !! a = Some (TBgRow s sh t r p) -> os !! a = Some (Some ow) -> a_ths A !! a = None ->
    In cur (leaves (c_root c)) -> sim cur sh -> sh_start sh = s -> fst <$> sh_tgt sh = Some t -> (r < NUM_ROWS)%nat ->
    o_ino ow = t -> o_r ow = r -> o_w ow = true -> fs_files (c_fs c) !! t = Some ft -> f_cut ft = r ->
    bK cfg (sh_ino sh) r srow ls (c_fs c) ow -> own_ok cfg ft ow ->
    (j <= length (entries ls))%nat -> o_l ow = padded (take j (entries ls)) ->
    (forall L, file_rep cfg ft L -> regs ft t os -> fstep cfg x ft L t os a ow f' ow') ->
    gbg (entries ls) j (o_l ow) j' (o_l ow') ->
    lsafe cfg (bK cfg (sh_ino sh) r srow ls) (gbg (entries ls)) (bpost (entries ls)) p' ow' j' ->
    good A (CS (c_root c) (set_file t f' (c_fs c)) (<[a := TBgRow s sh t r p']> (c_ths c)) (c_lk c)) None.
  Proof.
    intros H Ha Ho Hpa Hcur Hsim Es Et Hr Ei Er Ew Hft Hcut HbK Hown Hj El Hst Hgbg Hsafe.
    pose proof (ci_skel _ _ _ _ _ H) as Hsk. pose proof Hsim as (S1 & S2 & S3 & S4).
    pose proof HbK as ((f0 & Hf0 & Hsrow & Hls) & _).
    assert (exists b, sh_tgt cur = Some (t, b)) as [bb Etc].
    { rewrite Et in S4. destruct (sh_tgt cur) as [[t' bb]|]; [|done]. injection S4 as ->. eauto. }
    pose proof (ci_leaf _ _ _ _ _ H cur Hcur) as Hleaf.
    assert (busy (c_ths c) (sh_start cur) = true) as Hbz. { rewrite S1, Es. by eapply busy_own. }
    destruct (cleaf_worker cfg x (a_map A) (c_fs c) os _ cur t bb ft r ls srow f0 (sk_wf _ _ Hsk) Hleaf Etc Hft Hcut Hr) as (Lt & L1 & L2 & L3 & L4 & L5 & _ & L6 & _); [by rewrite S3|done|done|].
    destruct (Hst Lt L1 L3) as [T1 T2 T3 T4 T5 T6 T7 T8 (T9 & T10 & T11)].
    assert (has_file cur t) as Hhas. { right. by rewrite Etc. }
    assert (Hj' : (j' <= length (entries ls))%nat /\ o_l ow' = padded (take j' (entries ls))).
    { destruct Hgbg as [[-> ->]|(-> & Hlt & _ & ->)]; [done|]. split; [lia|done]. }
    destruct Hj' as [Hj' El'].
    apply (good0 cfg x A _ (<[a := Some ow']> os)).
    eapply (cinv_thread cfg x c A os a _ (TBgRow s sh t r p') _ A _); [exact H|exact Ha|by left|done|done| | | | | | |].
    - apply skel_set_file; [done|]. by rewrite Hft.
    - apply insert_length.
    - intros sh' Hsh'. assert (forall i', i' <> t -> os_same i' os (<[a := Some ow']> os)) as Hos.
      { intros i' Hi'. eapply os_same_insert; [exact Ho|..].
        - by intros ? [= <-]; congruence.
        - intros ? [= <-]. congruence. }
      destruct (decide (sh_start sh' = sh_start cur)) as [E|Hns].
      + pose proof (skel_same _ _ _ _ Hsk Hsh' Hcur E) as ->. apply (L6 f' (o_l ow') _ j'); auto.
        * rewrite <- Er. done.
        * rewrite <- Er. auto.
      + assert (sh' <> cur) as Hne by (by intros ->).
        eapply cleaf_other_file; [|exact Hos|done|by apply (ci_leaf _ _ _ _ _ H)].
        intros Hf. apply Hne. eapply same_leaf; [exact Hsk|exact Hsh'|exact Hcur|by apply (ci_leaf _ _ _ _ _ H)|exact Hleaf|exact Hf|exact Hhas].
    - intros b Hb. split; [by apply list_lookup_insert_ne|done].
    - intros b Tb ob Hne Hb Hob. eapply tok_set_file; [exact H|exact Hcur|exact Hhas|exact Hft|exact T1|exact T4|exact Hb|exact Hob| |].
      + intros l' Hl'. rewrite S1, Es, Er. eapply (ci_excl _ _ _ _ _ H a b); [done|exact Ha|exact Hb|done|done].
      + intros owb -> Hi Hrb. by eapply T7.
    - exists (Some ow'). split; [apply list_lookup_insert; by eapply lookup_lt_Some|]. split; [done|].
      exists cur, ow', j', srow, ls, f'. do 7 (split; [congruence|]). split; [congruence|]. split; [done|].
      cbn [set_file fs_files]. rewrite lookup_insert. split; [done|]. split; [destruct T1 as (-> & _); done|].
      split; [|done]. assert (sh_ino sh <> t) as Hn.
      { rewrite <- S3. pose proof Hleaf as (f1 & L & H1 & H2 & H3 & H4 & H5 & H6 & H7). rewrite Etc in H7. destruct H7 as (H7 & _).
        eapply comp_files_ne; [apply (sk_wf _ _ Hsk)|exact H1|exact H7]. }
      split.
      + exists f0. cbn [set_file fs_files]. by rewrite lookup_insert_ne.
      + exists f'. cbn [set_file fs_files]. rewrite T9, lookup_insert. done.
    - apply (ci_lk _ _ _ _ _ H).
  Qed.

  (** It has copied the row. *)
  Lemma step_cut c A os a s sh t r :
    CInv c A os -> c_ths c !! a = Some (TBgRow s sh t r (Ret tt)) ->
    good A (CS (put_leaf (c_root c) s (RLeaf (Shard (sh_start sh) (sh_end sh) (sh_ino sh) (Some (t, false)))))
               (fst (run_eff (EUpd t UCut) (c_fs c))) (<[a := TBg s]> (c_ths c)) (c_lk c)) None.
  Proof.
    intros H Ha. destruct (ci_thr _ _ _ _ _ H _ _ Ha) as (oo & Ho & (Hpa & cur & ow & j & srow & ls & ft & -> & Hcur & Hsim & Es & Et & Hr & Ei & Er & Ew & Hft & Hcut & HbK & Hj & El & Hsafe)).
    pose proof (ci_skel _ _ _ _ _ H) as Hsk. pose proof Hsim as (S1 & S2 & S3 & S4).
    pose proof HbK as ((f0 & Hf0 & Hsrow & Hls) & ft' & Hft' & Hown).
    assert (ft' = ft) as -> by congruence.
    assert (exists b, sh_tgt cur = Some (t, b)) as [bb Etc].
    { rewrite Et in S4. destruct (sh_tgt cur) as [[t' bb]|]; [|done]. injection S4 as ->. eauto. }
    pose proof (ci_leaf _ _ _ _ _ H cur Hcur) as Hleaf.
    destruct (cleaf_worker cfg x (a_map A) (c_fs c) os _ cur t bb ft r ls srow f0 (sk_wf _ _ Hsk) Hleaf Etc Hft Hcut Hr) as (Lt & L1 & L2 & L3 & L4 & L5 & _ & _ & L6); [by rewrite S3|done|done|].
    destruct Hsafe as [Hcl Hj']. assert (Lt r = padded (entries ls)) as ELt.
    { assert (Lt (o_r ow) = o_l ow) as E. { eapply own_row; [exact L1|by rewrite Er|exact Hown]. }
      rewrite Er in E. rewrite E, El, Hj', firstn_all. done. }
    specialize (L6 ELt false). rewrite S1, S2, S3 in L6.
    rewrite (upd_set_file _ _ _ UCut Hft).
    set (new := Shard (sh_start sh) (sh_end sh) (sh_ino sh) (Some (t, false))) in *.
    set (w' := set_file t (apply_fupd UCut ft) (c_fs c)) in *.
    assert (has_file cur t) as Hhas. { right. by rewrite Etc. }
    destruct (skel_leaf _ _ _ Hsk Hcur) as (B1 & B2 & B3).
    assert (route (c_root c) s = cur) as Hroute. { apply B3. lia. }
    assert (s < 65536) as Hs by lia.
    assert (0 <= s < 0 + 2 ^ N.of_nat 16) as Hs0 by (change (0 + 2 ^ N.of_nat 16) with 65536; lia).
    destruct (put_leaf_tree (c_root c) s (RLeaf new) 0 16 (sk_tree _ _ Hsk)) as (kk & Ek & Hk); [change (0 + 2 ^ N.of_nat 16) with 65536; lia|].
    rewrite Hroute in Ek, Hk.
    assert (tree_ok (put_leaf (c_root c) s (RLeaf new)) 0 16) as Htree.
    { apply Hk. cbn [tree_ok new sh_start sh_end]. rewrite <- S1, <- S2. done. }
    assert (Hleaves : forall sh', In sh' (leaves (put_leaf (c_root c) s (RLeaf new))) -> sh' = new \/ (In sh' (leaves (c_root c)) /\ sh' <> cur)).
    { intros sh' Hin. destruct (put_leaf_in _ _ _ _ _ _ (sk_tree _ _ Hsk) Hs0 Hin) as [[<-|[]]|[G1 G2]]; [by left|].
      right. split; [done|]. intros ->. rewrite Hroute in G2. lia. }
    assert (Hold : forall sh', In sh' (leaves (c_root c)) -> exists sh2, In sh2 (leaves (put_leaf (c_root c) s (RLeaf new))) /\ sim sh2 sh' /\ (is_Some (sh_tgt sh') -> is_Some (sh_tgt sh2)) /\ (sh' = cur -> sh2 = new)).
    { intros sh' Hin. destruct (decide (sh_start sh' = sh_start cur)) as [E|Hns].
      - pose proof (skel_same _ _ _ _ Hsk Hin Hcur E) as ->. exists new. split; [apply put_leaf_new; by left|]. split; [|split; [by eexists|done]].
        repeat split; cbn; [done..|]. by rewrite Etc.
      - exists sh'. split; [apply put_leaf_old; [done|]; rewrite Hroute; by intros ->|]. split; [done|]. split; [done|]. by intros ->. }
    pose proof (ucut_fields ft) as (U1&U2&U3&U4&U5&U6&U7&U8&U9&U10).
    assert (Hrow : forall r', row_of (apply_fupd UCut ft) r' = row_of ft r') by (intros r'; unfold row_of; by rewrite U1).
    assert (Hdk : dkeep ft (apply_fupd UCut ft)) by (apply dkeep_same; congruence).
    apply (good0 cfg x A _ (<[a := None]> os)).
    pose proof (lookup_lt_Some _ _ _ Ha) as Hlt.
    assert (Hl : forall b Tb, <[a := TBg s]> (c_ths c) !! b = Some Tb -> (b = a /\ Tb = TBg s) \/ (b <> a /\ c_ths c !! b = Some Tb)).
    { intros b Tb Hb. destruct (decide (b = a)) as [->|Hne].
      - rewrite list_lookup_insert in Hb by done. injection Hb as <-. auto.
      - rewrite list_lookup_insert_ne in Hb by done. auto. }
    assert (Hos : forall i', os_same i' os (<[a := None]> os)).
    { intros i'. eapply os_same_clean; [exact Ho| |by intros ? ?]. intros ? [= <-]. by right. }
    assert (Hsk' : skel w' (c_root c)) by (apply skel_set_file; [done|by rewrite Hft]).
    assert (Hbusy : busy (<[a := TBg s]> (c_ths c)) s = false).
    { destruct (busy _ s) eqn:Hb; [|done]. destruct (busy_in _ _ Hb) as (b & shb & tb & rb & pb & Hbt).
      destruct (Hl _ _ Hbt) as [[-> ?]|[Hne Hbt']]; [done|]. destruct Hne. by eapply (ci_bg _ _ _ _ _ H b a). }
    assert (Hfw : forall i, i <> t -> fs_files w' !! i = fs_files (c_fs c) !! i).
    { intros i Hi. cbn [w' set_file fs_files]. by rewrite lookup_insert_ne. }
    assert (Hft2 : fs_files w' !! t = Some (apply_fupd UCut ft)). { cbn [w' set_file fs_files]. by rewrite lookup_insert. }
    assert (Hnofile : forall sh', In sh' (leaves (c_root c)) -> sh' <> cur -> ~ has_file sh' t).
    { intros sh' Hin Hne Hf. apply Hne. eapply same_leaf; [exact Hsk|exact Hin|exact Hcur|by apply (ci_leaf _ _ _ _ _ H)|exact Hleaf|exact Hf|exact Hhas]. }
    assert (Htok : forall b Tb ob, b <> a -> c_ths c !! b = Some Tb -> tok cfg (c_root c) (c_fs c) (a_ths A !! b) Tb ob ->
      tok cfg (put_leaf (c_root c) s (RLeaf new)) w' (a_ths A !! b) Tb ob).
    { intros b Tb ob Hne Hb Ht. destruct Tb as [|p2|o2 k2|o2 k2 sh2 p2|o2 k2 s2 e2 v2 wo2|o2 k2 s2 e2|s2|s2 sh2 t2 r2 p2|]; try exact Ht.
      - destruct Ht as (cb & ow2 & g2 & Eo & C1 & C2 & C3 & C4 & C5 & C6 & C7 & (fb & Hrf & Hob') & C9).
        destruct (Hold _ C1) as (cb' & D1 & D2 & D3 & D4). exists cb', ow2, g2. split; [done|]. split; [done|]. split.
        { destruct D2 as (d1 & d2 & d3 & d4), C2 as (c1 & c2 & c3 & c4). repeat split; congruence. }
        split; [done|]. split; [done|]. split; [done|]. split; [done|]. split; [done|]. split; [|done].
        destruct (row_file_get _ _ _ _ _ Hrf) as [Hfb Hhb].
        assert (Hkeep : own_ok cfg (if decide (o_ino ow2 = t) then apply_fupd UCut ft else fb) ow2).
        { destruct (decide (o_ino ow2 = t)) as [E|]; [|done]. rewrite E in Hfb. assert (fb = ft) as -> by congruence.
          destruct Hob' as (Q1 & Q2 & Q3). split; [by rewrite Hrow|]. split.
          - rewrite <- Q1 in Q2 |- *. by apply row_keep.
          - destruct (o_pend ow2) as [[[off n] bs]|]; [|done]. rewrite U10, U9. done. }
        eexists. split; [|exact Hkeep]. destruct (decide (sh_start cb = sh_start cur)) as [E|Hns].
        + pose proof (skel_same _ _ _ _ Hsk C1 Hcur E) as ->.
          assert (rop_row cfg o2 <> r) as Hrr.
          { intros E'. assert (clash (s, r, true) (sh_start sh2, ph_row (rop_hash cfg o2), rop_write o2) = false) as Hc.
            { eapply (ci_excl _ _ _ _ _ H a b); [done|exact Ha|exact Hb|done|done]. }
            unfold clash in Hc. destruct C2 as (c1 & _). rewrite <- c1, S1, Es, N.eqb_refl in Hc. unfold rop_row in E'. rewrite E', Nat.eqb_refl in Hc. done. }
          unfold row_file, src_file in Hrf |- *. destruct C2 as (c1 & c2 & c3 & c4). rewrite Etc in c4. cbn in c4.
          destruct (sh_tgt sh2) as [[t2 fl2]|]; [|done]. injection c4 as <-. rewrite Hft2. rewrite Hft in Hrf.
          rewrite U6, Hcut. rewrite Hcut in Hrf.
          assert (sh_ino sh2 <> t) as Hnt.
          { rewrite <- c3. pose proof Hleaf as (f1 & L & H1 & H2 & H3 & H4 & H5 & H6 & H7). rewrite Etc in H7. destruct H7 as (H7 & _).
            eapply comp_files_ne; [apply (sk_wf _ _ Hsk)|exact H1|exact H7]. }
          destruct (Nat.ltb_spec (rop_row cfg o2) r) as [Hlt2|Hge2].
          * destruct (Nat.ltb_spec (rop_row cfg o2) (S r)); [|lia]. injection Hrf as Hrf _. rewrite <- Hrf. by rewrite decide_True.
          * destruct (Nat.ltb_spec (rop_row cfg o2) (S r)); [lia|]. rewrite Hfw by done.
            destruct (fs_files (c_fs c) !! sh_ino sh2) as [fz|]; [|done]. injection Hrf as Hrf <-. rewrite <- Hrf. by rewrite decide_False.
        + assert (cb <> cur) as Hncb by (by intros ->). pose proof (Hnofile _ C1 Hncb) as Hnf.
          assert (forall i, has_file sh2 i -> fs_files w' !! i = fs_files (c_fs c) !! i) as Hw.
          { intros i Hi. apply Hfw. intros ->. apply Hnf. by eapply sim_file. }
          rewrite decide_False. 2:{ intros E. apply Hnf. rewrite <- E. by eapply sim_file. }
          rewrite <- Hrf. unfold row_file, src_file. rewrite (Hw (sh_ino sh2)) by by left. destruct (sh_tgt sh2) as [[t2 fl2]|] eqn:Et2; [|done].
          rewrite (Hw t2) by (right; by rewrite Et2). done.
      - destruct Ht as (C1 & C2 & C3 & cb & C4 & C5 & C6). do 3 (split; [done|]). destruct (Hold _ C4) as (cb' & D1 & (d1 & d2 & _) & _).
        exists cb'. split; [done|]. split; congruence.
      - destruct Ht as (C1 & C2 & cb & C4 & C5 & C6). do 2 (split; [done|]). destruct (Hold _ C4) as (cb' & D1 & (d1 & d2 & _) & D3 & _).
        exists cb'. split; [done|]. split; [congruence|auto].
      - destruct Ht as (E0 & cb & ow2 & j2 & srow2 & ls2 & ft2 & Eo & C1 & C2 & C3 & C4 & C5 & C6 & C7 & C8 & C9 & C10 & ((fsr & X1 & X2 & X3) & ft3 & Y1 & Y2) & C12).
        assert (cb <> cur) as Hncb.
        { intros ->. destruct Hne. eapply (ci_bg _ _ _ _ _ H b a); [exact Hb|exact Ha|done|]. cbn. f_equal. destruct C2 as (c1 & _). congruence. }
        pose proof (Hnofile _ C1 Hncb) as Hnf.
        assert (forall i, has_file sh2 i -> fs_files w' !! i = fs_files (c_fs c) !! i) as Hw.
        { intros i Hi. apply Hfw. intros ->. apply Hnf. by eapply sim_file. }
        destruct (Hold _ C1) as (cb' & D1 & D2 & D3 & D4).
        split; [done|]. exists cb', ow2, j2, srow2, ls2, ft2. split; [done|]. split; [done|]. split.
        { destruct D2 as (d1 & d2 & d3 & d4), C2 as (c1 & c2 & c3 & c4). repeat split; congruence. }
        do 6 (split; [done|]). rewrite (Hw t2) by (by right). split; [done|]. split; [done|]. split; [|done]. split.
        + exists fsr. rewrite (Hw (sh_ino sh2)) by by left. done.
        + exists ft3. rewrite (Hw (o_ino ow2)) by (right; congruence). done. }
    split; cbn [c_root c_fs c_ths c_lk].
    - eapply (skel_put w' w'); [exact Hsk'|exact Hs|rewrite Hroute; exact Ek|apply (sk_wf _ _ Hsk')|intros ?; done| |].
      + rewrite Hroute. cbn [tree_ok new sh_start sh_end]. rewrite <- S1, <- S2. done.
      + rewrite Hroute. cbn [leaves map]. replace (span_of new) with (sh_start cur, sh_end cur) by (unfold span_of; cbn; by rewrite S1, S2). apply (skel_solo w' (c_root c)); done.
    - rewrite !insert_length. apply (ci_len _ _ _ _ _ H).
    - intros sh' Hsh'. destruct (Hleaves _ Hsh') as [->|[Hin Hne]].
      + cbn [new sh_start]. rewrite Es, Hbusy. eapply cleaf_os; [|exact L6]. auto.
      + assert (sh_start sh' <> s) as Hns. { intros E. apply Hne. eapply skel_same; [exact Hsk|done|done|congruence]. }
        rewrite (busy_insert _ _ _ _ _ Ha). 2:{ cbn. symmetry. by apply N.eqb_neq. }
        eapply cleaf_other_file; [|intros; apply Hos|done|by apply (ci_leaf _ _ _ _ _ H)].
        intros Hf. apply Hne. eapply same_leaf; [exact Hsk|exact Hin|exact Hcur|by apply (ci_leaf _ _ _ _ _ H)|exact Hleaf|exact Hf|exact Hhas].
    - intros b Tb Hb. destruct (Hl _ _ Hb) as [[-> ->]|[Hne Hb']].
      + exists None. rewrite list_lookup_insert by (by eapply lookup_lt_Some). split; [done|]. split; [done|]. split; [done|].
        exists new. split; [apply put_leaf_new; by left|]. split; [done|]. by eexists.
      + rewrite list_lookup_insert_ne by done. destruct (ci_thr _ _ _ _ _ H _ _ Hb') as (ob & Eb & Tb'). exists ob. split; [done|].
        by apply (Htok b Tb ob).
    - intros b Hb. assert (b <> a) as Hne. { intros ->. by rewrite list_lookup_insert in Hb. }
      rewrite list_lookup_insert_ne in Hb by done. by apply (ci_idle _ _ _ _ _ H).
    - intros b d Tb Td l l' Hbd Hb Hd Hlb Hld.
      destruct (Hl _ _ Hb) as [[-> ->]|[Hnb Hb']], (Hl _ _ Hd) as [[-> ->]|[Hnd Hd']]; try done.
      by eapply (ci_excl _ _ _ _ _ H b d).
    - intros b d Tb Td s' Hb Hd Hwb Hwd.
      destruct (Hl _ _ Hb) as [[-> ->]|[Hnb Hb']], (Hl _ _ Hd) as [[-> ->]|[Hnd Hd']]; try done.
      + by eapply (ci_bg _ _ _ _ _ H a d).
      + by eapply (ci_bg _ _ _ _ _ H b a).
      + by eapply (ci_bg _ _ _ _ _ H b d).
    - intros sh' Hsh' Ht'. destruct (Hleaves _ Hsh') as [->|[Hin Hne]].
      + exists a, (TBg s). rewrite list_lookup_insert by done. split; [done|]. cbn. by rewrite Es.
      + destruct (ci_all _ _ _ _ _ H sh' Hin Ht') as (b & Tb & Hb & Hwb). destruct (decide (b = a)) as [->|Hnb].
        * rewrite Ha in Hb. injection Hb as <-. cbn in Hwb. injection Hwb as Hwb. destruct Hne. eapply skel_same; [exact Hsk|done|done|congruence].
        * exists b, Tb. by rewrite list_lookup_insert_ne.
    - apply (ci_lk _ _ _ _ _ H).
  Qed.

  Lemma step_bgrow c A os a s sh t r p c' e :
    CInv c A os -> calm c -> c_ths c !! a = Some (TBgRow s sh t r p) -> thr_step cfg c a = Some (c', e) -> good A c' e.
  Proof.
    intros H Hcalm Ha. unfold thr_step. rewrite Ha.
    destruct (ci_thr _ _ _ _ _ H _ _ Ha) as (oo & Ho & (Hpa & cur & ow & j & srow & ls & ft & -> & Hcur & Hsim & Es & Et & Hr & Ei & Er & Ew & Hft & Hcut & HbK & Hj & El & Hsafe)).
    pose proof HbK as ((f0 & Hf0 & Hsrow & Hls) & ft' & Hft' & Hown). rewrite Ei in Hft'.
    assert (ft' = ft) as -> by congruence.
    destruct p as [[]|er|X ef kk].
    - intros [= <- <-]. by eapply step_cut.
    - done.
    - destruct ef as [|i n|i u|n ty|n1 n2|n1]; cbn [lsafe] in Hsafe; try done.
      + (* snapshot *)
        destruct (Hsafe (c_fs c) HbK) as (j' & Hg & Hs'). cbn [run_eff]. intros [= <- <-].
        apply (good0 cfg x A _ os). rewrite <- (list_insert_id _ _ _ Ho).
        eapply (cinv_thread cfg x c A os a _ (TBgRow s sh t r (kk (c_fs c))) _ A _); [exact H|exact Ha|by left|done|done|apply (ci_skel _ _ _ _ _ H)|by rewrite insert_length| | |done| |apply (ci_lk _ _ _ _ _ H)].
        * rewrite (list_insert_id _ _ _ Ho). apply (ci_leaf _ _ _ _ _ H).
        * rewrite (list_insert_id _ _ _ Ho). done.
        * rewrite (list_insert_id _ _ _ Ho). exists (Some ow). split; [done|]. split; [done|]. exists cur, ow, j', srow, ls, ft.
          do 12 (split; [done|]).
          assert ((j' <= length (entries ls))%nat /\ o_l ow = padded (take j' (entries ls))) as [J1 J2].
          { destruct Hg as [[-> _]|(-> & Hlt & _ & ->)]; [done|]. split; [lia|done]. }
          done.
      + (* allocation *)
        destruct Hsafe as (-> & Hwt & Hpn & Hn & Hs'). cbn [run_eff]. rewrite Ei in Hs' |- *. rewrite Hft. intros [= <- <-].
        eapply (bg_effect c A os a s sh t r _ cur ow j srow ls ft _ _ _ j); try done.
        * intros L L1 L2. apply alloc_fstep; auto. by rewrite Er.
        * by left.
        * apply Hs'. destruct Hcalm as [Hc _]. pose proof Hsim as (S1 & S2 & S3 & S4).
          assert (exists b, sh_tgt cur = Some (t, b)) as [bb Etc].
          { rewrite Et in S4. destruct (sh_tgt cur) as [[t' bb]|]; [|done]. injection S4 as ->. eauto. }
          specialize (Hc cur f0 Hcur). rewrite S3, Etc in Hc. specialize (Hc Hf0 ft Hft). lia.
      + (* update *)
        destruct Hsafe as (ow' & j' & Hu & -> & Hgop & Hs').
        rewrite Ei in *. pose proof (upd_set_file _ _ _ u Hft) as Ewf. cbn [run_eff fst] in Ewf |- *. intros [= <- <-]. rewrite Ewf.
        eapply (bg_effect c A os a s sh t r _ cur ow j srow ls ft _ _ ow' j'); try done.
        intros L L1 L2. apply ustep_fstep; auto. by rewrite Er.
  Qed.
End row.
