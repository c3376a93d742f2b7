(** Steps that replace a leaf of the tree of shards: the begin and the end of a compaction, and
    the split of a shard; and the worker starting on a row. *)
From Verif Require Import Base Hashing HashingProofs Fs Shard Router RouterPure Store Kv KvSpec Limits Api KeySpace Wpc Spec FileRep RowOps Compact Inv
  ShardOps Insert Split StoreRefine Conc ConcSpec ConcLocal ConcFile ConcTree ConcInv ConcStep ConcRow.
Implicit Types (m : kvmap) (os : list (option own)).

Lemma leaf_ok_dir cfg x m w sh i : leaf_ok cfg x m w sh -> has_file sh i ->
  exists nm, fs_dir w !! nm = Some i /\ (nm = FShard (sh_start sh) (sh_end sh) \/ nm = FCompact (sh_start sh) (sh_end sh)).
Proof.
  intros (f & L & H1 & H2 & H3 & H4 & H5 & H6 & H7) [<-|Ht]; [eauto|].
  destruct (sh_tgt sh) as [[t b]|]; [|done]. cbn in Ht. injection Ht as <-. destruct H7 as [H7 _]. eauto.
Qed.
Lemma row_lock_files cfg T s r w : row_lock cfg T = Some (s, r, w) -> holds_files s T = true.
Proof. destruct T; try done; cbn; intros [= -> _ _]; apply N.eqb_refl. Qed.

Section struct.
  Context (cfg : config) (x : bool).
  Notation good := (good cfg x).
  Notation CInv := (CInv cfg x).

  (** Nobody owns anything in a shard whose files are not locked. *)
  Lemma free_unowned c A os cur a :
    CInv c A os -> In cur (leaves (c_root c)) -> os !! a = Some None ->
    (forall b Tb, b <> a -> c_ths c !! b = Some Tb -> holds_files (sh_start cur) Tb = false) -> unowned os cur.
  Proof.
    intros H Hcur Ha Hfree b ow Hb Hf. assert (b <> a) as Hne by (intros ->; congruence).
    assert (exists T, c_ths c !! b = Some T) as [Tb Htb].
    { apply lookup_lt_is_Some. rewrite <- (ci_len _ _ _ _ _ H). by eapply lookup_lt_Some. }
    destruct (ci_thr _ _ _ _ _ H _ _ Htb) as (ob & Eb & Tob). rewrite Hb in Eb. injection Eb as <-.
    destruct (tok_owner _ _ _ _ _ _ Tob) as (cb & B1 & B2 & B3 & _).
    assert (cur = cb) as ->.
    { eapply same_leaf; [apply (ci_skel _ _ _ _ _ H)|exact Hcur|exact B1|by apply (ci_leaf _ _ _ _ _ H)|by apply (ci_leaf _ _ _ _ _ H)|exact Hf|exact B3]. }
    pose proof (Hfree _ _ Hne Htb) as Hx. by rewrite (row_lock_files _ _ _ _ _ B2) in Hx.
  Qed.
  Lemma free_busy c A os cur a T :
    CInv c A os -> c_ths c !! a = Some T -> in_row (sh_start cur) T = false ->
    (forall b Tb, b <> a -> c_ths c !! b = Some Tb -> holds_files (sh_start cur) Tb = false) ->
    busy (c_ths c) (sh_start cur) = false.
  Proof.
    intros H Ha Hr Hfree. destruct (busy _ _) eqn:Hb; [|done]. destruct (busy_in _ _ Hb) as (b & shb & tb & rb & pb & Hbt).
    destruct (decide (b = a)) as [->|Hne].
    - rewrite Ha in Hbt. injection Hbt as ->. cbn in Hr. by rewrite N.eqb_refl in Hr.
    - pose proof (Hfree _ _ Hne Hbt) as Hx. cbn in Hx. by rewrite N.eqb_refl in Hx.
  Qed.

  (** Such a shard is as in the sequential store. *)
  Lemma free_leafQ c A os cur a T :
    CInv c A os -> calm c -> In cur (leaves (c_root c)) -> c_ths c !! a = Some T -> row_lock cfg T = None ->
    (forall b Tb, b <> a -> c_ths c !! b = Some Tb -> holds_files (sh_start cur) Tb = false) ->
    exists n, sh_end cur = sh_start cur + 2 ^ N.of_nat n /\
      leafQ cfg x (c_fs c) (a_map A) (sh_start cur) n (RLeaf cur) (c_fs c) /\ unowned os cur.
  Proof.
    intros H Hcalm Hcur Ha Hl Hfree. pose proof (ci_skel _ _ _ _ _ H) as Hsk.
    destruct (os_none _ _ _ _ _ _ _ H Ha Hl) as [Ho _].
    destruct (skel_leaf _ _ _ Hsk Hcur) as (B1 & B2 & B3).
    destruct (put_leaf_tree (c_root c) (sh_start cur) (RLeaf cur) 0 16 (sk_tree _ _ Hsk)) as (n & En & _); [change (0 + 2 ^ N.of_nat 16) with 65536; lia|].
    rewrite B3 in En by lia. exists n. split; [done|]. pose proof (free_unowned _ _ _ _ _ H Hcur Ho Hfree) as Hun. split; [|done].
    split; [apply (sk_wf _ _ Hsk)|]. split; [apply outside_same_refl|].
    apply run_leaf. rewrite <- En. split; [done|]. split; [done|]. split; [|by eapply skel_solo].
    eapply cleaf_leaf_ok; [|exact Hun|].
    - erewrite <- (free_busy _ _ _ _ _ _ H Ha); [by apply (ci_leaf _ _ _ _ _ H)| |exact Hfree]. by destruct T.
    - intros f Hf. exact (proj1 Hcalm cur f Hcur Hf).
  Qed.

  (** The leaf [cur] is replaced by [sub]. *)
  Lemma struct_step c A os a T T' sel cur sub w' nw n :
    CInv c A os -> c_ths c !! a = Some T -> row_lock cfg T = None -> row_lock cfg T' = None -> sel < 65536 ->
    cur = route (c_root c) sel ->
    (forall s, in_row s T' = in_row s T) ->
    sh_end cur = sh_start cur + 2 ^ N.of_nat n ->
    leafQ cfg x (c_fs c) (a_map A) (sh_start cur) n sub w' ->
    (forall b Tb, b <> a -> c_ths c !! b = Some Tb -> holds_files (sh_start cur) Tb = false) ->
    (forall b Tb, b <> a -> c_ths c !! b = Some Tb -> holds_node (sh_start cur) Tb = true ->
       exists sh', In sh' (leaves sub) /\ span_of sh' = span_of cur) ->
    (forall b Tb, b <> a -> c_ths c !! b = Some Tb -> worker Tb = Some (sh_start cur) ->
       exists sh', In sh' (leaves sub) /\ sh_start sh' = sh_start cur /\ is_Some (sh_tgt sh')) ->
    worker T' = None -> worker T = None \/ worker T = Some (sh_start cur) ->
    (forall sh', In sh' (leaves sub) -> is_Some (sh_tgt sh') ->
       sh_start sh' = sh_start cur /\
       ((exists b Tb, b <> a /\ c_ths c !! b = Some Tb /\ worker Tb = Some (sh_start cur)) \/ nw = [TBg (sh_start cur)])) ->
    nw = [] \/ (nw = [TBg (sh_start cur)] /\ (forall b Tb, c_ths c !! b = Some Tb -> worker Tb <> Some (sh_start cur)) /\
       exists sh', In sh' (leaves sub) /\ sh_start sh' = sh_start cur /\ is_Some (sh_tgt sh')) ->
    tok cfg (put_leaf (c_root c) sel sub) w' (a_ths A !! a) T' None ->
    good A (CS (put_leaf (c_root c) sel sub) w' (<[a := T']> (c_ths c) ++ nw) (c_lk c)) None.
  Proof.
    intros H Ha Hl Hl' Hsel Ecur Hir En (Hwf & Hout & Htree & Hlok & Hnames) Hfree Hnode Hwk HwT' HwT Hall Hnw Htok.
    pose proof (ci_skel _ _ _ _ _ H) as Hsk. destruct (os_none _ _ _ _ _ _ _ H Ha Hl) as [Ho _].
    destruct (skel_route _ _ _ Hsk Hsel) as [Hcur Hin]. rewrite <- Ecur in Hcur, Hin.
    rewrite <- En in *. set (root' := put_leaf (c_root c) sel sub) in *.
    assert (0 <= sel < 0 + 2 ^ N.of_nat 16) as Hs0 by (change (0 + 2 ^ N.of_nat 16) with 65536; lia).
    set (os' := os ++ map (fun _ => None) nw). pose proof (lookup_lt_Some _ _ _ Ha) as Hlt.
    pose proof (ci_len _ _ _ _ _ H) as Hlen.
    assert (Hos : forall i, os_same i os os').
    { intros i. unfold os'. destruct Hnw as [->|(-> & _)]; cbn [map]; [rewrite app_nil_r|apply os_same_app].
      rewrite <- (list_insert_id _ _ _ Ho) at 2. by eapply os_same_clean. }
    assert (Hosl : forall b ob, os !! b = Some ob -> os' !! b = Some ob).
    { intros b ob Hb. unfold os'. by apply lookup_app_l_Some. }
    assert (Hosn : forall b ow, os' !! b = Some (Some ow) -> os !! b = Some (Some ow)).
    { intros b ow Hb. unfold os' in Hb. apply lookup_app_Some in Hb as [Hb|[_ Hb]]; [done|].
      destruct Hnw as [->|(-> & _)]; [done|]. by apply list_lookup_singleton_Some in Hb as [_ Hb]. }
    assert (Hl2 : forall b Tb, (<[a := T']> (c_ths c) ++ nw) !! b = Some Tb ->
      (b = a /\ Tb = T') \/ (b <> a /\ c_ths c !! b = Some Tb) \/ (b = length (c_ths c) /\ Tb = TBg (sh_start cur) /\ nw = [TBg (sh_start cur)])).
    { intros b Tb Hb. apply lookup_app_Some in Hb as [Hb|[Hge Hb]].
      - destruct (decide (b = a)) as [->|Hne].
        + rewrite list_lookup_insert in Hb by done. injection Hb as <-. auto.
        + rewrite list_lookup_insert_ne in Hb by done. auto.
      - rewrite insert_length in *. right. right. destruct Hnw as [->|(-> & _)]; [done|].
        apply list_lookup_singleton_Some in Hb as [Hb <-]. split; [lia|done]. }
    assert (Hleaves : forall sh', In sh' (leaves root') -> In sh' (leaves sub) \/
        (In sh' (leaves (c_root c)) /\ (sh_end sh' <= sh_start cur \/ sh_end cur <= sh_start sh'))).
    { intros sh' Hin'. rewrite Ecur. by apply (put_leaf_in _ _ _ _ 0 16 (sk_tree _ _ Hsk) Hs0). }
    assert (Hsub : forall sh', In sh' (leaves sub) -> sh_start cur <= sh_start sh' /\ sh_start sh' < sh_end sh' /\ sh_end sh' <= sh_end cur).
    { intros sh' Hin'. pose proof (leaves_bounds _ _ _ _ Htree Hin'). lia. }
    assert (Hlok' : forall sh', In sh' (leaves sub) -> leaf_ok cfg x (a_map A) w' sh').
    { intros sh' Hin'. rewrite Forall_forall in Hlok. apply Hlok. by apply elem_of_list_In. }
    assert (Hcurne : forall sh', In sh' (leaves (c_root c)) -> sh_end sh' <= sh_start cur \/ sh_end cur <= sh_start sh' -> sh' <> cur).
    { intros sh' _ Hd ->. lia. }
    assert (Hunsub : forall sh', In sh' (leaves sub) -> unowned os' sh').
    { intros sh' Hin' b ow Hb Hf. apply Hosn in Hb. assert (b <> a) as Hne by (intros ->; congruence).
      assert (exists T, c_ths c !! b = Some T) as [Tb Htb].
      { apply lookup_lt_is_Some. rewrite <- Hlen. by eapply lookup_lt_Some. }
      destruct (ci_thr _ _ _ _ _ H _ _ Htb) as (ob & Eb & Tob). rewrite Hb in Eb. injection Eb as <-.
      destruct (tok_owner _ _ _ _ _ _ Tob) as (cb & B1 & B2 & B3 & _).
      assert (cb <> cur) as Hncb.
      { intros ->. pose proof (Hfree _ _ Hne Htb) as Hx. by rewrite (row_lock_files _ _ _ _ _ B2) in Hx. }
      destruct (skel_leaf _ _ _ Hsk B1) as (E1 & E2 & _).
      destruct (cleaf_dir _ _ _ _ _ _ _ _ (ci_leaf _ _ _ _ _ H cb B1) B3) as (nm & D1 & D2).
      destruct (leaf_ok_dir _ _ _ _ _ _ (Hlok' _ Hin') Hf) as (nm' & D3 & D4).
      pose proof (skel_disjoint _ _ _ _ Hsk B1 Hcur Hncb) as Hd. specialize (Hsub _ Hin').
      destruct (Hout nm) as [O1 _]; [by destruct D2 as [->| ->]; cbn|]. rewrite D1 in O1.
      pose proof (wf_inj _ Hwf _ _ _ O1 D3) as E. destruct D2 as [->| ->], D4 as [->| ->]; try done; injection E as E3 E4; lia. }
    assert (Hbz : forall s, busy (<[a := T']> (c_ths c) ++ nw) s = busy (c_ths c) s).
    { intros s. rewrite busy_app, (busy_insert _ _ _ _ _ Ha (Hir s)). destruct Hnw as [->|(-> & _)]; cbn; by rewrite orb_false_r. }
    apply (good0 cfg x A _ os'). split; cbn [c_root c_fs c_ths c_lk].
    - eapply skel_put; [exact Hsk|exact Hsel|rewrite <- Ecur; exact En|done|..]; rewrite <- Ecur; try done.
    - unfold os'. rewrite !app_length, insert_length, map_length, Hlen. done.
    - intros sh' Hsh'. rewrite Hbz. destruct (Hleaves _ Hsh') as [Hin'|[Hin' Hd]].
      + apply leaf_ok_cleaf; auto.
      + eapply cleaf_os; [intros i _; apply Hos|]. destruct (skel_leaf _ _ _ Hsk Hin') as (E1 & E2 & _).
        eapply cleaf_frame; [exact Hout|done|done|]. by apply (ci_leaf _ _ _ _ _ H).
    - intros b Tb Hb. destruct (Hl2 _ _ Hb) as [[-> ->]|[[Hne Hb']|(-> & -> & Enw)]].
      + exists None. split; [by apply Hosl|done].
      + destruct (ci_thr _ _ _ _ _ H _ _ Hb') as (ob & Eb & Tob). exists ob. split; [by apply Hosl|].
        eapply (tok_outside cfg x c A os); [exact H|exact Hb'|exact Eb|exact Hout| | |exact Tob].
        * intros sh Hsh Hd. apply put_leaf_old; [done|]. rewrite <- Ecur. by apply Hcurne.
        * intros sh Hsh Hd. assert (sh = cur) as ->.
          { destruct (decide (sh_start sh = sh_start cur)) as [E|Hns]; [by eapply skel_same|].
            destruct Hd. eapply skel_disjoint; [exact Hsk|done|done|]. by intros ->. }
          split; [by eapply Hfree|]. split.
          -- intros Hn. destruct (Hnode _ _ Hne Hb' Hn) as (sh' & X1 & X2). exists sh'. split; [by apply put_leaf_new|done].
          -- intros Hw. destruct (Hwk _ _ Hne Hb' Hw) as (sh' & X1 & X2 & X3). exists sh'. split; [by apply put_leaf_new|done].
      + exists None. split.
        { unfold os'. rewrite Enw. rewrite lookup_app_r by lia. by rewrite Hlen, Nat.sub_diag. }
        split; [done|]. split; [apply (ci_idle _ _ _ _ _ H); by apply lookup_ge_None|].
        destruct Hnw as [->|(_ & _ & sh' & X1 & X2 & X3)]; [done|]. exists sh'. split; [by apply put_leaf_new|done].
    - intros b Hb. apply (ci_idle _ _ _ _ _ H).
      apply lookup_ge_None. apply lookup_ge_None in Hb. rewrite app_length, insert_length in Hb. lia.
    - intros b d Tb Td l l' Hbd Hb Hd Hlb Hld.
      destruct (Hl2 _ _ Hb) as [[-> ->]|[[Hnb Hb']|(-> & -> & Enw)]], (Hl2 _ _ Hd) as [[-> ->]|[[Hnd Hd']|(-> & -> & _)]]; try done; try congruence.
      by eapply (ci_excl _ _ _ _ _ H b d).
    - intros b d Tb Td s' Hb Hd Hwb Hwd.
      destruct (Hl2 _ _ Hb) as [[-> ->]|[[Hnb Hb']|(-> & -> & Enw)]], (Hl2 _ _ Hd) as [[-> ->]|[[Hnd Hd']|(-> & -> & Enw')]]; try done; try congruence.
      + by eapply (ci_bg _ _ _ _ _ H b d).
      + destruct Hnw as [->|(_ & Hno & _)]; [done|]. cbn in Hwd. injection Hwd as <-. by destruct (Hno _ _ Hb').
      + destruct Hnw as [->|(_ & Hno & _)]; [done|]. cbn in Hwb. injection Hwb as <-. by destruct (Hno _ _ Hd').
    - intros sh' Hsh' Ht. destruct (Hleaves _ Hsh') as [Hin'|[Hin' Hd]].
      + destruct (Hall _ Hin' Ht) as [Es [(b & Tb & Hne & Hb & Hw)|Enw]].
        * exists b, Tb. split; [|by rewrite Es]. apply lookup_app_l_Some. by rewrite list_lookup_insert_ne.
        * exists (length (c_ths c)), (TBg (sh_start cur)). split; [|by rewrite Es].
          rewrite lookup_app_r by (by rewrite insert_length). by rewrite insert_length, Nat.sub_diag, Enw.
      + destruct (ci_all _ _ _ _ _ H sh' Hin' Ht) as (b & Tb & Hb & Hw). destruct (decide (b = a)) as [->|Hne].
        * rewrite Ha in Hb. injection Hb as <-. destruct HwT as [E|E]; [congruence|]. rewrite E in Hw. injection Hw as Hw.
          destruct (Hcurne _ Hin' Hd). by eapply skel_same.
        * exists b, Tb. split; [|done]. apply lookup_app_l_Some. by rewrite list_lookup_insert_ne.
    - apply (ci_lk _ _ _ _ _ H).
  Qed.

  Lemma files_free_others c a s : files_free (others_of c a) s = true ->
    forall b Tb, b <> a -> c_ths c !! b = Some Tb -> holds_files s Tb = false.
  Proof.
    intros Hf b Tb Hne Hb. pose proof (forallb_others _ _ _ Hf _ _ Hne Hb) as Hx. cbn beta in Hx. by destruct (holds_files s Tb).
  Qed.
  Lemma node_free_others c a s : node_free (others_of c a) s = true ->
    forall b Tb, b <> a -> c_ths c !! b = Some Tb -> holds_node s Tb = false.
  Proof.
    intros Hf b Tb Hne Hb. pose proof (forallb_others _ _ _ Hf _ _ Hne Hb) as Hx. cbn beta in Hx. by destruct (holds_node s Tb).
  Qed.

  (** ** [begin_compaction] *)
  Lemma step_after c A os a o k s e v woff c' ev :
    CInv c A os -> calm c -> c_ths c !! a = Some (TAfter o k s e v woff) -> thr_step cfg c a = Some (c', ev) -> good A c' ev.
  Proof.
    intros H Hcalm Ha. unfold thr_step. rewrite Ha. cbn zeta.
    destruct (files_free (others_of c a) s) eqn:Hff; [|done].
    pose proof (ci_skel _ _ _ _ _ H) as Hsk. destruct (os_none _ _ _ _ _ _ _ H Ha eq_refl) as [Ho (_ & Hok & Hg & cur & Hcur & Es & Ee)].
    destruct (skel_leaf _ _ _ Hsk Hcur) as (B1 & B2 & B3).
    rewrite (B3 s) by lia. pose proof (files_free_others _ _ _ Hff) as Hfree. rewrite <- Es in Hfree.
    destruct (free_leafQ _ _ _ _ _ _ H Hcalm Hcur Ha eq_refl Hfree) as (n & En & HQ & Hun).
    destruct (go_on_lock cfg o k s e v) as (G1 & G2 & G3).
    assert (wpc (begin_compaction cfg cur woff) (fun _ => True)
      (fun sh' w' => (sh' = cur /\ w' = c_fs c) \/ (exists t, sh_tgt cur = None /\ sh' = Shard (sh_start cur) (sh_end cur) (sh_ino cur) (Some (t, true)) /\
         leafQ cfg x (c_fs c) (a_map A) (sh_start cur) n (RLeaf sh') w')) (fun _ => False) (c_fs c)) as Hwp.
    { eapply begin_compaction_leaf; [exact HQ|done|by left|]. intros w' t HQ' Ht _. right. exists t. rewrite <- En in HQ' |- *. done. }
    apply wpc_sound in Hwp as [_ Hwp]. destruct (run (begin_compaction cfg cur woff) (c_fs c)) as [w' [sh'|er]]; [|by destruct Hwp].
    destruct Hwp as [_ Hres]. intros [= <- <-].
    destruct Hres as [[-> ->]|(t & Ht & -> & HQ')].
    - assert (match sh_tgt cur with None => match sh_tgt cur with Some _ => [TBg s] | None => [] end | Some _ => [] end = []) as -> by (by destruct (sh_tgt cur)).
      eapply (struct_step c A os a _ _ s cur (RLeaf cur) (c_fs c) [] n); try done.
      + lia.
      + symmetry. apply B3. lia.
      + intros b Tb _ _ _. exists cur. split; [by left|done].
      + intros b Tb Hne Hb Hw. exists cur. split; [by left|]. split; [done|].
        destruct (ci_thr _ _ _ _ _ H _ _ Hb) as (ob & _ & Tob). destruct Tb; try done; cbn in Hw; injection Hw as ->.
        * destruct Tob as (_ & _ & cb & X1 & X2 & X3). by rewrite (skel_same _ _ _ _ Hsk Hcur X1).
        * pose proof (Hfree _ _ Hne Hb) as Hx. cbn in Hx. by rewrite N.eqb_refl in Hx.
      + by left.
      + intros sh' [<-|[]] Ht. split; [done|]. left. destruct (ci_all _ _ _ _ _ H cur Hcur Ht) as (b & Tb & Hb & Hw).
        exists b, Tb. split; [|done]. intros ->. rewrite Ha in Hb. by injection Hb as <-.
      + by left.
      + by apply tok_go_on.
    - rewrite Ht. cbn [sh_tgt].
      assert (Hno : forall b Tb, c_ths c !! b = Some Tb -> worker Tb <> Some (sh_start cur)).
      { intros b Tb Hb Hw. destruct (ci_thr _ _ _ _ _ H _ _ Hb) as (ob & _ & Tob). destruct Tb; try done; cbn in Hw; injection Hw as ->.
        - destruct Tob as (_ & _ & cb & X1 & X2 & X3). pose proof (skel_same _ _ _ _ Hsk Hcur X1) as E. rewrite E in Ht by done. rewrite Ht in X3. by destruct X3.
        - destruct (decide (b = a)) as [->|Hne]; [rewrite Ha in Hb; done|].
          pose proof (Hfree _ _ Hne Hb) as Hx. cbn in Hx. by rewrite N.eqb_refl in Hx. }
      rewrite <- Es.
      eapply (struct_step c A os a _ _ (sh_start cur) cur (RLeaf (Shard (sh_start cur) (sh_end cur) (sh_ino cur) (Some (t, true)))) w' [TBg (sh_start cur)] n); try done.
      + rewrite Es. by apply go_on_lock.
      + lia.
      + symmetry. apply B3. lia.
      + rewrite Es. by apply go_on_lock.
      + intros b Tb _ _ _. eexists. split; [by left|done].
      + intros b Tb Hne Hb Hw. by destruct (Hno _ _ Hb).
      + rewrite Es. by apply go_on_lock.
      + by left.
      + intros sh' [<-|[]] _. split; [done|]. by right.
      + right. split; [done|]. split; [done|]. eexists. split; [by left|]. split; [done|]. by eexists.
      + by apply tok_go_on.
  Qed.

  (** ** Splitting a shard *)
  Lemma step_split c A os a o k s e c' ev :
    CInv c A os -> calm c -> c_ths c !! a = Some (TSplit o k s e) -> thr_step cfg c a = Some (c', ev) -> good A c' ev.
  Proof.
    intros H Hcalm Ha. unfold thr_step. rewrite Ha. cbn zeta.
    pose proof (ci_skel _ _ _ _ _ H) as Hsk. destruct (os_none _ _ _ _ _ _ _ H Ha eq_refl) as [Ho (_ & Hw & Hok)].
    set (sel := ph_selector (rop_hash cfg o)) in *.
    destruct (skel_route _ _ sel Hsk (ph_sel_lt _)) as [Hcur Hin].
    set (cur := route (c_root c) sel) in *.
    destruct (N.eqb_spec (sh_start cur) s) as [Es|_]; cbn [andb].
    2:{ intros [= <- <-]. apply (good0 cfg x A _ os). apply (cinv_eta cfg x c _ _ _ _ (a_lk A)); [apply (ci_lk _ _ _ _ _ H)|].
        rewrite <- (astate_eta A). eapply cinv_simple; try done. }
    destruct (N.eqb_spec (sh_end cur) e) as [Ee|_].
    2:{ intros [= <- <-]. apply (good0 cfg x A _ os). apply (cinv_eta cfg x c _ _ _ _ (a_lk A)); [apply (ci_lk _ _ _ _ _ H)|].
        rewrite <- (astate_eta A). eapply cinv_simple; try done. }
    destruct (sh_tgt cur) as [[]|] eqn:Et; [done|].
    destruct (node_free (others_of c a) s) eqn:Hnf; [|done].
    pose proof (node_free_others _ _ _ Hnf) as Hnode. rewrite <- Es in Hnode.
    assert (Hno : forall b Tb, c_ths c !! b = Some Tb -> worker Tb <> Some (sh_start cur)).
    { intros b Tb Hb Hwb. destruct (ci_thr _ _ _ _ _ H _ _ Hb) as (ob & _ & Tob). destruct Tb; try done; cbn in Hwb; injection Hwb as ->.
      - destruct Tob as (_ & _ & cb & X1 & X2 & X3). pose proof (skel_same _ _ _ _ Hsk Hcur X1) as E. rewrite <- E, Et in X3 by done. by destruct X3.
      - destruct Tob as (_ & cb & _ & _ & _ & _ & _ & _ & X1 & X2 & X3 & X4 & _). pose proof X2 as (X5 & _ & _ & X6).
        pose proof (skel_same _ _ _ _ Hsk Hcur X1) as E. rewrite <- E, Et, X4 in X6 by congruence. done. }
    assert (Hfree : forall b Tb, b <> a -> c_ths c !! b = Some Tb -> holds_files (sh_start cur) Tb = false).
    { intros b Tb Hne Hb. pose proof (Hnode _ _ Hne Hb) as Hx. destruct Tb; try done. specialize (Hno _ _ Hb). cbn in Hno |- *.
      apply N.eqb_neq. congruence. }
    destruct (free_leafQ _ _ _ _ _ _ H Hcalm Hcur Ha eq_refl Hfree) as (n & En & HQ & Hun).
    destruct n as [|n].
    { pose proof (proj2 Hcalm _ _ _ _ _ Ha) as Hlt. change (2 ^ N.of_nat 0) with 1 in En. lia. }
    assert (wpc (shard_split cfg cur) (fun _ => True) (fun bt w' => leafQ cfg x (c_fs c) (a_map A) (sh_start cur) (S n) (RVertex (RLeaf (fst bt)) (RLeaf (snd bt))) w' /\
        fresh_leaf cfg (a_map A) w' (fst bt) /\ fresh_leaf cfg (a_map A) w' (snd bt))
       (fun _ => False) (c_fs c)) as Hwp.
    { eapply shard_split_leaf; [exact HQ|done|]. intros w' b t HQ' F1 F2 _. done. }
    apply wpc_sound in Hwp as [_ Hwp]. destruct (run (shard_split cfg cur) (c_fs c)) as [w' [[b t]|er]]; [|by destruct Hwp].
    destruct Hwp as [_ (HQ' & F1 & F2)]. cbn [fst snd] in *. intros [= <- <-].
    rewrite <- (app_nil_r (<[a := _]> _)).
    eapply (struct_step c A os a _ _ sel cur _ w' [] (S n)); try done.
    - apply ph_sel_lt.
    - intros b' Tb Hne Hb Hx. by rewrite (Hnode _ _ Hne Hb) in Hx.
    - intros b' Tb Hne Hb Hx. by destruct (Hno _ _ Hb).
    - by left.
    - intros sh' Hin' Ht. exfalso. cbn [leaves app] in Hin'. destruct Hin' as [<-|[<-|[]]].
      + destruct F1 as (F1 & _). rewrite F1 in Ht. by destruct Ht.
      + destruct F2 as (F2 & _). rewrite F2 in Ht. by destruct Ht.
    - by left.
  Qed.

  (** ** The worker: the end of the compaction, or the next row *)
  Lemma step_finish c A os a s cur t fl ft :
    CInv c A os -> calm c -> c_ths c !! a = Some (TBg s) -> In cur (leaves (c_root c)) -> sh_start cur = s ->
    sh_tgt cur = Some (t, fl) -> fs_files (c_fs c) !! t = Some ft -> (NUM_ROWS <= f_cut ft)%nat ->
    files_free (others_of c a) s = true ->
    match run (finish_compaction cur t) (c_fs c) with
    | (w, Ok sh') => good A (CS (put_leaf (c_root c) s (RLeaf sh')) w (<[a := TDead]> (c_ths c)) (c_lk c)) None
    | (w, Err er) => False
    end.
  Proof.
    intros H Hcalm Ha Hcur Es Et Hft Hc Hff.
    pose proof (ci_skel _ _ _ _ _ H) as Hsk. destruct (skel_leaf _ _ _ Hsk Hcur) as (B1 & B2 & B3).
    pose proof (files_free_others _ _ _ Hff) as Hfree. rewrite <- Es in Hfree.
    destruct (free_leafQ _ _ _ _ _ _ H Hcalm Hcur Ha eq_refl Hfree) as (n & En & HQ & Hun).
    assert (wpc (finish_compaction cur t) (fun _ => True) (fun sh' w' => leafQ cfg x (c_fs c) (a_map A) (sh_start cur) n (RLeaf sh') w' /\ sh_tgt sh' = None)
       (fun _ => False) (c_fs c)) as Hwp.
    { destruct HQ as (Q1 & Q3 & Q4). apply run_leaf in Q4 as (_ & _ & Hleaf & Hsolo).
      pose proof Hleaf as (f & L & H1 & H2 & H3 & H4 & H5 & H6 & H7). rewrite Et in H7. destruct H7 as (H7 & ft' & Lt & T1 & T2 & T3).
      assert (ft' = ft) as -> by congruence. unfold finish_compaction. rewrite En in *.
      eapply (finish_leaf cfg x (a_map A) (c_fs c) (c_fs c) (sh_start cur) n (sh_ino cur) t ft Lt); try done.
      - apply T3.
      - apply T3.
      - pose proof (cp_room _ _ _ _ _ _ _ _ T3). lia.
      - intros r Hr. apply T3. lia. }
    apply wpc_sound in Hwp as [_ Hwp]. destruct (run (finish_compaction cur t) (c_fs c)) as [w' [sh'|er]]; [|by destruct Hwp].
    destruct Hwp as [_ (HQ' & Ht)].
    assert (Hno : forall b Tb, b <> a -> c_ths c !! b = Some Tb -> worker Tb <> Some (sh_start cur)).
    { intros b Tb Hne Hb Hw. apply Hne. eapply (ci_bg _ _ _ _ _ H b a); [exact Hb|exact Ha|exact Hw|]. cbn. by rewrite Es. }
    rewrite <- (app_nil_r (<[a := _]> _)). pose proof (ci_thr _ _ _ _ _ H _ _ Ha) as (oa & _ & Toa).
    eapply (struct_step c A os a _ _ s cur _ w' [] n); try done.
    - lia.
    - symmetry. apply B3. lia.
    - intros b Tb Hne Hb _. exists sh'. split; [by left|]. destruct HQ' as (_ & _ & HQ'). apply run_leaf in HQ' as (X1 & X2 & _).
      unfold span_of. congruence.
    - intros b Tb Hne Hb Hx. by destruct (Hno _ _ Hne Hb).
    - right. cbn. by rewrite Es.
    - intros sh2 [<-|[]] Hx. rewrite Ht in Hx. by destruct Hx.
    - by left.
    - split; [done|]. apply Toa.
  Qed.

  Lemma step_bg c A os a s c' ev :
    CInv c A os -> calm c -> c_ths c !! a = Some (TBg s) -> thr_step cfg c a = Some (c', ev) -> good A c' ev.
  Proof.
    intros H Hcalm Ha. unfold thr_step. rewrite Ha. cbn zeta.
    pose proof (ci_skel _ _ _ _ _ H) as Hsk. destruct (os_none _ _ _ _ _ _ _ H Ha eq_refl) as [Ho (_ & Hpa & cur & Hcur & Es & [[t fl] Et])].
    destruct (skel_leaf _ _ _ Hsk Hcur) as (B1 & B2 & B3). rewrite (B3 s) by lia. rewrite Et.
    destruct (fs_files (c_fs c) !! t) as [ft|] eqn:Hft; [|done].
    destruct (Nat.leb_spec NUM_ROWS (f_cut ft)) as [Hge|Hlt].
    - destruct (files_free (others_of c a) s) eqn:Hff; [|done].
      pose proof (step_finish c A os a s cur t fl ft H Hcalm Ha Hcur Es Et Hft Hge Hff) as G.
      destruct (run (finish_compaction cur t) (c_fs c)) as [w' [sh'|er]]; [|done]. intros [= <- <-]. exact G.
    - destruct (row_free cfg (others_of c a) (s, f_cut ft, true)) eqn:Hfree; [|done]. intros [= <- <-].
      set (r := f_cut ft) in *. pose proof (ci_leaf _ _ _ _ _ H cur Hcur) as Hleaf.
      assert (busy (c_ths c) (sh_start cur) = false) as Hbz.
      { destruct (busy _ _) eqn:Hb; [|done]. destruct (busy_in _ _ Hb) as (b & shb & tb & rb & pb & Hbt).
        assert (a = b) as ->. { eapply (ci_bg _ _ _ _ _ H a b); [exact Ha|exact Hbt|done|]. cbn. by rewrite Es. }
        rewrite Ha in Hbt. done. }
      rewrite Hbz in Hleaf.
      assert (exists f0 L, fs_files (c_fs c) !! sh_ino cur = Some f0 /\ file_rep cfg f0 L) as (f0 & L & Hf0 & Hrep).
      { destruct Hleaf as (f & L & H1 & H2 & H3 & H4 & _). eauto. }
      pose proof (file_rep_row _ _ _ _ Hrep Hlt) as Hrow.
      destruct (cleaf_worker cfg x (a_map A) (c_fs c) os _ cur t fl ft r (L r) _ f0 (sk_wf _ _ Hsk) Hleaf Et Hft eq_refl Hlt Hf0 eq_refl Hrow) as (Lt & L1 & L2 & L3 & L4 & L5 & L6 & _).
      specialize (L6 eq_refl).
      set (ow := Own t r true (row_of ft r) (padded []) None 0 0 0).
      assert (tok cfg (c_root c) (c_fs c) None (TBgRow s cur t r (bg_sect cfg (sh_ino cur) t fl r)) (Some ow)) as Ht.
      { split; [done|]. exists cur, ow, 0%nat, (row_of f0 r), (L r), ft. split; [done|]. split; [done|]. split; [apply sim_refl|].
        split; [done|]. split; [by rewrite Et|]. do 6 (split; [done|]). split.
        - split; [exists f0; done|]. exists ft. split; [done|]. split; [done|]. split; [|done].
          cbn [ow o_row o_l o_r]. rewrite <- L6. by apply file_rep_row.
        - split; [lia|]. split; [by rewrite take_0|]. apply bg_sect_safe.
          rewrite (file_rep_length _ _ _ _ Hrep Hlt). done. }
      apply (good0 _ _ _ _ (<[a := Some ow]> os)).
      pose proof (lookup_lt_Some _ _ _ Ha) as Hlt2. set (T' := TBgRow _ _ _ _ _) in *.
      assert (Hl : forall b Tb, <[a := T']> (c_ths c) !! b = Some Tb -> (b = a /\ Tb = T') \/ (b <> a /\ c_ths c !! b = Some Tb)).
      { intros b Tb Hb. destruct (decide (b = a)) as [->|Hne].
        - rewrite list_lookup_insert in Hb by done. injection Hb as <-. auto.
        - rewrite list_lookup_insert_ne in Hb by done. auto. }
      assert (Hfr : forall b Tb l, b <> a -> c_ths c !! b = Some Tb -> row_lock cfg Tb = Some l -> clash (s, r, true) l = false).
      { intros b Tb l Hne Hb Hl'. pose proof (forallb_others _ _ _ Hfree _ _ Hne Hb) as Hx. cbn beta in Hx. rewrite Hl' in Hx. by destruct (clash _ _). }
      split; cbn [set_thr c_root c_fs c_ths c_lk].
      + done.
      + rewrite !insert_length. apply (ci_len _ _ _ _ _ H).
      + intros sh' Hsh'. eapply cleaf_os; [intros i' _; eapply (os_same_clean i' os a None (Some ow) Ho); [done|]; intros ? [= <-]; by right|].
        eapply cleaf_busy; [|by apply (ci_leaf _ _ _ _ _ H)]. intros Hb. destruct (busy (c_ths c) (sh_start sh')) eqn:Hb'; [|done].
        destruct (busy_in _ _ Hb') as (b & shb & tb & rb & pb & Hbt).
        assert (b <> a) as Hne by (intros ->; rewrite Ha in Hbt; done).
        rewrite <- Hb. symmetry. eapply (busy_true _ b); [by rewrite list_lookup_insert_ne|]. cbn. apply N.eqb_refl.
      + intros b Tb Hb. destruct (Hl _ _ Hb) as [[-> ->]|[Hne Hb']].
        * exists (Some ow). split; [apply list_lookup_insert; by eapply lookup_lt_Some|]. by rewrite Hpa.
        * rewrite list_lookup_insert_ne by done. by apply (ci_thr _ _ _ _ _ H).
      + intros b Hb. assert (b <> a) as Hne. { intros ->. by rewrite list_lookup_insert in Hb. }
        rewrite list_lookup_insert_ne in Hb by done. by apply (ci_idle _ _ _ _ _ H).
      + intros b d Tb Td l l' Hbd Hb Hd Hlb Hld.
        destruct (Hl _ _ Hb) as [[-> ->]|[Hnb Hb']], (Hl _ _ Hd) as [[-> ->]|[Hnd Hd']]; try done.
        * injection Hlb as <-. by eapply Hfr.
        * injection Hld as <-. assert (forall p q, clash p q = clash q p) as Hsym.
          { intros [[s1 r1] w1] [[s2 r2] w2]. unfold clash. rewrite (N.eqb_sym s2), (Nat.eqb_sym r2), (orb_comm w2). done. }
          rewrite Hsym. by eapply Hfr.
        * by eapply (ci_excl _ _ _ _ _ H b d).
      + intros b d Tb Td s' Hb Hd Hwb Hwd.
        destruct (Hl _ _ Hb) as [[-> ->]|[Hnb Hb']], (Hl _ _ Hd) as [[-> ->]|[Hnd Hd']]; try done.
        * by eapply (ci_bg _ _ _ _ _ H a d).
        * by eapply (ci_bg _ _ _ _ _ H b a).
        * by eapply (ci_bg _ _ _ _ _ H b d).
      + intros sh' Hsh' Ht'. destruct (ci_all _ _ _ _ _ H sh' Hsh' Ht') as (b & Tb & Hb & Hwb).
        destruct (decide (b = a)) as [->|Hne].
        * exists a, T'. rewrite list_lookup_insert by done. split; [done|]. rewrite Ha in Hb. by injection Hb as <-.
        * exists b, Tb. rewrite list_lookup_insert_ne by done. done.
      + apply (ci_lk _ _ _ _ _ H).
  Qed.

  (** Every step. *)
  Lemma step_good c A os h c' ev : CInv c A os -> calm c -> cstep cfg c h = Some (c', ev) -> good A c' ev.
  Proof.
    intros H Hcalm. destruct h as [a y|a]; [by eapply step_call|]. cbn [cstep]. intros Hs. pose proof Hs as Hs'. unfold thr_step in Hs'.
    destruct (c_ths c !! a) as [T|] eqn:Ha; [|done]. destruct T; try done.
    - by eapply step_prog.
    - by eapply step_op.
    - by eapply step_row.
    - by eapply step_after.
    - by eapply step_split.
    - by eapply step_bg.
    - by eapply step_bgrow.
  Qed.
End struct.
