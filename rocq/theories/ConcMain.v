(** Executions of the machine of threads: simulation by the abstract machine, the store between
    operations, and what a kill of the process leaves on disk. *)
From Verif Require Import Base Hashing HashingProofs Fs Shard Router RouterPure Store Kv KvSpec Limits Api KeySpace Wpc Spec FileRep RowOps Compact Inv
  ShardOps Insert Split StoreRefine Conc ConcSpec ConcLocal ConcFile ConcTree ConcInv ConcStep ConcRow ConcStruct.
Implicit Types (m : kvmap) (os : list (option own)).

Lemma arun_app cfg A es A1 es' A' : arun cfg A es A1 -> arun cfg A1 es' A' -> arun cfg A (es ++ es') A'.
Proof.
  induction 1 as [s|s e s1 es s' Hs Hr IH]; intros H; [done|]. rewrite <- app_assoc. eapply arun_step; [exact Hs|]. auto.
Qed.

Lemma crun_calm cfg P c hs es c' : crun cfg P c hs es c' -> P c /\ P c'.
Proof. induction 1 as [c H|c h c1 e hs es c' H Hs Hr IH]; [done|]. split; [done|]. apply IH. Qed.

Lemma crun_good cfg x c hs es c' : crun cfg calm c hs es c' -> forall A os, CInv cfg x c A os ->
  exists A' os', CInv cfg x c' A' os' /\ arun cfg A es A'.
Proof.
  induction 1 as [c H|c h c1 e hs es c' H Hs Hr IH]; intros A os HI.
  - exists A, os. split; [done|]. apply arun_nil.
  - destruct (step_good cfg x c A os h c1 e HI H Hs) as (A1 & os1 & HI1 & R1).
    destruct (IH _ _ HI1) as (A' & os' & HI' & R'). exists A', os'. split; [done|]. by eapply arun_app.
Qed.

(** ** The beginning *)
Lemma leaves_starts r : forall s n, tree_ok r s n -> NoDup (map sh_start (leaves r)).
Proof.
  induction r as [sh|b IHb t IHt]; intros s n H; cbn [leaves map].
  - apply NoDup_singleton.
  - cbn [tree_ok] in H. destruct n as [|n]; [done|]. destruct H as [H1 H2]. rewrite map_app. apply NoDup_app.
    split; [by eapply IHb|]. split; [|by eapply IHt]. intros a Ha Hb.
    apply elem_of_list_In, in_map_iff in Ha as (sh & <- & Ha). apply elem_of_list_In, in_map_iff in Hb as (sh' & E & Hb).
    pose proof (leaves_bounds _ _ _ _ H1 Ha). pose proof (leaves_bounds _ _ _ _ H2 Hb). lia.
Qed.
Lemma workers_in r T : In T (workers r) <-> exists sh, In sh (leaves r) /\ is_Some (sh_tgt sh) /\ T = TBg (sh_start sh).
Proof.
  unfold workers. rewrite in_flat_map. split.
  - intros (sh & H1 & H2). exists sh. destruct (sh_tgt sh); [|done]. destruct H2 as [<-|[]]. split; [done|]. split; [by eexists|done].
  - intros (sh & H1 & [t H2] & ->). exists sh. split; [done|]. rewrite H2. by left.
Qed.
Lemma workers_nodup r s n : tree_ok r s n -> NoDup (workers r).
Proof.
  intros H. pose proof (leaves_starts r s n H) as Hn. unfold workers.
  induction (leaves r) as [|sh l IH]; cbn [flat_map]; [constructor|]. cbn [map] in Hn. apply NoDup_cons in Hn as [Hn1 Hn2].
  specialize (IH Hn2). destruct (sh_tgt sh); [|done]. cbn [app]. apply NoDup_cons. split; [|done].
  intros Hin. apply Hn1. apply elem_of_list_In, in_flat_map in Hin as (sh' & H1 & H2).
  apply elem_of_list_In, in_map_iff. exists sh'. split; [|done]. destruct (sh_tgt sh'); [|done]. by destruct H2 as [[= ->]|[]].
Qed.

Lemma conc_init cfg x m s n : SInv cfg x m s ->
  CInv cfg x (conc s n) (AS m ∅ ∅) (replicate (length (c_ths (conc s n))) None).
Proof.
  intros (Hwf & Htree & Hleaf & Hnames). set (os := replicate _ None).
  assert (Hos : forall a ow, os !! a <> Some (Some ow)).
  { intros a ow H. apply lookup_replicate in H as [H _]. done. }
  assert (Hth : forall a T, c_ths (conc s n) !! a = Some T -> T = TIdle \/ (In T (workers (st_root s)) /\ (n <= a)%nat /\ workers (st_root s) !! (a - n)%nat = Some T)).
  { intros a T H. cbn [conc c_ths] in H. apply lookup_app_Some in H as [H|[H1 H]].
    - apply lookup_replicate in H as [-> _]. by left.
    - right. rewrite replicate_length in *. split; [|done]. apply elem_of_list_In. by eapply elem_of_list_lookup_2. }
  assert (Hbusy : forall s', busy (c_ths (conc s n)) s' = false).
  { intros s'. destruct (busy _ _) eqn:Hb; [|done]. destruct (busy_in _ _ Hb) as (b & shb & tb & rb & pb & Hbt).
    destruct (Hth _ _ Hbt) as [?|[Hin _]]; [done|]. apply workers_in in Hin as (sh & _ & _ & ?). done. }
  split; cbn [conc c_root c_fs c_lk a_map a_ths a_lk].
  - split; done.
  - apply replicate_length.
  - intros sh Hsh. apply leaf_ok_cleaf.
    + rewrite Forall_forall in Hleaf. apply Hleaf. by apply elem_of_list_In.
    + intros a ow Ha. by destruct (Hos a ow).
  - intros a T Ha. exists None. split.
    { unfold os. apply lookup_replicate. split; [done|]. by eapply lookup_lt_Some. }
    rewrite lookup_empty. destruct (Hth _ _ Ha) as [->|[Hin _]]; [done|].
    apply workers_in in Hin as (sh & H1 & H2 & ->). cbn. split; [done|]. split; [done|]. exists sh. done.
  - intros a Ha. apply lookup_empty.
  - intros a b T T' l l' _ Ha _ Hl. destruct (Hth _ _ Ha) as [->|[Hin _]]; [done|]. apply workers_in in Hin as (sh & _ & _ & ->). done.
  - intros a b T T' s' Ha Hb Hw Hw'.
    destruct (Hth _ _ Ha) as [->|(Hin & Hge & Hla)]; [done|]. destruct (Hth _ _ Hb) as [->|(Hin' & Hge' & Hlb)]; [done|].
    assert (T = T') as <-.
    { apply workers_in in Hin as (sh & _ & _ & ->). apply workers_in in Hin' as (sh' & _ & _ & ->). cbn in Hw, Hw'. congruence. }
    pose proof (workers_nodup _ _ _ Htree) as Hnd.
    pose proof (NoDup_lookup _ _ _ _ Hnd Hla Hlb). lia.
  - intros sh Hsh Ht. assert (In (TBg (sh_start sh)) (workers (st_root s))) as Hin by (apply workers_in; eauto).
    apply elem_of_list_In, elem_of_list_lookup in Hin as [i Hi]. exists (n + i)%nat, (TBg (sh_start sh)). split; [|done].
    cbn [conc c_ths]. rewrite lookup_app_r by (rewrite replicate_length; lia). rewrite replicate_length. by replace (n + i - n)%nat with i by lia.
  - done.
Qed.

(** ** Between operations *)
(** No thread is inside a section under a row lock. *)
Definition quiet (cfg : config) (c : cstate) : Prop := forall a T, c_ths c !! a = Some T -> row_lock cfg T = None.

Lemma cinv_quiet cfg x c A os : CInv cfg x c A os -> calm c -> quiet cfg c ->
  SInv cfg x (a_map A) (Store (c_root c) (c_fs c)).
Proof.
  intros H [Hcalm _] Hq. pose proof (ci_skel _ _ _ _ _ H) as [S1 S3 S4].
  split; [done|]. split; [done|]. split; [|done]. cbn [st_root st_fs].
  apply Forall_forall. intros sh Hsh. apply elem_of_list_In in Hsh. eapply (cleaf_leaf_ok cfg x _ _ os).
  - assert (busy (c_ths c) (sh_start sh) = false) as Eb; [|rewrite <- Eb; by apply (ci_leaf _ _ _ _ _ H)].
    destruct (busy _ _) eqn:Hb; [|done]. destruct (busy_in _ _ Hb) as (b & shb & tb & rb & pb & Hbt).
    specialize (Hq _ _ Hbt). done.
  - intros a ow Ho Hf.
    assert (exists T, c_ths c !! a = Some T) as [T HT].
    { apply lookup_lt_is_Some. rewrite <- (ci_len _ _ _ _ _ H). by eapply lookup_lt_Some. }
    destruct (ci_thr _ _ _ _ _ H _ _ HT) as (o & Eo & Tok). rewrite Ho in Eo. injection Eo as <-.
    pose proof (tok_none _ _ _ _ _ _ Tok (Hq _ _ HT)). done.
  - intros f Hf. by apply (Hcalm sh f).
Qed.

(** ** The disk *)
Lemma disk_put cfg m w w' cur k :
  wf w' -> outside_same (sh_start cur) (sh_end cur) w w' -> sh_end cur = sh_start cur + 2 ^ N.of_nat k ->
  disk_span cfg false m w' (sh_start cur) k ->
  forall r s n, tree_ok r s n -> run_names w s (s + 2 ^ N.of_nat n) (map span_of (leaves r)) ->
  (forall sh, In sh (leaves r) -> sh = cur \/
     ((sh_end sh <= sh_start cur \/ sh_end cur <= sh_start sh) /\ disk_shard cfg false m w (span_of sh))) ->
  disk_span cfg false m w' s n.
Proof.
  intros Hwf' Hos Hk Hcur. induction r as [sh|b IHb t IHt]; intros s n Ht [N1 N2] Hsh; cbn [tree_ok leaves] in *.
  - destruct Ht as [E1 E2]. destruct (Hsh sh) as [->|[Hd Hds]]; [by left| |].
    { assert (n = k) as -> by (apply pow2_inj; lia). by rewrite <- E1. }
    assert (Hout : forall a b, is_Some (fs_dir w' !! FShard a b) \/ is_Some (fs_dir w' !! FCompact a b) ->
      overlap a b s (s + 2 ^ N.of_nat n) -> a < b /\ (b <= sh_start cur \/ sh_end cur <= a)).
    { intros a b Hin Ho. destruct (wf_names _ Hwf' a b) as [Hab _]; [done|]. split; [done|].
      destruct (decide (b <= sh_start cur \/ sh_end cur <= a)) as [|Hn]; [done|].
      destruct (disk_span_inside _ _ _ _ _ _ a b Hcur Hin) as [I1 I2]; [unfold overlap; lia|]. unfold overlap in Ho. lia. }
    assert (span_of sh = (s, s + 2 ^ N.of_nat n)) as Esp by (unfold span_of; congruence).
    exists [(s, s + 2 ^ N.of_nat n)]. split; [constructor|]. split.
    + apply Forall_singleton. rewrite Esp in Hds. eapply disk_frame; [exact Hos| |..]; [pose proof (pow2_pos n); lia|lia|done|done].
    + cbn [map] in N1, N2. rewrite Esp in N1, N2. split.
      * intros a b Hin Ho. destruct (Hout a b (or_introl Hin) Ho) as [Hab Hd']. exists (a, b). split; [|unfold contained; cbn; lia].
        apply N1; [|done]. destruct (Hos (FShard a b)) as [<- _]; [by cbn|done].
      * intros a b Hin Ho. destruct (Hout a b (or_intror Hin) Ho) as [Hab Hd'].
        apply N2; [|done]. destruct (Hos (FCompact a b)) as [<- _]; [by cbn|done].
  - destruct n as [|n]; [done|]. destruct Ht as [T1 T2]. rewrite map_app in N1, N2.
    pose proof (pow2_pos n) as Hpos. rewrite pow2_succ in N1, N2.
    assert (forall a b0, (a, b0) ∈ map span_of (leaves b) -> s <= a /\ b0 <= s + 2 ^ N.of_nat n) as Hb.
    { intros a b0 Hin. apply elem_of_list_In, in_map_iff in Hin as (sh & [= <- <-] & Hin). pose proof (leaves_bounds _ _ _ _ T1 Hin). lia. }
    assert (forall a b0, (a, b0) ∈ map span_of (leaves t) -> s + 2 ^ N.of_nat n <= a) as Ht'.
    { intros a b0 Hin. apply elem_of_list_In, in_map_iff in Hin as (sh & [= <- <-] & Hin). pose proof (leaves_bounds _ _ _ _ T2 Hin). lia. }
    apply disk_span_join; [done| |].
    + apply IHb; [done| |intros sh Hin; apply Hsh; apply in_app_iff; auto]. split.
      * intros a b0 H Ho. unfold overlap in *. specialize (N1 a b0 H). apply elem_of_app in N1 as [N1|N1]; [done| |lia]. apply Ht' in N1. lia.
      * intros a b0 H Ho. unfold overlap in *. specialize (N2 a b0 H). apply elem_of_app in N2 as [N2|N2]; [done| |lia]. apply Ht' in N2. lia.
    + apply IHt; [done| |intros sh Hin; apply Hsh; apply in_app_iff; auto]. split.
      * intros a b0 H Ho. unfold overlap in *. specialize (N1 a b0 H). apply elem_of_app in N1 as [N1|N1]; [|done|lia]. apply Hb in N1. lia.
      * intros a b0 H Ho. unfold overlap in *. specialize (N2 a b0 H). apply elem_of_app in N2 as [N2|N2]; [|done|lia]. apply Hb in N2. lia.
Qed.

Section crash.
  Context (cfg : config) (x : bool).

  Lemma cinv_disk c A os w' cur k :
    CInv cfg x c A os -> calm c -> In cur (leaves (c_root c)) -> sh_end cur = sh_start cur + 2 ^ N.of_nat k ->
    wf w' -> outside_same (sh_start cur) (sh_end cur) (c_fs c) w' -> disk_span cfg false (a_map A) w' (sh_start cur) k ->
    DiskInv cfg false (a_map A) w'.
  Proof.
    intros H [Hcalm _] Hcur Hk Hwf Hos Hd. pose proof (ci_skel _ _ _ _ _ H) as Hsk. split; [done|].
    eapply (disk_put cfg (a_map A) (c_fs c) w' cur k Hwf Hos Hk Hd (c_root c)); [apply Hsk|apply Hsk|].
    intros sh Hsh. destruct (decide (sh_start sh = sh_start cur)) as [E|Hns]; [left; by eapply skel_same|].
    right. split; [eapply skel_disjoint; [exact Hsk|done|done|by intros ->]|].
    eapply cleaf_disk; [by apply (ci_leaf _ _ _ _ _ H)|]. intros f Hf. by apply (Hcalm sh f).
  Qed.

  Lemma cinv_dies c A os w : CInv cfg x c A os -> calm c -> cdies cfg c w -> DiskInv cfg false (a_map A) w.
  Proof.
    intros H Hcalm Hd. pose proof (ci_skel _ _ _ _ _ H) as Hsk.
    assert (Hnow : DiskInv cfg false (a_map A) (c_fs c)).
    { destruct (skel_route _ _ 0 Hsk ltac:(lia)) as [R1 R2]. set (cur := route (c_root c) 0) in *.
      destruct (put_leaf_tree (c_root c) 0 (RLeaf cur) 0 16 (sk_tree _ _ Hsk)) as (n & En & _); [change (0 + 2 ^ N.of_nat 16) with 65536; lia|].
      fold cur in En. eapply cinv_disk; [exact H|exact Hcalm|exact R1|exact En|apply Hsk|apply outside_same_refl|].
      exists [(sh_start cur, sh_start cur + 2 ^ N.of_nat n)]. split; [constructor|]. rewrite <- En. split.
      - apply Forall_singleton. eapply (cleaf_disk cfg x _ _ _ _ cur); [by apply (ci_leaf _ _ _ _ _ H)|]. intros f Hf. by apply (proj1 Hcalm cur f).
      - destruct (skel_solo _ _ _ Hsk R1) as [N1 N2]. split; [|done]. intros a b Ha Ho. exists (a, b). split; [by apply N1|]. unfold contained. cbn. lia. }
    destruct Hd as [|a o k s e v woff n Ha Hff|a o k s e n Ha sh Es Ee Et Hnf]; [done| |].
    - destruct (os_none _ _ _ _ _ _ _ H Ha eq_refl) as [Ho (_ & Hok & Hg & cur & Hcur & Es & Ee)].
      destruct (skel_leaf _ _ _ Hsk Hcur) as (B1 & B2 & B3).
      rewrite (B3 s) by lia. pose proof (files_free_others _ _ _ Hff) as Hfree. rewrite <- Es in Hfree.
      destruct (free_leafQ _ _ _ _ _ _ _ _ H Hcalm Hcur Ha eq_refl Hfree) as (k' & En & HQ & Hun).
      assert (wpc (begin_compaction cfg cur woff) (DiskInv cfg false (a_map A)) (fun _ _ => True) (fun _ => False) (c_fs c)) as Hwp.
      { eapply begin_compaction_leaf; [exact HQ| |done|done]. intros w' W1 W2 W3. rewrite <- En in W2. by eapply cinv_disk. }
      apply wpc_sound in Hwp as [Hwp _]. apply Hwp.
    - destruct (skel_route _ _ (ph_selector (rop_hash cfg o)) Hsk (ph_sel_lt _)) as [Hcur Hin]. fold sh in Hcur, Hin.
      pose proof (node_free_others _ _ _ Hnf) as Hnode. rewrite <- Es in Hnode.
      assert (Hfree : forall b Tb, b <> a -> c_ths c !! b = Some Tb -> holds_files (sh_start sh) Tb = false).
      { intros b Tb Hne Hb. pose proof (Hnode _ _ Hne Hb) as Hx. destruct Tb; try done.
        destruct (ci_thr _ _ _ _ _ H _ _ Hb) as (ob & _ & (_ & cb & _ & _ & _ & _ & _ & _ & X1 & X2 & X3 & X4 & _)). pose proof X2 as (X5 & _ & _ & X6).
        cbn. apply N.eqb_neq. intros E. pose proof (skel_same _ _ _ _ Hsk Hcur X1) as E'. rewrite <- E', Et, X4 in X6 by congruence. done. }
      destruct (free_leafQ _ _ _ _ _ _ _ _ H Hcalm Hcur Ha eq_refl Hfree) as (k' & En & HQ & Hun).
      destruct k' as [|k'].
      { pose proof (proj2 Hcalm _ _ _ _ _ Ha) as Hlt. change (2 ^ N.of_nat 0) with 1 in En. lia. }
      assert (wpc (shard_split cfg sh) (DiskInv cfg false (a_map A)) (fun _ _ => True) (fun _ => False) (c_fs c)) as Hwp.
      { eapply shard_split_leaf; [exact HQ| |done]. intros w' W1 W2 W3. rewrite <- En in W2. by eapply cinv_disk. }
      apply wpc_sound in Hwp as [Hwp _]. apply Hwp.
  Qed.
End crash.
