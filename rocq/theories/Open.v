(** Opening an existing directory: recovery from any crash state, and crashes during it. *)
From Verif Require Import Base Hashing HashingProofs Fs Shard Router RouterPure Wpc Spec FileRep RowOps
  Compact Inv ShardOps Split Insert.
From Coq Require Import Sorted.

(** A shard and its unfinished compaction fit in 32-bit offsets. *)
Definition pair_small (w : fs) (r : range) : Prop :=
  forall i t f ft, fs_dir w !! FShard (fst r) (snd r) = Some i -> fs_dir w !! FCompact (fst r) (snd r) = Some t ->
    fs_files w !! i = Some f -> fs_files w !! t = Some ft -> f_woff f + f_woff ft < 2 ^ 32.
Definition disk_small (w : fs) : Prop := forall a b, pair_small w (a, b).

Lemma pair_small_frame w w' s e a b :
  wf w -> outside_same s e w w' -> a < b -> b <= s \/ e <= a -> pair_small w (a, b) -> pair_small w' (a, b).
Proof.
  intros Hwf Ho Hlt Hout H i t f ft. cbn [fst snd].
  destruct (Ho (FShard a b)) as [A1 A2]; [done|].
  destruct (Ho (FCompact a b)) as [B1 B2]; [done|].
  rewrite A1, B1. intros Hi Ht Hf Hft. rewrite A2 in Hf by done. rewrite B2 in Hft by done.
  by apply (H i t f ft).
Qed.
Lemma pair_small_core w w' r : core_same w w' -> pair_small w r -> pair_small w' r.
Proof.
  intros Ho H i t f ft.
  destruct (Ho (FShard (fst r) (snd r)) I) as [A1 A2].
  destruct (Ho (FCompact (fst r) (snd r)) I) as [B1 B2].
  rewrite A1, B1. intros Hi Ht Hf Hft. rewrite A2 in Hf by done. rewrite B2 in Hft by done.
  by apply (H i t f ft).
Qed.

(** ** The state of the directory during recovery *)
Definition dirst (cfg : config) (x : bool) (m : kvmap) (rs : list range) (w : fs) : Prop :=
  wf w /\ dyadic 0 16 rs /\ Forall (disk_shard cfg x m w) rs /\ disk_names w 0 END_OF_SHARDS rs.

Lemma dirst_disk cfg x m rs w : dirst cfg x m rs w -> DiskInv cfg false m w.
Proof.
  intros (H1 & H2 & H3 & H4). split; [done|]. apply (disk_span_weaken _ x). exists rs. done.
Qed.
Lemma disk_dirst cfg x m w : DiskInv cfg x m w -> exists rs, dirst cfg x m rs w.
Proof. intros (H1 & rs & H2 & H3 & H4). exists rs. done. Qed.
Lemma dirst_core cfg x m rs w w' : wf w' -> core_same w w' -> dirst cfg x m rs w -> dirst cfg x m rs w'.
Proof.
  intros Hwf Hc (H1 & H2 & H3 & H4). split; [done|]. split; [done|]. split.
  - eapply Forall_impl; [exact H3|]. intros [a b]. apply disk_shard_same.
    intros nm Hnm. apply Hc. by destruct Hnm as [->| ->].
  - destruct H4 as [H4 H5]. split; intros a b Ha Ho.
    + rewrite (proj1 (Hc (FShard a b) I)) in Ha. auto.
    + rewrite (proj1 (Hc (FCompact a b) I)) in Ha. auto.
Qed.

(** ** Scanning the directory: router.rs:104-138 *)
Definition is_tmp (n : fname) : bool := match n with FBottom _ _ | FTop _ _ | FMerge _ _ => true | _ => false end.
Definition shard_ranges (names : list fname) : list range :=
  omap (fun n => match n with FShard s e => Some (s, e) | _ => None end) names.

Lemma load_scan_spec w0 E names : forall w (C : fs -> Prop) (Q : list range -> fs -> Prop),
  wf w -> core_same w0 w -> NoDup names -> (forall n, n ∈ names -> is_Some (fs_dir w !! n)) ->
  (forall w', wf w' -> core_same w0 w' -> C w') ->
  (forall w', wf w' -> core_same w0 w' -> (forall n i, fs_dir w' !! n = Some i -> fs_dir w !! n = Some i) ->
     (forall n, n ∈ names -> is_tmp n = true -> fs_dir w' !! n = None) ->
     Q (shard_ranges names) w') ->
  wpc (load_scan names) C Q E w.
Proof.
  induction names as [|n names IH]; intros w C Q Hwf Hc Hnd Hin HC HQ; cbn [load_scan].
  - apply wpc_ret; [by apply HC|]. apply HQ; auto. intros n Hn. by apply elem_of_nil in Hn.
  - apply NoDup_cons in Hnd as [Hn Hnd].
    destruct (Hin n) as [i Hi]; [by left|].
    assert (Hskip : is_tmp n = false -> (forall l, shard_ranges (n :: names) = l -> l = shard_ranges names) -> wpc (load_scan names) C Q E w).
    { intros Ht Hr. apply IH; auto.
      - intros n' Hn'. apply Hin. by right.
      - intros w' A1 A2 A3 A4. rewrite <- (Hr _ eq_refl). apply HQ; auto.
        intros n' [->|Hn']%elem_of_cons Ht'; [congruence|auto]. }
    assert (Hrem : is_tmp n = true -> wpc (pbind (remove_file n) (fun _ => load_scan names)) C Q E w).
    { intros Ht. assert (core_same w0 (remove_fs n w)) as Hc'.
      { eapply core_same_trans; [exact Hc|]. apply core_remove. destruct n; try done; intros []. }
      apply wpc_bind. eapply wpc_remove; [exact Hi|by apply HC| |].
      { apply HC; [by apply (wf_remove n)|done]. }
      apply IH; auto.
      - by apply (wf_remove n).
      - intros n' Hn'. cbn. rewrite lookup_delete_ne by (intros ->; done). apply Hin. by right.
      - intros w' A1 A2 A3 A4. assert (shard_ranges names = shard_ranges (n :: names)) as -> by (by destruct n).
        apply HQ; auto.
        + intros n' j Hj. apply A3 in Hj. cbn in Hj. by apply lookup_delete_Some in Hj as [_ Hj].
        + intros n' [->|Hn']%elem_of_cons Ht'; [|auto].
          destruct (fs_dir w' !! n) eqn:Ex; [|done]. apply A3 in Ex. cbn in Ex. by rewrite lookup_delete in Ex. }
    destruct n as [s e|s e|s e|s e|s e|o]; [|by apply Hskip; [|intros l <-]|by apply Hrem..|by apply Hskip; [|intros l <-]].
    destruct (wf_names _ Hwf s e) as [Hlt Hle]; [eauto|].
    apply wpc_bind. apply wpc_check; [|by apply HC|].
    { apply andb_true_intro. split; [by apply N.ltb_lt|by apply N.leb_le]. }
    apply wpc_bind. apply IH; auto.
    + intros n' Hn'. apply Hin. by right.
    + intros w' A1 A2 A3 A4. apply wpc_ret; [by apply HC|]. apply (HQ w'); auto.
      intros n' [->|Hn']%elem_of_cons Ht'; [done|auto].
Qed.

(** ** Dyadic lists are sorted, and determined by their elements *)
Lemma sorted_app {A} (R : A -> A -> Prop) l1 l2 :
  StronglySorted R l1 -> StronglySorted R l2 -> (forall x y, x ∈ l1 -> y ∈ l2 -> R x y) ->
  StronglySorted R (l1 ++ l2).
Proof.
  induction 1 as [|x l1 H1 IH Hx]; intros H2 H; [done|]. cbn. constructor.
  - apply IH; [done|]. intros a b Ha Hb. apply H; [by right|done].
  - apply Forall_app. split; [done|]. apply Forall_forall. intros y Hy. apply H; [left|done].
Qed.
Lemma dyadic_sorted s n rs : dyadic s n rs -> StronglySorted strict_incr rs.
Proof.
  induction 1 as [s n|s n l1 l2 H1 IH1 H2 IH2]; [by repeat constructor|].
  apply sorted_app; auto.
  intros [a b] [c d] Hx Hy. apply (dyadic_bounds _ _ _ _ _ H1) in Hx.
  apply (dyadic_bounds _ _ _ _ _ H2) in Hy. unfold strict_incr. cbn. lia.
Qed.
Lemma sorted_unique (l1 l2 : list range) :
  StronglySorted strict_incr l1 -> StronglySorted strict_incr l2 -> (forall x, x ∈ l1 <-> x ∈ l2) -> l1 = l2.
Proof.
  intros H1. revert l2. induction H1 as [|x l1 H1 IH Hx]; intros l2 H2 Hin.
  - destruct l2 as [|y l2]; [done|]. specialize (Hin y). rewrite elem_of_nil, elem_of_cons in Hin. tauto.
  - destruct H2 as [|y l2 H2 Hy].
    { specialize (Hin x). rewrite elem_of_nil, elem_of_cons in Hin. tauto. }
    rewrite Forall_forall in Hx, Hy.
    assert (x = y) as ->.
    { assert (x ∈ y :: l2) as Hx2 by (apply Hin; left).
      assert (y ∈ x :: l1) as Hy2 by (apply Hin; left).
      apply elem_of_cons in Hx2 as [->|Hx2]; [done|]. apply elem_of_cons in Hy2 as [->|Hy2]; [done|].
      apply Hx in Hy2. apply Hy in Hx2. unfold strict_incr in *. lia. }
    f_equal. apply IH; [done|]. intros z. specialize (Hin z). rewrite !elem_of_cons in Hin.
    split; intros Hz.
    + destruct (proj1 Hin (or_intror Hz)) as [->|]; [|done]. apply Hx in Hz. unfold strict_incr in Hz. lia.
    + destruct (proj2 Hin (or_intror Hz)) as [->|]; [|done]. apply Hy in Hz. unfold strict_incr in Hz. lia.
Qed.

(** What consolidation does with the shard files of a crash state. *)
Lemma consolidate_dyadic s n rs found keep drop :
  dyadic s n rs -> (forall r, r ∈ rs -> r ∈ found) ->
  (forall r, r ∈ found -> fst r < snd r /\ exists r', r' ∈ rs /\ contained r r') -> NoDup found ->
  consolidate_ranges found = (keep, drop) ->
  keep = rs /\ NoDup drop /\ (forall r, r ∈ drop <-> r ∈ found /\ r ∉ rs).
Proof.
  intros Hd Hsub Hcont Hnd Hcr.
  destruct (consolidate_spec _ _ _ Hcr) as (Hp & Hs & _).
  destruct (consolidate_maximal _ _ _ Hnd Hcr) as [Hk Hr].
  assert (Hkeep : forall r, r ∈ keep <-> r ∈ rs).
  { intros r. rewrite elem_of_list_In, Hk. split.
    - intros [Hin Hmax]. apply elem_of_list_In in Hin. destruct (Hcont r Hin) as (_ & r' & Hr' & Hc).
      rewrite <- (Hmax r'); [done| |done]. apply elem_of_list_In. auto.
    - intros Hin. split; [apply elem_of_list_In; auto|]. intros r' Hr' Hc. apply elem_of_list_In in Hr'.
      destruct (Hcont r' Hr') as (Hlt & r'' & Hr'' & Hc').
      destruct r as [a b], r' as [a' b'], r'' as [a'' b'']. unfold contained in *. cbn in *.
      pose proof (dyadic_bounds _ _ _ _ _ Hd Hin).
      assert ((a, b) = (a'', b'')) as [= <- <-].
      { eapply dyadic_overlap; eauto. unfold overlap. lia. }
      f_equal; lia. }
  assert (keep = rs) as ->.
  { apply sorted_unique; [done|by eapply dyadic_sorted|done]. }
  split; [done|]. rewrite <- Hp in Hnd. apply NoDup_app in Hnd as (_ & Hdis & Hnd).
  split; [done|]. intros r. rewrite <- Hp, elem_of_app. split.
  - intros Hr1. split; [auto|]. intros Hr2. by apply (Hdis r).
  - intros [[?|?] ?]; done.
Qed.

(** ** Deleting the leftovers *)
Lemma dirst_remove cfg x m rs w s e :
  (s, e) ∉ rs -> dirst cfg x m rs w -> dirst cfg x m rs (remove_fs (FShard s e) w).
Proof.
  intros Hn (H1 & H2 & H3 & H4 & H5). split; [by apply wf_remove|]. split; [done|]. split.
  - rewrite Forall_forall in *. intros [a b] Hab. eapply disk_shard_same; [|by apply H3].
    intros nm Hnm. cbn. split; [|done]. apply lookup_delete_ne. destruct Hnm as [->| ->]; [|done]. intros [= -> ->]. done.
  - split; intros a b [j Ha] Ho; cbn in Ha; apply lookup_delete_Some in Ha as [_ Ha]; eauto.
Qed.
Lemma remove_ranges_spec cfg x m rs E drop : forall w (C : fs -> Prop) (Q : unit -> fs -> Prop),
  dirst cfg x m rs w -> NoDup drop -> (forall r, r ∈ drop -> r ∉ rs /\ is_Some (fs_dir w !! FShard (fst r) (snd r))) ->
  (forall w', dirst cfg x m rs w' -> C w') ->
  (forall w', dirst cfg x m rs w' -> fs_files w' = fs_files w ->
     (forall n i, fs_dir w' !! n = Some i -> fs_dir w !! n = Some i) ->
     (forall r, r ∈ drop -> fs_dir w' !! FShard (fst r) (snd r) = None) ->
     Q tt w') ->
  wpc (remove_ranges drop) C Q E w.
Proof.
  induction drop as [|[s e] drop IH]; intros w C Q Hst Hnd Hin HC HQ; cbn [remove_ranges].
  - apply wpc_ret; [by apply HC|]. apply HQ; auto. intros r Hr. by apply elem_of_nil in Hr.
  - apply NoDup_cons in Hnd as [Hn Hnd]. destruct (Hin (s, e)) as [Hnr [i Hi]]; [left|]. cbn in Hi.
    pose proof (dirst_remove _ _ _ _ _ _ _ Hnr Hst) as Hst'.
    apply wpc_bind. eapply wpc_remove; [exact Hi|by apply HC|by apply HC|].
    apply IH; auto.
    + intros r Hr. destruct (Hin r) as [A1 A2]; [by right|]. split; [done|]. cbn.
      rewrite lookup_delete_ne; [done|]. intros [= -> ->]. by destruct r.
    + intros w' A1 A2 A3 A4. apply HQ; auto.
      * intros n j Hj. apply A3 in Hj. cbn in Hj. by apply lookup_delete_Some in Hj as [_ Hj].
      * intros r [->|Hr]%elem_of_cons; [|auto]. cbn [fst snd].
        destruct (fs_dir w' !! FShard s e) eqn:Ex; [|done]. apply A3 in Ex. cbn in Ex. by rewrite lookup_delete in Ex.
Qed.

(** ** Opening one shard file: shard.rs:354-451 *)
Lemma hdr_upd f : hdr_ok f ->
  apply_fupd UFalloc f = f /\ apply_fupd UMagic f = f /\ apply_fupd UVersion f = f.
Proof.
  destruct f. unfold hdr_ok. cbn. intros (-> & -> & H). rewrite N.max_l by done. done.
Qed.
Lemma hdr_meta f : hdr_ok f -> meta_ok f = true /\ f_len f <> 0 /\ (f_len f <? HEADER_SIZE) = false.
Proof.
  intros (H1 & H2 & H3). unfold meta_ok. rewrite H1, H2. unfold HEADER_SIZE in *.
  split; [|split; [lia|by apply N.ltb_ge]].
  rewrite bool_decide_eq_true_2 by done. rewrite andb_true_r. apply andb_true_intro. split; [|done].
  apply N.leb_le. lia.
Qed.

Lemma mmap_new_same i f w (C : fs -> Prop) (Q : unit -> fs -> Prop) E :
  fs_files w !! i = Some f -> hdr_ok f -> C w -> Q tt w -> wpc (mmap_new i) C Q E w.
Proof.
  intros Hf Hh HC HQ. destruct (hdr_upd f Hh) as (U1 & U2 & U3).
  rewrite <- (set_file_id i f w Hf) in HC, HQ |- *.
  unfold mmap_new. apply wpc_bind. apply wpc_upd'; rewrite ?U1; auto.
  apply wpc_bind. apply wpc_upd'; rewrite ?U2; auto.
  apply wpc_upd'; rewrite ?U3; auto.
Qed.
Definition hdr_more (f f' : file) : Prop :=
  f_rows f' = f_rows f /\ f_woff f' = f_woff f /\ f_wasted f' = f_wasted f /\ f_ins f' = f_ins f /\
  f_rem f' = f_rem f /\ f_cut f' = f_cut f /\ f_data f' = f_data f /\ f_len f <= f_len f'.
Lemma mmap_new_hdr i f w (C : fs -> Prop) (Q : unit -> fs -> Prop) E :
  (forall f', hdr_more f f' -> C (set_file i f' w)) ->
  (forall f', hdr_more f f' -> hdr_ok f' -> Q tt (set_file i f' w)) ->
  wpc (mmap_new i) C Q E (set_file i f w).
Proof.
  intros HC HQ. unfold mmap_new. destruct f.
  apply wpc_bind, wpc_upd'; [apply HC; unfold hdr_more; cbn; repeat split; lia..|].
  apply wpc_bind, wpc_upd'; [apply HC; unfold hdr_more; cbn; repeat split; lia..|].
  apply wpc_upd'; [apply HC; unfold hdr_more; cbn; repeat split; lia..|].
  apply HQ.
  - unfold hdr_more; cbn; repeat split; lia.
  - unfold hdr_ok. cbn. repeat split. lia.
Qed.
Lemma dcomp_hdr cfg x m P Ls f f' Lt j : hdr_more f f' -> dcomp cfg x m P Ls f Lt j -> dcomp cfg x m P Ls f' Lt j.
Proof.
  intros (H1 & H2 & H3 & H4 & H5 & H6 & H7 & H8) [D1 [A1 A2] D3 D4 D5 D6 D7]. split; rewrite ?H6; auto.
  - eapply file_rep_ext; [exact H1| |done]. split; [done|]. rewrite H2, H7. split; [lia|done].
  - split; rewrite ?H2, ?H3, ?H4, ?H5; auto.
Qed.

Lemma shard_open_spec cfg x m w s e (C : fs -> Prop) (Q : shard -> fs -> Prop) E :
  wf w -> disk_shard cfg x m w (s, e) -> pair_small w (s, e) ->
  (forall w', wf w' -> outside_same s e w w' -> disk_shard cfg false m w' (s, e) ->
     (forall n, is_Some (fs_dir w' !! n) -> is_Some (fs_dir w !! n)) -> C w') ->
  (forall w' sh, wf w' -> outside_same s e w w' -> leaf_ok cfg x m w' sh -> span_of sh = (s, e) ->
     (forall n, is_Some (fs_dir w' !! n) -> is_Some (fs_dir w !! n)) -> Q sh w') ->
  wpc (shard_open cfg s e false) C Q E w.
Proof.
  intros Hwf Hd Hps HC HQ. pose proof Hd as (i & f & L & H1 & H2 & H3 & H4 & H5 & H6 & H7).
  assert (C w) as HC0.
  { apply HC; [done|apply outside_same_refl|by eapply disk_shard_weaken|done]. }
  destruct (hdr_meta f H3) as (M1 & M2 & M3).
  unfold shard_open. apply wpc_bind. apply wpc_eff; cbn [run_eff]; rewrite ?H1; [done..|]. cbn [fst snd].
  apply wpc_bind. eapply wpc_get_file; [exact H2|done|].
  apply wpc_bind. replace (f_len f =? 0) with false by (symmetry; by apply N.eqb_neq). rewrite M1.
  apply wpc_ret; [done|]. rewrite M3, andb_false_r.
  apply wpc_bind. apply wpc_ret; [done|].
  replace (f_len f =? 0) with false by (symmetry; by apply N.eqb_neq).
  apply wpc_bind. apply wpc_ret; [done|].
  apply wpc_bind. eapply mmap_new_same; [exact H2|exact H3|done|].
  apply wpc_bind. apply wpc_snap; [done|].
  destruct (fs_dir w !! FCompact s e) as [t|] eqn:Ht.
  2:{ apply wpc_ret; [done|]. apply HQ; [done|apply outside_same_refl| |done|done].
      exists f, L. cbn [sh_start sh_end sh_ino sh_tgt]. by repeat (split; [done|]). }
  destruct H7 as (ft & Lt & j & T1 & T2 & T3).
  assert (i <> t) as Hne by (intros <-; pose proof (wf_inj _ Hwf _ _ _ H1 Ht); done).
  assert (Hwf' : forall f', wf (set_file t f' w)) by (intros; apply wf_set_file; eauto).
  assert (Hos : forall f', outside_same s e w (set_file t f' w)).
  { intros f'. eapply outside_same_set_file; [done|exact Ht|]. apply outside_self_c. }
  assert (Hdc : forall f' Lt' j' y, dcomp cfg y m (home cfg s e) L f' Lt' j' -> C (set_file t f' w)).
  { intros f' Lt' j' y Hf'. apply HC; [done|done| |done].
    exists i, f, L. rewrite set_file_ne by done. cbn [set_file fs_dir].
    repeat (split; [done|]). split; [by eapply acct_weaken|]. split; [done|].
    rewrite Ht. exists f', Lt', j'. split; [apply set_file_get|]. split; [by eapply dcomp_weaken|done]. }
  rewrite <- (set_file_id t ft w T1).
  apply wpc_bind. apply mmap_new_hdr.
  { intros f' Hf'. eapply Hdc. by eapply dcomp_hdr. }
  intros ft1 Hm1 Hh1. pose proof (dcomp_hdr _ _ _ _ _ _ _ _ _ Hm1 T2) as T2'.
  assert (f_woff ft1 = f_woff ft) as Ew by apply Hm1.
  pose proof (Hps i t f ft H1 Ht H2 T1) as Hsm.
  assert (comp cfg x m (home cfg s e) L ft1 Lt j) as Hcomp.
  { destruct T2'. split; auto. pose proof (rest_live_le L (f_cut ft1)). destruct H5 as [H5 _]. lia. }
  apply wpc_bind. eapply (do_compaction_spec cfg x m (home cfg s e) COMPACT_FUEL i t f L true ft1 Lt j); auto.
  { unfold COMPACT_FUEL. lia. }
  { intros ft' Lt' j' D1 _ _ _. by eapply Hdc. }
  intros ft2 Lt2 D1 D2 D3 D4 D5 D6 D7 D8.
  assert (hdr_ok ft2) as Hh2.
  { destruct Hh1 as (A1 & A2 & A3). repeat split; (congruence || lia). }
  assert (f_woff ft2 < 2 ^ 32) as Hw2 by (rewrite D5; apply Hcomp).
  set (w1 := set_file t ft2 w). set (w2 := rename_fs (FCompact s e) (FShard s e) t w1).
  destruct (wf_names _ Hwf s e) as [Hlt Hle]; [eauto|].
  assert (wf w2) as Hwf2 by (by apply wf_rename; [apply Hwf'| |]).
  assert (outside_same s e w w2) as Ho2.
  { eapply outside_same_trans; [apply (Hos ft2)|]. apply outside_same_rename; [apply outside_self_c|apply outside_self]. }
  assert (leaf_ok cfg x m w2 (Shard s e t None)) as Hl2.
  { exists ft2, Lt2. cbn [sh_start sh_end sh_ino sh_tgt]. split; [apply lookup_insert|].
    split; [apply set_file_get|]. repeat (split; [done|]). split; [|done].
    cbn. rewrite lookup_insert_ne by done. apply lookup_delete. }
  assert (forall n, is_Some (fs_dir w2 !! n) -> is_Some (fs_dir w !! n)) as Hn2.
  { intros n [k Hk]. apply rename_lookup_Some in Hk as [[-> _]|(_ & _ & Hk)]; eauto. }
  assert (C w2) as HC2.
  { apply HC; [done|done| |done]. apply (disk_shard_weaken _ x). exact (leaf_disk _ _ _ _ _ Hl2). }
  apply wpc_bind. eapply (wpc_rename _ _ t); [exact Ht| |exact HC2|].
  { apply (Hdc ft2 Lt2 0%nat x). split; auto; try lia.
    intros r Hr. apply D4. lia. }
  apply wpc_ret; [exact HC2|]. by apply HQ.
Qed.

(** ** Opening all of them *)
Lemma Forall_frame_disk cfg x m w w' s e rs :
  outside_same s e w w' -> Forall (fun r => fst r < snd r /\ (snd r <= s \/ e <= fst r)) rs ->
  Forall (disk_shard cfg x m w) rs -> Forall (disk_shard cfg x m w') rs.
Proof.
  intros Ho H1 H2. apply Forall_forall. rewrite Forall_forall in H1. rewrite Forall_forall in H2.
  intros [a b] Hab. destruct (H1 _ Hab) as [A1 A2]. cbn in *.
  eapply disk_frame; [exact Ho|done|done|done|by apply H2].
Qed.
Lemma open_ranges_spec cfg x m E rs : dyadic 0 16 rs -> forall todo dn shs w (C : fs -> Prop) (Q : list shard -> fs -> Prop),
  rs = dn ++ todo -> wf w -> run_names w 0 END_OF_SHARDS rs ->
  map span_of shs = dn -> Forall (leaf_ok cfg x m w) shs -> Forall (disk_shard cfg x m w) todo ->
  Forall (pair_small w) todo ->
  (forall w', DiskInv cfg false m w' -> C w') ->
  (forall w' shs', wf w' -> run_names w' 0 END_OF_SHARDS rs -> map span_of (shs ++ shs') = rs ->
      Forall (leaf_ok cfg x m w') (shs ++ shs') -> Q shs' w') ->
  wpc (open_ranges cfg false todo) C Q E w.
Proof.
  intros Hd. induction todo as [|[s e] todo IH]; intros dn shs w C Q Hrs Hwf Hnames Hspan Hl Htodo Hsm HC HQ; cbn [open_ranges].
  - rewrite app_nil_r in Hrs. apply wpc_ret.
    + apply HC. split; [done|]. apply (disk_span_weaken _ x). exists rs. split; [done|]. split.
      * rewrite Hrs, <- Hspan. apply Forall_fmap. eapply Forall_impl; [exact Hl|]. apply leaf_disk.
      * destruct Hnames as [A1 A2]. split; [|done]. intros a b Ha Ho. exists (a, b). split; [auto|].
        unfold contained. cbn. lia.
    + apply HQ; rewrite ?app_nil_r; auto. congruence.
  - apply Forall_cons in Htodo as [Hse Htodo]. apply Forall_cons in Hsm as [Hps Hsm].
    assert ((s, e) ∈ rs) as Hin by (rewrite Hrs; apply elem_of_app; right; left).
    assert (NoDup rs) as Hnd.
    { pose proof (dyadic_sorted _ _ _ Hd) as Hs. clear -Hs. induction Hs as [|x l Hs IH Hx]; constructor; auto.
      intros Hin. rewrite Forall_forall in Hx. apply Hx in Hin. unfold strict_incr in Hin. lia. }
    assert (Hsep : forall a b, (a, b) ∈ dn ++ todo -> a < b /\ (b <= s \/ e <= a)).
    { intros a b Hab. assert ((a, b) ∈ rs) as Hab'.
      { rewrite Hrs. apply elem_of_app in Hab as [?|?]; apply elem_of_app; [left; done|right; by right]. }
      pose proof (dyadic_bounds _ _ _ _ _ Hd Hab'). pose proof (dyadic_bounds _ _ _ _ _ Hd Hin).
      split; [lia|]. destruct (decide (overlap a b s e)) as [Ho|Ho]; [|unfold overlap in Ho; lia].
      exfalso. pose proof (dyadic_overlap _ _ _ _ _ _ _ Hd Hab' Hin Ho) as [= -> ->].
      rewrite Hrs in Hnd. rewrite <- Permutation_middle in Hnd. by apply NoDup_cons in Hnd as [Hnd _]. }
    assert (Hsepd : Forall (fun r => fst r < snd r /\ (snd r <= s \/ e <= fst r)) dn).
    { apply Forall_forall. intros [a b] Hab. apply Hsep, elem_of_app. by left. }
    assert (Hsept : Forall (fun r => fst r < snd r /\ (snd r <= s \/ e <= fst r)) todo).
    { apply Forall_forall. intros [a b] Hab. apply Hsep, elem_of_app. by right. }
    assert (Hlf : forall w', outside_same s e w w' -> Forall (leaf_ok cfg x m w') shs).
    { intros w' Ho. apply Forall_forall. intros sh Hsh. rewrite Forall_forall in Hsepd. rewrite Forall_forall in Hl.
      assert (span_of sh ∈ dn) as Hd' by (rewrite <- Hspan; by apply elem_of_list_fmap_1).
      destruct (Hsepd _ Hd') as [A1 A2]. eapply leaf_frame; [exact Ho|exact A1|exact A2|done|by apply Hl]. }
    assert (Hnm : forall w', (forall n, is_Some (fs_dir w' !! n) -> is_Some (fs_dir w !! n)) ->
       run_names w' 0 END_OF_SHARDS rs).
    { intros w' Hsub. destruct Hnames as [A1 A2]. split; intros a b Ha; [apply A1|apply A2]; auto. }
    apply wpc_bind. apply (shard_open_spec cfg x m); auto.
    + intros w' Hwf' Ho Hd' Hsub. apply HC. split; [done|]. exists rs. split; [done|]. split.
      * rewrite Hrs. apply Forall_app. split; [|constructor; [done|]].
        -- rewrite <- Hspan. apply Forall_fmap. eapply Forall_impl; [by apply (Hlf w')|].
           intros sh Hsh. apply (disk_shard_weaken _ x). by apply leaf_disk.
        -- eapply Forall_frame_disk; [exact Ho|done|]. eapply Forall_impl; [exact Htodo|]. intros. by eapply disk_shard_weaken.
      * destruct (Hnm w' Hsub) as [A1 A2]. split; [|done].
        intros a b Ha Hov. exists (a, b). split; [auto|]. unfold contained. cbn. lia.
    + intros w' sh Hwf' Ho Hl' Hsp Hsub. pose proof (Hnm w' Hsub) as Hn'.
      apply wpc_bind. apply (IH (dn ++ [(s, e)]) (shs ++ [sh]) w'); auto.
      * by rewrite <- app_assoc.
      * by rewrite map_app, Hspan, <- Hsp.
      * apply Forall_app. split; [by apply Hlf|]. by constructor.
      * by eapply Forall_frame_disk.
      * apply Forall_forall. intros [a b] Hab. rewrite Forall_forall in Hsept. rewrite Forall_forall in Hsm.
        destruct (Hsept _ Hab) as [B1 B2].
        eapply pair_small_frame; [exact Hwf|exact Ho|done|done|by apply Hsm].
      * intros w2 shs' A1 A3 A4 A5. rewrite <- app_assoc in A4, A5. cbn in A4, A5.
        apply wpc_ret; [|by apply HQ].
        apply HC. split; [done|]. apply (disk_span_weaken _ x). exists rs. split; [done|]. split.
        -- rewrite <- A4. apply Forall_fmap. eapply Forall_impl; [exact A5|]. apply leaf_disk.
        -- destruct A3 as [B1 B2]. split; [|done]. intros a b Ha Hov. exists (a, b). split; [auto|].
           unfold contained. cbn. lia.
Qed.

(** ** [load] *)
Lemma dir_names_spec w : NoDup (dir_names w) /\ forall n, n ∈ dir_names w <-> is_Some (fs_dir w !! n).
Proof.
  unfold dir_names. split; [apply NoDup_fst_map_to_list|].
  intros n. split.
  - intros ([n' i] & -> & Hi)%elem_of_list_fmap. apply elem_of_map_to_list in Hi. eauto.
  - intros [i Hi]. apply elem_of_list_fmap. exists (n, i). split; [done|]. by apply elem_of_map_to_list.
Qed.
Lemma shard_ranges_spec names r : r ∈ shard_ranges names <-> FShard (fst r) (snd r) ∈ names.
Proof.
  unfold shard_ranges. rewrite elem_of_list_omap. split.
  - intros (n & Hn & E). destruct n; try done. injection E as <-. done.
  - intros H. exists (FShard (fst r) (snd r)). split; [done|]. by destruct r.
Qed.
Lemma shard_ranges_nodup names : NoDup names -> NoDup (shard_ranges names).
Proof.
  induction 1 as [|n names Hn Hnd IH]; [constructor|].
  destruct n; try exact IH. cbn. constructor; [|done]. by rewrite shard_ranges_spec.
Qed.

Lemma load_spec cfg x m w (C : fs -> Prop) (Q : list shard -> fs -> Prop) E :
  DiskInv cfg x m w -> disk_small w ->
  (forall w', DiskInv cfg false m w' -> C w') ->
  (forall w' shs, wf w' -> dyadic 0 16 (map span_of shs) ->
     run_names w' 0 END_OF_SHARDS (map span_of shs) -> Forall (leaf_ok cfg x m w') shs -> Q shs w') ->
  wpc (load cfg) C Q E w.
Proof.
  intros Hdi Hsmall HC HQ. destruct (disk_dirst _ _ _ _ Hdi) as (rs & Hst).
  pose proof Hst as (Hwf & Hd & Hsh & Hnm).
  assert (C w) as HC0 by by eapply HC, dirst_disk.
  destruct (dir_names_spec w) as [Hnd Hin].
  unfold load. apply wpc_bind. apply wpc_snap; [done|].
  apply wpc_bind. apply (load_scan_spec w); auto.
  { apply core_same_refl. }
  { intros n Hn. by apply Hin. }
  { intros w' A1 A2. eapply HC, dirst_disk. by eapply dirst_core. }
  intros w1 Hwf1 Hc1 Hsub1 Htmp1.
  pose proof (dirst_core _ _ _ _ _ _ Hwf1 Hc1 Hst) as Hst1.
  set (found := shard_ranges (dir_names w)).
  assert (Hfound : forall r, r ∈ found <-> is_Some (fs_dir w !! FShard (fst r) (snd r))).
  { intros r. subst found. rewrite shard_ranges_spec. apply Hin. }
  destruct (consolidate_ranges found) as [keep drop] eqn:Ecr.
  destruct (consolidate_dyadic 0 16 rs found keep drop) as (-> & Hnd2 & Hdrop); auto.
  { intros [a b] Hab. rewrite Hfound. cbn. rewrite Forall_forall in Hsh. apply Hsh in Hab as (i & f & L & Hi & _). eauto. }
  { intros [a b] Hab. rewrite Hfound in Hab. cbn in *. destruct (wf_names _ Hwf a b) as [A1 A2]; [auto|].
    split; [done|]. apply (proj1 Hnm); [done|]. unfold overlap. lia. }
  { by apply shard_ranges_nodup. }
  apply wpc_bind. apply (remove_ranges_spec cfg x m rs); auto.
  { intros r Hr. apply Hdrop in Hr as [A1 A2]. split; [done|]. rewrite Hfound in A1.
    by rewrite (proj1 (Hc1 (FShard (fst r) (snd r)) I)). }
  { intros w' A1. by eapply HC, dirst_disk. }
  intros w2 Hst2 Hf2 Hsub2 Hgone. pose proof Hst2 as (Hwf2 & _ & Hsh2 & Hnm2).
  eapply (open_ranges_spec cfg x m E rs Hd rs [] [] w2); auto.
  - destruct Hnm2 as [N1 N2]. split; [|done]. intros a b [i Hi] Ho.
    destruct (decide ((a, b) ∈ rs)) as [|Hn]; [done|]. exfalso.
    assert ((a, b) ∈ drop) as Hdr.
    { apply Hdrop. split; [|done]. apply Hfound. cbn. apply Hsub2, Hsub1 in Hi. eauto. }
    apply Hgone in Hdr. cbn in Hdr. congruence.
  - apply Forall_forall. intros [a b] Hab i t f ft Hi Ht Hfi Hft. cbn [fst snd] in *.
    rewrite Hf2 in Hfi, Hft. apply Hsub2 in Hi, Ht.
    eapply (pair_small_core w w1 (a, b) Hc1 (Hsmall a b)); eauto.
  - intros w3 shs A1 A3 A4 A5. cbn [app] in *. apply HQ; auto; rewrite A4; auto.
Qed.

Lemma router_new_spec cfg x m w (C : fs -> Prop) (Q : router -> fs -> Prop) E :
  DiskInv cfg x m w -> disk_small w ->
  (forall w', DiskInv cfg false m w' -> C w') ->
  (forall w' r, Inv cfg x m r w' -> Q r w') ->
  wpc (router_new cfg) C Q E w.
Proof.
  intros Hd Hs HC HQ. unfold router_new. apply wpc_bind.
  apply (load_spec cfg x m); auto. intros w' shs A1 A3 A4 A5.
  destruct (treeify_ok shs A3) as (r & Hr & Ht & Hl).
  assert (Inv cfg x m r w') as HI.
  { split; [done|]. split; [done|]. by rewrite Hl. }
  assert (C w') as HC'.
  { apply HC. split; [done|]. eapply run_disk'. apply HI. }
  destruct shs as [|sh shs].
  { exfalso. cbn in Hr. done. }
  apply wpc_bind. apply wpc_ret; [done|]. eapply wpc_lift_ok; [exact Hr|done|]. by apply HQ.
Qed.
