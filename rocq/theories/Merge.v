(** Statistics (which waits for compactions) and merging of small shards. *)
From Verif Require Import Base Hashing HashingProofs Fs Shard Router RouterPure Wpc Spec FileRep RowOps
  Compact Inv ShardOps Split Insert Open.

(** ** Copying rows into the merge file: shard.rs:650-700 *)
Lemma merge_slots_spec cfg fsrc t r row l es ft Lt w (C : fs -> Prop) (Q : option nat -> fs -> Prop) E :
  Forall2 (slot_ok cfg fsrc r) row l -> (r < NUM_ROWS)%nat ->
  fresh cfg ft Lt -> Lt r = padded es -> (length es <= ROW_WIDTH)%nat ->
  f_woff ft + bytes_of (entries l) < 2 ^ 32 ->
  (forall ft', C (set_file t ft' w)) ->
  (forall ft', Q None (set_file t ft' w)) ->
  (forall ft', fresh cfg ft' (upd_row r (padded (es ++ entries l)) Lt) ->
     (length (es ++ entries l) <= ROW_WIDTH)%nat ->
     f_woff ft' = f_woff ft + bytes_of (entries l) ->
     Q (Some (length (es ++ entries l))) (set_file t ft' w)) ->
  wpc (merge_slots cfg fsrc t r (length es) row) C Q E (set_file t ft w).
Proof.
  intros H. revert es ft Lt.
  induction H as [|s o row l Hs H IH]; intros es ft Lt Hr Hft Et Hl Hoff HC HN HQ; cbn [merge_slots].
  - apply wpc_ret; [done|]. change (entries []) with (@nil kv) in *. rewrite app_nil_r in HQ. apply HQ.
    + eapply fresh_ext; [|exact Hft]. intros r' _. rewrite <- Et. by rewrite upd_row_self.
    + done.
    + cbn. lia.
  - destruct o as [[k v]|].
    2:{ cbn in Hs. rewrite Hs. cbn [N.eqb INVALID_SIG]. rewrite entries_cons in *.
        eapply IH; eauto. }
    pose proof Hs as (Hne & Hsig & Hrow & Hread & _). rewrite Hsig.
    destruct (N.eqb_spec (ph_sig (hashk cfg k)) INVALID_SIG) as [Ez|_]; [by apply hashk_sig in Ez|].
    rewrite entries_cons in *. change (option_list (Some (k, v)) ++ entries l) with ((k, v) :: entries l) in *.
    cbn [bytes_of foldr] in *. fold (bytes_of (entries l)) in *.
    assert (kvsize (k, v) = len k + len v) as Esz by done.
    pose proof (read_kv_bounds _ _ _ _ Hread) as [Hk Hv].
    apply wpc_bind. eapply wpc_lift_ok; [exact Hread|apply HC|].
    apply wpc_bind. apply wpc_assert; [by apply Nat.eqb_eq|apply HC|].
    destruct (Nat.leb_spec ROW_WIDTH (length es)) as [Hfull|Hfree].
    { apply wpc_ret; [apply HC|apply HN]. }
    apply wpc_bind. eapply wpc_get_file; [apply set_file_get|apply HC|].
    apply wpc_bind. apply wpc_assert; [|apply HC|].
    { assert (Lt r !! length es = Some None) as Hn by (rewrite Et; apply padded_next; lia).
      destruct (slot_lookup _ _ _ _ _ _ (proj1 Hft) Hr Hn) as (st & -> & Hok). by rewrite Hok. }
    apply (fill_next cfg t k v ft Lt r es); [exact Hft|exact Hk|exact Hv|lia|exact Hne|exact Hrow|exact Et|lia|intros; apply HC|].
    intros ft' Hft' Hoff'.
    replace (S (length es)) with (length (es ++ [(k, v)])) by (rewrite app_length; cbn; lia).
    eapply (IH (es ++ [(k, v)]) ft'); eauto.
    + by rewrite upd_row_eq.
    + rewrite app_length. cbn [length]. lia.
    + lia.
    + intros ft2 G1 G2 G3. rewrite <- app_assoc in G1, G2 |- *. cbn [app] in *. apply HQ; [|done|lia].
      eapply fresh_ext; [|exact G1]. intros r' _. by rewrite upd_upd.
Qed.

Lemma merge_rows_spec cfg fb ft Lb Lt t n : forall r fm Lm w (C : fs -> Prop) (Q : bool -> fs -> Prop) E,
  file_rep cfg fb Lb -> file_rep cfg ft Lt -> (r + n = NUM_ROWS)%nat ->
  fresh cfg fm Lm -> (forall r', (r <= r' < NUM_ROWS)%nat -> Lm r' = padded []) ->
  f_woff fm + (rest_live Lb r + rest_live Lt r) < 2 ^ 32 ->
  (forall f', C (set_file t f' w)) ->
  (forall f', Q false (set_file t f' w)) ->
  (forall f' L', fresh cfg f' L' ->
     (forall r', (r' < NUM_ROWS)%nat -> if (r' <? r)%nat then L' r' = Lm r'
        else L' r' = padded (entries (Lb r') ++ entries (Lt r'))) ->
     Q true (set_file t f' w)) ->
  wpc (merge_rows cfg fb ft t r n) C Q E (set_file t fm w).
Proof.
  induction n as [|n IH]; intros r fm Lm w C Q E Hb Ht Hr Hfm Hpad Hoff HC HN HQ; cbn [merge_rows].
  - apply wpc_ret; [apply HC|]. apply (HQ fm Lm); auto. intros r' Hr'.
    by replace (r' <? r)%nat with true by (symmetry; apply Nat.ltb_lt; lia).
  - assert (r < NUM_ROWS)%nat as Hlt by lia.
    rewrite (rest_live_step Lb r Hlt), (rest_live_step Lt r Hlt) in Hoff.
    apply wpc_bind. change 0%nat with (length (@nil kv)).
    eapply (merge_slots_spec cfg fb t r _ (Lb r) [] fm Lm); [..|].
    { by apply file_rep_row. }
    { done. }
    { exact Hfm. }
    { apply Hpad. lia. }
    { cbn. lia. }
    { lia. }
    { done. }
    { intros f'. apply wpc_ret; [apply HC|apply HN]. }
    cbn [app]. intros f1 Hf1 Hl1 Ho1. apply wpc_bind.
    eapply (merge_slots_spec cfg ft t r _ (Lt r) (entries (Lb r)) f1); [..|].
    { by apply file_rep_row. }
    { done. }
    { exact Hf1. }
    { apply upd_row_eq. }
    { done. }
    { lia. }
    { done. }
    { intros f'. apply wpc_ret; [apply HC|apply HN]. }
    intros f2 Hf2 Hl2 Ho2.
    assert (fresh cfg f2 (upd_row r (padded (entries (Lb r) ++ entries (Lt r))) Lm)) as Hf2'.
    { eapply fresh_ext; [|exact Hf2]. intros r' _. by rewrite upd_upd. }
    eapply (IH (S r) f2); eauto.
    { lia. }
    { intros r' Hr'. rewrite upd_row_ne by lia. apply Hpad. lia. }
    { lia. }
    intros f3 L3 Hf3 HL3. apply (HQ f3 L3); auto. intros r' Hr'. specialize (HL3 r' Hr').
    destruct (Nat.ltb_spec r' (S r)), (Nat.ltb_spec r' r); try lia; auto.
    + rewrite upd_row_ne in HL3 by lia. done.
    + assert (r' = r) as -> by lia. by rewrite upd_row_eq in HL3.
Qed.

(** ** Merging two neighbours *)
Definition total_small (m : kvmap) : Prop :=
  forall es, distinct_stored m (fun _ => True) es -> bytes_of es < 2 ^ 32.

Lemma all_hold_join cfg m s mid e Lb Lt L :
  s <= mid -> mid <= e -> all_hold cfg m s mid Lb -> all_hold cfg m mid e Lt ->
  (forall r, (r < NUM_ROWS)%nat -> L r = padded (entries (Lb r) ++ entries (Lt r))) ->
  all_hold cfg m s e L.
Proof.
  intros H1 H2 Hb Ht HL r Hr. rewrite HL, entries_padded by done.
  eapply holds_ext; [| |apply holds_union; [|by apply Hb|by apply Ht]]; cbv beta; [|done|].
  - intros k. unfold home. lia.
  - intros k. unfold home. lia.
Qed.

Lemma live_join_small cfg m s mid e Lb Lt :
  total_small m -> mid <= mid -> all_hold cfg m s mid Lb -> all_hold cfg m mid e Lt ->
  live Lb + live Lt < 2 ^ 32.
Proof.
  intros Hts _ Hb Ht. apply all_hold_entries in Hb, Ht. rewrite !live_entries, <- bytes_of_app.
  apply Hts. assert (forall k, in_span cfg s mid k -> in_span cfg mid e k -> False) as Hdis.
  { intros k. unfold in_span. lia. }
  destruct (holds_union m _ _ _ _ Hdis Hb Ht) as [N1 N2].
  split; [done|]. intros k v Hk. apply N2 in Hk as [? _]. done.
Qed.

Definition idle (r : router) : Prop := Forall (fun sh => sh_tgt sh = None) (leaves r).

Lemma leaf_idle cfg x m w sh :
  leaf_ok cfg x m w sh -> sh_tgt sh = None ->
  exists f L, fs_dir w !! FShard (sh_start sh) (sh_end sh) = Some (sh_ino sh) /\
    fs_files w !! sh_ino sh = Some f /\ hdr_ok f /\ file_rep cfg f L /\ acct x f L /\ f_woff f < 2 ^ 32 /\
    fs_dir w !! FCompact (sh_start sh) (sh_end sh) = None /\ all_hold cfg m (sh_start sh) (sh_end sh) L.
Proof.
  intros (f & L & H1 & H2 & H3 & H4 & H5 & H6 & H7) E. rewrite E in H7. exists f, L. tauto.
Qed.

Lemma shard_merge_leaf cfg x m w0 w b t s n (C : fs -> Prop) (Q : option shard -> fs -> Prop) E :
  leafQ cfg x w0 m s (S n) (RVertex (RLeaf b) (RLeaf t)) w ->
  sh_tgt b = None -> sh_tgt t = None -> total_small m ->
  (forall w', wf w' -> outside_same s (s + 2 ^ N.of_nat (S n)) w0 w' -> disk_span cfg false m w' s (S n) -> C w') ->
  (forall w', leafQ cfg x w0 m s (S n) (RVertex (RLeaf b) (RLeaf t)) w' -> Q None w') ->
  (forall w' sh, leafQ cfg x w0 m s (S n) (RLeaf sh) w' -> sh_tgt sh = None -> Q (Some sh) w') ->
  wpc (shard_merge cfg b t) C Q E w.
Proof.
  intros (Hwf & Hos & Hrun) Tb Tt Hts HC HN HQ.
  destruct (run_span_split _ _ _ _ _ _ _ _ Hwf Hrun) as [Hrb Hrt].
  apply run_leaf in Hrb as (Sb & Eb & Hlb & Hsb). apply run_leaf in Hrt as (St & Et & Hlt & Hst).
  pose proof (pow2_succ n) as Hp. pose proof (pow2_pos n) as Hpos.
  set (h := 2 ^ N.of_nat n) in *. set (mid := s + h) in *.
  assert (mid + h = s + 2 ^ N.of_nat (S n)) as Hend by (rewrite Hp; subst mid; lia).
  set (e := mid + h) in *. rewrite <- Hend in *.
  assert (s < mid /\ mid < e) as [Hsm Hme] by (subst mid e; lia).
  destruct (leaf_idle _ _ _ _ _ Hlb Tb) as (fb & Lb & B1 & B2 & B3 & B4 & B5 & B6 & B7 & B8).
  destruct (leaf_idle _ _ _ _ _ Hlt Tt) as (ft & Lt & T1 & T2 & T3 & T4 & T5 & T6 & T7 & T8).
  rewrite Sb, Eb in *. rewrite St, Et in *.
  destruct (wf_names _ Hwf mid e) as [_ Hle]; [eauto|].
  assert (disk_span cfg false m w s (S n)) as Hd0 by by eapply run_disk'.
  assert (HCcore : forall w', wf w' -> core_same w w' -> C w').
  { intros w' A1 A2. apply HC; [done| |by eapply disk_span_core].
    eapply outside_same_trans; [exact Hos|by apply core_outside]. }
  unfold shard_merge. rewrite Sb, Et, Eb, St. cbv zeta.
  set (i := put_ino (FMerge s e) w).
  apply wpc_bind. apply mmap_create_any.
  { by apply HCcore, core_same_refl. }
  { intros f _. apply HCcore; [by apply wf_put_file|by apply core_put_file; [|intros []]]. }
  intros fm Hfm Hhm. set (w1 := put_file (FMerge s e) fm w). fold i.
  assert (wf w1) as Hwf1 by (by apply wf_put_file).
  assert (core_same w w1) as Hc1 by (by apply core_put_file; [|intros []]).
  assert (fs_dir w1 !! FMerge s e = Some i) as Dm by apply put_file_dir.
  assert (fs_files w1 !! i = Some fm) as Fm by apply put_file_get.
  assert (HC1 : forall f', wf (set_file i f' w1) /\ core_same w (set_file i f' w1)).
  { intros f'. split.
    - apply wf_set_file; eauto.
    - eapply core_same_trans; [exact Hc1|]. eapply core_set_file; [done|exact Dm|intros []]. }
  assert (fs_files w1 !! sh_ino b = Some fb) as Fb1.
  { rewrite (proj2 (Hc1 (FShard s mid) I) _ B1). done. }
  assert (fs_files w1 !! sh_ino t = Some ft) as Ft1.
  { rewrite (proj2 (Hc1 (FShard mid e) I) _ T1). done. }
  apply wpc_bind. eapply wpc_get_file; [exact Fb1|by apply HCcore|].
  apply wpc_bind. eapply wpc_get_file; [exact Ft1|by apply HCcore|].
  apply wpc_bind. rewrite <- (set_file_id i fm w1 Fm) at 1.
  eapply (merge_rows_spec cfg fb ft Lb Lt i NUM_ROWS 0 fm (fun _ => padded [])); auto.
  { by apply blank_fresh. }
  { rewrite !rest_live_0. destruct Hfm as (_ & -> & _).
    pose proof (live_join_small cfg m s mid e Lb Lt Hts ltac:(lia) B8 T8). lia. }
  { intros f'. apply HCcore; apply HC1. }
  - (* overflow: the merge file is removed *)
    intros f'. destruct (HC1 f') as [Hwf2 Hc2]. set (w2 := set_file i f' w1) in *.
    assert (wf (remove_fs (FMerge s e) w2)) as Hwf3 by by apply wf_remove.
    assert (core_same w (remove_fs (FMerge s e) w2)) as Hc3.
    { eapply core_same_trans; [exact Hc2|]. apply core_remove. intros []. }
    apply wpc_bind. eapply wpc_remove; [exact Dm|by apply HCcore|by apply HCcore|].
    apply wpc_ret; [by apply HCcore|]. apply HN. split; [done|].
      rewrite <- Hend. split; [eapply outside_same_trans; [exact Hos|by apply core_outside]|]. by eapply run_span_core.
  - intros f' L' Hfr HL'. destruct (HC1 f') as [Hwf2 Hc2]. set (w2 := set_file i f' w1) in *.
    assert (HL : forall r, (r < NUM_ROWS)%nat -> L' r = padded (entries (Lb r) ++ entries (Lt r))).
    { intros r Hr. by apply (HL' r Hr). }
    assert (all_hold cfg m s e L') as Hall by (eapply (all_hold_join cfg m s mid e); eauto; lia).
    assert (live L' < 2 ^ 32) as Hlive.
    { apply all_hold_entries in Hall. rewrite live_entries. apply Hts. destruct Hall as [N1 N2].
      split; [done|]. intros k v Hk. apply N2 in Hk as [? _]. done. }
    destruct Hfr as (R1 & R2 & R3 & R4).
    set (w3 := rename_fs (FMerge s e) (FShard s e) i w2).
    set (w4 := remove_fs (FShard s mid) w3).
    set (w5 := remove_fs (FShard mid e) w4).
    assert (fs_dir w2 !! FMerge s e = Some i) as Dm2 by exact Dm.
    assert (fs_files w2 !! i = Some f') as Fm2 by apply set_file_get.
    assert (wf w3) as Hwf3 by (apply wf_rename; [done|done|cbn; lia]).
    assert (wf w4) as Hwf4 by by apply wf_remove.
    assert (wf w5) as Hwf5 by by apply wf_remove.
    assert (outside_same s e w0 w3) as Ho3.
    { eapply outside_same_trans; [exact Hos|]. eapply outside_same_trans; [by apply core_outside|].
      apply outside_same_rename; [intros []|apply outside_self]. }
    assert (outside_same s e w0 w4) as Ho4.
    { eapply outside_same_trans; [exact Ho3|]. apply outside_same_remove, inside_not_outside; lia. }
    assert (outside_same s e w0 w5) as Ho5.
    { eapply outside_same_trans; [exact Ho4|]. apply outside_same_remove, inside_not_outside; lia. }
    assert (K3 : forall a c j, fs_dir w3 !! FShard a c = Some j <->
       (a = s /\ c = e /\ j = i) \/ ((a, c) <> (s, e) /\ fs_dir w2 !! FShard a c = Some j)).
    { intros a c j. by apply rename_shard_Some. }
    assert (K3c : forall a c, fs_dir w3 !! FCompact a c = fs_dir w2 !! FCompact a c).
    { intros a c. cbn. by rewrite lookup_insert_ne, lookup_delete_ne. }
    assert (Hn2 : run_names w2 s e [(s, mid); (mid, e)]).
    { destruct (run_span_core cfg x m w w2 _ s (S n) Hc2 Hrun) as (_ & _ & Hx).
      rewrite <- Hend in Hx. cbn [leaves map app] in Hx. unfold span_of in Hx. by rewrite Sb, Eb, St, Et in Hx. }
    assert (Hnc : forall a c, overlap a c s e -> fs_dir w2 !! FCompact a c = None).
    { intros a c Ho. destruct (fs_dir w2 !! FCompact a c) as [j|] eqn:Ej; [|done].
      assert (is_Some (fs_dir w2 !! FCompact a c)) as Ha by eauto.
      apply (proj2 Hn2) in Ha; [|done]. apply elem_of_cons in Ha as [Ha|Ha%elem_of_list_singleton].
      - injection Ha as -> ->. rewrite (proj1 (Hc2 (FCompact s mid) I)) in Ej. congruence.
      - injection Ha as -> ->. rewrite (proj1 (Hc2 (FCompact mid e) I)) in Ej. congruence. }
    assert (Hleaf : forall w', fs_files w' = fs_files w2 -> fs_dir w' !! FShard s e = Some i ->
       fs_dir w' !! FCompact s e = None -> leaf_ok cfg x m w' (Shard s e i None)).
    { intros w' E1 E2 E3. exists f', L'. cbn [sh_start sh_end sh_ino sh_tgt]. rewrite E1.
      split; [done|]. split; [done|]. split; [done|]. split; [done|]. split.
      { destruct R2 as [R2 R2']. split; [done|]. intros _. by apply R2'. }
      split; [lia|]. done. }
    assert (Ds3 : fs_dir w3 !! FShard s e = Some i) by (apply K3; by left).
    assert (Dc3 : fs_dir w3 !! FCompact s e = None).
    { rewrite K3c. apply Hnc. unfold overlap. lia. }
    assert (Ds4 : fs_dir w4 !! FShard s e = Some i).
    { cbn. rewrite lookup_delete_ne; [exact Ds3|]. intros [= Hx]. lia. }
    assert (Ds5 : fs_dir w5 !! FShard s e = Some i).
    { cbn. rewrite lookup_delete_ne; [exact Ds4|]. intros [= Hx]. lia. }
    assert (Dc4 : forall a c, fs_dir w4 !! FCompact a c = fs_dir w3 !! FCompact a c).
    { intros a c. cbn. by rewrite lookup_delete_ne. }
    assert (Dc5 : forall a c, fs_dir w5 !! FCompact a c = fs_dir w3 !! FCompact a c).
    { intros a c. rewrite <- Dc4. cbn. by rewrite lookup_delete_ne. }
    assert (Hdisk : forall w', leaf_ok cfg x m w' (Shard s e i None) ->
       (forall a c, fs_dir w' !! FCompact a c = fs_dir w3 !! FCompact a c) ->
       (forall nm j, fs_dir w' !! nm = Some j -> fs_dir w3 !! nm = Some j) ->
       disk_span cfg false m w' s (S n)).
    { intros w' E1 E2 E3. apply (disk_span_weaken _ x). exists [(s, e)].
      split; [rewrite Hend; constructor|]. split.
      { rewrite Forall_singleton. exact (leaf_disk _ _ _ _ _ E1). }
      rewrite <- Hend. split; intros a c [j Ha] Ho.
      - exists (s, e). split; [left|]. apply E3, K3 in Ha as [(-> & -> & _)|[_ Ha]].
        + unfold contained. cbn. lia.
        + assert (is_Some (fs_dir w2 !! FShard a c)) as Hx by eauto.
          apply (proj1 Hn2) in Hx; [|done]. apply elem_of_cons in Hx as [Hx|Hx%elem_of_list_singleton];
            injection Hx as -> ->; unfold contained; cbn; lia.
      - rewrite E2, K3c, Hnc in Ha by done. done. }
    assert (leaf_ok cfg x m w3 (Shard s e i None)) as Hl3 by (by apply Hleaf).
    assert (leaf_ok cfg x m w4 (Shard s e i None)) as Hl4 by (apply Hleaf; [done|done|by rewrite Dc4]).
    assert (leaf_ok cfg x m w5 (Shard s e i None)) as Hl5 by (apply Hleaf; [done|done|by rewrite Dc5]).
    assert (Sub4 : forall nm j, fs_dir w4 !! nm = Some j -> fs_dir w3 !! nm = Some j).
    { intros nm j Hj. cbn in Hj. by apply lookup_delete_Some in Hj as [_ Hj]. }
    assert (Sub5 : forall nm j, fs_dir w5 !! nm = Some j -> fs_dir w3 !! nm = Some j).
    { intros nm j Hj. apply Sub4. cbn in Hj. by apply lookup_delete_Some in Hj as [_ Hj]. }
    assert (C w3) as HC3 by (apply HC; [done|done|by apply Hdisk]).
    assert (C w4) as HC4 by (apply HC; [done|done|by apply Hdisk]).
    assert (C w5) as HC5 by (apply HC; [done|done|by apply Hdisk]).
    assert (fs_dir w3 !! FShard s mid = Some (sh_ino b)) as Db3.
    { apply K3. right. split; [intros [= Hx]; lia|]. rewrite (proj1 (Hc2 (FShard s mid) I)). done. }
    assert (fs_dir w4 !! FShard mid e = Some (sh_ino t)) as Dt4.
    { cbn. rewrite lookup_delete_ne by (intros [= Hx]; lia). apply K3. right. split; [intros [= Hx]; lia|].
      rewrite (proj1 (Hc2 (FShard mid e) I)). done. }
    apply wpc_bind. eapply wpc_rename; [exact Dm2|by apply HCcore|exact HC3|].
    apply wpc_bind. eapply wpc_remove; [exact Db3|exact HC3|exact HC4|].
    apply wpc_bind. eapply wpc_remove; [exact Dt4|exact HC4|exact HC5|].
    apply wpc_ret; [exact HC5|]. apply HQ; [|done]. split; [done|].
    split; [by rewrite <- Hend|]. apply run_leaf. rewrite <- Hend. split; [done|]. split; [done|]. split; [done|].
    split; intros a c [j Ha] Ho.
    + pose proof (Sub5 _ _ Ha) as Ha3. apply K3 in Ha3 as [(-> & -> & _)|[_ Ha3]]; [left|]. exfalso.
      assert (is_Some (fs_dir w2 !! FShard a c)) as Hx by eauto.
      apply (proj1 Hn2) in Hx; [|done].
      cbn in Ha. apply lookup_delete_Some in Ha as [Hne1 Ha]. apply lookup_delete_Some in Ha as [Hne2 Ha].
      apply elem_of_cons in Hx as [Hx|Hx%elem_of_list_singleton]; injection Hx as -> ->; done.
    + rewrite Dc5, K3c, Hnc in Ha by done. done.
Qed.

(** ** [get_stats] on every shard: router.rs:327-339 *)
Definition stat_ok (w : fs) (sh : shard) (st : shard_stats) : Prop :=
  exists f, fs_files w !! sh_ino sh = Some f /\
    st = ShardStats (f_woff f) (f_wasted f) (f_ins f) (f_rem f).

Lemma stat_ok_frame cfg x m w w' s e sh st :
  outside_same s e w w' -> sh_start sh < sh_end sh -> sh_end sh <= s \/ e <= sh_start sh ->
  leaf_ok cfg x m w sh -> stat_ok w sh st -> stat_ok w' sh st.
Proof.
  intros Ho H1 H2 (f & L & H3 & _) (f' & F1 & F2).
  destruct (Ho (FShard (sh_start sh) (sh_end sh))) as [_ A2]; [done|].
  exists f'. split; [|done]. by rewrite A2.
Qed.

Lemma shard_get_stats_leaf cfg x m w0 w sh s n (C : fs -> Prop) (Q : shard * shard_stats -> fs -> Prop) E :
  leafQ cfg x w0 m s n (RLeaf sh) w ->
  (forall w', wf w' -> outside_same s (s + 2 ^ N.of_nat n) w0 w' -> disk_span cfg false m w' s n -> C w') ->
  (forall w' sh' st, leafQ cfg x w0 m s n (RLeaf sh') w' -> sh_tgt sh' = None -> stat_ok w' sh' st -> Q (sh', st) w') ->
  wpc (shard_get_stats cfg sh) C Q E w.
Proof.
  intros HQ0 HC HQ. unfold shard_get_stats. apply wpc_bind.
  eapply wait_compaction_leaf; [exact HQ0|exact HC|]. intros w' sh' HQ' Ht _.
  pose proof HQ' as (A1 & A3 & A4). pose proof A4 as A4'. apply run_leaf in A4' as (_ & _ & (f & L & _ & Hf & _) & _).
  assert (C w') as HC' by (apply HC; [done|done|by eapply run_disk']).
  apply wpc_bind. eapply wpc_get_file; [exact Hf|done|]. apply wpc_ret; [done|]. apply HQ; [done|done|].
  by exists f.
Qed.

Lemma Forall2_impl_in {A B} (R R' : A -> B -> Prop) l k :
  Forall2 R l k -> (forall x y, In x l -> R x y -> R' x y) -> Forall2 R' l k.
Proof. induction 1 as [|x y l k H1 H2 IH]; intros H; constructor; [apply H; [by left|done]|]. apply IH. intros. apply H; [by right|done]. Qed.

Lemma router_stats_spec cfg x m E r : forall w s n (C : fs -> Prop) (Q : router * list shard_stats -> fs -> Prop),
  wf w -> run_span cfg x m w r s n ->
  (forall w', leafC cfg w m m s n w' -> C w') ->
  (forall w' r' l, leafQ cfg x w m s n r' w' -> idle r' -> map span_of (leaves r') = map span_of (leaves r) ->
     Forall2 (stat_ok w') (leaves r') l -> Q (r', l) w') ->
  wpc (router_stats cfg r) C Q E w.
Proof.
  induction r as [sh|b IHb t IHt]; intros w s n C Q Hwf Hrun HC HQ; cbn [router_stats].
  - apply wpc_bind. eapply (shard_get_stats_leaf cfg x m w w sh s n).
    + split; [done|]. split; [apply outside_same_refl|done].
    + intros w' A1 A2 A3. apply HC. split; [done|]. split; [done|]. by left.
    + intros w' sh' st HQ' Ht Hst. apply wpc_ret; [apply HC; by eapply leafQ_C|].
      apply HQ; [done| | |by constructor].
      * by constructor.
      * pose proof HQ' as (_ & _ & A4). apply run_leaf in A4 as (A5 & A6 & _).
        apply run_leaf in Hrun as (A7 & A8 & _). cbn. unfold span_of. by rewrite A5, A6, A7, A8.
  - pose proof Hrun as (Ht & _). cbn [tree_ok] in Ht. destruct n as [|n]; [done|].
    destruct (run_span_split _ _ _ _ _ _ _ _ Hwf Hrun) as [Hb Ht'].
    apply wpc_bind. apply (IHb w s n); auto.
    { intros w' HC'. apply HC. eapply leafC_low; [exact Ht'|done|exact HC']. }
    intros w1 b' l1 HQ1 Hi1 Hs1 Hl1.
    pose proof (leafQ_low cfg x m m w w1 t b' s n Ht' ltac:(done) HQ1) as HQ1'.
    destruct HQ1' as (Hwf1 & Hos1 & Hrun1).
    destruct (run_span_split _ _ _ _ _ _ _ _ Hwf1 Hrun1) as [Hb1 Ht1].
    apply wpc_bind. apply (IHt w1 (s + 2 ^ N.of_nat n) n); auto.
    { intros w' HC'. apply HC. eapply leafC_trans; [exact Hos1|]. eapply leafC_high; [exact Hb1|done|exact HC']. }
    intros w2 t' l2 HQ2 Hi2 Hs2 Hl2.
    pose proof (leafQ_high cfg x m m w1 w2 b' t' s n Hb1 ltac:(done) HQ2) as HQ2'.
    assert (leafQ cfg x w m s (S n) (RVertex b' t') w2) as HQ3 by (eapply leafQ_trans; [exact Hos1|exact HQ2']).
    apply wpc_ret; [apply HC; by eapply leafQ_C|]. apply HQ; [done| | |].
    + by apply Forall_app.
    + cbn [leaves]. by rewrite !map_app, Hs1, Hs2.
    + cbn [leaves]. apply Forall2_app; [|done].
      destruct HQ2 as (_ & Hos2 & _). destruct Hb1 as (Htb & Hlb & _).
      eapply Forall2_impl_in; [exact Hl1|]. intros sh st Hsh Hst.
      pose proof (leaves_bounds _ _ _ _ Htb Hsh).
      rewrite Forall_forall in Hlb. apply elem_of_list_In in Hsh. apply Hlb in Hsh.
      eapply stat_ok_frame; [exact Hos2|lia|lia|exact Hsh|exact Hst].
Qed.

(** ** All entries of a tree of shards and the sums of the counters *)
Definition tot (g : shard_stats -> N) (l : list shard_stats) : N := foldr (fun st a => g st + a) 0 l.
Lemma tot_app g a b : tot g (a ++ b) = tot g a + tot g b.
Proof. induction a as [|y a IH]; [done|]. cbn. fold (tot g (a ++ b)) (tot g a). rewrite IH. lia. Qed.

Definition counted (x : bool) (es : list kv) (l : list shard_stats) : Prop :=
  x = true -> tot ss_woff l = bytes_of es + tot ss_wasted l /\ tot ss_ins l = tot ss_rem l + len es /\
    Forall (fun st => ss_rem st <= ss_ins st) l.

Lemma tree_entries cfg x m w r : forall s n l,
  wf w -> run_span cfg x m w r s n -> idle r -> Forall2 (stat_ok w) (leaves r) l ->
  exists es, holds m (in_span cfg s (s + 2 ^ N.of_nat n)) es /\ counted x es l.
Proof.
  induction r as [sh|b IHb t IHt]; intros s n l Hwf Hrun Hidle Hst.
  - apply run_leaf in Hrun as (S1 & S2 & Hl & _). unfold idle in Hidle. cbn [leaves] in *.
    rewrite Forall_singleton in Hidle. apply Forall2_cons_inv_l in Hst as (st & l' & Hst & Hnil & ->).
    apply Forall2_nil_inv_l in Hnil as ->.
    destruct (leaf_idle _ _ _ _ _ Hl Hidle) as (f & L & _ & B2 & _ & _ & B5 & _ & _ & B8).
    rewrite S1, S2 in B8. exists (row_entries L NUM_ROWS). split; [by apply all_hold_entries|].
    intros ->. destruct Hst as (f' & F1 & ->). rewrite B2 in F1. injection F1 as <-.
    destruct B5 as [_ B5]. destruct (B5 eq_refl) as [B6 B7].
    rewrite live_entries in B6. rewrite count_entries in B7. cbn. split; [lia|]. split; [lia|].
    constructor; [cbn; lia|done].
  - pose proof Hrun as (Ht & _). cbn [tree_ok] in Ht. destruct n as [|n]; [done|].
    destruct (run_span_split _ _ _ _ _ _ _ _ Hwf Hrun) as [Hb Ht'].
    unfold idle in Hidle. cbn [leaves] in *. apply Forall_app in Hidle as [I1 I2].
    apply Forall2_app_inv_l in Hst as (l1 & l2 & F1 & F2 & ->).
    destruct (IHb s n l1 Hwf Hb I1 F1) as (e1 & H1 & T1).
    destruct (IHt _ n l2 Hwf Ht' I2 F2) as (e2 & H2 & T2).
    exists (e1 ++ e2). split.
    + assert (Hdis : forall k, in_span cfg s (s + 2 ^ N.of_nat n) k ->
        in_span cfg (s + 2 ^ N.of_nat n) (s + 2 ^ N.of_nat n + 2 ^ N.of_nat n) k -> False).
      { intros k. unfold in_span. lia. }
      eapply holds_ext; [| |apply (holds_union m _ _ _ _ Hdis H1 H2)]; cbv beta; [|done].
      intros k. unfold in_span. rewrite pow2_succ. lia.
    + intros Hx. destruct (T1 Hx) as (A1 & A2 & A3), (T2 Hx) as (B1 & B2 & B3).
      rewrite !tot_app, bytes_of_app, Base.len_app. split; [lia|]. split; [lia|]. by apply Forall_app.
Qed.

Lemma holds_size m es : holds m (fun _ => True) es -> len es = N.of_nat (size m).
Proof.
  intros [H1 H2]. assert (m = list_to_map es) as ->.
  { apply map_eq. intros k. destruct (m !! k) as [v|] eqn:E.
    - symmetry. apply elem_of_list_to_map; [done|]. by apply H2.
    - symmetry. apply not_elem_of_list_to_map. intros Hk. apply elem_of_list_fmap in Hk as ([k' v] & -> & Hk).
      apply H2 in Hk as [Hk _]. cbn in E. congruence. }
  unfold len. f_equal. unfold size, map_size.
  by rewrite (Permutation_length (map_to_list_to_map es H1)).
Qed.
Lemma holds_all cfg m es : holds m (in_span cfg 0 (0 + 2 ^ N.of_nat 16)) es -> holds m (fun _ => True) es.
Proof.
  apply holds_ext; [|done]. intros k. split; [done|]. intros _. unfold in_span.
  pose proof (hashk_sel cfg k). change (0 + 2 ^ N.of_nat 16) with 65536. lia.
Qed.
Lemma sum_items_ok l : Forall (fun st => ss_rem st <= ss_ins st) l ->
  exists n, sum_items l = Ok n /\ n + tot ss_rem l = tot ss_ins l.
Proof.
  induction 1 as [|st l H1 H2 (n & E & IH)]; [by exists 0|]. cbn [sum_items]. unfold num_items.
  destruct (N.ltb_spec (ss_ins st) (ss_rem st)); [lia|]. cbn [rbind]. rewrite E. cbn [rbind].
  eexists. split; [done|]. cbn. fold (tot ss_rem l) (tot ss_ins l). lia.
Qed.

(** ** Merging neighbours in the tree: router.rs:396-457 *)
Definition mergeQ (cfg : config) (x : bool) (w0 : fs) (m : kvmap) (s : N) (n : nat) (o : option shard) (w' : fs) : Prop :=
  match o with
  | Some sh => leafQ cfg x w0 m s n (RLeaf sh) w' /\ sh_tgt sh = None
  | None => exists r', leafQ cfg x w0 m s n r' w' /\ idle r'
  end.
Lemma mergeQ_run cfg x w0 m s n o w' : mergeQ cfg x w0 m s n o w' ->
  exists r', leafQ cfg x w0 m s n r' w' /\ idle r' /\ (forall sh, o = Some sh -> r' = RLeaf sh).
Proof.
  destruct o as [sh|].
  - intros [H1 H2]. exists (RLeaf sh). split; [done|]. split; [by constructor|]. by intros ? [= ->].
  - intros (r' & H1 & H2). exists r'. done.
Qed.

Definition merge_err (x : bool) (e : err) : Prop := e = EDeadlock \/ (x = false /\ e = EPanic).

Lemma num_items_wpc cfg x m w sh st (C : fs -> Prop) (Q : N -> fs -> Prop) (E : err -> Prop) :
  leaf_ok cfg x m w sh -> sh_tgt sh = None -> stat_ok w sh st -> (x = false -> E EPanic) -> C w ->
  (forall n, Q n w) -> wpc (lift (num_items st)) C Q E w.
Proof.
  intros Hl Ht (f & F1 & ->) HE HC HQ.
  destruct (leaf_idle _ _ _ _ _ Hl Ht) as (f' & L & _ & B2 & _ & _ & B5 & _).
  rewrite F1 in B2. injection B2 as <-. unfold num_items. cbn [ss_ins ss_rem].
  destruct (N.ltb_spec (f_ins f) (f_rem f)).
  - cbn. split; [done|]. apply HE. destruct x; [|done]. destruct B5 as [_ B5]. destruct (B5 eq_refl). lia.
  - by apply wpc_ret.
Qed.

Lemma leafQ_frameC cfg x m w0 w r s n :
  leafQ cfg x w0 m s n r w -> leafC cfg w0 m m s n w.
Proof. apply leafQ_C. Qed.

Lemma merge_leaves_spec cfg x m w b t s n mf rem (C : fs -> Prop) (Q : option shard * N -> fs -> Prop) (E : err -> Prop) :
  wf w -> run_span cfg x m w (RVertex (RLeaf b) (RLeaf t)) s (S n) ->
  sh_tgt b = None -> sh_tgt t = None -> total_small m -> (x = false -> E EPanic) ->
  (forall w', leafC cfg w m m s (S n) w' -> C w') ->
  (forall w' o rem', mergeQ cfg x w m s (S n) o w' -> Q (o, rem') w') ->
  wpc (merge_leaves cfg b t mf rem) C Q E w.
Proof.
  intros Hwf Hrun Tb Tt Hts HE HC HQ. unfold merge_leaves.
  assert (HQ0 : leafQ cfg x w m s (S n) (RVertex (RLeaf b) (RLeaf t)) w).
  { split; [done|]. split; [apply outside_same_refl|done]. }
  assert (Hsame : forall w' b' t', leafQ cfg x w m s (S n) (RVertex (RLeaf b') (RLeaf t')) w' ->
            sh_tgt b' = None -> sh_tgt t' = None -> forall rem', wpc (Ret (None, rem')) C Q E w').
  { intros w' b' t' HQ' H1 H2 rem'. apply wpc_ret; [apply HC; by eapply leafQ_C|].
    apply HQ. exists (RVertex (RLeaf b') (RLeaf t')). split; [done|]. repeat constructor; done. }
  destruct (N.eqb_spec rem 0) as [_|_]; [by apply (Hsame w b t)|].
  destruct (run_span_split _ _ _ _ _ _ _ _ Hwf Hrun) as [Hb Ht].
  apply wpc_bind. eapply (shard_get_stats_leaf cfg x m w w b s n).
  { split; [done|]. split; [apply outside_same_refl|done]. }
  { intros w' A1 A2 A3. apply HC. eapply leafC_low; [exact Ht|done|]. split; [done|]. split; [done|]. by left. }
  intros w1 b1 sb HQ1 Tb1 Sb1.
  pose proof (leafQ_low cfg x m m w w1 (RLeaf t) (RLeaf b1) s n Ht ltac:(done) HQ1) as HQ1'.
  pose proof HQ1' as (Hwf1 & Hos1 & Hrun1).
  destruct (run_span_split _ _ _ _ _ _ _ _ Hwf1 Hrun1) as [Hb1 Ht1].
  pose proof Hb1 as Hb1'. apply run_leaf in Hb1' as (_ & _ & Lb1 & _).
  apply wpc_bind. eapply num_items_wpc; [exact Lb1|done|exact Sb1|exact HE|apply HC; by eapply leafQ_C|].
  intros nb. destruct (mf <? nb); [by apply (Hsame w1 b1 t)|].
  apply wpc_bind. eapply (shard_get_stats_leaf cfg x m w1 w1 t (s + 2 ^ N.of_nat n) n).
  { split; [done|]. split; [apply outside_same_refl|done]. }
  { intros w' A1 A2 A3. apply HC. eapply leafC_trans; [exact Hos1|]. eapply leafC_high; [exact Hb1|done|].
    split; [done|]. split; [done|]. by left. }
  intros w2 t2 st HQ2 Tt2 St2.
  pose proof (leafQ_high cfg x m m w1 w2 (RLeaf b1) (RLeaf t2) s n Hb1 ltac:(done) HQ2) as HQ2'.
  pose proof (leafQ_trans _ _ _ _ _ _ _ _ _ Hos1 HQ2') as HQ3.
  pose proof HQ3 as (Hwf2 & Hos2 & Hrun2).
  destruct (run_span_split _ _ _ _ _ _ _ _ Hwf2 Hrun2) as [Hb2 Ht2].
  pose proof Ht2 as Ht2'. apply run_leaf in Ht2' as (_ & _ & Lt2 & _).
  apply wpc_bind. eapply num_items_wpc; [exact Lt2|done|exact St2|exact HE|apply HC; by eapply leafQ_C|].
  intros nt. destruct (mf <? nt); [by apply (Hsame w2 b1 t2)|].
  apply wpc_bind. eapply (shard_merge_leaf cfg x m w w2 b1 t2 s n); [exact HQ3|done|done|done|..].
  - intros w' A1 A2 A3. apply HC. split; [done|]. split; [done|]. by left.
  - intros w' HQ'. by apply (Hsame w' b1 t2).
  - intros w' sh HQ' Hsh. apply wpc_ret; [apply HC; by eapply leafQ_C|]. by apply HQ.
Qed.

Lemma mergeQ_low cfg x m w w' t s n o :
  run_span cfg x m w t (s + 2 ^ N.of_nat n) n -> idle t -> mergeQ cfg x w m s n o w' ->
  exists b', leafQ cfg x w m s (S n) (RVertex b' t) w' /\ idle b' /\ (forall sh, o = Some sh -> b' = RLeaf sh).
Proof.
  intros Ht It H. apply mergeQ_run in H as (b' & H1 & H2 & H3). exists b'. split; [|done].
  by eapply leafQ_low.
Qed.
Lemma mergeQ_high cfg x m w w' b s n o :
  run_span cfg x m w b s n -> idle b -> mergeQ cfg x w m (s + 2 ^ N.of_nat n) n o w' ->
  exists t', leafQ cfg x w m s (S n) (RVertex b t') w' /\ idle t' /\ (forall sh, o = Some sh -> t' = RLeaf sh).
Proof.
  intros Ht It H. apply mergeQ_run in H as (t' & H1 & H2 & H3). exists t'. split; [|done].
  by eapply leafQ_high.
Qed.
Lemma idle_vertex b t : idle b -> idle t -> idle (RVertex b t).
Proof. intros. by apply Forall_app. Qed.

Lemma merge_vertex_spec cfg x m mf (E : err -> Prop) r : forall rem w s n (C : fs -> Prop) (Q : option shard * N -> fs -> Prop),
  wf w -> run_span cfg x m w r s n -> idle r -> total_small m ->
  (x = false -> E EPanic) -> E EDeadlock ->
  (forall w', leafC cfg w m m s n w' -> C w') ->
  (forall w' o rem', mergeQ cfg x w m s n o w' -> Q (o, rem') w') ->
  wpc (merge_vertex cfg r mf rem) C Q E w.
Proof.
  induction r as [sh|b IHb t IHt]; intros rem w s n C Q Hwf Hrun Hid Hts HE HD HC HQ; cbn [merge_vertex].
  - assert (leafQ cfg x w m s n (RLeaf sh) w) as HQ0.
    { split; [done|]. split; [apply outside_same_refl|done]. }
    apply wpc_ret; [apply HC; by eapply leafQ_C|]. apply HQ. by exists (RLeaf sh).
  - pose proof Hrun as (Htr & _). cbn [tree_ok] in Htr. destruct n as [|n]; [done|].
    assert (Hsame : forall w' r' rem', leafQ cfg x w m s (S n) r' w' -> idle r' -> wpc (Ret (None, rem')) C Q E w').
    { intros w' r' rem' H1 H2. apply wpc_ret; [apply HC; by eapply leafQ_C|]. apply HQ. by exists r'. }
    assert (Hlock : forall w' r' rem', leafQ cfg x w m s (S n) r' w' -> idle r' ->
              wpc (if rem' =? 0 then Ret (None, rem') else Fail EDeadlock) C Q E w').
    { intros w' r' rem' H1 H2. destruct (rem' =? 0); [by eapply Hsame|]. cbn. split; [apply HC; by eapply leafQ_C|done]. }
    assert (HQ0 : leafQ cfg x w m s (S n) (RVertex b t) w).
    { split; [done|]. split; [apply outside_same_refl|done]. }
    destruct (rem =? 0); [by eapply Hsame|].
    unfold idle in Hid. cbn [leaves] in Hid. apply Forall_app in Hid as [Ib It].
    destruct (run_span_split _ _ _ _ _ _ _ _ Hwf Hrun) as [Hb Ht].
    destruct b as [bs|b1 b2].
    + destruct t as [ts|t1 t2].
      * unfold idle in *. cbn [leaves] in *. rewrite Forall_singleton in Ib, It.
        eapply (merge_leaves_spec cfg x m w bs ts s n); eauto.
      * apply wpc_bind. eapply (IHt rem w (s + 2 ^ N.of_nat n) n); auto.
        { intros w' HC'. apply HC. eapply leafC_high; [exact Hb|done|exact HC']. }
        intros w' o rem' HM. destruct (mergeQ_high _ _ _ _ _ _ _ _ _ Hb Ib HM) as (t' & HQ' & It' & _).
        destruct o as [sh|]; [eapply Hlock|eapply Hsame]; try exact HQ'; by apply idle_vertex.
    + destruct t as [ts|t1 t2].
      * apply wpc_bind. eapply (IHb rem w s n); auto.
        { intros w' HC'. apply HC. eapply leafC_low; [exact Ht|done|exact HC']. }
        intros w' o rem' HM. destruct (mergeQ_low _ _ _ _ _ _ _ _ _ Ht It HM) as (b' & HQ' & Ib' & _).
        destruct o as [sh|]; [eapply Hlock|eapply Hsame]; try exact HQ'; by apply idle_vertex.
      * apply wpc_bind. eapply (IHb rem w s n); auto.
        { intros w' HC'. apply HC. eapply leafC_low; [exact Ht|done|exact HC']. }
        intros w1 o1 rem1 HM1. destruct (mergeQ_low _ _ _ _ _ _ _ _ _ Ht It HM1) as (b' & HQ1 & Ib' & Eb).
        pose proof HQ1 as (Hwf1 & Hos1 & Hrun1).
        destruct (run_span_split _ _ _ _ _ _ _ _ Hwf1 Hrun1) as [Hb1 Ht1].
        apply wpc_bind. eapply (IHt rem1 w1 (s + 2 ^ N.of_nat n) n); auto.
        { intros w' HC'. apply HC. eapply leafC_trans; [exact Hos1|]. eapply leafC_high; [exact Hb1|done|exact HC']. }
        intros w2 o2 rem2 HM2. destruct (mergeQ_high _ _ _ _ _ _ _ _ _ Hb1 Ib' HM2) as (t' & HQ2 & It' & Et).
        pose proof (leafQ_trans _ _ _ _ _ _ _ _ _ Hos1 HQ2) as HQ3.
        destruct o1 as [m1|], o2 as [m2|].
        -- rewrite (Eb _ eq_refl), (Et _ eq_refl) in *. destruct HQ3 as (Hwf2 & Hos2 & Hrun2).
           unfold idle in *. cbn [leaves] in Ib', It'. rewrite Forall_singleton in Ib', It'.
           eapply (merge_leaves_spec cfg x m w2 m1 m2 s n); eauto.
           ++ intros w' HC'. apply HC. by eapply leafC_trans.
           ++ intros w' o rem' HM. apply HQ. destruct o as [sh|]; cbn in HM |- *.
              ** destruct HM as [A1 A2]. split; [by eapply leafQ_trans|done].
              ** destruct HM as (r' & A1 & A2). exists r'. split; [by eapply leafQ_trans|done].
        -- eapply Hlock; [exact HQ3|by apply idle_vertex].
        -- eapply Hlock; [exact HQ3|by apply idle_vertex].
        -- eapply Hsame; [exact HQ3|by apply idle_vertex].
Qed.

(** ** [merge_small_shards]: router.rs:459-498 *)
Lemma idle_no_compact cfg x m r w a b : Inv cfg x m r w -> idle r -> fs_dir w !! FCompact a b = None.
Proof.
  intros (Hwf & Htr & Hl & Hn) Hid. destruct (fs_dir w !! FCompact a b) as [i|] eqn:E; [|done].
  assert (is_Some (fs_dir w !! FCompact a b)) as Hs by eauto.
  destruct (wf_names _ Hwf a b) as [H1 H2]; [auto|].
  apply (proj2 Hn) in Hs.
  - apply elem_of_list_In, in_map_iff in Hs as (sh & E1 & Hin). unfold span_of in E1. injection E1 as <- <-.
    apply elem_of_list_In in Hin. unfold idle in Hid. rewrite Forall_forall in Hid, Hl.
    destruct (leaf_idle _ _ _ _ _ (Hl _ Hin) (Hid _ Hin)) as (f & L & _ & _ & _ & _ & _ & _ & B7 & _). congruence.
  - unfold overlap. unfold END_OF_SHARDS in H2. change (0 + 2 ^ N.of_nat 16) with 65536. lia.
Qed.
Lemma idle_disk_small cfg x m r w : Inv cfg x m r w -> idle r -> disk_small w.
Proof. intros HI Hid a b i t f ft _ Ht. cbn in Ht. by rewrite (idle_no_compact cfg x m r w a b HI Hid) in Ht. Qed.

Lemma Inv_leafQ cfg x m w0 r w : leafQ cfg x w0 m 0 16 r w <-> outside_same 0 (0 + 2 ^ N.of_nat 16) w0 w /\ Inv cfg x m r w.
Proof. unfold leafQ, Inv. tauto. Qed.
Lemma leafC_disk cfg w0 m m' w : leafC cfg w0 m m' 0 16 w -> DiskInv cfg false m w \/ DiskInv cfg false m' w.
Proof. intros (H1 & _ & [H|H]); [left|right]; done. Qed.
Lemma leafC_disk' cfg w0 m w : leafC cfg w0 m m 0 16 w -> DiskInv cfg false m w.
Proof. intros H. by destruct (leafC_disk _ _ _ _ _ H). Qed.

Definition items_fit (cfg : config) (m : kvmap) : Prop :=
  N.max (N.of_nat (size m)) (c_expected cfg) <= END_OF_SHARDS * EXPECTED_CAPACITY.

Lemma merge_small_spec cfg x m r w mf (C : fs -> Prop) (Q : router * bool -> fs -> Prop) :
  Inv cfg x m r w -> total_small m -> items_fit cfg m ->
  (forall w', DiskInv cfg false m w' -> C w') ->
  (forall w' r', Inv cfg x m r' w' -> Q (r', negb (len (leaves r') =? len (leaves r))) w') ->
  wpc (merge_small_shards cfg r mf) C Q (merge_err x) w.
Proof.
  intros (Hwf & Hrun) Hts Hfit HC HQ. unfold merge_small_shards.
  apply wpc_bind. apply (router_stats_spec cfg x m _ r w 0 16); auto.
  { intros w' HC'. apply HC. by eapply leafC_disk'. }
  intros w1 r1 sts HQ1 Id1 Sp1 St1. apply Inv_leafQ in HQ1 as [Hos1 HI1].
  assert (C w1) as HC1 by (apply HC; split; [apply HI1|]; eapply run_disk'; apply HI1).
  assert (len sts = len (leaves r)) as Elen.
  { unfold len. f_equal. rewrite <- (Forall2_length _ _ _ St1).
    rewrite <- (map_length span_of (leaves r1)), <- (map_length span_of (leaves r)). by rewrite Sp1. }
  destruct (tree_entries cfg x m w1 r1 0 16 sts) as (es & Hes & Hcnt); [apply HI1|apply HI1|done|done|].
  apply holds_all in Hes.
  apply wpc_bind.
  assert (HP : x = false -> merge_err x EPanic) by (intros ->; by right).
  assert (Hitems : (exists n, sum_items sts = Ok n /\ (x = true -> n = N.of_nat (size m))) \/ (x = false /\ sum_items sts = Err EPanic)).
  { destruct x.
    - destruct (Hcnt eq_refl) as (_ & A2 & A3). destruct (sum_items_ok _ A3) as (n & A4 & A5). left. exists n.
      split; [done|]. intros _. rewrite <- (holds_size m es Hes). lia.
    - assert (forall l, (exists n, sum_items l = Ok n) \/ sum_items l = Err EPanic) as Hx.
      { induction l as [|st l IH]; [left; by exists 0|]. cbn [sum_items]. unfold num_items.
        destruct (ss_ins st <? ss_rem st); [by right|]. cbn [rbind].
        destruct IH as [[n ->]| ->]; cbn; [left; eauto|by right]. }
      destruct (Hx sts) as [[n ->]| ->]; [left; exists n; split; [done|intros [=]]|by right]. }
  destruct Hitems as [(n & -> & Hn)|[Hx ->]].
  2:{ cbn. split; [done|]. by apply HP. }
  apply wpc_ret; [done|]. apply wpc_bind.
  unfold calc_num_shards.
  destruct (calc_step (N.max n (c_expected cfg))) as [step|e] eqn:Es.
  2:{ cbn. split; [done|]. assert (e = EPanic) as ->.
      { unfold calc_step in Es. destruct (_ =? 0) in Es; congruence. }
      destruct x; [|by apply HP]. exfalso. rewrite (Hn eq_refl) in Es. unfold items_fit in Hfit.
      unfold calc_step in Es. destruct (N.leb_spec (N.max (N.of_nat (size m)) (c_expected cfg)) EXPECTED_CAPACITY) as [Hc|Hc].
      - cbn in Es. done.
      - destruct (N.eqb_spec (END_OF_SHARDS * EXPECTED_CAPACITY / N.max (N.of_nat (size m)) (c_expected cfg)) 0) as [Hz|Hz]; [|done].
        apply N.div_small_iff in Hz; unfold EXPECTED_CAPACITY in *; lia. }
  cbn [rbind]. apply wpc_ret; [done|].
  destruct (len sts <=? END_OF_SHARDS / step).
  { apply wpc_ret; [done|]. replace false with (negb (len (leaves r1) =? len (leaves r))).
    - by apply HQ.
    - apply negb_false_iff, N.eqb_eq. rewrite <- Elen. unfold len. by rewrite (Forall2_length _ _ _ St1). }
  destruct HI1 as (Hwf1 & Hrun1).
  apply wpc_bind. apply (merge_vertex_spec cfg x m mf _ r1 _ w1 0 16); auto.
  { by left. }
  { intros w' HC'. apply HC. by eapply leafC_disk'. }
  intros w2 o rem2 HM. apply mergeQ_run in HM as (r2 & HQ2 & Id2 & _).
  apply Inv_leafQ in HQ2 as [Hos2 HI2].
  apply wpc_bind. apply (load_spec cfg x m w2); auto.
  { split; [apply HI2|]. eapply run_disk. apply HI2. }
  { by eapply idle_disk_small. }
  intros w3 shs A1 A3 A4 A5.
  destruct (treeify_ok shs A3) as (r3 & Hr3 & Ht3 & Hl3).
  assert (Inv cfg x m r3 w3) as HI3.
  { split; [done|]. split; [done|]. by rewrite Hl3. }
  assert (C w3) as HC3 by (apply HC; split; [done|]; eapply run_disk'; apply HI3).
  apply wpc_bind. eapply wpc_lift_ok; [exact Hr3|done|]. apply wpc_ret; [done|]. rewrite Elen. by apply HQ.
Qed.
