(** Creating a new store, and clearing one. *)
From Verif Require Import Base Hashing HashingProofs Fs Shard Router RouterPure Wpc Spec FileRep RowOps
  Compact Inv ShardOps Split Insert Open Merge.

(** A directory without any shard. *)
Definition nocore (w : fs) : Prop :=
  forall a b, fs_dir w !! FShard a b = None /\ fs_dir w !! FCompact a b = None.

Lemma shard_open_new cfg s e w (Q : shard -> fs -> Prop) E :
  fs_dir w !! FShard s e = None -> fs_dir w !! FCompact s e = None ->
  (forall f, blank f -> hdr_ok f -> Q (Shard s e (fs_next w) None) (new_file (FShard s e) f w)) ->
  wpc (shard_open cfg s e true) (fun _ => True) Q E w.
Proof.
  intros Hs Hc HQ. unfold shard_open.
  assert (run_eff (ECreate (FShard s e) true) w = (new_file (FShard s e) file_empty w, fs_next w)) as Er.
  { cbn. rewrite Hs. done. }
  apply wpc_bind. apply wpc_eff; rewrite ?Er; cbn [fst snd]; [done|done|].
  assert (Hstep : forall (u : fupd) f (Q' : unit -> fs -> Prop),
    Q' tt (new_file (FShard s e) (apply_fupd u f) w) ->
    wpc (upd (fs_next w) u) (fun _ => True) Q' E (new_file (FShard s e) f w)).
  { intros u f Q' HQ'. eapply wpc_upd; [apply lookup_insert|done|done|].
    rewrite set_new_file. exact HQ'. }
  apply wpc_bind. eapply wpc_get_file; [apply lookup_insert|done|].
  change (f_len file_empty =? 0) with true. cbv iota.
  apply wpc_bind. apply wpc_ret; [done|]. cbn [N.eqb negb andb].
  apply wpc_bind. apply wpc_ret; [done|]. cbn [N.eqb].
  apply wpc_bind. apply Hstep.
  apply wpc_bind. unfold mmap_new.
  apply wpc_bind. apply Hstep. apply wpc_bind. apply Hstep. apply Hstep.
  apply wpc_bind. set (f := apply_fupd UVersion _).
  assert (run_eff (ERemove (FCompact s e)) (new_file (FShard s e) f w) = (new_file (FShard s e) f w, false)) as Er2.
  { cbn. rewrite lookup_insert_ne by done. by rewrite Hc. }
  apply wpc_eff; rewrite ?Er2; cbn [fst snd]; [done|done|].
  apply wpc_ret; [done|]. apply HQ; [done|]. split; [done|]. split; [done|]. subst f. cbn. lia.
Qed.

Lemma blank_hold cfg s e : all_hold cfg ∅ s e (fun _ => padded []).
Proof.
  intros r Hr. rewrite entries_padded. split; [constructor|]. intros k v. rewrite lookup_empty.
  split; [intros H; by apply elem_of_nil in H|by intros [? _]].
Qed.

Lemma open_ranges_new cfg E rs : dyadic 0 16 rs -> forall todo dn shs w (Q : list shard -> fs -> Prop),
  rs = dn ++ todo -> wf w ->
  (forall a b, is_Some (fs_dir w !! FShard a b) -> (a, b) ∈ dn) -> (forall a b, fs_dir w !! FCompact a b = None) ->
  map span_of shs = dn -> Forall (leaf_ok cfg true ∅ w) shs ->
  (forall w' shs', wf w' -> run_names w' 0 END_OF_SHARDS rs -> map span_of (shs ++ shs') = rs ->
      Forall (leaf_ok cfg true ∅ w') (shs ++ shs') -> Q shs' w') ->
  wpc (open_ranges cfg true todo) (fun _ => True) Q E w.
Proof.
  intros Hd. induction todo as [|[s e] todo IH]; intros dn shs w Q Hrs Hwf Hsn Hcn Hspan Hl HQ; cbn [open_ranges].
  - rewrite app_nil_r in Hrs. apply wpc_ret; [done|]. apply HQ; rewrite ?app_nil_r; auto; [|congruence].
    split; intros a b Ha _; [rewrite Hrs; auto|]. rewrite Hcn in Ha. by destruct Ha.
  - assert ((s, e) ∈ rs) as Hin by (rewrite Hrs; apply elem_of_app; right; left).
    pose proof (dyadic_bounds _ _ _ _ _ Hd Hin) as (_ & Hlt & Hle).
    assert (NoDup rs) as Hnd.
    { pose proof (dyadic_sorted _ _ _ Hd) as Hs. clear -Hs. induction Hs as [|x l Hs IH Hx]; constructor; auto.
      intros Hin. rewrite Forall_forall in Hx. apply Hx in Hin. unfold strict_incr in Hin. lia. }
    assert (Hni : (s, e) ∉ dn).
    { intros Hx. rewrite Hrs in Hnd. apply NoDup_app in Hnd as (_ & Hnd & _). apply (Hnd _ Hx). left. }
    assert (Hsep : forall a b, (a, b) ∈ dn -> a < b /\ (b <= s \/ e <= a)).
    { intros a b Hab. assert ((a, b) ∈ rs) as Hab' by (rewrite Hrs; apply elem_of_app; by left).
      pose proof (dyadic_bounds _ _ _ _ _ Hd Hab'). split; [lia|].
      destruct (decide (overlap a b s e)) as [Ho|Ho]; [|unfold overlap in Ho; lia].
      exfalso. pose proof (dyadic_overlap _ _ _ _ _ _ _ Hd Hab' Hin Ho) as [= -> ->]. done. }
    assert (fs_dir w !! FShard s e = None) as Hs0.
    { destruct (fs_dir w !! FShard s e) eqn:Ex; [|done]. exfalso. apply Hni, Hsn. eauto. }
    apply wpc_bind. apply shard_open_new; [done|apply Hcn|]. intros f Hbl Hh.
    set (w' := new_file (FShard s e) f w).
    assert (wf w') as Hwf' by (apply wf_new_file; [done|done|cbn; unfold END_OF_SHARDS; change (0 + 2 ^ N.of_nat 16) with 65536 in Hle; lia]).
    assert (outside_same s e w w') as Ho by (apply outside_same_new_file; [done|apply outside_self]).
    assert (fs_dir w' !! FShard s e = Some (fs_next w)) as D1 by apply lookup_insert.
    assert (Hc' : forall a b, fs_dir w' !! FCompact a b = None).
    { intros a b. unfold w', new_file. cbn [fs_dir]. by rewrite lookup_insert_ne. }
    apply wpc_bind. apply (IH (dn ++ [(s, e)]) (shs ++ [Shard s e (fs_next w) None]) w'); auto.
    + by rewrite <- app_assoc.
    + intros a b Ha. unfold w', new_file in Ha. cbn [fs_dir] in Ha. apply elem_of_app.
      rewrite lookup_insert_is_Some' in Ha. destruct Ha as [[= -> ->]|Ha]; [right; left|left; auto].
    + by rewrite map_app, Hspan.
    + apply Forall_app. split.
      * apply Forall_forall. intros sh Hsh. rewrite Forall_forall in Hl.
        assert (span_of sh ∈ dn) as Hx by (rewrite <- Hspan; by apply elem_of_list_fmap_1).
        destruct (Hsep _ _ Hx) as [A1 A2]. eapply leaf_frame; [exact Ho|exact A1|exact A2|done|by apply Hl].
      * constructor; [|done]. exists f, (fun _ => padded []). cbn [sh_start sh_end sh_ino sh_tgt].
        split; [done|]. split; [apply lookup_insert|]. split; [done|]. split; [by apply blank_rep|].
        split; [by apply blank_acct|]. split; [destruct Hbl as (_ & -> & _); done|]. split; [done|apply blank_hold].
    + intros w2 shs' A1 A3 A4 A5. rewrite <- app_assoc in A4, A5. cbn [app] in A4, A5.
      apply wpc_ret; [done|]. by apply HQ.
Qed.

Lemma create_initial_spec cfg w (Q : list shard -> fs -> Prop) E :
  wf w -> nocore w -> c_expected cfg <= END_OF_SHARDS * EXPECTED_CAPACITY ->
  (forall w' shs, wf w' -> dyadic 0 16 (map span_of shs) ->
     run_names w' 0 END_OF_SHARDS (map span_of shs) -> Forall (leaf_ok cfg true ∅ w') shs ->
     (exists j, (j <= 16)%nat /\ calc_step (c_expected cfg) = Ok (2 ^ N.of_nat j) /\ length shs = (2 ^ (16 - j))%nat) ->
     Q shs w') ->
  wpc (create_initial_shards cfg) (fun _ => True) Q E w.
Proof.
  intros Hwf Hnc Hex HQ. destruct (calc_step_spec _ Hex) as (j & Hj & Ej).
  unfold create_initial_shards. rewrite Ej. apply wpc_bind. apply wpc_ret; [done|].
  pose proof (initial_spans_dyadic j Hj) as Hd. pose proof (initial_spans_ok j Hj) as Eok.
  set (rs := initial_spans _ _ _) in *.
  apply (open_ranges_new cfg E rs Hd rs [] [] w); auto.
  - intros a b [i Hi]. rewrite (proj1 (Hnc a b)) in Hi. done.
  - intros a b. apply Hnc.
  - intros w' shs A1 A3 A4 A5. cbn [app] in *. apply HQ; auto.
    + by rewrite A4.
    + by rewrite A4.
    + exists j. split; [done|]. split; [done|]. rewrite <- (map_length span_of), A4, Eok.
      by rewrite map_length, seq_length.
Qed.

Lemma create_treeify cfg w shs :
  wf w -> dyadic 0 16 (map span_of shs) ->
  run_names w 0 END_OF_SHARDS (map span_of shs) -> Forall (leaf_ok cfg true ∅ w) shs ->
  exists r, treeify shs = Ok r /\ Inv cfg true ∅ r w /\ leaves r = shs.
Proof.
  intros A1 A3 A4 A5. destruct (treeify_ok shs A3) as (r & Hr & Ht & Hl). exists r. split; [done|].
  split; [|done]. split; [done|]. split; [done|]. by rewrite Hl.
Qed.

Lemma nocore_ranges w : nocore w -> shard_ranges (dir_names w) = [].
Proof.
  intros H. destruct (shard_ranges (dir_names w)) as [|r l] eqn:E; [done|]. exfalso.
  assert (r ∈ shard_ranges (dir_names w)) as Hr by (rewrite E; left).
  apply shard_ranges_spec in Hr. apply (proj2 (dir_names_spec w)) in Hr. rewrite (proj1 (H _ _)) in Hr. by destruct Hr.
Qed.

(** Opening a directory that holds no shard: router.rs:81-98. *)
Lemma router_new_fresh cfg w (Q : router -> fs -> Prop) E :
  wf w -> nocore w -> c_expected cfg <= END_OF_SHARDS * EXPECTED_CAPACITY ->
  (forall w' r, Inv cfg true ∅ r w' ->
     (exists j, (j <= 16)%nat /\ calc_step (c_expected cfg) = Ok (2 ^ N.of_nat j) /\ length (leaves r) = (2 ^ (16 - j))%nat) ->
     Q r w') ->
  wpc (router_new cfg) (fun _ => True) Q E w.
Proof.
  intros Hwf Hnc Hex HQ. destruct (dir_names_spec w) as [Hnd Hin].
  unfold router_new. apply wpc_bind. unfold load. apply wpc_bind. apply wpc_snap; [done|].
  apply wpc_bind. apply (load_scan_spec w); auto.
  { apply core_same_refl. }
  { intros n Hn. by apply Hin. }
  intros w1 Hwf1 Hc1 Hsub1 Htmp1. rewrite (nocore_ranges w Hnc).
  change (consolidate_ranges []) with (@nil range, @nil range). cbv iota beta.
  apply wpc_bind. apply wpc_ret; [done|]. apply wpc_ret; [done|].
  apply wpc_bind. apply create_initial_spec; auto.
  - intros a b. rewrite (proj1 (Hc1 (FShard a b) I)), (proj1 (Hc1 (FCompact a b) I)). apply Hnc.
  - intros w' shs A1 A3 A4 A5 A6. destruct (create_treeify cfg w' shs) as (r & Hr & HI & Hl); auto.
    eapply wpc_lift_ok; [exact Hr|done|]. apply HQ; [done|]. by rewrite Hl.
Qed.

(** ** [clear]: router.rs:297-325 *)
Definition clearable (n : fname) : bool :=
  match n with FShard _ _ | FCompact _ _ | FBottom _ _ | FTop _ _ => true | _ => false end.
Lemma clear_files_spec E names : forall w (Q : unit -> fs -> Prop),
  wf w -> NoDup names -> (forall n, n ∈ names -> is_Some (fs_dir w !! n)) ->
  (forall w', wf w' -> (forall n i, fs_dir w' !! n = Some i -> fs_dir w !! n = Some i) ->
     (forall n, n ∈ names -> clearable n = true -> fs_dir w' !! n = None) -> Q tt w') ->
  wpc (clear_files names) (fun _ => True) Q E w.
Proof.
  induction names as [|n names IH]; intros w Q Hwf Hnd Hin HQ; cbn [clear_files].
  - apply wpc_ret; [done|]. apply HQ; auto. intros n Hn. by apply elem_of_nil in Hn.
  - apply NoDup_cons in Hnd as [Hn Hnd]. destruct (Hin n) as [i Hi]; [by left|].
    assert (Hskip : clearable n = false -> wpc (clear_files names) (fun _ => True) Q E w).
    { intros Ht. apply IH; auto.
      - intros n' Hn'. apply Hin. by right.
      - intros w' A1 A2 A3. apply HQ; auto. intros n' [->|Hn']%elem_of_cons Ht'; [congruence|auto]. }
    assert (Hrem : clearable n = true -> wpc (pbind (remove_file n) (fun _ => clear_files names)) (fun _ => True) Q E w).
    { intros Ht. apply wpc_bind. eapply wpc_remove; [exact Hi|done|done|]. apply IH; auto.
      - by apply (wf_remove n).
      - intros n' Hn'. cbn. rewrite lookup_delete_ne by (intros ->; done). apply Hin. by right.
      - intros w' A1 A2 A3. apply HQ; auto.
        + intros n' j Hj. apply A2 in Hj. cbn in Hj. by apply lookup_delete_Some in Hj as [_ Hj].
        + intros n' [->|Hn']%elem_of_cons Ht'; [|auto].
          destruct (fs_dir w' !! n) eqn:Ex; [|done]. apply A2 in Ex. cbn in Ex. by rewrite lookup_delete in Ex. }
    destruct n; [by apply Hrem..|by apply Hskip|by apply Hskip].
Qed.

Lemma router_clear_spec cfg w (Q : router -> fs -> Prop) E :
  wf w -> c_expected cfg <= END_OF_SHARDS * EXPECTED_CAPACITY ->
  (forall w' r, Inv cfg true ∅ r w' -> Q r w') ->
  wpc (router_clear cfg) (fun _ => True) Q E w.
Proof.
  intros Hwf Hex HQ. destruct (dir_names_spec w) as [Hnd Hin].
  unfold router_clear. apply wpc_bind. apply wpc_snap; [done|].
  apply wpc_bind. apply clear_files_spec; auto.
  { intros n Hn. by apply Hin. }
  intros w1 Hwf1 Hsub1 Hgone.
  assert (Hx : forall n, clearable n = true -> fs_dir w1 !! n = None).
  { intros n Hn. destruct (fs_dir w1 !! n) as [i|] eqn:Ei; [|done]. exfalso.
    pose proof (Hsub1 _ _ Ei) as Ei'. rewrite (Hgone n) in Ei; [done| |done]. apply Hin. eauto. }
  apply wpc_bind. apply create_initial_spec; auto.
  - intros a b. split; by apply Hx.
  - intros w' shs A1 A3 A4 A5 A6. destruct (create_treeify cfg w' shs) as (r & Hr & HI & Hl); auto.
    eapply wpc_lift_ok; [exact Hr|done|]. by apply HQ.
Qed.
