(** The tree of shards when one leaf is replaced, and the invariant of the directory and of each
    leaf while several threads are at work. *)
From Verif Require Import Base Hashing HashingProofs Fs Shard Router RouterPure Limits Wpc Spec FileRep RowOps Compact Inv ShardOps
  Insert Conc ConcSpec ConcLocal ConcFile.
Implicit Types (m : kvmap) (os : list (option own)).

(** ** Replacing a leaf *)
Lemma put_leaf_tree root sel sub : forall s n,
  tree_ok root s n -> s <= sel < s + 2 ^ N.of_nat n ->
  exists k, sh_end (route root sel) = sh_start (route root sel) + 2 ^ N.of_nat k /\
    (tree_ok sub (sh_start (route root sel)) k -> tree_ok (put_leaf root sel sub) s n).
Proof.
  induction root as [sh|b IHb t IHt]; intros s n H Hsel; cbn [tree_ok route put_leaf] in *.
  - destruct H as [-> ->]. eauto.
  - destruct n as [|n]; [done|]. destruct H as [H1 H2]. rewrite pow2_succ in Hsel.
    rewrite (tree_rend b s n) by done. destruct (N.ltb_spec sel (s + 2 ^ N.of_nat n)).
    + destruct (IHb s n H1) as (k & E & Hk); [lia|]. exists k. split; [done|]. intros Hs. cbn [tree_ok]. auto.
    + destruct (IHt _ n H2) as (k & E & Hk); [lia|]. exists k. split; [done|]. intros Hs. cbn [tree_ok]. auto.
Qed.
Lemma put_leaf_in root sel sub sh : forall s n,
  tree_ok root s n -> s <= sel < s + 2 ^ N.of_nat n ->
  In sh (leaves (put_leaf root sel sub)) ->
  In sh (leaves sub) \/ (In sh (leaves root) /\ (sh_end sh <= sh_start (route root sel) \/ sh_end (route root sel) <= sh_start sh)).
Proof.
  induction root as [sh'|b IHb t IHt]; intros s n H Hsel Hin; cbn [tree_ok route put_leaf leaves] in *; [auto|].
  destruct n as [|n]; [done|]. destruct H as [H1 H2]. rewrite pow2_succ in Hsel.
  rewrite (tree_rend b s n) in * by done. destruct (N.ltb_spec sel (s + 2 ^ N.of_nat n)).
  - destruct (route_in b s n sel H1) as [R1 R2]; [lia|]. pose proof (leaves_bounds _ _ _ _ H1 R1).
    cbn [leaves] in Hin. apply in_app_iff in Hin as [Hin|Hin].
    + destruct (IHb s n H1) as [G|[G1 G2]]; [lia|done|auto|]. right. rewrite in_app_iff. auto.
    + right. rewrite in_app_iff. pose proof (leaves_bounds _ _ _ _ H2 Hin). split; [auto|]. lia.
  - destruct (route_in t _ n sel H2) as [R1 R2]; [lia|]. pose proof (leaves_bounds _ _ _ _ H2 R1).
    cbn [leaves] in Hin. apply in_app_iff in Hin as [Hin|Hin].
    + right. rewrite in_app_iff. pose proof (leaves_bounds _ _ _ _ H1 Hin). split; [auto|]. lia.
    + destruct (IHt _ n H2) as [G|[G1 G2]]; [lia|done|auto|]. right. rewrite in_app_iff. auto.
Qed.
Lemma put_leaf_new root sel sub sh : In sh (leaves sub) -> In sh (leaves (put_leaf root sel sub)).
Proof.
  intros H. induction root as [sh'|b IHb t IHt]; cbn [put_leaf]; [done|].
  destruct (sel <? rend b); cbn [leaves]; rewrite in_app_iff; auto.
Qed.
Lemma put_leaf_old root sel sub sh :
  In sh (leaves root) -> sh <> route root sel -> In sh (leaves (put_leaf root sel sub)).
Proof.
  intros H Hne. induction root as [sh'|b IHb t IHt]; cbn [put_leaf leaves route] in *.
  - destruct H as [->|[]]. done.
  - apply in_app_iff in H. destruct (sel <? rend b); cbn [leaves]; rewrite in_app_iff; destruct H; auto.
Qed.

(** ** The directory *)
Record skel (w : fs) (root : router) : Prop := Skel {
  sk_wf : wf w;
  sk_tree : tree_ok root 0 16;
  sk_names : run_names w 0 (0 + 2 ^ N.of_nat 16) (map span_of (leaves root))
}.
Lemma skel_leaf w root sh : skel w root -> In sh (leaves root) ->
  sh_start sh < sh_end sh /\ sh_end sh <= 65536 /\ (forall sel, sh_start sh <= sel < sh_end sh -> route root sel = sh).
Proof.
  intros [_ H _] Hin. pose proof (leaves_bounds _ _ _ _ H Hin) as HB. change (0 + 2 ^ N.of_nat 16) with 65536 in HB. split; [lia|]. split; [lia|].
  intros sel Hsel. by eapply leaf_unique.
Qed.
Lemma skel_route w root sel : skel w root -> sel < 65536 ->
  In (route root sel) (leaves root) /\ sh_start (route root sel) <= sel < sh_end (route root sel).
Proof. intros [_ H _] Hs. eapply route_in; [exact H|]. change (0 + 2 ^ N.of_nat 16) with 65536. lia. Qed.
Lemma skel_same w root a b : skel w root -> In a (leaves root) -> In b (leaves root) -> sh_start a = sh_start b -> a = b.
Proof.
  intros Hs Ha Hb E. destruct (skel_leaf _ _ _ Hs Ha) as (A1 & A2 & A3). destruct (skel_leaf _ _ _ Hs Hb) as (B1 & B2 & B3).
  etrans; [symmetry; apply (A3 (sh_start a)); lia|apply B3; lia].
Qed.
Lemma skel_disjoint w root a b : skel w root -> In a (leaves root) -> In b (leaves root) -> a <> b ->
  sh_end a <= sh_start b \/ sh_end b <= sh_start a.
Proof.
  intros Hs Ha Hb Hne. destruct (skel_leaf _ _ _ Hs Ha) as (A1 & A2 & A3). destruct (skel_leaf _ _ _ Hs Hb) as (B1 & B2 & B3).
  destruct (decide (sh_end a <= sh_start b)) as [|N1]; [auto|]. destruct (decide (sh_end b <= sh_start a)) as [|N2]; [auto|].
  destruct Hne. etrans; [symmetry; apply (A3 (N.max (sh_start a) (sh_start b))); lia|apply B3; lia].
Qed.
Lemma skel_solo w root sh : skel w root -> In sh (leaves root) -> solo w (sh_start sh) (sh_end sh).
Proof.
  intros Hs Hin. destruct (skel_leaf _ _ _ Hs Hin) as (A1 & A2 & A3). pose proof Hs as [_ _ [N1 N2]].
  assert (G : forall a b, overlap a b (sh_start sh) (sh_end sh) -> (overlap a b 0 (0 + 2 ^ N.of_nat 16) -> (a, b) ∈ map span_of (leaves root)) ->
     (a, b) ∈ [(sh_start sh, sh_end sh)]).
  { intros a b Ho Hi. assert ((a, b) ∈ map span_of (leaves root)) as H.
    { apply Hi. unfold overlap in *. change (0 + 2 ^ N.of_nat 16) with 65536. lia. }
    apply elem_of_list_In, in_map_iff in H as (sh' & E & H'). unfold span_of in E. injection E as <- <-.
    assert (sh' = sh) as ->.
    { destruct (skel_leaf _ _ _ Hs H') as (B1 & B2 & B3). unfold overlap in Ho.
      etrans; [symmetry; apply (B3 (N.max (sh_start sh) (sh_start sh'))); lia|apply A3; lia]. }
    by left. }
  split; intros a b H Ho; apply G; auto.
Qed.
Lemma skel_set_file w root i f : skel w root -> is_Some (fs_files w !! i) -> skel (set_file i f w) root.
Proof. intros [H1 H2 H3] Hi. split; [by apply wf_set_file|done|done]. Qed.

(** Replacing a leaf by a leaf or two, the directory changing accordingly. *)
Lemma skel_put w w' root sel sub k :
  skel w root -> sel < 65536 -> let cur := route root sel in
  sh_end cur = sh_start cur + 2 ^ N.of_nat k ->
  wf w' -> outside_same (sh_start cur) (sh_end cur) w w' ->
  tree_ok sub (sh_start cur) k -> run_names w' (sh_start cur) (sh_end cur) (map span_of (leaves sub)) ->
  skel w' (put_leaf root sel sub).
Proof.
  intros Hs Hsel cur He Hwf Hos Hsub [M1 M2]. pose proof Hs as [_ Ht [N1 N2]].
  destruct (skel_route _ _ _ Hs Hsel) as [R1 R2]. fold cur in R1, R2.
  destruct (put_leaf_tree root sel sub 0 16 Ht) as (k' & E & Hk); [change (0 + 2 ^ N.of_nat 16) with 65536; lia|]. fold cur in E, Hk.
  assert (k' = k) as ->. { apply pow2_inj. lia. }
  split; [done|auto|].
  assert (G : forall a b, a < b -> (overlap a b (sh_start cur) (sh_end cur) -> (a, b) ∈ map span_of (leaves sub)) ->
    (~ overlap a b (sh_start cur) (sh_end cur) -> (a, b) ∈ map span_of (leaves root)) ->
    (a, b) ∈ map span_of (leaves (put_leaf root sel sub))).
  { intros a b Hab H1 H2. destruct (decide (overlap a b (sh_start cur) (sh_end cur))) as [Ho|Ho].
    - specialize (H1 Ho). apply elem_of_list_In, in_map_iff in H1 as (sh & E1 & H1). apply elem_of_list_In, in_map_iff.
      exists sh. split; [done|]. by apply put_leaf_new.
    - specialize (H2 Ho). apply elem_of_list_In, in_map_iff in H2 as (sh & E1 & H2). apply elem_of_list_In, in_map_iff.
      exists sh. split; [done|]. apply put_leaf_old; [done|]. intros ->. fold cur in E1. injection E1 as <- <-.
      apply Ho. unfold overlap. lia. }
  split; intros a b Ha Hov; destruct (wf_names _ Hwf a b) as [Hab Hb]; auto.
  - apply G; [done|auto|]. intros Ho. apply N1; [|done]. destruct (Hos (FShard a b)) as [E1 _].
    { cbn. split; [done|]. unfold overlap in Ho. lia. } by rewrite <- E1.
  - apply G; [done|auto|]. intros Ho. apply N2; [|done]. destruct (Hos (FCompact a b)) as [E1 _].
    { cbn. split; [done|]. unfold overlap in Ho. lia. } by rewrite <- E1.
Qed.

(** ** A leaf under several threads *)
(** Nothing changed about what the owners of file [i] still owe and are writing. *)
Definition os_same (i : ino) (os os' : list (option own)) : Prop :=
  (tot o_debt i os' = tot o_debt i os /\ tot o_ci i os' = tot o_ci i os /\ tot o_cr i os' = tot o_cr i os) /\
  (forall b ow, o_ino ow = i -> o_pend ow <> None -> os' !! b = Some (Some ow) -> os !! b = Some (Some ow)).
Lemma os_same_refl i os : os_same i os os.
Proof. done. Qed.
Lemma os_same_clean i os a o o' :
  os !! a = Some o -> (forall ow, o = Some ow -> o_ino ow <> i \/ clean ow) -> (forall ow, o' = Some ow -> o_ino ow <> i \/ clean ow) ->
  os_same i os (<[a := o']> os).
Proof.
  intros Ha H1 H2. split.
  - assert (G : forall g : own -> N, (forall ow, clean ow -> g ow = 0) -> tot g i (<[a := o']> os) = tot g i os).
    { intros g Hg. pose proof (tot_insert g i os a o o' Ha) as H.
      assert (part g i o = 0) as E1.
      { destruct o as [ow|]; [|done]. cbn. destruct (decide (o_ino ow = i)); [|done]. destruct (H1 ow eq_refl); [done|auto]. }
      assert (part g i o' = 0) as E2.
      { destruct o' as [ow|]; [|done]. cbn. destruct (decide (o_ino ow = i)); [|done]. destruct (H2 ow eq_refl); [done|auto]. }
      lia. }
    split; [|split]; apply G; intros ow (_ & ? & ? & ?); done.
  - intros b ow Hi Hp Hb. destruct (decide (b = a)) as [->|Hne].
    + rewrite list_lookup_insert in Hb by (by eapply lookup_lt_Some). injection Hb as ->.
      destruct (H2 ow eq_refl) as [?|(? & _)]; done.
    + by rewrite list_lookup_insert_ne in Hb.
Qed.
Lemma os_same_insert i os a o o' :
  os !! a = Some o -> (forall ow, o = Some ow -> o_ino ow <> i) -> (forall ow, o' = Some ow -> o_ino ow <> i) ->
  os_same i os (<[a := o']> os).
Proof. intros Ha H1 H2. eapply os_same_clean; [exact Ha|..]; auto. Qed.
Lemma os_same_app i os : os_same i os (os ++ [None]).
Proof.
  split.
  - rewrite !tot_app. cbn. lia.
  - intros b ow Hi _ Hb. apply lookup_app_Some in Hb as [Hb|[_ Hb]]; [done|].
    by apply list_lookup_singleton_Some in Hb as [_ Hb].
Qed.
Lemma os_same_trans i os1 os2 os3 : os_same i os1 os2 -> os_same i os2 os3 -> os_same i os1 os3.
Proof. intros [(? & ? & ?) A2] [(? & ? & ?) B2]. split; [split; [|split]; congruence|]. intros b ow Hi Hp Hb. eauto. Qed.
Lemma regs_os f i os os' : os_same i os os' -> regs f i os -> regs f i os'.
Proof.
  intros [_ H] [R1 R2]. split.
  - intros a ow off n bs Ha Hi Hp. apply (R1 a ow off n bs); auto. apply H; [done|congruence|done].
  - intros a b ow ow' off n bs off' n' bs' Hab Ha Hi Hp Hb Hi' Hp'. apply (R2 a b ow ow' off n bs off' n' bs'); auto.
    + apply H; [done|congruence|done].
    + apply H; [done|congruence|done].
Qed.
Lemma cacct_os x f L i os os' : os_same i os os' -> cacct x f L i os -> cacct x f L i os'.
Proof. intros [(E1 & E2 & E3) _]. unfold cacct. by rewrite E1, E2, E3. Qed.

Definition cleaf (cfg : config) (x : bool) m (w : fs) os (busy : bool) (sh : shard) : Prop :=
  let s := sh_start sh in let e := sh_end sh in
  exists f L,
    fs_dir w !! FShard s e = Some (sh_ino sh) /\ fs_files w !! sh_ino sh = Some f /\
    hdr_ok f /\ file_rep cfg f L /\ cacct x f L (sh_ino sh) os /\ regs f (sh_ino sh) os /\
    match sh_tgt sh with
    | None => fs_dir w !! FCompact s e = None /\ all_hold cfg m s e L
    | Some (t, _) =>
      fs_dir w !! FCompact s e = Some t /\
      exists ft Lt j, fs_files w !! t = Some ft /\ hdr_ok ft /\ cacct x ft Lt t os /\ regs ft t os /\
        dcomp cfg false m (home cfg s e) L ft Lt j /\ (busy = false -> j = 0%nat)
    end.

(** Which files a leaf has. *)
Definition has_file (sh : shard) (i : ino) : Prop := sh_ino sh = i \/ fst <$> sh_tgt sh = Some i.
Lemma cleaf_dir cfg x m w os bz sh i : cleaf cfg x m w os bz sh -> has_file sh i ->
  exists nm, fs_dir w !! nm = Some i /\ (nm = FShard (sh_start sh) (sh_end sh) \/ nm = FCompact (sh_start sh) (sh_end sh)).
Proof.
  intros (f & L & H1 & H2 & H3 & H4 & H5 & H6 & H7) [<-|Ht]; [eauto|].
  destruct (sh_tgt sh) as [[t b]|]; [|done]. cbn in Ht. injection Ht as <-. destruct H7 as [H7 _]. eauto.
Qed.
Lemma cleaf_ne cfg x m w os bz sh t b : wf w -> cleaf cfg x m w os bz sh -> sh_tgt sh = Some (t, b) -> sh_ino sh <> t.
Proof.
  intros Hwf (f & L & H1 & H2 & H3 & H4 & H5 & H6 & H7) Et. rewrite Et in H7. destruct H7 as [H7 _].
  by eapply comp_files_ne.
Qed.
Lemma same_leaf cfg x m w root os bz bz' a b i :
  skel w root -> In a (leaves root) -> In b (leaves root) ->
  cleaf cfg x m w os bz a -> cleaf cfg x m w os bz' b -> has_file a i -> has_file b i -> a = b.
Proof.
  intros Hs Ha Hb La Lb Fa Fb.
  destruct (cleaf_dir _ _ _ _ _ _ _ _ La Fa) as (na & Da & Na).
  destruct (cleaf_dir _ _ _ _ _ _ _ _ Lb Fb) as (nb & Db & Nb).
  pose proof (wf_inj _ (sk_wf _ _ Hs) _ _ _ Da Db) as E. eapply skel_same; [exact Hs|done|done|].
  destruct Na as [->| ->], Nb as [->| ->]; congruence.
Qed.

Lemma cleaf_os cfg x m w os os' bz sh :
  (forall i, has_file sh i -> os_same i os os') -> cleaf cfg x m w os bz sh -> cleaf cfg x m w os' bz sh.
Proof.
  intros Ho (f & L & H1 & H2 & H3 & H4 & H5 & H6 & H7). exists f, L.
  assert (os_same (sh_ino sh) os os') as O1 by (apply Ho; by left).
  repeat (split; [done|]). split; [by eapply cacct_os|]. split; [by eapply regs_os|].
  destruct (sh_tgt sh) as [[t b]|] eqn:Et; [|done]. destruct H7 as (H7 & ft & Lt & j & T1 & T2 & T3 & T4 & T5 & T6).
  assert (os_same t os os') as O2 by (apply Ho; right; by rewrite Et).
  split; [done|]. exists ft, Lt, j. split; [done|]. split; [done|]. split; [by eapply cacct_os|].
  split; [by eapply regs_os|]. done.
Qed.
Lemma cleaf_busy cfg x m w os bz bz' sh : (bz' = false -> bz = false) -> cleaf cfg x m w os bz sh -> cleaf cfg x m w os bz' sh.
Proof.
  intros Hb (f & L & H1 & H2 & H3 & H4 & H5 & H6 & H7). exists f, L. repeat (split; [done|]).
  destruct (sh_tgt sh) as [[t b]|]; [|done]. destruct H7 as (H7 & ft & Lt & j & T1 & T2 & T3 & T4 & T5 & T6).
  split; [done|]. exists ft, Lt, j. repeat (split; [done|]). auto.
Qed.

(** Other leaves are not affected: neither by a change of one file ... *)
Lemma cleaf_other_file cfg x m m' w os os' bz sh i f' :
  ~ has_file sh i -> (forall i', i' <> i -> os_same i' os os') ->
  (forall k, in_span cfg (sh_start sh) (sh_end sh) k -> m !! k = m' !! k) ->
  cleaf cfg x m w os bz sh -> cleaf cfg x m' (set_file i f' w) os' bz sh.
Proof.
  intros Hi Ho Hm Hl. assert (cleaf cfg x m w os' bz sh) as (f & L & H1 & H2 & H3 & H4 & H5 & H6 & H7).
  { eapply cleaf_os; [|exact Hl]. intros i' Hi'. apply Ho. by intros ->. }
  exists f, L. assert (sh_ino sh <> i) as Hn by (intros E; apply Hi; by left).
  cbn [set_file fs_dir fs_files]. rewrite lookup_insert_ne by done. repeat (split; [done|]).
  destruct (sh_tgt sh) as [[t b]|] eqn:Et.
  - destruct H7 as (H7 & ft & Lt & j & T1 & T2 & T3 & T4 & T5 & T6). split; [done|]. exists ft, Lt, j.
    rewrite lookup_insert_ne by (intros <-; apply Hi; right; by rewrite Et). repeat (split; [done|]). split; [|done].
    by eapply dcomp_ext.
  - destruct H7 as [H7 H8]. split; [done|]. by eapply all_hold_ext.
Qed.
(** ... nor by a change of the files of one leaf. *)
Lemma cleaf_frame cfg x m w w' os s e bz sh :
  outside_same s e w w' -> sh_start sh < sh_end sh -> sh_end sh <= s \/ e <= sh_start sh ->
  cleaf cfg x m w os bz sh -> cleaf cfg x m w' os bz sh.
Proof.
  intros Ho Hlt Hd (f & L & H1 & H2 & H3 & H4 & H5 & H6 & H7).
  destruct (Ho (FShard (sh_start sh) (sh_end sh))) as [A1 A2]; [cbn; auto|].
  destruct (Ho (FCompact (sh_start sh) (sh_end sh))) as [B1 B2]; [cbn; auto|].
  exists f, L. rewrite A1, B1, (A2 _ H1). repeat (split; [done|]).
  destruct (sh_tgt sh) as [[t b]|]; [|done].
  destruct H7 as (H7 & ft & Lt & j & T1 & T2). split; [done|]. exists ft, Lt, j. by rewrite (B2 _ H7).
Qed.

(** With no owner about, a leaf is as in the sequential store, and back. *)
Definition unowned (os : list (option own)) (sh : shard) : Prop :=
  forall a ow, os !! a = Some (Some ow) -> ~ has_file sh (o_ino ow).
Definition calm_leaf (w : fs) (sh : shard) : Prop :=
  forall f, fs_files w !! sh_ino sh = Some f ->
     match sh_tgt sh with
     | None => f_woff f + 81920 < 2 ^ 32
     | Some (t, _) => forall ft, fs_files w !! t = Some ft -> f_woff f + f_woff ft + 81920 < 2 ^ 32
     end.
Lemma cleaf_leaf_ok cfg x m w os sh :
  cleaf cfg x m w os false sh -> unowned os sh -> calm_leaf w sh -> leaf_ok cfg x m w sh.
Proof.
  intros (f & L & H1 & H2 & H3 & H4 & H5 & H6 & H7) Hu Hc. specialize (Hc f H2).
  assert (acct x f L) as Ha.
  { refine (proj1 (cacct_none x f L (sh_ino sh) os _) H5). intros a ow Ho E. apply (Hu _ _ Ho). left. done. }
  exists f, L. repeat (split; [done|]).
  destruct (sh_tgt sh) as [[t b]|] eqn:Et.
  - destruct H7 as (H7 & ft & Lt & j & T1 & T2 & T3 & T4 & T5 & T6). specialize (Hc ft T1).
    split; [lia|]. split; [done|]. exists ft, Lt. rewrite (T6 eq_refl) in T5. repeat (split; [done|]).
    destruct T5 as [D1 D2 D3 D4 D5 D6 D7]. split; auto.
    + refine (proj1 (cacct_none x ft Lt t os _) T3). intros a ow Ho E. apply (Hu _ _ Ho). right. rewrite Et. cbn. by rewrite E.
    + pose proof (rest_live_le L (f_cut ft)). destruct Ha as [Ha _]. lia.
  - split; [lia|]. done.
Qed.
Lemma regs_none f i os : (forall a ow, os !! a = Some (Some ow) -> o_ino ow <> i) -> regs f i os.
Proof.
  intros H. split.
  - intros a ow off n bs Ha Hi. by destruct (H a ow).
  - intros a b ow ow' off n bs off' n' bs' _ Ha Hi. by destruct (H a ow).
Qed.
Lemma leaf_ok_cleaf cfg x m w os bz sh : leaf_ok cfg x m w sh -> unowned os sh -> cleaf cfg x m w os bz sh.
Proof.
  intros (f & L & H1 & H2 & H3 & H4 & H5 & H6 & H7) Hu.
  assert (forall a ow, os !! a = Some (Some ow) -> o_ino ow <> sh_ino sh) as Hn.
  { intros a ow Ho E. apply (Hu _ _ Ho). by left. }
  exists f, L. repeat (split; [done|]). split; [exact (proj2 (cacct_none x f L (sh_ino sh) os Hn) H5)|]. split; [by apply regs_none|].
  destruct (sh_tgt sh) as [[t b]|] eqn:Et; [|done].
  destruct H7 as (H7 & ft & Lt & T1 & T2 & T3). split; [done|].
  assert (forall a ow, os !! a = Some (Some ow) -> o_ino ow <> t) as Hn'.
  { intros a ow Ho E. apply (Hu _ _ Ho). right. rewrite Et. cbn. by rewrite E. }
  exists ft, Lt, 0%nat. split; [done|]. split; [done|].
  split; [exact (proj2 (cacct_none x ft Lt t os Hn') (cp_acct _ _ _ _ _ _ _ _ T3))|]. split; [by apply regs_none|]. split; [by eapply comp_dcomp'|done].
Qed.

(** On disk. *)
Lemma cleaf_disk cfg x m w os bz sh :
  cleaf cfg x m w os bz sh -> calm_leaf w sh -> disk_shard cfg false m w (span_of sh).
Proof.
  intros (f & L & H1 & H2 & H3 & H4 & H5 & H6 & H7) Hc. specialize (Hc f H2).
  exists (sh_ino sh), f, L. repeat (split; [done|]). split; [by eapply cacct_false|].
  destruct (sh_tgt sh) as [[t b]|] eqn:Et.
  - destruct H7 as (-> & ft & Lt & j & T1 & T2 & T3 & T4 & T5 & T6). specialize (Hc ft T1). split; [lia|].
    exists ft, Lt, j. split; [done|]. split; [done|done].
  - destruct H7 as [-> H7]. split; [lia|done].
Qed.

(** ** A client changes its row *)
Lemma row_file_get w sh r i f : row_file w sh r = Ok (i, f) -> fs_files w !! i = Some f /\ has_file sh i.
Proof.
  unfold row_file, src_file. destruct (sh_tgt sh) as [[t b]|] eqn:Et.
  - destruct (fs_files w !! t) as [ft|] eqn:Ef; [|done]. destruct (r <? f_cut ft)%nat.
    + intros [= <- <-]. split; [done|]. right. by rewrite Et.
    + destruct (fs_files w !! sh_ino sh) as [g|] eqn:Eg; [|done]. intros [= <- <-]. split; [done|by left].
  - destruct (fs_files w !! sh_ino sh) as [g|] eqn:Eg; [|done]. intros [= <- <-]. split; [done|by left].
Qed.
Lemma row_file_set w sh r j g i f f' :
  row_file w sh r = Ok (j, g) -> fs_files w !! i = Some f -> f_cut f' = f_cut f ->
  row_file (set_file i f' w) sh r = Ok (j, if decide (j = i) then f' else g).
Proof.
  unfold row_file, src_file. cbn [set_file fs_files]. intros H Hi Hc. destruct (sh_tgt sh) as [[t b]|] eqn:Et.
  - destruct (fs_files w !! t) as [ft|] eqn:Ef; [|done]. destruct (decide (i = t)) as [->|Hne].
    + rewrite lookup_insert, Hc. assert (ft = f) as -> by congruence. destruct (r <? f_cut f)%nat.
      * injection H as <- <-. by rewrite decide_True.
      * destruct (decide (t = sh_ino sh)) as [->|Hn].
        -- rewrite lookup_insert. rewrite Ef in H. injection H as <- <-. by rewrite decide_True.
        -- rewrite lookup_insert_ne by done. destruct (fs_files w !! sh_ino sh); [|done]. injection H as <- <-. by rewrite decide_False.
    + rewrite lookup_insert_ne by done. rewrite Ef. destruct (r <? f_cut ft)%nat.
      * injection H as <- <-. by rewrite decide_False.
      * destruct (decide (i = sh_ino sh)) as [->|Hn].
        -- rewrite lookup_insert. rewrite Hi in H. injection H as <- <-. by rewrite decide_True.
        -- rewrite lookup_insert_ne by done. destruct (fs_files w !! sh_ino sh); [|done]. injection H as <- <-. by rewrite decide_False.
  - destruct (decide (i = sh_ino sh)) as [->|Hn].
    + rewrite lookup_insert. rewrite Hi in H. injection H as <- <-. by rewrite decide_True.
    + rewrite lookup_insert_ne by done. destruct (fs_files w !! sh_ino sh); [|done]. injection H as <- <-. by rewrite decide_False.
Qed.

Lemma fkeep_hdr f f' : fkeep f f' -> hdr_ok f -> hdr_ok f'.
Proof. intros (A1 & A2 & A3 & A4 & A5) (B1 & B2 & B3). repeat split; (congruence || lia). Qed.

Lemma cleaf_client cfg x m w os bz sh r i f :
  wf w -> cleaf cfg x m w os bz sh -> row_file w sh r = Ok (i, f) -> (r < NUM_ROWS)%nat ->
  (bz = true -> forall t b ft, sh_tgt sh = Some (t, b) -> fs_files w !! t = Some ft -> f_cut ft <> r) ->
  exists L, file_rep cfg f L /\ cacct x f L i os /\ regs f i os /\
    holds m (home cfg (sh_start sh) (sh_end sh) r) (entries (L r)) /\
    (forall f' l' m' os', fkeep f f' -> file_rep cfg f' (upd_row r l' L) -> cacct x f' (upd_row r l' L) i os' ->
       regs f' i os' -> (forall i', i' <> i -> os_same i' os os') ->
       holds m' (home cfg (sh_start sh) (sh_end sh) r) (entries l') ->
       (forall k, ph_row (hashk cfg k) <> r -> m' !! k = m !! k) ->
       cleaf cfg x m' (set_file i f' w) os' bz sh).
Proof.
  intros Hwf Hleaf Hrf Hr Hbz. pose proof Hleaf as (f0 & L & H1 & H2 & H3 & H4 & H5 & H6 & H7).
  unfold row_file, src_file in Hrf. rewrite H2 in Hrf.
  assert (Hmk : forall m' k es r0, (forall k, ph_row (hashk cfg k) <> r -> m' !! k = m !! k) -> r0 <> r -> k = r0 ->
     holds m (home cfg (sh_start sh) (sh_end sh) r0) es -> holds m' (home cfg (sh_start sh) (sh_end sh) r0) es).
  { intros m' k es r0 Hm Hne _. apply holds_ext; [done|]. intros k' [_ Hk']. symmetry. apply Hm. congruence. }
  destruct (sh_tgt sh) as [[t b]|] eqn:Et.
  - destruct H7 as (H7 & ft & Lt & j & T1 & T2 & T3 & T4 & T5 & T6). rewrite T1 in Hrf.
    pose proof (comp_files_ne _ _ _ _ _ Hwf H1 H7) as Hne.
    destruct (Nat.ltb_spec r (f_cut ft)) as [Hlt|Hge].
    + injection Hrf as <- <-. exists Lt. destruct T5 as [D1 D2 D3 D4 D5 D6 D7].
      split; [done|]. split; [done|]. split; [done|]. split; [by apply D4|].
      intros f' l' m' os' Hk Hrep Hac Hreg Ho Hh Hm. exists f0, L. cbn [set_file fs_dir fs_files].
      rewrite lookup_insert_ne by done. pose proof (Ho _ Hne) as Hso.
      repeat (split; [done|]). split; [by eapply cacct_os|]. split; [by eapply regs_os|].
      rewrite Et. split; [done|]. exists f', (upd_row r l' Lt), j. rewrite lookup_insert.
      split; [done|]. split; [by eapply fkeep_hdr|]. split; [done|]. split; [done|]. split; [|done].
      destruct Hk as (K1 & _). split; rewrite ?K1.
      * done.
      * by eapply cacct_false.
      * done.
      * intros r' Hr'. destruct (decide (r' = r)) as [->|Hn]; [by rewrite upd_row_eq|]. rewrite upd_row_ne by done.
        eapply Hmk; eauto.
      * intros r' Hr'. eapply (Hmk m' r'); eauto. lia.
      * intros Hc. rewrite upd_row_ne by lia. auto.
      * intros r' Hr'. rewrite upd_row_ne by lia. auto.
    + injection Hrf as <- <-. exists L. destruct T5 as [D1 D2 D3 D4 D5 D6 D7].
      split; [done|]. split; [done|]. split; [done|]. split; [by apply D5|].
      intros f' l' m' os' Hk Hrep Hac Hreg Ho Hh Hm. exists f', (upd_row r l' L). cbn [set_file fs_dir fs_files].
      rewrite lookup_insert. split; [done|]. split; [done|]. split; [by eapply fkeep_hdr|]. repeat (split; [done|]).
      rewrite Et. split; [done|]. exists ft, Lt, j. rewrite lookup_insert_ne by done.
      pose proof (Ho _ (not_eq_sym Hne)) as Hso. repeat (split; [done|]).
      split; [by eapply cacct_os|]. split; [by eapply regs_os|]. split; [|done].
      split; [done..| | | |].
      * intros r' Hr'. eapply (Hmk m' r'); eauto. lia.
      * intros r' Hr'. destruct (decide (r' = r)) as [->|Hn]; [by rewrite upd_row_eq|]. rewrite upd_row_ne by done.
        eapply (Hmk m' r'); eauto.
      * intros Hc. destruct (decide (f_cut ft = r)) as [E|Hn].
        -- assert (j = 0%nat) as ->. { apply T6. destruct bz; [|done]. by destruct (Hbz eq_refl t b ft). }
           destruct (D6 Hc) as [_ E6]. rewrite E6, !take_0. split; [lia|done].
        -- rewrite upd_row_ne by done. auto.
      * done.
  - injection Hrf as <- <-. destruct H7 as [H7 H8]. exists L. split; [done|]. split; [done|]. split; [done|]. split; [by apply H8|].
    intros f' l' m' os' Hk Hrep Hac Hreg Ho Hh Hm. exists f', (upd_row r l' L). cbn [set_file fs_dir fs_files].
    rewrite lookup_insert. split; [done|]. split; [done|]. split; [by eapply fkeep_hdr|]. repeat (split; [done|]).
    rewrite Et. split; [done|]. by eapply all_hold_upd.
Qed.

(** ** The worker copies an entry *)
Lemma cleaf_worker cfg x m w os bz sh t b ft r ls srow f0 :
  wf w -> cleaf cfg x m w os bz sh -> sh_tgt sh = Some (t, b) -> fs_files w !! t = Some ft -> f_cut ft = r -> (r < NUM_ROWS)%nat ->
  fs_files w !! sh_ino sh = Some f0 -> row_of f0 r = srow -> Forall2 (slot_ok cfg f0 r) srow ls ->
  exists Lt, file_rep cfg ft Lt /\ cacct x ft Lt t os /\ regs ft t os /\ holds m (home cfg (sh_start sh) (sh_end sh) r) (entries ls) /\
    (forall r', (r < r' < NUM_ROWS)%nat -> Lt r' = padded []) /\
    (bz = false -> Lt r = padded []) /\
    (forall f' l' os' j', fkeep ft f' -> file_rep cfg f' (upd_row r l' Lt) -> cacct x f' (upd_row r l' Lt) t os' ->
       regs f' t os' -> (forall i', i' <> t -> os_same i' os os') ->
       (j' <= length (entries ls))%nat -> l' = padded (take j' (entries ls)) -> bz = true ->
       cleaf cfg x m (set_file t f' w) os' bz sh) /\
    (Lt r = padded (entries ls) -> forall b', cleaf cfg x m (set_file t (apply_fupd UCut ft) w) os false
        (Shard (sh_start sh) (sh_end sh) (sh_ino sh) (Some (t, b')))).
Proof.
  intros Hwf Hleaf Et Hft Hcut Hr Hf0 Hsrow Hls. pose proof Hleaf as (f1 & L & H1 & H2 & H3 & H4 & H5 & H6 & H7).
  assert (f1 = f0) as -> by congruence. rewrite Et in H7.
  destruct H7 as (H7 & ft1 & Lt & j & T1 & T2 & T3 & T4 & T5 & T6). assert (ft1 = ft) as -> by congruence.
  pose proof (comp_files_ne _ _ _ _ _ Hwf H1 H7) as Hne.
  assert (L r = ls) as EL.
  { pose proof (file_rep_row _ _ _ _ H4 Hr) as HL. rewrite Hsrow in HL. by eapply row_inj. }
  pose proof T5 as [D1 D2 D3 D4 D5 D6 D7]. rewrite Hcut in *.
  exists Lt. split; [done|]. split; [done|]. split; [done|]. split; [rewrite <- EL; apply D5; lia|]. split; [done|].
  split; [intros Hb; destruct (D6 Hr) as [_ ->]; by rewrite (T6 Hb), take_0|]. split.
  - intros f' l' os' j' Hk Hrep Hac Hreg Ho Hj El Hb. exists f0, L. cbn [set_file fs_dir fs_files].
    rewrite lookup_insert_ne by done. pose proof (Ho _ Hne) as Hso.
    repeat (split; [done|]). split; [by eapply cacct_os|]. split; [by eapply regs_os|].
    rewrite Et. split; [done|]. exists f', (upd_row r l' Lt), j'. rewrite lookup_insert.
    split; [done|]. split; [by eapply fkeep_hdr|]. split; [done|]. split; [done|]. split; [|intros; congruence].
    destruct Hk as (K1 & _). split; rewrite ?K1, ?Hcut.
    + done.
    + by eapply cacct_false.
    + done.
    + intros r' Hr'. rewrite upd_row_ne by lia. auto.
    + done.
    + intros _. rewrite upd_row_eq, EL. done.
    + intros r' Hr'. rewrite upd_row_ne by lia. auto.
  - intros ELt b'. exists f0, L. cbn [set_file fs_dir fs_files sh_start sh_end sh_ino sh_tgt].
    rewrite lookup_insert_ne by done. repeat (split; [done|]). exists (apply_fupd UCut ft), Lt, 0%nat. rewrite lookup_insert.
    pose proof (ucut_fields ft) as (A1&A2&A3&A4&A5&A6&A7&A8&A9&A10).
    split; [done|]. split; [destruct T2 as (? & ? & ?); repeat split; congruence|].
    split. { unfold cacct. by rewrite A2, A3, A4, A5. }
    split.
    { destruct T4 as [R1 R2]. split; [|done]. intros a ow off n bs Ha Hi Hp. destruct (R1 _ _ _ _ _ Ha Hi Hp) as [B1 B2].
      rewrite A2. split; [done|]. intros r' c s. unfold row_of. rewrite A1. apply B2. }
    split; [|done]. split; rewrite ?A6, ?Hcut.
    + eapply file_rep_keep; [|exact A1|exact D1]. apply dkeep_same; congruence.
    + unfold acct. rewrite A2, A3, A4, A5. done.
    + lia.
    + intros r' Hr'. destruct (decide (r' = r)) as [->|Hn]; [|apply D4; lia]. rewrite ELt, entries_padded, <- EL. apply D5. lia.
    + intros r' Hr'. apply D5. lia.
    + intros Hr'. rewrite take_0. split; [lia|]. apply D7. lia.
    + intros r' Hr'. apply D7. lia.
Qed.
