(** Compaction of one shard file into another: row by row, from any crash point. *)
From Verif Require Import Base Hashing HashingProofs Fs Shard Wpc Spec FileRep RowOps.

Lemma read_kv_bounds f d k v : read_kv f d = Ok (k, v) -> len k < 16384 /\ len v < 65536.
Proof.
  intros H. pose proof (read_kv_sizes _ _ _ _ H) as [-> ->]. unfold read_kv in H.
  destruct (N.leb_spec 16384 (desc_klen d)); [done|]. split; [done|].
  unfold desc_vlen. change 65535 with (N.ones 16). rewrite N.land_ones.
  apply N.mod_upper_bound. done.
Qed.

Lemma near_trans f g h a b : near f g a -> near g h b -> near f h (a + b).
Proof.
  intros (A1 & A2 & A3 & A4 & A5 & A6) (B1 & B2 & B3 & B4 & B5 & B6).
  repeat split; (congruence || lia).
Qed.
Lemma near_le f g a b : near f g a -> a <= b -> near f g b.
Proof. intros (A1 & A2 & A3 & A4 & A5 & A6) H. repeat split; (congruence || lia). Qed.
Lemma acct_pointwise x f L L' :
  (forall r, (r < NUM_ROWS)%nat -> L r = L' r) -> acct x f L -> acct x f L'.
Proof.
  intros H [H1 H2]. unfold acct. rewrite <- (live_ext _ _ H), <- (count_ext _ _ H). done.
Qed.
Lemma upd_upd r a b L r' : upd_row r a (upd_row r b L) r' = upd_row r a L r'.
Proof.
  destruct (decide (r' = r)) as [->|]; [by rewrite !upd_row_eq|by rewrite !upd_row_ne].
Qed.

(** A row whose first slots hold [es] and whose other slots are empty. *)
Definition padded (es : list kv) : row_t := map Some es ++ replicate (ROW_WIDTH - length es) None.

Lemma entries_padded es : entries (padded es) = es.
Proof. unfold padded. rewrite entries_app, entries_map_some, entries_nones. apply app_nil_r. Qed.
Lemma padded_nil : padded [] = replicate ROW_WIDTH None.
Proof. unfold padded. cbn [map length app]. by rewrite Nat.sub_0_r. Qed.

Lemma padded_insert es c x n :
  es !! c = Some x -> (c <= n)%nat -> (length es <= ROW_WIDTH)%nat ->
  <[c := Some x]> (padded (take n es)) = padded (take (max n (S c)) es).
Proof.
  intros Hc Hn Hl. pose proof (lookup_lt_Some _ _ _ Hc) as Hlt.
  destruct (decide (c < n)%nat) as [Hlt'|Hge].
  - rewrite Nat.max_l by lia. apply list_insert_id. unfold padded.
    rewrite lookup_app_l by (rewrite map_length, take_length; lia).
    change (map Some (take n es)) with (Some <$> take n es).
    rewrite list_lookup_fmap, lookup_take by lia. by rewrite Hc.
  - assert (n = c) as -> by lia. rewrite Nat.max_r by lia.
    unfold padded. rewrite (take_S_r _ _ _ Hc), map_app.
    rewrite insert_app_r_alt by (rewrite map_length, take_length; lia).
    rewrite map_length, !app_length, take_length. cbn [length].
    replace (c - c `min` length es)%nat with 0%nat by lia.
    replace (ROW_WIDTH - c `min` length es)%nat with (S (ROW_WIDTH - (c `min` length es + 1)))%nat by lia.
    rewrite <- app_assoc. done.
Qed.
Lemma padded_lookup es c n :
  (c < ROW_WIDTH)%nat -> (c <= n)%nat -> (n <= length es)%nat -> (length es <= ROW_WIDTH)%nat ->
  padded (take n es) !! c = Some (if decide (c = n) then None else es !! c).
Proof.
  intros Hc Hn Hn' Hl. unfold padded. destruct (decide (c = n)) as [->|Hne].
  - rewrite lookup_app_r by (rewrite map_length, take_length; lia).
    rewrite map_length, take_length. apply lookup_replicate_2. lia.
  - rewrite lookup_app_l by (rewrite map_length, take_length; lia).
    change (map Some (take n es)) with (Some <$> take n es).
    rewrite list_lookup_fmap, lookup_take by lia.
    destruct (lookup_lt_is_Some_2 es c) as [x Hx]; [lia|]. by rewrite Hx.
Qed.

Lemma compact_slots_spec cfg y fsrc t r first row l ES col ft Lt n w (C : fs -> Prop)
      (Q : unit -> fs -> Prop) E :
  Forall2 (slot_ok cfg fsrc r) row l -> entries l = drop col ES ->
  (r < NUM_ROWS)%nat -> (length ES <= ROW_WIDTH)%nat ->
  (col <= n)%nat -> (n <= length ES)%nat -> first = true \/ n = col ->
  file_rep cfg ft (upd_row r (padded (take n ES)) Lt) ->
  acct y ft (upd_row r (padded (take n ES)) Lt) ->
  f_woff ft + bytes_of (drop col ES) < 2 ^ 32 ->
  (forall ft' n', (n <= n')%nat -> (n' <= length ES)%nat -> near ft ft' (bytes_of (drop col ES)) ->
     file_rep cfg ft' (upd_row r (padded (take n' ES)) Lt) ->
     acct false ft' (upd_row r (padded (take n' ES)) Lt) -> C (set_file t ft' w)) ->
  (forall ft', near ft ft' (bytes_of (drop col ES)) ->
     f_woff ft' = f_woff ft + bytes_of (drop col ES) ->
     file_rep cfg ft' (upd_row r (padded ES) Lt) ->
     acct (y && bool_decide (n = col)) ft' (upd_row r (padded ES) Lt) -> Q tt (set_file t ft' w)) ->
  wpc (compact_slots cfg fsrc t r first col row) C Q E (set_file t ft w).
Proof.
  intros H. revert col ft n y. induction H as [|s o row l Hs H IH];
    intros col ft n y Hes Hr Hl Hcn Hn Hfirst Hf Ha Hoff HC HQ; cbn [compact_slots].
  - (* end of the row *)
    change (entries []) with (@nil kv) in Hes.
    assert (length ES <= col)%nat as Hle.
    { assert (length (drop col ES) = 0)%nat as E0 by by rewrite <- Hes.
      rewrite drop_length in E0. lia. }
    assert (n = col) as -> by lia. assert (take col ES = ES) as Et by (apply take_ge; lia).
    rewrite Et in *.
    assert (bytes_of (drop col ES) = 0) as Eb by by rewrite <- Hes.
    apply wpc_ret.
    + apply (HC ft col); auto; [apply near_refl| |].
      * by rewrite Et.
      * rewrite Et. by eapply acct_weaken.
    + apply HQ; auto.
      * apply near_refl.
      * rewrite Eb. lia.
      * rewrite bool_decide_eq_true_2 by done. by rewrite andb_true_r.
  - assert (C (set_file t ft w)) as HC0.
    { apply (HC ft n); auto; [apply near_refl|by eapply acct_weaken]. }
    destruct o as [[k v]|].
    2:{ cbn in Hs. rewrite Hs. cbn [N.eqb INVALID_SIG]. rewrite entries_cons in Hes.
        apply IH with (n := n) (y := y); auto. }
    pose proof Hs as (Hne & Hsig & Hrow & Hread & _). rewrite Hsig.
    destruct (N.eqb_spec (ph_sig (hashk cfg k)) INVALID_SIG) as [Ez|_]; [by apply hashk_sig in Ez|].
    rewrite entries_cons in Hes. change (option_list (Some (k, v)) ++ entries l) with ((k, v) :: entries l) in Hes.
    assert (ES !! col = Some (k, v)) as Hcol.
    { rewrite <- (Nat.add_0_r col), <- lookup_drop, <- Hes. done. }
    pose proof (lookup_lt_Some _ _ _ Hcol) as Hclt.
    assert (entries l = drop (S col) ES) as Hes'.
    { rewrite <- Nat.add_1_r, <- drop_drop, <- Hes. done. }
    assert (bytes_of (drop col ES) = (len k + len v) + bytes_of (drop (S col) ES)) as Hb.
    { rewrite <- Hes', <- Hes. done. }
    pose proof (read_kv_bounds _ _ _ _ Hread) as [Hk Hv].
    apply wpc_bind. eapply wpc_lift_ok; [exact Hread|done|].
    apply wpc_bind. eapply wpc_get_file; [apply set_file_get|done|].
    set (o := if decide (col = n) then None else ES !! col).
    assert (upd_row r (padded (take n ES)) Lt r !! col = Some o) as Hlook.
    { rewrite upd_row_eq. apply padded_lookup; lia. }
    destruct (slot_lookup _ _ _ _ _ _ Hf Hr Hlook) as (st & Hst & Hok).
    apply wpc_bind. apply wpc_assert; [|done|].
    { rewrite Hst. destruct Hfirst as [->| ->]; [done|]. subst o. rewrite decide_True in Hok by done.
      cbn in Hok. rewrite Hok. apply orb_true_r. }
    apply wpc_bind. apply wpc_assert; [by apply Nat.eqb_eq|done|].
    replace (col <? ROW_WIDTH)%nat with true by (symmetry; apply Nat.ltb_lt; lia).
    apply (fill_slot_spec cfg y t k v ft (upd_row r (padded (take n ES)) Lt) r col o w); auto.
    + lia.
    + subst o. destruct (decide (col = n)); [by left|right; by rewrite Hcol].
    + intros f' L' N1 N2 N3 [->| ->].
      * apply (HC f' n); auto. eapply near_le; [exact N1|lia].
      * apply (HC f' (max n (S col))); [lia|lia| | |].
        -- eapply near_le; [exact N1|lia].
        -- eapply file_rep_pointwise; [|exact N2]. intros r' _. rewrite upd_upd, upd_row_eq.
           by rewrite padded_insert by (auto; lia).
        -- eapply acct_pointwise; [|exact N3]. intros r' _. rewrite upd_upd, upd_row_eq.
           by rewrite padded_insert by (auto; lia).
    + intros f' N1 N1' N2 N3.
      apply IH with (n := max n (S col)) (y := y && bool_decide (o = None)); auto.
      * lia.
      * lia.
      * destruct Hfirst as [->| ->]; [by left|]. right. lia.
      * eapply file_rep_pointwise; [|exact N2]. intros r' _. rewrite upd_upd, upd_row_eq.
        by rewrite padded_insert by (auto; lia).
      * eapply acct_pointwise; [|exact N3]. intros r' _. rewrite upd_upd, upd_row_eq.
        by rewrite padded_insert by (auto; lia).
      * lia.
      * intros ft' n' G1 G2 G3 G4 G5. apply (HC ft' n'); auto; [lia|].
        rewrite Hb. by eapply near_trans.
      * intros ft' G1 G2 G3 G4. apply HQ; auto.
        -- rewrite Hb. by eapply near_trans.
        -- lia.
        -- destruct G4 as [G4 G5]. split; [done|]. intros [Hy Hn0]%andb_prop.
           apply bool_decide_eq_true in Hn0. subst n. apply G5.
           subst o. rewrite decide_True by done. rewrite Hy. cbn [andb].
           rewrite !bool_decide_eq_true_2; [done| |done]. lia.
Qed.

(** [hdr_ok]: a file that [open] accepts. *)
Definition hdr_ok (f : file) : Prop :=
  f_magic f = SHARD_FILE_MAGIC /\ f_version f = SHARD_FILE_VERSION /\ HEADER_SIZE <= f_len f.
Lemma near_hdr f f' n : near f f' n -> hdr_ok f -> hdr_ok f'.
Proof. intros (A1 & A2 & A3 & A4 & A5 & A6) (B1 & B2 & B3). repeat split; (congruence || lia). Qed.

Lemma ucut_fields f :
  let f' := apply_fupd UCut f in
  f_rows f' = f_rows f /\ f_woff f' = f_woff f /\ f_wasted f' = f_wasted f /\ f_ins f' = f_ins f /\
  f_rem f' = f_rem f /\ f_cut f' = S (f_cut f) /\ f_magic f' = f_magic f /\ f_version f' = f_version f /\
  f_len f' = f_len f /\ f_data f' = f_data f.
Proof. by destruct f. Qed.

(** ** Bytes still to be copied *)
Definition rest_live (L : rows_t) (c : nat) : N :=
  sum_rows (fun r => if (r <? c)%nat then 0 else bytes_of (entries (L r))) NUM_ROWS.
Lemma rest_live_le L c : rest_live L c <= live L.
Proof. apply sum_rows_le. intros r _. destruct (r <? c)%nat; lia. Qed.
Lemma rest_live_step L c : (c < NUM_ROWS)%nat ->
  rest_live L c = bytes_of (entries (L c)) + rest_live L (S c).
Proof.
  intros Hc. unfold rest_live.
  pose proof (sum_rows_upd (fun r => if (r <? c)%nat then 0 else bytes_of (entries (L r)))
    (fun r => if (r <? S c)%nat then 0 else bytes_of (entries (L r))) NUM_ROWS c Hc) as H.
  cbv beta in H. replace (c <? c)%nat with false in H by (symmetry; apply Nat.ltb_irrefl).
  replace (c <? S c)%nat with true in H by (symmetry; apply Nat.ltb_lt; lia).
  assert (forall r', r' <> c -> (if (r' <? S c)%nat then 0 else bytes_of (entries (L r')))
     = (if (r' <? c)%nat then 0 else bytes_of (entries (L r')))) as Hr.
  { intros r' Hr'. destruct (Nat.ltb_spec r' (S c)), (Nat.ltb_spec r' c); auto; lia. }
  specialize (H Hr). lia.
Qed.
Lemma rest_live_0 L : rest_live L 0 = live L.
Proof. apply sum_rows_ext. intros r _. done. Qed.
Lemma rest_live_upd_lt L c r l : (r < c)%nat -> rest_live (upd_row r l L) c = rest_live L c.
Proof.
  intros Hr. apply sum_rows_ext. intros r' _. destruct (Nat.ltb_spec r' c); [done|].
  by rewrite upd_row_ne by lia.
Qed.
Lemma rest_live_upd_ge L c r l : (c <= r)%nat -> (r < NUM_ROWS)%nat ->
  rest_live (upd_row r l L) c + bytes_of (entries (L r)) = rest_live L c + bytes_of (entries l).
Proof.
  intros Hr Hr'. unfold rest_live.
  pose proof (sum_rows_upd (fun r => if (r <? c)%nat then 0 else bytes_of (entries (L r)))
    (fun r0 => if (r0 <? c)%nat then 0 else bytes_of (entries (upd_row r l L r0))) NUM_ROWS r Hr') as H.
  cbv beta in H. replace (r <? c)%nat with false in H by (symmetry; apply Nat.ltb_ge; lia).
  rewrite upd_row_eq in H. apply H. intros r0 Hne. by rewrite upd_row_ne.
Qed.

(** ** State of a compaction: target file [ft] with rows [Lt], source rows [Ls], the first
    [j] entries of row [f_cut ft] already copied. *)
Record comp (cfg : config) (x : bool) (m : kvmap) (P : nat -> bytes -> Prop) (Ls : rows_t)
       (ft : file) (Lt : rows_t) (j : nat) : Prop := Comp {
  cp_rep : file_rep cfg ft Lt;
  cp_acct : acct x ft Lt;
  cp_cut : (f_cut ft <= NUM_ROWS)%nat;
  cp_done : forall r, (r < f_cut ft)%nat -> holds m (P r) (entries (Lt r));
  cp_todo : forall r, (f_cut ft <= r < NUM_ROWS)%nat -> holds m (P r) (entries (Ls r));
  cp_j : (f_cut ft < NUM_ROWS)%nat ->
         (j <= length (entries (Ls (f_cut ft))))%nat /\
         Lt (f_cut ft) = padded (take j (entries (Ls (f_cut ft))));
  cp_empty : forall r, (f_cut ft < r < NUM_ROWS)%nat -> Lt r = padded [];
  cp_room : f_woff ft + rest_live Ls (f_cut ft) < 2 ^ 32
}.

(** The same without the room condition (what may be on disk after a crash). *)
Record dcomp (cfg : config) (x : bool) (m : kvmap) (P : nat -> bytes -> Prop) (Ls : rows_t)
       (ft : file) (Lt : rows_t) (j : nat) : Prop := DComp {
  dc_rep : file_rep cfg ft Lt;
  dc_acct : acct x ft Lt;
  dc_cut : (f_cut ft <= NUM_ROWS)%nat;
  dc_done : forall r, (r < f_cut ft)%nat -> holds m (P r) (entries (Lt r));
  dc_todo : forall r, (f_cut ft <= r < NUM_ROWS)%nat -> holds m (P r) (entries (Ls r));
  dc_j : (f_cut ft < NUM_ROWS)%nat ->
         (j <= length (entries (Ls (f_cut ft))))%nat /\
         Lt (f_cut ft) = padded (take j (entries (Ls (f_cut ft))));
  dc_empty : forall r, (f_cut ft < r < NUM_ROWS)%nat -> Lt r = padded []
}.
Lemma comp_dcomp cfg x m P Ls ft Lt j : comp cfg x m P Ls ft Lt j -> dcomp cfg x m P Ls ft Lt j.
Proof. intros []. split; auto. Qed.
Lemma dcomp_weaken cfg x m P Ls ft Lt j : dcomp cfg x m P Ls ft Lt j -> dcomp cfg false m P Ls ft Lt j.
Proof. intros []. split; auto. by eapply acct_weaken. Qed.
Lemma comp_dcomp' cfg x m P Ls ft Lt j : comp cfg x m P Ls ft Lt j -> dcomp cfg false m P Ls ft Lt j.
Proof. intros H. by eapply dcomp_weaken, comp_dcomp. Qed.

Lemma compact_row_spec cfg x m P src t fsrc Ls first ft Lt j w (C : fs -> Prop)
      (Q : unit -> fs -> Prop) E :
  src <> t -> fs_files w !! src = Some fsrc -> file_rep cfg fsrc Ls ->
  (f_cut ft < NUM_ROWS)%nat -> comp cfg x m P Ls ft Lt j -> first = true \/ j = 0%nat ->
  (forall ft' Lt' j', dcomp cfg false m P Ls ft' Lt' j' ->
     f_magic ft' = f_magic ft -> f_version ft' = f_version ft -> f_len ft <= f_len ft' ->
     C (set_file t ft' w)) ->
  (forall ft' Lt', comp cfg (x && bool_decide (j = 0%nat)) m P Ls ft' Lt' 0 ->
     f_cut ft' = S (f_cut ft) ->
     f_woff ft' + rest_live Ls (f_cut ft') = f_woff ft + rest_live Ls (f_cut ft) ->
     f_magic ft' = f_magic ft -> f_version ft' = f_version ft -> f_len ft <= f_len ft' ->
     Q tt (set_file t ft' w)) ->
  wpc (compact_row cfg src t first (f_cut ft)) C Q E (set_file t ft w).
Proof.
  intros Hne Hsrc Hfs Hlt Hcomp Hfirst HC HQ.
  set (r := f_cut ft) in *. set (ES := entries (Ls r)).
  destruct Hcomp as [H1 H2 H3 H4 H5 H6 H7 H8]. fold r in H3, H4, H5, H6, H7, H8.
  destruct (H6 Hlt) as [Hj Hrow]. fold ES in Hj, Hrow.
  pose proof (file_rep_length _ _ _ _ Hfs Hlt) as Hlen.
  assert (length ES <= ROW_WIDTH)%nat as HES by (rewrite <- Hlen; apply entries_length).
  assert (C (set_file t ft w)) as HC0.
  { apply (HC ft Lt j); [|done..|lia]. split; auto. by eapply acct_weaken. }
  unfold compact_row. apply wpc_bind. eapply wpc_get_file; [|done|].
  { by rewrite set_file_ne. }
  apply wpc_bind.
  rewrite (rest_live_step Ls r Hlt) in H8. fold ES in H8.
  assert (Hup : forall r', Lt r' = upd_row r (padded (take j ES)) Lt r').
  { intros r'. destruct (decide (r' = r)) as [->|]; [by rewrite upd_row_eq|by rewrite upd_row_ne]. }
  apply (compact_slots_spec cfg x fsrc t r first (row_of fsrc r) (Ls r) ES 0 ft Lt j w C _ E); auto.
  - by apply file_rep_row.
  - lia.
  - eapply file_rep_pointwise; [|exact H1]. auto.
  - eapply acct_pointwise; [|exact H2]. auto.
  - rewrite drop_0. lia.
  - intros ft' n' G1 G2 G3 G4 G5. rewrite drop_0 in G3.
    destruct G3 as (N1 & N2 & N3 & N4 & N5 & N6). fold r in N1.
    apply (HC ft' (upd_row r (padded (take n' ES)) Lt) n'); auto.
    split; rewrite ?N1; auto.
    + intros r' Hr'. rewrite upd_row_ne by lia. by apply H4.
    + intros _. rewrite upd_row_eq. auto.
    + intros r' Hr'. rewrite upd_row_ne by lia. by apply H7.
  - intros ft1 G1 G2 G3 G4. rewrite drop_0 in G1, G2.
    destruct G1 as (N1 & N2 & N3 & N4 & N5 & N6). fold r in N1.
    set (L1 := upd_row r (padded ES) Lt) in *.
    assert (Hholds : forall r', (r' < S r)%nat -> holds m (P r') (entries (L1 r'))).
    { intros r' Hr'. subst L1. destruct (decide (r' = r)) as [->|].
      - rewrite upd_row_eq, entries_padded. apply H5. lia.
      - rewrite upd_row_ne by done. apply H4. lia. }
    destruct (ucut_fields ft1) as (B1&B2&B3&B4&B5&B6&B7&B8&B9&B10).
    set (ft2 := apply_fupd UCut ft1) in *. rewrite N1 in B6.
    assert (file_rep cfg ft2 L1) as R2 by (eapply rep_same; eauto).
    assert (comp cfg (x && bool_decide (j = 0%nat)) m P Ls ft2 L1 0) as Hc2.
    { split; rewrite ?B6; auto.
      - destruct G4 as [G4 G5]. split; rewrite ?B2, ?B3, ?B4, ?B5; auto.
      - intros r' Hr'. apply H5. lia.
      - intros Hr'. split; [lia|]. subst L1. rewrite upd_row_ne by lia. rewrite take_0. apply H7. lia.
      - intros r' Hr'. subst L1. rewrite upd_row_ne by lia. apply H7. lia.
      - rewrite B2, G2. lia. }
    apply wpc_upd'.
    + apply (HC ft1 L1 (length ES)); auto. split; rewrite ?N1; auto.
      * by eapply acct_weaken.
      * intros _. subst L1. rewrite upd_row_eq. fold ES. rewrite take_ge by lia. auto.
      * intros r' Hr'. subst L1. rewrite upd_row_ne by lia. by apply H7.
    + fold ft2. apply (HC ft2 L1 0%nat); [by eapply comp_dcomp'|congruence|congruence|lia].
    + fold ft2. apply (HQ ft2 L1); auto; [|congruence|congruence|lia].
      rewrite B6, B2, G2, (rest_live_step Ls r Hlt). fold ES. lia.
Qed.

(** [do_compaction] runs to the end. *)
Lemma do_compaction_spec cfg x m P fuel src t fsrc Ls first ft Lt j w (C : fs -> Prop)
      (Q : unit -> fs -> Prop) E :
  src <> t -> fs_files w !! src = Some fsrc -> file_rep cfg fsrc Ls ->
  comp cfg x m P Ls ft Lt j -> first = true \/ j = 0%nat -> (x = true -> j = 0%nat) ->
  (NUM_ROWS < fuel + f_cut ft)%nat ->
  (forall ft' Lt' j', dcomp cfg false m P Ls ft' Lt' j' ->
     f_magic ft' = f_magic ft -> f_version ft' = f_version ft -> f_len ft <= f_len ft' ->
     C (set_file t ft' w)) ->
  (forall ft' Lt', file_rep cfg ft' Lt' -> acct x ft' Lt' -> f_cut ft' = NUM_ROWS ->
     (forall r, (r < NUM_ROWS)%nat -> holds m (P r) (entries (Lt' r))) ->
     f_woff ft' = f_woff ft + rest_live Ls (f_cut ft) ->
     f_magic ft' = f_magic ft -> f_version ft' = f_version ft -> f_len ft <= f_len ft' ->
     Q tt (set_file t ft' w)) ->
  wpc (do_compaction cfg fuel src t first) C Q E (set_file t ft w).
Proof.
  intros Hne Hsrc Hfs. revert first ft Lt j.
  induction fuel as [|fuel IH]; intros first ft Lt j Hcomp Hfirst Hxj Hfuel HC HQ.
  { destruct Hcomp. lia. }
  assert (C (set_file t ft w)) as HC0.
  { apply (HC ft Lt j); [by eapply comp_dcomp'|done|done|lia]. }
  cbn [do_compaction]. apply wpc_bind. eapply wpc_get_file; [apply set_file_get|done|].
  destruct (Nat.leb_spec NUM_ROWS (f_cut ft)) as [Hge|Hlt].
  - apply wpc_ret; [done|].
    destruct Hcomp as [H1 H2 H3 H4 H5 H6 H7 H8].
    assert (f_cut ft = NUM_ROWS) as Ec by lia.
    assert (rest_live Ls (f_cut ft) = 0) as Er.
    { rewrite Ec. unfold rest_live. rewrite (sum_rows_ext _ (fun _ => 0)); [apply sum_rows_0|].
      intros r Hr. by replace (r <? NUM_ROWS)%nat with true by (symmetry; apply Nat.ltb_lt; lia). }
    apply (HQ ft Lt); auto; [|lia..]. intros r Hr. apply H4. lia.
  - apply wpc_bind. eapply (compact_row_spec cfg x m P src t fsrc Ls first ft Lt j); eauto.
    intros ft' Lt' Hc' Hcut Hrest Hm Hv Hl.
    eapply (IH false ft' Lt' 0%nat); auto.
    + destruct x; [|exact Hc']. rewrite bool_decide_eq_true_2 in Hc' by auto. exact Hc'.
    + lia.
    + intros ft'' Lt'' j'' D1 D2 D3 D4. apply (HC ft'' Lt'' j''); auto; [congruence|congruence|lia].
    + intros ft'' Lt'' D1 D2 D3 D4 D5 D6 D7 D8. apply (HQ ft'' Lt''); auto; [lia|congruence|congruence|lia].
Qed.
