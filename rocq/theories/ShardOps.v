(** One shard in its directory: insert, remove, compaction. *)
From Verif Require Import Base Hashing HashingProofs Fs Shard Router RouterPure Wpc Spec FileRep RowOps
  Compact Inv.

(** Room for [n] more bytes in the shard's files (offsets are 32 bits, shard.rs:86-97). *)
Definition room (w : fs) (sh : shard) (n : N) : Prop :=
  match fs_files w !! sh_ino sh, sh_tgt sh with
  | Some f, None => f_woff f + n < 2 ^ 32
  | Some f, Some (t, _) =>
    match fs_files w !! t with
    | Some ft => f_woff f + f_woff ft + n < 2 ^ 32
    | None => True
    end
  | None, _ => True
  end.

Lemma all_hold_upd cfg m m' s e L r l' :
  all_hold cfg m s e L -> (forall k, ph_row (hashk cfg k) <> r -> m' !! k = m !! k) ->
  holds m' (home cfg s e r) (entries l') -> all_hold cfg m' s e (upd_row r l' L).
Proof.
  intros H Hm Hl r' Hr'. destruct (decide (r' = r)) as [->|Hne].
  - by rewrite upd_row_eq.
  - rewrite upd_row_ne by done. eapply holds_ext; [done| |by apply H].
    intros k [_ Hk]. symmetry. apply Hm. congruence.
Qed.

Lemma bytes_row_le_live L r : (r < NUM_ROWS)%nat -> bytes_of (entries (L r)) <= live L.
Proof. intros Hr. unfold live. by apply (sum_rows_one (fun r => bytes_of (entries (L r)))). Qed.

Lemma upd_row_self r L r' : upd_row r (L r) L r' = L r'.
Proof. destruct (decide (r' = r)) as [->|]; [by rewrite upd_row_eq|by rewrite upd_row_ne]. Qed.

(** Focus on row [r] of a shard: the file holding it, and how the shard changes when only
    that row changes. *)
Lemma leaf_focus cfg x m w sh r n :
  wf w -> leaf_ok cfg x m w sh -> (r < NUM_ROWS)%nat ->
  exists i f L nm,
    row_file w sh r = Ok (i, f) /\ fs_files w !! i = Some f /\
    fs_dir w !! nm = Some i /\
    (nm = FShard (sh_start sh) (sh_end sh) \/ nm = FCompact (sh_start sh) (sh_end sh)) /\
    (sh_tgt sh = None -> i = sh_ino sh) /\
    file_rep cfg f L /\ acct x f L /\ holds m (home cfg (sh_start sh) (sh_end sh) r) (entries (L r)) /\
    (room w sh n -> f_woff f + n < 2 ^ 32) /\
    (forall y f' l' m', y = x \/ y = false -> near f f' n ->
       room w sh n \/ (n = 0 /\ bytes_of (entries l') <= bytes_of (entries (L r))) ->
       file_rep cfg f' (upd_row r l' L) -> acct y f' (upd_row r l' L) ->
       holds m' (home cfg (sh_start sh) (sh_end sh) r) (entries l') ->
       (forall k, ph_row (hashk cfg k) <> r -> m' !! k = m !! k) ->
       leaf_ok cfg y m' (set_file i f' w) sh).
Proof.
  intros Hwf (f & L & H1 & H2 & H3 & H4 & H5 & H6 & H7) Hr.
  unfold row_file, room, src_file. rewrite H2.
  destruct (sh_tgt sh) as [[t b]|] eqn:Et.
  - (* compacting *)
    destruct H7 as (T0 & ft & Lt & T1 & T2 & T3). rewrite T1.
    assert (sh_ino sh <> t) as Hne.
    { intros E. rewrite E in H1. pose proof (wf_inj _ Hwf _ _ _ H1 T0). done. }
    destruct (Nat.ltb_spec r (f_cut ft)) as [Hlt|Hge].
    + exists t, ft, Lt, (FCompact (sh_start sh) (sh_end sh)).
      split; [done|]. split; [done|]. split; [done|]. split; [by right|]. split; [done|].
      split; [apply T3|]. split; [apply T3|]. split; [by apply T3|].
      split; [lia|].
      intros y ft' l' m' Hy Hnear Hroom Hrep Hacct Hh Hm.
      exists f, L. rewrite Et. cbn [set_file fs_dir].
      rewrite set_file_ne by done. split; [done|]. split; [done|]. split; [done|]. split; [done|].
      split; [destruct Hy as [->| ->]; [done|by eapply acct_weaken]|]. split; [done|]. split; [done|].
      exists ft', (upd_row r l' Lt). split; [apply set_file_get|]. split; [by eapply near_hdr|].
      destruct T3 as [C1 C2 C3 C4 C5 C6 C7 C8]. destruct Hnear as (N1 & N2 & N3 & N4 & N5 & N6).
      split; rewrite ?N1; auto.
      * intros r' Hr'. destruct (decide (r' = r)) as [->|].
        -- by rewrite upd_row_eq.
        -- rewrite upd_row_ne by done. eapply holds_ext; [done| |by apply C4].
           intros k [_ Hk]. symmetry. apply Hm. congruence.
      * intros r' Hr'. eapply holds_ext; [done| |by apply C5].
        intros k [_ Hk]. symmetry. apply Hm. intros E. lia.
      * intros Hc. rewrite upd_row_ne by lia. by apply C6.
      * intros r' Hr'. rewrite upd_row_ne by lia. by apply C7.
      * pose proof (rest_live_le L (f_cut ft)). destruct H5 as [H5 _].
        destruct Hroom as [Hroom|[-> _]]; lia.
    + exists (sh_ino sh), f, L, (FShard (sh_start sh) (sh_end sh)).
      split; [done|]. split; [done|]. split; [done|]. split; [by left|]. split; [done|].
      split; [done|]. split; [done|]. split; [by apply T3|].
      split; [lia|].
      intros y f' l' m' Hy Hnear Hroom Hrep Hacct Hh Hm.
      exists f', (upd_row r l' L). rewrite Et. cbn [set_file fs_dir].
      rewrite set_file_get. pose proof Hnear as (N1 & N2 & N3 & N4 & N5 & N6).
      split; [done|]. split; [done|]. split; [by eapply near_hdr|]. split; [done|].
      split; [done|]. split; [destruct Hroom as [Hroom|[-> _]]; lia|]. split; [done|].
      exists ft, Lt. rewrite set_file_ne by done. split; [done|]. split; [done|].
      destruct T3 as [C1 C2 C3 C4 C5 C6 C7 C8].
      split; auto.
      * destruct Hy as [->| ->]; [done|by eapply acct_weaken].
      * intros r' Hr'. eapply holds_ext; [done| |by apply C4].
        intros k [_ Hk]. symmetry. apply Hm. intros E. lia.
      * intros r' Hr'. destruct (decide (r' = r)) as [->|].
        -- by rewrite upd_row_eq.
        -- rewrite upd_row_ne by done. eapply holds_ext; [done| |by apply C5].
           intros k [_ Hk]. symmetry. apply Hm. congruence.
      * intros Hc. destruct (C6 Hc) as [_ C6']. rewrite C6'. rewrite !take_0. split; [lia|done].
      * destruct Hroom as [Hroom|[-> Hb]].
        -- pose proof (rest_live_le (upd_row r l' L) (f_cut ft)).
           destruct Hacct as [Hacct _]. lia.
        -- pose proof (rest_live_upd_ge L (f_cut ft) r l' Hge Hr). lia.
  - destruct H7 as (T0 & T1).
    exists (sh_ino sh), f, L, (FShard (sh_start sh) (sh_end sh)).
    split; [done|]. split; [done|]. split; [done|]. split; [by left|]. split; [done|].
    split; [done|]. split; [done|]. split; [by apply T1|]. split; [done|].
    intros y f' l' m' Hy Hnear Hroom Hrep Hacct Hh Hm.
    exists f', (upd_row r l' L). rewrite Et. cbn [set_file fs_dir].
    rewrite set_file_get. pose proof Hnear as (N1 & N2 & N3 & N4 & N5 & N6).
    split; [done|]. split; [done|]. split; [by eapply near_hdr|]. split; [done|].
    split; [done|]. split; [destruct Hroom as [Hroom|[-> _]]; lia|]. split; [done|].
    by eapply all_hold_upd.
Qed.

(** The same focus without a change. *)
Lemma leaf_focus_same cfg x m w sh i f L r (y : bool) f' n :
  (forall y f' l' m', y = x \/ y = false -> near f f' n ->
       room w sh n \/ (n = 0 /\ bytes_of (entries l') <= bytes_of (entries (L r))) ->
       file_rep cfg f' (upd_row r l' L) -> acct y f' (upd_row r l' L) ->
       holds m' (home cfg (sh_start sh) (sh_end sh) r) (entries l') ->
       (forall k, ph_row (hashk cfg k) <> r -> m' !! k = m !! k) ->
       leaf_ok cfg y m' (set_file i f' w) sh) ->
  y = x \/ y = false -> near f f' n -> room w sh n \/ n = 0 ->
  holds m (home cfg (sh_start sh) (sh_end sh) r) (entries (L r)) ->
  file_rep cfg f' L -> acct y f' L -> leaf_ok cfg y m (set_file i f' w) sh.
Proof.
  intros H Hy Hn Hroom Hh Hrep Ha. apply (H y f' (L r) m); auto.
  - destruct Hroom as [?| ->]; [by left|right; split; [done|lia]].
  - by apply upd_row_id.
  - eapply acct_pointwise; [|exact Ha]. intros r' _. by rewrite upd_row_self.
Qed.

(** ** Only this shard's name in its span *)
Definition solo (w : fs) (s e : N) : Prop := run_names w s e [(s, e)].

Lemma run_leaf cfg x m w sh s n :
  run_span cfg x m w (RLeaf sh) s n <->
  sh_start sh = s /\ sh_end sh = s + 2 ^ N.of_nat n /\ leaf_ok cfg x m w sh /\
  solo w s (s + 2 ^ N.of_nat n).
Proof.
  unfold run_span, solo. cbn [tree_ok leaves map]. rewrite Forall_singleton. unfold span_of.
  split.
  - intros ((H1 & H2) & H3 & H4). rewrite H1, H2 in H4. done.
  - intros (H1 & H2 & H3 & H4). rewrite H1, H2. done.
Qed.

Definition leafC (cfg : config) (w : fs) (m m' : kvmap) (s : N) (n : nat) (w' : fs) : Prop :=
  wf w' /\ outside_same s (s + 2 ^ N.of_nat n) w w' /\
  (disk_span cfg false m w' s n \/ disk_span cfg false m' w' s n).
Definition leafQ (cfg : config) (x : bool) (w : fs) (m' : kvmap) (s : N) (n : nat) (r' : router) (w' : fs) : Prop :=
  wf w' /\ outside_same s (s + 2 ^ N.of_nat n) w w' /\ run_span cfg x m' w' r' s n.

Lemma leaf_disk_span cfg x m w sh s n :
  sh_start sh = s -> sh_end sh = s + 2 ^ N.of_nat n -> leaf_ok cfg x m w sh ->
  solo w s (s + 2 ^ N.of_nat n) -> disk_span cfg false m w s n.
Proof. intros H1 H2 H3 H4. eapply (run_disk' cfg x m w (RLeaf sh)). by apply run_leaf. Qed.

Lemma solo_dir w w' s e : fs_dir w' = fs_dir w -> solo w s e -> solo w' s e.
Proof. unfold solo, run_names. by intros ->. Qed.

(** ** Insert under the row lock *)
Lemma spec_ins_other m k v mode k' : k' <> k -> fst (spec_ins m k v mode) !! k' = m !! k'.
Proof.
  intros Hne. unfold spec_ins.
  destruct (m !! k) as [old|]; destruct mode as [|[ex|]|]; cbn [fst]; rewrite ?lookup_insert_ne by done; auto.
  destruct (bool_decide (ex = old)); cbn [fst]; by rewrite ?lookup_insert_ne by done.
Qed.

Lemma leaf_not_out nm s e : nm = FShard s e \/ nm = FCompact s e -> ~ outside s e nm.
Proof. intros [->| ->]; [apply outside_self|apply outside_self_c]. Qed.

(** What an insert that asks for a split because the row is full tells. *)
Definition row_full (cfg : config) (m : kvmap) (s e : N) (k : bytes) : Prop :=
  m !! k = None /\
  exists es, holds m (home cfg s e (ph_row (hashk cfg k))) es /\ length es = ROW_WIDTH.

Lemma insert_row_leaf cfg x m w sh s n k v mode i f (Q : ins_status -> fs -> Prop) E :
  wf w -> run_span cfg x m w (RLeaf sh) s n ->
  in_span cfg s (s + 2 ^ N.of_nat n) k ->
  len k < 16384 -> len v < 65536 -> k <> [] -> room w sh (len k + len v) ->
  row_file w sh (ph_row (hashk cfg k)) = Ok (i, f) ->
  let m' := fst (spec_ins m k v mode) in
  (forall w' f' st, leafQ cfg x w (if decide (st = SSplit) then m else m') s n (RLeaf sh) w' ->
     (st = SSplit -> row_full cfg m s (s + 2 ^ N.of_nat n) k) ->
     (st <> SSplit -> st = snd (spec_ins m k v mode)) ->
     w' = set_file i f' w -> f_woff f <= f_woff f' -> (st = SSplit -> w' = w) ->
     Q st w') ->
  wpc (insert_row i f (hashk cfg k) k v mode) (leafC cfg w m m' s n) Q E w.
Proof.
  intros Hwf Hrun Hin Hk Hv Hne Hroom Hrf m' HQ.
  apply run_leaf in Hrun as (Hs & He & Hleaf & Hsolo).
  set (r := ph_row (hashk cfg k)) in *.
  assert (r < NUM_ROWS)%nat as Hr by apply ph_row_lt.
  destruct (leaf_focus cfg x m w sh r (len k + len v) Hwf Hleaf Hr)
    as (i0 & f0 & L & nm & F1 & F2 & F3 & F4 & F5 & F6 & F7 & F8 & F9 & F10).
  rewrite Hrf in F1. injection F1 as <- <-. rewrite Hs, He in *.
  assert (Hm : forall k', ph_row (hashk cfg k') <> r -> m' !! k' = m !! k').
  { intros k' Hk'. apply spec_ins_other. intros ->. by apply Hk'. }
  assert (Hwf' : forall f', wf (set_file i f' w)) by (intros; apply wf_set_file; eauto).
  assert (Hos : forall f', outside_same s (s + 2 ^ N.of_nat n) w (set_file i f' w)).
  { intros f'. eapply outside_same_set_file; [done|exact F3|]. by apply leaf_not_out. }
  assert (Hhome : home cfg s (s + 2 ^ N.of_nat n) r k) by done.
  rewrite <- (set_file_id i f w F2) at 2.
  apply (insert_row_spec cfg x i f L k v mode w); auto.
  - intros f' L' l' st N1 N2 N3 Hi HL. fold r in HL.
    split; [apply Hwf'|]. split; [apply Hos|].
    pose proof (row_ins_holds m _ k v mode _ _ _ Hi Hhome F8) as Hrow.
    destruct HL as [->| ->].
    + left. eapply (leaf_disk_span cfg false); [exact Hs|exact He| |done].
      eapply leaf_focus_same; rewrite ?Hs, ?He; eauto.
    + destruct (decide (st = SSplit)).
      * left. destruct Hrow as (-> & _). eapply (leaf_disk_span cfg false); [exact Hs|exact He| |done].
        apply (F10 false f' (L r) m); auto.
      * right. destruct Hrow as (Hrow & _). eapply (leaf_disk_span cfg false); [exact Hs|exact He| |done].
        apply (F10 false f' l' m'); auto.
  - intros f' l' st N1 N2 N3 Hi Hsame.
    pose proof (row_ins_holds m _ k v mode _ _ _ Hi Hhome F8) as Hrow.
    pose proof N1 as (_ & _ & _ & _ & N5 & N6).
    eapply (HQ _ f'); [| | |done|lia|].
    + split; [apply Hwf'|]. split; [apply Hos|].
      apply run_leaf. split; [done|]. split; [done|]. split; [|by eapply solo_dir].
      destruct (decide (st = SSplit)).
      * destruct Hrow as (-> & _). apply (F10 x f' (L r) m); auto.
      * destruct Hrow as (Hrow & _). apply (F10 x f' l' m'); auto.
    + intros ->. rewrite decide_True in Hrow by done. destruct Hrow as (_ & Hn & Hl & _).
      split; [done|]. exists (entries (L r)). split; [done|]. etrans; [exact Hl|]. by eapply file_rep_length.
    + intros Hst. rewrite decide_False in Hrow by done. apply Hrow.
    + intros Hst. rewrite (Hsame Hst). by apply set_file_id.
Qed.

(** ** Creating a file *)
Definition new_file (nm : fname) (f : file) (w : fs) : fs :=
  Fs (<[nm := fs_next w]> (fs_dir w)) (<[fs_next w := f]> (fs_files w)) (fs_next w + 1).
Lemma set_new_file nm f f' w : set_file (fs_next w) f' (new_file nm f w) = new_file nm f' w.
Proof. unfold set_file, new_file. cbn. by rewrite insert_insert. Qed.

(** A file as created: empty rows, all counters zero. *)
Definition blank (f : file) : Prop :=
  f_rows f = replicate NUM_ROWS (replicate ROW_WIDTH slot0) /\ f_woff f = 0 /\ f_wasted f = 0 /\
  f_ins f = 0 /\ f_rem f = 0 /\ f_cut f = 0%nat.

Lemma blank_rep cfg f : blank f -> file_rep cfg f (fun _ => padded []).
Proof.
  intros (H1 & _). split; [rewrite H1; apply replicate_length|]. intros r Hr.
  assert (row_of f r = replicate ROW_WIDTH slot0) as E.
  { unfold row_of. rewrite H1. by rewrite (lookup_replicate_2 _ _ _ Hr). }
  rewrite E, padded_nil. split; [apply replicate_length|]. apply Forall2_replicate. done.
Qed.
Lemma live_padded_nil : live (fun _ => padded []) = 0.
Proof. unfold live. rewrite (sum_rows_ext _ (fun _ => 0)); [apply sum_rows_0|]. intros. by rewrite entries_padded. Qed.
Lemma count_padded_nil : count (fun _ => padded []) = 0.
Proof. unfold count. rewrite (sum_rows_ext _ (fun _ => 0)); [apply sum_rows_0|]. intros. by rewrite entries_padded. Qed.
Lemma blank_acct x f : blank f -> acct x f (fun _ => padded []).
Proof.
  intros (_ & H1 & H2 & H3 & H4 & _). unfold acct. rewrite live_padded_nil, count_padded_nil, H1, H2, H3, H4.
  split; [lia|]. intros _. split; lia.
Qed.

Lemma mmap_create_spec cfg nm w (C : fs -> Prop) (Q : ino -> fs -> Prop) E :
  fs_dir w !! nm = None -> C w ->
  (forall f, blank f -> C (new_file nm f w)) ->
  (forall f, blank f -> hdr_ok f -> Q (fs_next w) (new_file nm f w)) ->
  wpc (mmap_create cfg nm) C Q E w.
Proof.
  intros Hd HC0 HC HQ. unfold mmap_create. apply wpc_bind.
  assert (blank file_empty) as B0 by done.
  assert (run_eff (ECreate nm true) w = (new_file nm file_empty w, fs_next w)) as Er.
  { cbn. rewrite Hd. done. }
  apply wpc_eff; rewrite ?Er; cbn [fst snd]; [done|by apply HC|].
  assert (Hstep : forall (u : fupd) f (Q' : unit -> fs -> Prop),
    blank f -> blank (apply_fupd u f) -> Q' tt (new_file nm (apply_fupd u f) w) ->
    wpc (upd (fs_next w) u) C Q' E (new_file nm f w)).
  { intros u f Q' Hb1 Hb2 HQ'. eapply wpc_upd.
    - apply lookup_insert.
    - by apply HC.
    - rewrite set_new_file. by apply HC.
    - rewrite set_new_file. exact HQ'. }
  apply wpc_bind. apply Hstep; [done|done|].
  apply wpc_bind. unfold mmap_new.
  apply wpc_bind. apply Hstep; [done|done|].
  apply wpc_bind. apply Hstep; [done|done|].
  apply Hstep; [done|done|]. apply wpc_ret.
  - by apply HC.
  - apply HQ; [done|]. split; [done|]. split; [done|]. cbn. lia.
Qed.

(** The same when the name may exist already (a leftover of a failed call): the file is
    truncated and keeps its inode. *)
Definition put_ino (nm : fname) (w : fs) : ino := default (fs_next w) (fs_dir w !! nm).
Definition put_file (nm : fname) (f : file) (w : fs) : fs :=
  match fs_dir w !! nm with Some i => set_file i f w | None => new_file nm f w end.
Lemma set_put_file nm f f' w : set_file (put_ino nm w) f' (put_file nm f w) = put_file nm f' w.
Proof.
  unfold put_ino, put_file. destruct (fs_dir w !! nm) as [i|]; cbn [default].
  - unfold set_file. cbn. by rewrite insert_insert.
  - apply set_new_file.
Qed.
Lemma put_file_get nm f w : fs_files (put_file nm f w) !! put_ino nm w = Some f.
Proof. unfold put_ino, put_file. destruct (fs_dir w !! nm); apply lookup_insert. Qed.
Lemma put_file_dir nm f w : fs_dir (put_file nm f w) !! nm = Some (put_ino nm w).
Proof. unfold put_ino, put_file. destruct (fs_dir w !! nm) eqn:E; [exact E|apply lookup_insert]. Qed.
Lemma put_file_dir_ne nm f w nm' : nm' <> nm -> fs_dir (put_file nm f w) !! nm' = fs_dir w !! nm'.
Proof. intros H. unfold put_file. destruct (fs_dir w !! nm); [done|]. by apply lookup_insert_ne. Qed.
Lemma put_file_ne nm f w i : i <> put_ino nm w -> fs_files (put_file nm f w) !! i = fs_files w !! i.
Proof. unfold put_ino, put_file. destruct (fs_dir w !! nm); intros H; by apply lookup_insert_ne. Qed.
Lemma put_ino_ne nm w nm' i : wf w -> nm' <> nm -> fs_dir w !! nm' = Some i -> i <> put_ino nm w.
Proof.
  intros Hwf Hne Hi. unfold put_ino. destruct (fs_dir w !! nm) as [j|] eqn:Ej; cbn [default].
  - intros ->. by apply Hne, (wf_inj _ Hwf _ _ j).
  - apply (wf_next _ Hwf) in Hi. lia.
Qed.

Lemma mmap_create_any cfg nm w (C : fs -> Prop) (Q : ino -> fs -> Prop) E :
  C w ->
  (forall f, blank f -> C (put_file nm f w)) ->
  (forall f, blank f -> hdr_ok f -> Q (put_ino nm w) (put_file nm f w)) ->
  wpc (mmap_create cfg nm) C Q E w.
Proof.
  intros HC0 HC HQ. unfold mmap_create. apply wpc_bind.
  assert (blank file_empty) as B0 by done.
  assert (run_eff (ECreate nm true) w = (put_file nm file_empty w, put_ino nm w)) as Er.
  { cbn. unfold put_file, put_ino. by destruct (fs_dir w !! nm). }
  apply wpc_eff; rewrite ?Er; cbn [fst snd]; [done|by apply HC|].
  assert (Hstep : forall (u : fupd) f (Q' : unit -> fs -> Prop),
    blank f -> blank (apply_fupd u f) -> Q' tt (put_file nm (apply_fupd u f) w) ->
    wpc (upd (put_ino nm w) u) C Q' E (put_file nm f w)).
  { intros u f Q' Hb1 Hb2 HQ'. eapply wpc_upd.
    - apply put_file_get.
    - by apply HC.
    - rewrite set_put_file. by apply HC.
    - rewrite set_put_file. exact HQ'. }
  apply wpc_bind. apply Hstep; [done|done|].
  apply wpc_bind. unfold mmap_new.
  apply wpc_bind. apply Hstep; [done|done|].
  apply wpc_bind. apply Hstep; [done|done|].
  apply Hstep; [done|done|]. apply wpc_ret.
  - by apply HC.
  - apply HQ; [done|]. split; [done|]. split; [done|]. cbn. lia.
Qed.

Lemma wf_new_file nm f w :
  wf w -> fs_dir w !! nm = None ->
  (match name_span nm with Some (a, b) => a < b /\ b <= END_OF_SHARDS | None => True end) ->
  wf (new_file nm f w).
Proof.
  intros Hwf Hd Hspan. pose proof Hwf as [H1 H2 H3 H4]. split; cbn.
  - intros a b i Ha Hb. rewrite lookup_insert_Some in Ha, Hb.
    destruct Ha as [[<- Ha]|[Hna Ha]], Hb as [[<- Hb]|[Hnb Hb]].
    + done.
    + apply H3 in Hb. lia.
    + apply H3 in Ha. lia.
    + eauto.
  - intros a i Ha. rewrite lookup_insert_Some in Ha. destruct Ha as [[<- <-]|[Hna Ha]].
    + rewrite lookup_insert. eauto.
    + rewrite lookup_insert_is_Some'. right. eauto.
  - intros a i Ha. rewrite lookup_insert_Some in Ha. destruct Ha as [[<- <-]|[Hna Ha]]; [lia|].
    apply H3 in Ha. lia.
  - intros a b Hab. rewrite !lookup_insert_is_Some' in Hab.
    destruct Hab as [[->|Hab]|[->|Hab]]; [exact Hspan| |exact Hspan|]; apply H4; auto.
Qed.
Lemma wf_put_file nm f w :
  wf w -> (match name_span nm with Some (a, b) => a < b /\ b <= END_OF_SHARDS | None => True end) ->
  wf (put_file nm f w).
Proof.
  intros Hwf Hspan. unfold put_file. destruct (fs_dir w !! nm) as [i|] eqn:E.
  - apply wf_set_file; [done|]. by eapply wf_file.
  - by apply wf_new_file.
Qed.
Lemma outside_same_new_file s e nm f w :
  wf w -> ~ outside s e nm -> outside_same s e w (new_file nm f w).
Proof.
  intros Hwf Hout n Hn. cbn. split.
  - apply lookup_insert_ne. congruence.
  - intros i Hi. apply lookup_insert_ne. apply (wf_next _ Hwf) in Hi. lia.
Qed.

(** ** Starting a compaction *)
Lemma leaf_begin cfg x m w sh f :
  wf w -> leaf_ok cfg x m w sh -> sh_tgt sh = None -> blank f -> hdr_ok f ->
  leaf_ok cfg x m (new_file (FCompact (sh_start sh) (sh_end sh)) f w)
    (Shard (sh_start sh) (sh_end sh) (sh_ino sh) (Some (fs_next w, true))).
Proof.
  intros Hwf (fs & L & H1 & H2 & H3 & H4 & H5 & H6 & H7) Ht Hb Hh. rewrite Ht in H7.
  destruct H7 as [H7 H8]. exists fs, L. cbn [sh_start sh_end sh_ino sh_tgt new_file fs_dir fs_files].
  pose proof (wf_next _ Hwf _ _ H1) as Hnext.
  rewrite lookup_insert_ne by done. rewrite lookup_insert_ne by lia. rewrite !lookup_insert.
  repeat (split; [done|]). exists f, (fun _ => padded []). repeat (split; [done|]).
  pose proof Hb as (B1 & B2 & B3 & B4 & B5 & B6).
  split; rewrite ?B6.
  - by apply blank_rep.
  - by apply blank_acct.
  - lia.
  - lia.
  - intros r [_ Hr]. by apply H8.
  - intros _. split; [lia|]. by rewrite take_0.
  - done.
  - rewrite rest_live_0, B2. destruct H5 as [H5 _]. lia.
Qed.
(** On disk the freshly created target does not need its header. *)
Lemma disk_begin cfg x m w sh f :
  wf w -> leaf_ok cfg x m w sh -> sh_tgt sh = None -> blank f ->
  disk_shard cfg x m (new_file (FCompact (sh_start sh) (sh_end sh)) f w) (sh_start sh, sh_end sh).
Proof.
  intros Hwf (fs & L & H1 & H2 & H3 & H4 & H5 & H6 & H7) Ht Hb. rewrite Ht in H7.
  destruct H7 as [H7 H8]. exists (sh_ino sh), fs, L. cbn [new_file fs_dir fs_files].
  pose proof (wf_next _ Hwf _ _ H1) as Hnext.
  rewrite lookup_insert_ne by done. rewrite lookup_insert_ne by lia. rewrite !lookup_insert.
  repeat (split; [done|]). exists f, (fun _ => padded []), 0%nat. rewrite ?lookup_insert.
  split; [done|]. split; [|done].
  pose proof Hb as (B1 & B2 & B3 & B4 & B5 & B6).
  split; rewrite ?B6.
  - by apply blank_rep.
  - by apply blank_acct.
  - lia.
  - lia.
  - intros r [_ Hr]. by apply H8.
  - intros _. split; [lia|]. by rewrite take_0.
  - done.
Qed.
Lemma solo_begin w s e f : solo w s e -> solo (new_file (FCompact s e) f w) s e.
Proof.
  intros [H1 H2]. split; intros a b Ha Ho; cbn in Ha; rewrite lookup_insert_is_Some' in Ha.
  - destruct Ha as [?|Ha]; [done|]. by apply H1.
  - destruct Ha as [[= -> ->]|Ha]; [left|]. by apply H2.
Qed.
Lemma disk_solo cfg x m w s n :
  disk_shard cfg x m w (s, s + 2 ^ N.of_nat n) -> solo w s (s + 2 ^ N.of_nat n) ->
  disk_span cfg false m w s n.
Proof.
  intros Hd [H1 H2]. exists [(s, s + 2 ^ N.of_nat n)]. split; [constructor|].
  split; [rewrite Forall_singleton; by eapply disk_shard_weaken|]. split.
  - intros a b Ha Ho. exists (a, b). split; [auto|]. unfold contained. cbn. lia.
  - auto.
Qed.

Lemma begin_compaction_leaf cfg x m w0 w sh s n min (Q : shard -> fs -> Prop) E (C : fs -> Prop) :
  leafQ cfg x w0 m s n (RLeaf sh) w ->
  (forall w', wf w' -> outside_same s (s + 2 ^ N.of_nat n) w0 w' -> disk_span cfg false m w' s n -> C w') ->
  (Q sh w) ->
  (forall w' t, leafQ cfg x w0 m s n (RLeaf (Shard s (s + 2 ^ N.of_nat n) (sh_ino sh) (Some (t, true)))) w' ->
     sh_tgt sh = None -> (forall q, room w sh q -> room w' (Shard s (s + 2 ^ N.of_nat n) (sh_ino sh) (Some (t, true))) q) ->
     Q (Shard s (s + 2 ^ N.of_nat n) (sh_ino sh) (Some (t, true))) w') ->
  wpc (begin_compaction cfg sh min) C Q E w.
Proof.
  intros (Hwf & Hos & Hrun) HC HQ0 HQ. pose proof Hrun as Hrun'.
  apply run_leaf in Hrun as (Hs & He & Hleaf & Hsolo).
  assert (C w) as HC0 by (apply HC; auto; by eapply leaf_disk_span).
  pose proof Hleaf as (f & L & H1 & H2 & H3 & H4 & H5 & H6 & H7).
  unfold begin_compaction. apply wpc_bind. eapply wpc_get_file; [exact H2|done|].
  destruct (f_woff f <? min); [by apply wpc_ret|].
  destruct (sh_tgt sh) as [[t b]|] eqn:Et; [by apply wpc_ret|].
  destruct H7 as [H7 H8]. rewrite Hs, He in *.
  set (e := s + 2 ^ N.of_nat n) in *.
  destruct (wf_names _ Hwf s e) as [Hlt Hle]; [eauto|].
  assert (Hwf' : forall f', wf (new_file (FCompact s e) f' w)).
  { intros f'. by apply wf_new_file. }
  assert (Hos' : forall f', outside_same s e w0 (new_file (FCompact s e) f' w)).
  { intros f'. eapply outside_same_trans; [exact Hos|]. apply outside_same_new_file; [done|].
    apply outside_self_c. }
  assert (HCn : forall f', blank f' -> C (new_file (FCompact s e) f' w)).
  { intros f' Hb. apply HC; auto. eapply (disk_solo cfg x); [|by apply solo_begin].
    pose proof (disk_begin cfg x m w sh f' Hwf Hleaf Et Hb) as Hd. rewrite Hs, He in Hd. exact Hd. }
  apply wpc_bind. apply mmap_create_spec; auto.
  intros ft Hb Hh. apply wpc_bind.
  assert (apply_fupd UCut0 ft = ft) as Eu.
  { destruct Hb as (_ & _ & _ & _ & _ & Hb). destruct ft. cbn in *. by subst. }
  eapply wpc_upd; [apply lookup_insert|by apply HCn|..]; rewrite set_new_file, Eu; [by apply HCn|].
  apply wpc_ret; [by apply HCn|]. apply HQ.
  - split; [auto|]. split; [auto|]. apply run_leaf.
    split; [done|]. split; [done|]. split; [|by apply solo_begin].
    pose proof (leaf_begin cfg x m w sh ft Hwf Hleaf Et Hb Hh) as Hl. rewrite Hs, He in Hl. exact Hl.
  - done.
  - intros n'. unfold room. cbn [sh_ino sh_tgt new_file fs_files].
    pose proof (wf_next _ Hwf _ _ H1) as Hnext.
    rewrite lookup_insert_ne by lia. rewrite lookup_insert, H2, Et.
    destruct Hb as (_ & -> & _). lia.
Qed.

(** ** Insert *)
Definition size_full (cfg : config) (w : fs) (sh : shard) (n : N) : Prop :=
  sh_tgt sh = None /\
  exists f, fs_files w !! sh_ino sh = Some f /\ f_wasted f < c_min_compact cfg /\ c_max_shard cfg < f_woff f + n.

Lemma shard_insert_leaf cfg x m w sh s n k v mode (Q : shard * ins_status -> fs -> Prop) E :
  wf w -> run_span cfg x m w (RLeaf sh) s n ->
  in_span cfg s (s + 2 ^ N.of_nat n) k ->
  len k < 16384 -> len v < 65536 -> k <> [] -> room w sh (len k + len v) ->
  let m' := fst (spec_ins m k v mode) in
  (forall w' sh' st, st <> SSplit -> st = snd (spec_ins m k v mode) ->
     leafQ cfg x w m' s n (RLeaf sh') w' -> Q (sh', st) w') ->
  (forall w' sh', leafQ cfg x w m s n (RLeaf sh') w' -> room w' sh' (len k + len v) ->
     row_full cfg m s (s + 2 ^ N.of_nat n) k \/ size_full cfg w sh (len k + len v) ->
     Q (sh', SSplit) w') ->
  wpc (shard_insert cfg sh (hashk cfg k) k v mode) (leafC cfg w m m' s n) Q E w.
Proof.
  intros Hwf Hrun Hin Hk Hv Hne Hroom m' HQ1 HQ2. pose proof Hrun as Hrun'.
  apply run_leaf in Hrun as (Hs & He & Hleaf & Hsolo).
  assert (leafC cfg w m m' s n w) as HC0.
  { split; [done|]. split; [apply outside_same_refl|]. left. by eapply leaf_disk_span. }
  assert (leafQ cfg x w m s n (RLeaf sh) w) as HQ0.
  { split; [done|]. split; [apply outside_same_refl|done]. }
  unfold shard_insert. apply wpc_bind. apply wpc_snap; [done|].
  destruct (leaf_focus cfg x m w sh (ph_row (hashk cfg k)) 0 Hwf Hleaf (ph_row_lt _))
    as (i & f & L & nm & F1 & F2 & F3 & F4 & F5 & F6 & _).
  apply wpc_bind. eapply wpc_lift_ok; [exact F1|done|].
  assert (Hins : forall (p : ins_status -> prog (shard * ins_status)),
    (forall w' f' st, leafQ cfg x w (if decide (st = SSplit) then m else m') s n (RLeaf sh) w' ->
     (st = SSplit -> row_full cfg m s (s + 2 ^ N.of_nat n) k) ->
     (st <> SSplit -> st = snd (spec_ins m k v mode)) ->
     w' = set_file i f' w -> f_woff f <= f_woff f' -> (st = SSplit -> w' = w) ->
     wpc (p st) (leafC cfg w m m' s n) Q E w') ->
    wpc (pbind (insert_row i f (hashk cfg k) k v mode) p) (leafC cfg w m m' s n) Q E w).
  { intros p Hp. apply wpc_bind. eapply (insert_row_leaf cfg x m w sh); eauto. }
  assert (HCQ : forall w' y st sh', leafQ cfg y w (if decide (st = SSplit) then m else m') s n (RLeaf sh') w' ->
    leafC cfg w m m' s n w').
  { intros w' y st sh' (A1 & A2 & A4). split; [done|]. split; [done|].
    destruct (decide (st = SSplit)); [left|right]; by eapply run_disk'. }
  assert (Hret : forall w' f' st, leafQ cfg x w (if decide (st = SSplit) then m else m') s n (RLeaf sh) w' ->
     (st = SSplit -> row_full cfg m s (s + 2 ^ N.of_nat n) k) ->
     (st <> SSplit -> st = snd (spec_ins m k v mode)) ->
     w' = set_file i f' w -> f_woff f <= f_woff f' -> (st = SSplit -> w' = w) ->
     wpc (Ret (sh, st)) (leafC cfg w m m' s n) Q E w').
  { intros w' f' st G1 G2 G3 G4 G5 G6. apply wpc_ret; [by eapply HCQ|].
    destruct (decide (st = SSplit)) as [->|Hst].
    - rewrite (G6 eq_refl) in *. apply HQ2; auto.
    - apply HQ1; auto. }
  destruct (sh_tgt sh) as [[t b]|] eqn:Et.
  - apply Hins. exact Hret.
  - destruct (N.leb_spec (c_min_compact cfg) (f_wasted f)) as [Hw|Hw].
    + apply Hins. intros w' f' st G1 G2 G3 G4 G5 G6. apply wpc_bind.
      eapply (begin_compaction_leaf cfg x (if decide (st = SSplit) then m else m') w); [exact G1|..].
      * intros w2 W1 W2 W3. split; [done|]. split; [done|].
        destruct (decide (st = SSplit)); [by left|by right].
      * eapply Hret; eauto.
      * intros w2 t G7 G8 G9. apply wpc_ret; [by eapply HCQ|].
        destruct (decide (st = SSplit)) as [->|Hst].
        -- apply HQ2; auto. apply G9. rewrite (G6 eq_refl). done.
        -- apply HQ1; auto.
    + destruct (N.ltb_spec (c_max_shard cfg) (f_woff f + (len k + len v))) as [Hm|Hm].
      * apply wpc_ret; [done|]. apply HQ2; auto. right. split; [done|]. exists f.
        rewrite <- (F5 eq_refl). auto.
      * apply Hins. exact Hret.
Qed.

(** ** Get *)
Lemma shard_get_leaf cfg x m w sh k :
  wf w -> leaf_ok cfg x m w sh -> in_span cfg (sh_start sh) (sh_end sh) k ->
  shard_get w sh (hashk cfg k) k = Ok (m !! k).
Proof.
  intros Hwf Hleaf Hin.
  destruct (leaf_focus cfg x m w sh (ph_row (hashk cfg k)) 0 Hwf Hleaf (ph_row_lt _))
    as (i & f & L & nm & F1 & F2 & F3 & F4 & F5 & F6 & F7 & F8 & _).
  unfold shard_get. rewrite F1. cbn [rbind].
  pose proof (file_rep_row _ _ _ _ F6 (ph_row_lt (hashk cfg k))) as Hrow.
  destruct (scan_row_spec cfg f _ _ _ k 0 false Hrow) as [(c & v & b & E1 & Hl)|(b & E1 & Hn)]; rewrite E1; cbn.
  - f_equal. symmetry. apply F8. apply elem_of_entries. by eapply elem_of_list_lookup_2.
  - f_equal. destruct (m !! k) as [v|] eqn:Em; [|done]. exfalso. apply (Hn v). apply F8. done.
Qed.

Lemma shard_get_by_hash_leaf cfg x m w sh ph :
  wf w -> leaf_ok cfg x m w sh -> (ph_row ph < NUM_ROWS)%nat -> ph_sig ph <> INVALID_SIG ->
  exists l, shard_get_by_hash w sh ph = Ok l /\
    holds m (fun k => home cfg (sh_start sh) (sh_end sh) (ph_row ph) k /\ ph_sig (hashk cfg k) = ph_sig ph) l.
Proof.
  intros Hwf Hleaf Hr Hsig.
  destruct (leaf_focus cfg x m w sh (ph_row ph) 0 Hwf Hleaf Hr)
    as (i & f & L & nm & F1 & F2 & F3 & F4 & F5 & F6 & F7 & F8 & _).
  unfold shard_get_by_hash. rewrite F1. cbn [rbind].
  pose proof (file_rep_row _ _ _ _ F6 Hr) as Hrow.
  rewrite (collect_sig_spec _ _ _ _ _ _ Hrow Hsig). eexists. split; [done|].
  exact (holds_filter m (home cfg (sh_start sh) (sh_end sh) (ph_row ph)) (fun k => ph_sig (hashk cfg k) = ph_sig ph) _ F8).
Qed.

(** ** Remove *)
Lemma shard_remove_leaf cfg x m w sh s n k (Q : option bytes -> fs -> Prop) E :
  wf w -> run_span cfg x m w (RLeaf sh) s n ->
  in_span cfg s (s + 2 ^ N.of_nat n) k ->
  let m' := delete k m in
  (forall w', leafQ cfg x w m' s n (RLeaf sh) w' -> Q (m !! k) w') ->
  wpc (shard_remove sh (hashk cfg k) k) (leafC cfg w m m' s n) Q E w.
Proof.
  intros Hwf Hrun Hin m' HQ. pose proof Hrun as Hrun'.
  apply run_leaf in Hrun as (Hs & He & Hleaf & Hsolo).
  assert (leafC cfg w m m' s n w) as HC0.
  { split; [done|]. split; [apply outside_same_refl|]. left. by eapply leaf_disk_span. }
  set (r := ph_row (hashk cfg k)) in *.
  assert (r < NUM_ROWS)%nat as Hr by apply ph_row_lt.
  destruct (leaf_focus cfg x m w sh r 0 Hwf Hleaf Hr)
    as (i & f & L & nm & F1 & F2 & F3 & F4 & F5 & F6 & F7 & F8 & _ & F10).
  rewrite Hs, He in *.
  unfold shard_remove. fold r. apply wpc_bind. apply wpc_snap; [done|].
  apply wpc_bind. eapply wpc_lift_ok; [exact F1|done|].
  assert (Hm : forall k', ph_row (hashk cfg k') <> r -> m' !! k' = m !! k').
  { intros k' Hk'. apply lookup_delete_ne. intros ->. by apply Hk'. }
  assert (Hwf' : forall f', wf (set_file i f' w)) by (intros; apply wf_set_file; eauto).
  assert (Hos : forall f', outside_same s (s + 2 ^ N.of_nat n) w (set_file i f' w)).
  { intros f'. eapply outside_same_set_file; [done|exact F3|]. by apply leaf_not_out. }
  pose proof (file_rep_row _ _ _ _ F6 Hr) as Hrow.
  destruct (scan_row_spec cfg f r _ _ k 0 false Hrow) as [(c & old & b & E1 & Hl)|(b & E1 & Hn)].
  - apply wpc_bind. eapply wpc_lift_ok; [exact E1|done|]. cbn [Nat.add].
    assert (m !! k = Some old) as Hk.
    { apply F8. apply elem_of_entries. by eapply elem_of_list_lookup_2. }
    assert (holds m' (home cfg s (s + 2 ^ N.of_nat n) r) (entries (<[c := None]> (L r)))) as Hh'.
    { rewrite entries_insert by eauto. rewrite (entries_split _ _ _ Hl) in F8. exact (holds_del _ _ _ _ _ F8). }
    assert (bytes_of (entries (<[c := None]> (L r))) <= bytes_of (entries (L r))) as Hb.
    { rewrite entries_insert by eauto. rewrite (entries_split _ _ _ Hl). rewrite !bytes_of_app. cbn. lia. }
    rewrite <- (set_file_id i f w F2) at 2.
    apply (remove_slot_spec cfg x i f L k old c w); auto.
    + intros f' L' N1 N2 N3 HL. fold r in HL.
      split; [apply Hwf'|]. split; [apply Hos|]. destruct HL as [->| ->].
      * left. eapply (leaf_disk_span cfg false); [exact Hs|exact He| |done].
        eapply leaf_focus_same; rewrite ?Hs, ?He; eauto.
      * right. eapply (leaf_disk_span cfg false); [exact Hs|exact He| |done].
        apply (F10 false f' (<[c := None]> (L r)) m'); auto.
    + intros f' N1 N2 N3. rewrite <- Hk. apply HQ.
      split; [apply Hwf'|]. split; [apply Hos|].
      apply run_leaf. split; [done|]. split; [done|]. split; [|by eapply solo_dir].
      apply (F10 x f' (<[c := None]> (L r)) m'); auto.
  - apply wpc_bind. eapply wpc_lift_ok; [exact E1|done|]. apply wpc_ret; [done|].
    assert (m !! k = None) as Hk.
    { destruct (m !! k) as [v|] eqn:Em; [|done]. exfalso. apply (Hn v). by apply F8. }
    rewrite <- Hk. apply HQ. subst m'. rewrite delete_notin by done.
    split; [done|]. split; [apply outside_same_refl|done].
Qed.

(** ** Compaction *)
Definition rename_fs (a b : fname) (i : ino) (w : fs) : fs :=
  Fs (<[b := i]> (delete a (fs_dir w))) (fs_files w) (fs_next w).

Lemma rename_lookup_Some a b i w c j :
  fs_dir (rename_fs a b i w) !! c = Some j <->
  (c = b /\ j = i) \/ (c <> b /\ c <> a /\ fs_dir w !! c = Some j).
Proof.
  cbn. rewrite lookup_insert_Some, lookup_delete_Some. naive_solver.
Qed.
Lemma wf_rename a b i w :
  wf w -> fs_dir w !! a = Some i ->
  (match name_span b with Some (s, e) => s < e /\ e <= END_OF_SHARDS | None => True end) ->
  wf (rename_fs a b i w).
Proof.
  intros Hwf Ha Hspan. pose proof Hwf as [H1 H2 H3 H4]. split.
  - intros c d j Hc Hd. apply rename_lookup_Some in Hc, Hd.
    destruct Hc as [[-> Ej1]|(Hc1 & Hc2 & Hc)], Hd as [[-> Ej2]|(Hd1 & Hd2 & Hd)]; subst; auto.
    + pose proof (H1 _ _ _ Ha Hd). congruence.
    + pose proof (H1 _ _ _ Ha Hc). congruence.
    + eauto.
  - intros c j Hc. apply rename_lookup_Some in Hc. cbn. destruct Hc as [[-> ->]|(_ & _ & Hc)]; eauto.
  - intros c j Hc. apply rename_lookup_Some in Hc. cbn. destruct Hc as [[-> ->]|(_ & _ & Hc)]; eauto.
  - intros c d Hcd.
    assert (Hx : forall nm, is_Some (fs_dir (rename_fs a b i w) !! nm) -> nm = b \/ is_Some (fs_dir w !! nm)).
    { intros nm [j Hj]. apply rename_lookup_Some in Hj. destruct Hj as [[-> _]|(_ & _ & Hj)]; eauto. }
    destruct Hcd as [Hcd|Hcd]; apply Hx in Hcd as [<-|Hcd]; try exact Hspan; apply H4; auto.
Qed.
Lemma outside_same_rename s e a b i w :
  ~ outside s e a -> ~ outside s e b -> outside_same s e w (rename_fs a b i w).
Proof.
  intros Ha Hb n Hn. cbn. split; [|done].
  rewrite lookup_insert_ne by congruence. apply lookup_delete_ne. congruence.
Qed.

Lemma comp_files_ne w sh t s e :
  wf w -> fs_dir w !! FShard s e = Some (sh_ino sh) -> fs_dir w !! FCompact s e = Some t -> sh_ino sh <> t.
Proof. intros Hwf H1 H2 E. rewrite E in H1. pose proof (wf_inj _ Hwf _ _ _ H1 H2). done. Qed.


Lemma finish_leaf cfg x m w0 w s n i t ft Lt (C : fs -> Prop) (Q : shard -> fs -> Prop) E :
  let e := s + 2 ^ N.of_nat n in
  wf w -> outside_same s e w0 w ->
  fs_dir w !! FShard s e = Some i -> fs_dir w !! FCompact s e = Some t -> solo w s e ->
  fs_files w !! t = Some ft -> hdr_ok ft -> file_rep cfg ft Lt -> acct x ft Lt -> f_woff ft < 2 ^ 32 ->
  all_hold cfg m s e Lt ->
  C w ->
  (forall w', wf w' -> outside_same s e w0 w' -> disk_span cfg false m w' s n -> C w') ->
  (forall w', leafQ cfg x w0 m s n (RLeaf (Shard s e t None)) w' -> fs_files w' = fs_files w ->
     Q (Shard s e t None) w') ->
  wpc (do! _ <- rename (FCompact s e) (FShard s e); Ret (Shard s e t None)) C Q E w.
Proof.
  intros e Hwf Hos Hi Ht Hsolo Hft Hh Hrep Hacct Hoff Hall HC0 HC HQ.
  set (w' := rename_fs (FCompact s e) (FShard s e) t w).
  assert (leafQ cfg x w0 m s n (RLeaf (Shard s e t None)) w') as HQ'.
  { destruct (wf_names _ Hwf s e) as [Hlt Hle]; [eauto|].
    split; [by apply wf_rename|]. split.
    { eapply outside_same_trans; [exact Hos|]. apply outside_same_rename; [apply outside_self_c|apply outside_self]. }
    apply run_leaf. split; [done|]. split; [done|]. split.
    - exists ft, Lt. cbn [sh_start sh_end sh_ino sh_tgt]. split; [apply lookup_insert|].
      repeat (split; [done|]). split; [|done]. cbn. rewrite lookup_insert_ne by done. apply lookup_delete.
    - destruct Hsolo as [S1 S2]. fold e. split; intros a b [j Hj] Ho; apply rename_lookup_Some in Hj.
      + destruct Hj as [[[= -> ->] _]|(_ & _ & Hj)]; [left|]. apply S1; eauto.
      + destruct Hj as [[? _]|(_ & _ & Hj)]; [done|]. apply S2; eauto. }
  assert (C w') as HC'.
  { destruct HQ' as (A1 & A2 & A3). apply HC; auto. by eapply run_disk'. }
  apply wpc_bind. eapply wpc_rename; [exact Ht|done|exact HC'|].
  apply wpc_ret; [exact HC'|]. by apply HQ.
Qed.

Lemma wait_compaction_leaf cfg x m w0 w sh s n (C : fs -> Prop) (Q : shard -> fs -> Prop) E :
  leafQ cfg x w0 m s n (RLeaf sh) w ->
  (forall w', wf w' -> outside_same s (s + 2 ^ N.of_nat n) w0 w' -> disk_span cfg false m w' s n -> C w') ->
  (forall w' sh', leafQ cfg x w0 m s n (RLeaf sh') w' -> sh_tgt sh' = None ->
     (forall q, room w sh q -> room w' sh' q) -> Q sh' w') ->
  wpc (wait_compaction cfg sh) C Q E w.
Proof.
  intros (Hwf & Hos & Hrun) HC HQ. pose proof Hrun as Hrun'.
  apply run_leaf in Hrun as (Hs & He & Hleaf & Hsolo).
  assert (C w) as HC0 by (apply HC; auto; by eapply leaf_disk_span).
  unfold wait_compaction. destruct (sh_tgt sh) as [[t b]|] eqn:Et.
  2:{ apply wpc_ret; [done|]. apply HQ; auto. split; auto. }
  pose proof Hleaf as (f & L & H1 & H2 & H3 & H4 & H5 & H6 & H7). rewrite Et in H7.
  destruct H7 as (T0 & ft & Lt & T1 & T2 & T3). rewrite Hs, He in *.
  set (e := s + 2 ^ N.of_nat n) in *.
  pose proof (comp_files_ne _ _ _ _ _ Hwf H1 T0) as Hne.
  apply wpc_bind. rewrite <- (set_file_id t ft w T1) at 1.
  assert (Hwf' : forall f', wf (set_file t f' w)) by (intros; apply wf_set_file; eauto).
  assert (Hos' : forall f', outside_same s e w0 (set_file t f' w)).
  { intros f'. eapply outside_same_trans; [exact Hos|].
    eapply outside_same_set_file; [done|exact T0|]. apply outside_self_c. }
  eapply (do_compaction_spec cfg x m (home cfg s e) COMPACT_FUEL (sh_ino sh) t f L b ft Lt 0);
    eauto.
  - unfold COMPACT_FUEL. lia.
  - intros ft' Lt' j' D1 D2 D3 D4. apply HC; auto.
    eapply (disk_solo cfg false); [|by eapply solo_dir].
    exists (sh_ino sh), f, L. fold e. rewrite set_file_ne by done. cbn [set_file fs_dir].
    repeat (split; [done|]). split; [by eapply acct_weaken|]. split; [done|].
    rewrite T0. exists ft', Lt', j'. split; [apply set_file_get|]. done.
  - intros ft' Lt' D1 D2 D3 D4 D5 D6 D7 D8.
    unfold finish_compaction. rewrite Hs, He. fold e.
    assert (f_woff ft' < 2 ^ 32) as D9.
    { rewrite D5. apply T3. }
    assert (hdr_ok ft') as Hh'.
    { destruct T2 as (A1 & A2 & A3). repeat split; (congruence || lia). }
    eapply (finish_leaf cfg x m w0 _ s n (sh_ino sh) t ft' Lt'); fold e; auto.
    + apply set_file_get.
    + apply HC; auto. eapply (disk_solo cfg x); [|by eapply solo_dir].
      exists (sh_ino sh), f, L. fold e. rewrite set_file_ne by done. cbn [set_file fs_dir].
      repeat (split; [done|]). rewrite T0. exists ft', Lt', 0%nat. split; [apply set_file_get|].
      split; [|done]. split; rewrite ?D3; auto; try lia.
    + intros w' G1 G2. apply HQ; auto. intros q Hq. unfold room in *. cbn [sh_ino sh_tgt].
      rewrite G2, set_file_get. rewrite H2, Et, T1 in Hq.
      pose proof (rest_live_le L (f_cut ft)). destruct H5 as [H5 _]. lia.
Qed.

Lemma bg_row_leaf cfg x m w sh s n (Q : shard -> fs -> Prop) E :
  wf w -> run_span cfg x m w (RLeaf sh) s n ->
  (forall w' sh', leafQ cfg x w m s n (RLeaf sh') w' -> Q sh' w') ->
  wpc (bg_row cfg sh) (leafC cfg w m m s n) Q E w.
Proof.
  intros Hwf Hrun HQ. pose proof Hrun as Hrun'.
  apply run_leaf in Hrun as (Hs & He & Hleaf & Hsolo).
  assert (leafC cfg w m m s n w) as HC0.
  { split; [done|]. split; [apply outside_same_refl|]. left. by eapply leaf_disk_span. }
  assert (leafQ cfg x w m s n (RLeaf sh) w) as HQ0.
  { split; [done|]. split; [apply outside_same_refl|done]. }
  unfold bg_row. destruct (sh_tgt sh) as [[t b]|] eqn:Et.
  2:{ apply wpc_ret; [done|]. by apply HQ. }
  pose proof Hleaf as (f & L & H1 & H2 & H3 & H4 & H5 & H6 & H7). rewrite Et in H7.
  destruct H7 as (T0 & ft & Lt & T1 & T2 & T3). rewrite Hs, He in *.
  set (e := s + 2 ^ N.of_nat n) in *.
  pose proof (comp_files_ne _ _ _ _ _ Hwf H1 T0) as Hne.
  apply wpc_bind. eapply wpc_get_file; [exact T1|done|].
  destruct (Nat.leb_spec NUM_ROWS (f_cut ft)) as [Hge|Hlt].
  { apply wpc_ret; [done|]. by apply HQ. }
  assert (Hwf' : forall f', wf (set_file t f' w)) by (intros; apply wf_set_file; eauto).
  assert (Hos' : forall f', outside_same s e w (set_file t f' w)).
  { intros f'. eapply outside_same_set_file; [done|exact T0|]. apply outside_self_c. }
  apply wpc_bind. rewrite <- (set_file_id t ft w T1) at 2.
  eapply (compact_row_spec cfg x m (home cfg s e) (sh_ino sh) t f L b ft Lt 0); eauto.
  - intros ft' Lt' j' D1 D2 D3 D4. split; [auto|]. split; [auto|]. left.
    eapply (disk_solo cfg false); [|by eapply solo_dir].
    exists (sh_ino sh), f, L. fold e. rewrite set_file_ne by done. cbn [set_file fs_dir].
    repeat (split; [done|]). split; [by eapply acct_weaken|]. split; [done|].
    rewrite T0. exists ft', Lt', j'. split; [apply set_file_get|]. done.
  - intros ft' Lt' D1 D2 D3 D4 D5 D6. rewrite bool_decide_eq_true_2, andb_true_r in D1 by done.
    assert (leafQ cfg x w m s n (RLeaf (Shard s e (sh_ino sh) (Some (t, false)))) (set_file t ft' w)) as HQ'.
    { split; [auto|]. split; [auto|].
      apply run_leaf. split; [done|]. split; [done|]. split; [|by eapply solo_dir].
      exists f, L. cbn [sh_start sh_end sh_ino sh_tgt]. rewrite set_file_ne by done.
      repeat (split; [done|]). exists ft', Lt'. split; [apply set_file_get|]. split; [|done].
      destruct T2 as (A1 & A2 & A3). repeat split; (congruence || lia). }
    rewrite ?Hs, ?He. apply wpc_ret; [|by apply HQ].
    destruct HQ' as (A1 & A2 & A3). split; [done|]. split; [done|]. left. by eapply run_disk'.
Qed.

Lemma bg_finish_leaf cfg x m w sh s n (Q : shard -> fs -> Prop) E :
  wf w -> run_span cfg x m w (RLeaf sh) s n ->
  (forall w' sh', leafQ cfg x w m s n (RLeaf sh') w' -> Q sh' w') ->
  wpc (bg_finish sh) (leafC cfg w m m s n) Q E w.
Proof.
  intros Hwf Hrun HQ. pose proof Hrun as Hrun'.
  apply run_leaf in Hrun as (Hs & He & Hleaf & Hsolo).
  assert (leafC cfg w m m s n w) as HC0.
  { split; [done|]. split; [apply outside_same_refl|]. left. by eapply leaf_disk_span. }
  assert (leafQ cfg x w m s n (RLeaf sh) w) as HQ0.
  { split; [done|]. split; [apply outside_same_refl|done]. }
  unfold bg_finish. destruct (sh_tgt sh) as [[t b]|] eqn:Et.
  2:{ apply wpc_ret; [done|]. by apply HQ. }
  pose proof Hleaf as (f & L & H1 & H2 & H3 & H4 & H5 & H6 & H7). rewrite Et in H7.
  destruct H7 as (T0 & ft & Lt & T1 & T2 & T3). rewrite Hs, He in *.
  set (e := s + 2 ^ N.of_nat n) in *.
  apply wpc_bind. eapply wpc_get_file; [exact T1|done|].
  destruct (Nat.leb_spec NUM_ROWS (f_cut ft)) as [Hge|Hlt].
  2:{ apply wpc_ret; [done|]. by apply HQ. }
  unfold finish_compaction. rewrite Hs, He. fold e.
  destruct T3 as [C1 C2 C3 C4 C5 C6 C7 C8].
  eapply (finish_leaf cfg x m w _ s n (sh_ino sh) t ft Lt); fold e; auto.
  - apply outside_same_refl.
  - lia.
  - intros r Hr. apply C4. lia.
  - intros w' A1 A2 A3. split; [done|]. split; [done|]. by left.
Qed.
