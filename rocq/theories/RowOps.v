(** Row-level operations on one file: insert, remove, copying one entry. *)
From Verif Require Import Base Hashing HashingProofs Fs Shard Wpc Spec FileRep.

Ltac upd_fields f := destruct f; repeat split; cbn; auto; try lia.

(** ** Single slot updates on a represented file *)
Lemma slot_lookup cfg f L r c o :
  file_rep cfg f L -> (r < NUM_ROWS)%nat -> L r !! c = Some o ->
  exists s, row_of f r !! c = Some s /\ slot_ok cfg f r s o.
Proof.
  intros Hf Hr Hl. apply (file_rep_row _ _ _ _ Hf) in Hr.
  destruct (Forall2_lookup_r _ _ _ _ _ Hr Hl) as (s & Hs & Hok). eauto.
Qed.

Lemma ext_same f f' :
  f_len f' = f_len f -> f_woff f' = f_woff f -> f_data f' = f_data f -> ext f f'.
Proof. intros E1 E2 E3. repeat split; rewrite ?E1, ?E2, ?E3; auto; lia. Qed.

Lemma rep_udesc cfg f L r c d k v o :
  file_rep cfg f L -> (r < NUM_ROWS)%nat -> L r !! c = Some o ->
  read_kv f d = Ok (k, v) -> desc_off d + (len k + len v) <= f_woff f ->
  match o with None => True | Some (k', _) => k' = k end ->
  file_rep cfg (apply_fupd (UDesc r c d) f)
    (upd_row r (<[c := match o with None => None | Some _ => Some (k, v) end]> (L r)) L).
Proof.
  intros Hf Hr Hl Hd Ho Hk. destruct (slot_lookup _ _ _ _ _ _ Hf Hr Hl) as (s & Hs & Hok).
  eapply file_rep_slot; [done|done| | |done|].
  - by destruct f.
  - apply ext_same; by destruct f.
  - destruct o as [[k' v']|].
    + subst k'. destruct Hok as (H0 & H1 & H2 & _ & _). cbn. repeat split; auto; try by destruct f.
    + done.
Qed.
Lemma rep_usig cfg f L r c k v o s :
  file_rep cfg f L -> (r < NUM_ROWS)%nat -> L r !! c = Some o ->
  row_of f r !! c = Some s -> k <> [] -> ph_row (hashk cfg k) = r ->
  read_kv f (s_desc s) = Ok (k, v) -> desc_off (s_desc s) + (len k + len v) <= f_woff f ->
  file_rep cfg (apply_fupd (USig r c (ph_sig (hashk cfg k))) f)
    (upd_row r (<[c := Some (k, v)]> (L r)) L).
Proof.
  intros Hf Hr Hl Hs Hne Hrow Hd Ho.
  eapply file_rep_slot; [done|done| | |done|].
  - by destruct f.
  - apply ext_same; by destruct f.
  - cbn. repeat split; auto; by destruct f.
Qed.
Lemma rep_usig0 cfg f L r c o :
  file_rep cfg f L -> (r < NUM_ROWS)%nat -> L r !! c = Some o ->
  file_rep cfg (apply_fupd (USig r c INVALID_SIG) f) (upd_row r (<[c := None]> (L r)) L).
Proof.
  intros Hf Hr Hl. destruct (slot_lookup _ _ _ _ _ _ Hf Hr Hl) as (s & Hs & Hok).
  eapply file_rep_slot; [done|done| | |done|].
  - by destruct f.
  - apply ext_same; by destruct f.
  - done.
Qed.
Lemma rep_same cfg f f' L :
  f_rows f' = f_rows f -> f_len f' = f_len f -> f_woff f' = f_woff f -> f_data f' = f_data f ->
  file_rep cfg f L -> file_rep cfg f' L.
Proof. intros. eapply file_rep_ext; [done| |done]. by apply ext_same. Qed.

Lemma udesc_desc f r c d s :
  row_of f r !! c = Some s ->
  row_of (apply_fupd (UDesc r c d) f) r !! c = Some (Slot (s_sig s) d).
Proof.
  intros Hs. rewrite (row_of_set_slot f _ r c (fun s => Slot (s_sig s) d)) by by destruct f.
  rewrite decide_True by done. rewrite list_lookup_alter, Hs. done.
Qed.

(** Byte and entry accounting of one changed slot. *)
Lemma live_insert L r c o o' : (r < NUM_ROWS)%nat -> L r !! c = Some o ->
  live (upd_row r (<[c := o']> (L r)) L) + bytes_of (option_list o) = live L + bytes_of (option_list o').
Proof.
  intros Hr Hc. pose proof (live_upd L r (<[c:=o']> (L r)) Hr) as H.
  rewrite (entries_split c o (L r)), (entries_insert c o' (L r)) in H by eauto.
  rewrite !bytes_of_app in H. lia.
Qed.
Lemma count_insert L r c o o' : (r < NUM_ROWS)%nat -> L r !! c = Some o ->
  count (upd_row r (<[c := o']> (L r)) L) + len (option_list o) = count L + len (option_list o').
Proof.
  intros Hr Hc. pose proof (count_upd L r (<[c:=o']> (L r)) Hr) as H.
  assert (len (entries (L r)) = len (option_list o) + len (others c (L r))) as E1.
  { rewrite <- len_app. unfold len. by rewrite (entries_split c o (L r) Hc). }
  assert (len (entries (<[c:=o']> (L r))) = len (option_list o') + len (others c (L r))) as E2.
  { rewrite <- len_app. unfold len. by rewrite (entries_insert c o' (L r)) by eauto. }
  lia.
Qed.
Lemma bytes_some k v : bytes_of (option_list (Some (k, v))) = len k + len v.
Proof. cbn. unfold kvsize. cbn. lia. Qed.

(** ** Writing a new entry into a slot (insert, compaction, split, merge) *)
Definition fill_slot {A} (i : ino) (r c : nat) (k v : bytes) (sig : N) (p : prog A) : prog A :=
  do! d <- write_kv i k v;
  do! _ <- upd i (UDesc r c d);
  do! _ <- upd i (USig r c sig);
  do! _ <- upd i UIns;
  p.

Lemma fill_slot_spec {A} cfg x i k v f L r c o w (p : prog A) (C : fs -> Prop) Q E :
  file_rep cfg f L -> acct x f L ->
  len k < 16384 -> len v < 65536 -> f_woff f + (len k + len v) < 2 ^ 32 -> k <> [] ->
  ph_row (hashk cfg k) = r -> L r !! c = Some o -> o = None \/ o = Some (k, v) ->
  (forall f' L', near f f' (len k + len v) -> file_rep cfg f' L' -> acct false f' L' ->
     L' = L \/ L' = upd_row r (<[c := Some (k, v)]> (L r)) L -> C (set_file i f' w)) ->
  (forall f', near f f' (len k + len v) -> f_woff f' = f_woff f + (len k + len v) ->
     file_rep cfg f' (upd_row r (<[c := Some (k, v)]> (L r)) L) ->
     acct (x && bool_decide (o = None)) f' (upd_row r (<[c := Some (k, v)]> (L r)) L) ->
     wpc p C Q E (set_file i f' w)) ->
  wpc (fill_slot i r c k v (ph_sig (hashk cfg k)) p) C Q E (set_file i f w).
Proof.
  intros Hf Ha Hk Hv Hoff Hne Hrow Hl Ho HC HQ.
  assert (r < NUM_ROWS)%nat as Hr by (rewrite <- Hrow; apply ph_row_lt).
  set (L' := upd_row r (<[c := Some (k, v)]> (L r)) L) in *.
  pose proof (live_insert L r c o (Some (k, v)) Hr Hl) as Hlive.
  pose proof (count_insert L r c o (Some (k, v)) Hr Hl) as Hcount.
  change (upd_row r _ L) with L' in Hlive; change (upd_row r _ L) with L' in Hcount. rewrite bytes_some in Hlive. change (len (option_list (Some (k,v)))) with 1 in Hcount.
  assert (C (set_file i f w)) as HC0.
  { apply (HC f L); auto; [apply near_refl|by eapply acct_weaken]. }
  unfold fill_slot. apply wpc_bind. apply write_kv_spec; auto.
  { intros f1 HW. eapply HC; [apply HW|by eapply wrote_rep|by eapply wrote_acct|auto]. }
  intros f1 d HW Hd Hdo.
  assert (file_rep cfg f1 L) as Hf1 by by eapply wrote_rep.
  destruct (slot_lookup _ _ _ _ _ _ Hf1 Hr Hl) as (s & Hs & Hok).
  set (f2 := apply_fupd (UDesc r c d) f1).
  assert (f_woff f2 = f_woff f1 /\ f_wasted f2 = f_wasted f1 /\ f_ins f2 = f_ins f1 /\ f_rem f2 = f_rem f1
    /\ f_len f2 = f_len f1 /\ f_cut f2 = f_cut f1 /\ f_magic f2 = f_magic f1 /\ f_version f2 = f_version f1
    /\ f_data f2 = f_data f1) as (A1&A2&A3&A4&A5&A6&A7&A8&A9).
  { subst f2. by destruct f1. }
  assert (file_rep cfg f2 L) as Hf2.
  { pose proof (rep_udesc cfg f1 L r c d k v o Hf1 Hr Hl Hd Hdo) as H.
    fold f2 in H. eapply file_rep_pointwise; [|apply H].
    - intros r' _. destruct (decide (r' = r)) as [->|]; [|by rewrite upd_row_ne].
      rewrite upd_row_eq. apply list_insert_id. destruct Ho as [->| ->]; done.
    - destruct Ho as [->| ->]; done. }
  assert (row_of f2 r !! c = Some (Slot (s_sig s) d)) as Hs2 by by apply udesc_desc.
  set (f3 := apply_fupd (USig r c (ph_sig (hashk cfg k))) f2).
  assert (f_woff f3 = f_woff f2 /\ f_wasted f3 = f_wasted f2 /\ f_ins f3 = f_ins f2 /\ f_rem f3 = f_rem f2
    /\ f_len f3 = f_len f2 /\ f_cut f3 = f_cut f2 /\ f_magic f3 = f_magic f2 /\ f_version f3 = f_version f2
    /\ f_data f3 = f_data f2) as (B1&B2&B3&B4&B5&B6&B7&B8&B9).
  { subst f3. by destruct f2. }
  assert (file_rep cfg f3 L') as Hf3.
  { eapply rep_usig; [exact Hf2|done|done|exact Hs2|done|done|..]; cbn [s_desc].
    - eapply read_kv_ext; [|exact Hd|done]. by apply ext_same.
    - congruence. }
  set (f4 := apply_fupd UIns f3).
  assert (f_woff f4 = f_woff f3 /\ f_wasted f4 = f_wasted f3 /\ f_ins f4 = f_ins f3 + 1 /\ f_rem f4 = f_rem f3
    /\ f_len f4 = f_len f3 /\ f_cut f4 = f_cut f3 /\ f_magic f4 = f_magic f3 /\ f_version f4 = f_version f3
    /\ f_data f4 = f_data f3 /\ f_rows f4 = f_rows f3) as (D1&D2&D3&D4&D5&D6&D7&D8&D9&D10).
  { subst f4. by destruct f3. }
  pose proof HW as HW'.
  destruct HW as (W1 & W2 & (W3 & W4 & W5 & W6 & W7) & W8 & W9 & W10 & W11).
  destruct Ha as [Ha1 Ha2].
  assert (near f f2 (len k + len v)) as N2 by (repeat split; (congruence || lia)).
  assert (near f f3 (len k + len v)) as N3 by (repeat split; (congruence || lia)).
  assert (near f f4 (len k + len v)) as N4 by (repeat split; (congruence || lia)).
  assert (acct false f2 L) as Ha2' by (split; [|done]; rewrite A1, A2, W8, W9; lia).
  assert (acct false f3 L') as Ha3' by (split; [|done]; rewrite B1, B2, A1, A2, W8, W9; lia).
  assert (acct false f4 L') as Ha4' by (split; [|done]; rewrite D1, D2, B1, B2, A1, A2, W8, W9; lia).
  assert (file_rep cfg f4 L') as Hf4 by by eapply rep_same.
  apply wpc_bind. apply wpc_upd'.
  { eapply HC; [..|by left]; auto; [apply HW'|]. split; [|done]. rewrite W8, W9. lia. }
  { fold f2. eapply HC; [..|by left]; auto. }
  fold f2. apply wpc_bind. apply wpc_upd'.
  { eapply HC; [..|by left]; auto. }
  { fold f3. eapply HC; [..|by right]; auto. }
  fold f3. apply wpc_bind. apply wpc_upd'.
  { eapply HC; [..|by right]; auto. }
  { fold f4. eapply HC; [..|by right]; auto. }
  fold f4. apply HQ; auto.
  - congruence.
  - split; [apply Ha4'|]. intros [Hx Ho']%andb_prop. apply bool_decide_eq_true in Ho'. subst o.
    specialize (Ha2 Hx) as [Hx1 Hx2]. change (bytes_of (option_list None)) with 0 in Hlive.
    change (len (option_list None)) with 0 in Hcount.
    rewrite D1, D2, D3, D4, B1, B2, B3, B4, A1, A2, A3, A4, W8, W9, W10, W11. lia.
Qed.

(** ** What an insertion does to a row *)
Inductive row_ins (l : row_t) (k v : bytes) : ins_mode -> row_t -> ins_status -> Prop :=
| ri_exists c old : l !! c = Some (Some (k, old)) -> row_ins l k v MGetOrCreate l (SExists old)
| ri_wrong c old ex : l !! c = Some (Some (k, old)) -> ex <> old ->
    row_ins l k v (MReplace (Some ex)) l (SExists old)
| ri_replace c old mode : l !! c = Some (Some (k, old)) ->
    mode = MSet \/ mode = MReplace None \/ mode = MReplace (Some old) ->
    row_ins l k v mode (<[c := Some (k, v)]> l) (SReplaced old)
| ri_nokey ex : (forall v', (k, v') ∉ entries l) -> row_ins l k v (MReplace ex) l SNoKey
| ri_added c mode : (forall v', (k, v') ∉ entries l) -> l !! c = Some None ->
    mode = MSet \/ mode = MGetOrCreate ->
    row_ins l k v mode (<[c := Some (k, v)]> l) SAdded
| ri_full mode : (forall v', (k, v') ∉ entries l) -> None ∉ l ->
    mode = MSet \/ mode = MGetOrCreate -> row_ins l k v mode l SSplit.

Lemma row_ins_holds m (P : bytes -> Prop) k v mode l l' st :
  row_ins l k v mode l' st -> P k -> holds m P (entries l) ->
  if decide (st = SSplit) then l' = l /\ m !! k = None /\ length (entries l) = length l
                               /\ snd (spec_ins m k v mode) = SAdded
  else holds (fst (spec_ins m k v mode)) P (entries l') /\ st = snd (spec_ins m k v mode).
Proof.
  intros Hi HP Hh.
  assert (Hin : forall c old, l !! c = Some (Some (k, old)) -> m !! k = Some old).
  { intros c old Hl. destruct Hh as [_ Hb]. apply (Hb k old). apply elem_of_entries.
    by apply elem_of_list_lookup_2 in Hl. }
  assert (Hout : (forall v', (k, v') ∉ entries l) -> m !! k = None).
  { intros Hn. destruct (m !! k) as [v'|] eqn:E; [|done]. exfalso.
    apply (Hn v'). apply Hh. auto. }
  unfold spec_ins. destruct Hi as [c old Hl|c old ex Hl Hne|c old mode Hl Hm|ex Hn|c mode Hn Hl Hm|mode Hn Hf Hm].
  - rewrite (Hin _ _ Hl). done.
  - rewrite (Hin _ _ Hl). rewrite bool_decide_eq_false_2 by done. done.
  - rewrite (Hin _ _ Hl). rewrite decide_False by done.
    assert (holds (<[k:=v]> m) P (entries (<[c:=Some (k, v)]> l))) as H.
    { rewrite entries_insert by eauto. rewrite (entries_split _ _ _ Hl) in Hh.
      exact (holds_set _ _ _ _ _ _ Hh). }
    destruct Hm as [->|[->| ->]]; [done|done|]. rewrite bool_decide_eq_true_2 by done. done.
  - rewrite (Hout Hn). done.
  - rewrite (Hout Hn). rewrite decide_False by done.
    assert (holds (<[k:=v]> m) P (entries (<[c:=Some (k, v)]> l))) as H.
    { rewrite entries_insert by eauto. rewrite (entries_split _ _ _ Hl) in Hh.
      apply holds_add; auto. }
    destruct Hm as [->| ->]; done.
  - rewrite decide_True by done. rewrite (Hout Hn). repeat split; auto.
    + by apply entries_full.
    + by destruct Hm as [->| ->].
Qed.

(** ** [insert_row] *)
Lemma insert_row_spec cfg x i f L k v mode w (C : fs -> Prop) (Q : ins_status -> fs -> Prop) E :
  file_rep cfg f L -> acct x f L ->
  len k < 16384 -> len v < 65536 -> f_woff f + (len k + len v) < 2 ^ 32 -> k <> [] ->
  let r := ph_row (hashk cfg k) in
  (forall f' L' l' st, near f f' (len k + len v) -> file_rep cfg f' L' -> acct false f' L' ->
     row_ins (L r) k v mode l' st ->
     L' = L \/ L' = upd_row r l' L -> C (set_file i f' w)) ->
  (forall f' l' st, near f f' (len k + len v) -> file_rep cfg f' (upd_row r l' L) ->
     acct x f' (upd_row r l' L) ->
     row_ins (L r) k v mode l' st -> (st = SSplit -> f' = f) -> Q st (set_file i f' w)) ->
  wpc (insert_row i f (hashk cfg k) k v mode) C Q E (set_file i f w).
Proof.
  intros Hf Ha Hk Hv Hoff Hne r HC HQ.
  assert (r < NUM_ROWS)%nat as Hr by apply ph_row_lt.
  pose proof (file_rep_row _ _ _ _ Hf Hr) as Hrow.
  unfold insert_row. fold r.
  (* nothing changes *)
  assert (Hsame : forall st, row_ins (L r) k v mode (L r) st ->
    wpc (Ret st) C Q E (set_file i f w)).
  { intros st Hi. apply wpc_ret.
    - eapply HC; [apply near_refl|done|by eapply acct_weaken|done|by left].
    - eapply HQ; [apply near_refl|by apply upd_row_id| |done|done].
      destruct Ha as [H1 H2]. unfold acct.
      rewrite (live_ext (upd_row r (L r) L) L), (count_ext (upd_row r (L r) L) L).
      + done.
      + intros r' _. destruct (decide (r' = r)) as [->|]; [by rewrite upd_row_eq|by rewrite upd_row_ne].
      + intros r' _. destruct (decide (r' = r)) as [->|]; [by rewrite upd_row_eq|by rewrite upd_row_ne]. }
  destruct (scan_row_spec cfg f r _ _ k 0 false Hrow) as [(c & old & b & E1 & Hl)|(b & E1 & Hn)].
  - assert (Hrep : mode = MSet \/ mode = MReplace None \/ mode = MReplace (Some old) ->
      wpc (if bool_decide (v = old) then Ret (SReplaced old)
      else
        do! d <- write_kv i k v;
        do! _ <- upd i (UDesc r (0 + c) d);
        do! _ <- upd i (UWaste (len k + len old));
        Ret (SReplaced old)) C Q E (set_file i f w)).
    { intros Hm. pose proof (ri_replace (L r) k v c old mode Hl Hm) as Hi.
      destruct (bool_decide_reflect (v = old)) as [->|Hvo].
      { apply Hsame. rewrite <- (list_insert_id _ _ _ Hl) at 2. done. }
      cbn [Nat.add].
      apply wpc_bind. apply write_kv_spec; auto.
      { eapply HC; [apply near_refl|done|by eapply acct_weaken|done|by left]. }
      { intros f1 HW. eapply HC; [apply HW|by eapply wrote_rep|by eapply wrote_acct|done|by left]. }
      intros f1 d HW Hd Hdo.
      assert (file_rep cfg f1 L) as Hf1 by by eapply wrote_rep.
      set (f2 := apply_fupd (UDesc r c d) f1).
      assert (f_woff f2 = f_woff f1 /\ f_wasted f2 = f_wasted f1 /\ f_ins f2 = f_ins f1 /\ f_rem f2 = f_rem f1
        /\ f_len f2 = f_len f1 /\ f_cut f2 = f_cut f1 /\ f_magic f2 = f_magic f1 /\ f_version f2 = f_version f1
        /\ f_data f2 = f_data f1) as (A1&A2&A3&A4&A5&A6&A7&A8&A9).
      { subst f2. by destruct f1. }
      set (L' := upd_row r (<[c := Some (k, v)]> (L r)) L) in *.
      assert (file_rep cfg f2 L') as Hf2.
      { by apply (rep_udesc cfg f1 L r c d k v (Some (k, old))). }
      set (f3 := apply_fupd (UWaste (len k + len old)) f2).
      assert (f_woff f3 = f_woff f2 /\ f_wasted f3 = f_wasted f2 + (len k + len old) /\ f_ins f3 = f_ins f2
        /\ f_rem f3 = f_rem f2 /\ f_len f3 = f_len f2 /\ f_cut f3 = f_cut f2 /\ f_magic f3 = f_magic f2
        /\ f_version f3 = f_version f2 /\ f_data f3 = f_data f2 /\ f_rows f3 = f_rows f2)
        as (B1&B2&B3&B4&B5&B6&B7&B8&B9&B10).
      { subst f3. by destruct f2. }
      assert (file_rep cfg f3 L') as Hf3 by by eapply rep_same.
      pose proof (live_insert L r c _ (Some (k, v)) Hr Hl) as Hlive.
      pose proof (count_insert L r c _ (Some (k, v)) Hr Hl) as Hcount.
      change (upd_row r _ L) with L' in Hlive; change (upd_row r _ L) with L' in Hcount. rewrite !bytes_some in Hlive.
      change (len (option_list (Some (k,v)))) with 1 in Hcount.
      change (len (option_list (Some (k,old)))) with 1 in Hcount.
      pose proof HW as HW'.
      destruct HW as (W1 & W2 & (W3 & W4 & W5 & W6 & W7) & W8 & W9 & W10 & W11).
      pose proof Ha as [Ha1 Ha2].
      assert (near f f2 (len k + len v)) as N2 by (repeat split; (congruence || lia)).
      assert (near f f3 (len k + len v)) as N3 by (repeat split; (congruence || lia)).
      assert (acct false f2 L') as Ha2' by (split; [|done]; rewrite A1, A2, W8, W9; lia).
      assert (acct false f3 L') as Ha3' by (split; [|done]; rewrite B1, B2, A1, A2, W8, W9; lia).
      apply wpc_bind. apply wpc_upd'.
      { eapply HC; [apply HW'|done|by eapply wrote_acct|done|by left]. }
      { fold f2. eapply HC; [..|by right]; done. }
      fold f2. apply wpc_bind. apply wpc_upd'.
      { eapply HC; [..|by right]; done. }
      { fold f3. eapply HC; [..|by right]; done. }
      fold f3. apply wpc_ret.
      { eapply HC; [..|by right]; done. }
      eapply HQ; [done|done| |done|done]. split; [apply Ha3'|]. intros Hx. change (upd_row r _ L) with L'.
      specialize (Ha2 Hx). rewrite B1, B2, B3, B4, A1, A2, A3, A4, W8, W9, W10, W11. lia. }
    apply wpc_bind. eapply wpc_lift_ok; [exact E1| |].
    { eapply HC with (L' := L) (st := match mode with MGetOrCreate => SExists old
                     | MReplace (Some ex) => if decide (ex = old) then SReplaced old else SExists old
                     | _ => SReplaced old end)
        (l' := match mode with MGetOrCreate => L r
                     | MReplace (Some ex) => if decide (ex = old) then <[c := Some (k,v)]> (L r) else L r
                     | _ => <[c := Some (k,v)]> (L r) end);
        [apply near_refl|done|by eapply acct_weaken| |by left].
      destruct mode as [|[ex|]|].
      - eapply ri_replace; eauto.
      - destruct (decide (ex = old)) as [->|].
        + eapply ri_replace; eauto.
        + eapply ri_wrong; eauto.
      - eapply ri_replace; eauto.
      - eapply ri_exists; eauto. }
    destruct mode as [|[ex|]|].
    + apply Hrep. auto.
    + destruct (bool_decide_reflect (ex = old)) as [->|Hx].
      * apply Hrep. auto.
      * apply Hsame. eapply ri_wrong; eauto.
    + apply Hrep. auto.
    + apply Hsame. eapply ri_exists; eauto.
  - apply wpc_bind.
    pose proof (find_free_spec cfg f r _ _ 0 Hrow) as Hfree.
    assert (exists l' st, row_ins (L r) k v mode l' st) as (l0 & st0 & Hi0).
    { destruct mode as [|ex|].
      - destruct (find_free 0 (row_of f r)).
        + destruct Hfree as (c' & _ & Hl). do 2 eexists. apply (ri_added _ _ _ c'); [exact Hn|exact Hl|by auto].
        + do 2 eexists. apply ri_full; [exact Hn|done|by auto].
      - do 2 eexists. apply ri_nokey. exact Hn.
      - destruct (find_free 0 (row_of f r)).
        + destruct Hfree as (c' & _ & Hl). do 2 eexists. apply (ri_added _ _ _ c'); [exact Hn|exact Hl|by auto].
        + do 2 eexists. apply ri_full; [exact Hn|done|by auto]. }
    eapply wpc_lift_ok; [exact E1| |].
    { eapply HC; [apply near_refl|done|by eapply acct_weaken|exact Hi0|by left]. }
    cbn iota.
    assert (Hadd : mode = MSet \/ mode = MGetOrCreate ->
      wpc match find_free 0 (row_of f r) with
        | Some c =>
          do! d <- write_kv i k v;
          do! _ <- upd i (UDesc r c d);
          do! _ <- upd i (USig r c (ph_sig (hashk cfg k)));
          do! _ <- upd i UIns;
          Ret SAdded
        | None => Ret SSplit
        end C Q E (set_file i f w)).
    { intros Hm. destruct (find_free 0 (row_of f r)) as [c|].
      - destruct Hfree as (c' & -> & Hl). cbn [Nat.add].
        pose proof (ri_added (L r) k v c' mode Hn Hl Hm) as Hi.
        apply (fill_slot_spec cfg x i k v f L r c' None w (Ret SAdded)); auto.
        + intros f' L' N1 N2 N3 N4. eapply HC; eauto.
        + intros f' N1 N2 N3 N4. apply wpc_ret.
          * eapply HC; [exact N1|exact N3| |exact Hi|by right]. by eapply acct_weaken.
          * eapply HQ; [done|exact N3| |done|done]. by rewrite andb_true_r in N4.
      - apply Hsame. by apply ri_full. }
    destruct mode as [|ex|].
    + apply Hadd. by left.
    + apply Hsame. by apply ri_nokey.
    + apply Hadd. by right.
Qed.

(** ** Removal from a row, as in [shard_remove] after the lookup. *)
Lemma remove_slot_spec cfg x i f L k old c w (C : fs -> Prop) (Q : option bytes -> fs -> Prop) E :
  file_rep cfg f L -> acct x f L ->
  let r := ph_row (hashk cfg k) in
  L r !! c = Some (Some (k, old)) ->
  (forall f' L', near f f' 0 -> file_rep cfg f' L' -> acct false f' L' ->
     L' = L \/ L' = upd_row r (<[c := None]> (L r)) L -> C (set_file i f' w)) ->
  (forall f', near f f' 0 -> file_rep cfg f' (upd_row r (<[c := None]> (L r)) L) ->
     acct x f' (upd_row r (<[c := None]> (L r)) L) -> Q (Some old) (set_file i f' w)) ->
  wpc (do! _ <- upd i (USig r c INVALID_SIG);
       do! _ <- upd i URem;
       do! _ <- upd i (UWaste (len k + len old));
       Ret (Some old)) C Q E (set_file i f w).
Proof.
  intros Hf Ha r Hl HC HQ.
  assert (r < NUM_ROWS)%nat as Hr by apply ph_row_lt.
  set (L' := upd_row r (<[c := None]> (L r)) L) in *.
  pose proof (live_insert L r c _ None Hr Hl) as Hlive.
  pose proof (count_insert L r c _ None Hr Hl) as Hcount.
  change (upd_row r _ L) with L' in Hlive; change (upd_row r _ L) with L' in Hcount. rewrite bytes_some in Hlive.
  change (len (option_list (Some (k,old)))) with 1 in Hcount.
  change (len (option_list None)) with 0 in Hcount.
  change (bytes_of (option_list None)) with 0 in Hlive.
  set (f1 := apply_fupd (USig r c INVALID_SIG) f).
  assert (f_woff f1 = f_woff f /\ f_wasted f1 = f_wasted f /\ f_ins f1 = f_ins f /\ f_rem f1 = f_rem f
    /\ f_len f1 = f_len f /\ f_cut f1 = f_cut f /\ f_magic f1 = f_magic f /\ f_version f1 = f_version f
    /\ f_data f1 = f_data f) as (A1&A2&A3&A4&A5&A6&A7&A8&A9).
  { subst f1. by destruct f. }
  assert (file_rep cfg f1 L') as Hf1 by by eapply rep_usig0.
  set (f2 := apply_fupd URem f1).
  assert (f_woff f2 = f_woff f1 /\ f_wasted f2 = f_wasted f1 /\ f_ins f2 = f_ins f1 /\ f_rem f2 = f_rem f1 + 1
    /\ f_len f2 = f_len f1 /\ f_cut f2 = f_cut f1 /\ f_magic f2 = f_magic f1 /\ f_version f2 = f_version f1
    /\ f_data f2 = f_data f1 /\ f_rows f2 = f_rows f1) as (B1&B2&B3&B4&B5&B6&B7&B8&B9&B10).
  { subst f2. by destruct f1. }
  assert (file_rep cfg f2 L') as Hf2 by by eapply rep_same.
  set (f3 := apply_fupd (UWaste (len k + len old)) f2).
  assert (f_woff f3 = f_woff f2 /\ f_wasted f3 = f_wasted f2 + (len k + len old) /\ f_ins f3 = f_ins f2
    /\ f_rem f3 = f_rem f2 /\ f_len f3 = f_len f2 /\ f_cut f3 = f_cut f2 /\ f_magic f3 = f_magic f2
    /\ f_version f3 = f_version f2 /\ f_data f3 = f_data f2 /\ f_rows f3 = f_rows f2)
    as (D1&D2&D3&D4&D5&D6&D7&D8&D9&D10).
  { subst f3. by destruct f2. }
  assert (file_rep cfg f3 L') as Hf3 by by eapply rep_same.
  destruct Ha as [Ha1 Ha2].
  assert (near f f1 0) as N1 by (repeat split; (congruence || lia)).
  assert (near f f2 0) as N2 by (repeat split; (congruence || lia)).
  assert (near f f3 0) as N3 by (repeat split; (congruence || lia)).
  assert (acct false f1 L') as Ha1' by (split; [|done]; rewrite A1, A2; lia).
  assert (acct false f2 L') as Ha2' by (split; [|done]; rewrite B1, B2, A1, A2; lia).
  assert (acct false f3 L') as Ha3' by (split; [|done]; rewrite D1, D2, B1, B2, A1, A2; lia).
  apply wpc_bind. apply wpc_upd'.
  { apply (HC f L); auto; [apply near_refl|by split]. }
  { fold f1. eapply HC; [..|by right]; done. }
  fold f1. apply wpc_bind. apply wpc_upd'.
  { eapply HC; [..|by right]; done. }
  { fold f2. eapply HC; [..|by right]; done. }
  fold f2. apply wpc_bind. apply wpc_upd'.
  { eapply HC; [..|by right]; done. }
  { fold f3. eapply HC; [..|by right]; done. }
  fold f3. apply wpc_ret.
  { eapply HC; [..|by right]; done. }
  apply HQ; [done|done|]. split; [apply Ha3'|]. intros Hx. specialize (Ha2 Hx).
  rewrite D1, D2, D3, D4, B1, B2, B3, B4, A1, A2, A3, A4. lia.
Qed.
