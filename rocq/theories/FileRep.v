(** Representation of a shard file: what its rows hold, and how the single updates change it. *)
From Verif Require Import Base Hashing HashingProofs Fs Shard Wpc Spec.

Global Opaque NUM_ROWS ROW_WIDTH.

(** ** Entries of a row *)
Notation row_t := (list (option kv)) (only parsing).
Definition entries (l : row_t) : list kv := omap id l.
Definition bytes_of (es : list kv) : N := foldr (fun x a => kvsize x + a) 0 es.

Lemma bytes_of_app a b : bytes_of (a ++ b) = bytes_of a + bytes_of b.
Proof. induction a as [|x a IH]; simpl; [done|]. rewrite IH. lia. Qed.
Global Instance bytes_of_perm : Proper ((≡ₚ) ==> (=)) bytes_of.
Proof. induction 1; simpl; lia. Qed.

Lemma entries_app a b : entries (a ++ b) = entries a ++ entries b.
Proof. apply omap_app. Qed.
Lemma entries_cons o l : entries (o :: l) = option_list o ++ entries l.
Proof. by destruct o. Qed.
Lemma entries_map_some es : entries (map Some es) = es.
Proof. induction es as [|x es IH]; [done|]. cbn [map]. rewrite entries_cons. cbn. by rewrite IH. Qed.
Lemma entries_nones n : entries (replicate n None) = [].
Proof. induction n; done. Qed.
Lemma elem_of_entries x l : x ∈ entries l <-> Some x ∈ l.
Proof.
  unfold entries. rewrite elem_of_list_omap. split.
  - intros (y & Hy & E). unfold id in E. by subst.
  - intros H. by exists (Some x).
Qed.
Lemma entries_length l : (length (entries l) <= length l)%nat.
Proof. induction l as [|[]]; simpl; lia. Qed.
Lemma entries_full l : None ∉ l -> length (entries l) = length l.
Proof.
  induction l as [|[x|] l IH]; intros Hn; [done|..].
  - simpl. rewrite IH; [done|]. intros ?. apply Hn. by right.
  - exfalso. apply Hn. left.
Qed.
Lemma entries_free l : (length (entries l) < length l)%nat -> None ∈ l.
Proof.
  induction l as [|[x|] l IH]; simpl; intros Hn; [lia|..].
  - right. apply IH. lia.
  - left.
Qed.

(** The entries other than the one in column [c]. *)
Definition others (c : nat) (l : row_t) : list kv := entries (take c l) ++ entries (drop (S c) l).
Lemma entries_split c o l : l !! c = Some o -> entries l ≡ₚ option_list o ++ others c l.
Proof.
  intros H. unfold others. rewrite <- (take_drop_middle _ _ _ H) at 1.
  rewrite entries_app, entries_cons. rewrite !app_assoc.
  by rewrite (Permutation_app_comm (entries _)).
Qed.
Lemma others_insert c o l : others c (<[c := o]> l) = others c l.
Proof. unfold others. rewrite take_insert, drop_insert_gt by lia. done. Qed.
Lemma entries_insert c o l : is_Some (l !! c) -> entries (<[c := o]> l) ≡ₚ option_list o ++ others c l.
Proof.
  intros Hl. rewrite (entries_split c o).
  - by rewrite others_insert.
  - apply list_lookup_insert. by apply lookup_lt_is_Some.
Qed.

(** ** What a set of entries holds of the map *)
Definition holds (m : kvmap) (P : bytes -> Prop) (es : list kv) : Prop :=
  NoDup (fst <$> es) /\ forall k v, (k, v) ∈ es <-> m !! k = Some v /\ P k.

Global Instance holds_perm m P : Proper ((≡ₚ) ==> iff) (holds m P).
Proof.
  intros a b H. unfold holds. rewrite H.
  split; intros [? Hb]; (split; [done|]); intros k v.
  - rewrite <- H. apply Hb.
  - rewrite H. apply Hb.
Qed.

Lemma holds_ext m m' P P' es :
  (forall k, P k <-> P' k) -> (forall k, P k -> m !! k = m' !! k) -> holds m P es -> holds m' P' es.
Proof.
  intros HP Hm [Hn Hb]. split; [done|]. intros k v. rewrite Hb. split; intros [H1 H2].
  - rewrite <- (Hm k) by done. by rewrite <- HP.
  - rewrite (Hm k) by by apply HP. by rewrite HP.
Qed.
Lemma holds_cons_key m P k v es : holds m P ((k, v) :: es) -> forall v', (k, v') ∉ es.
Proof.
  intros [Hn _] v' Hin. cbn in Hn. apply NoDup_cons in Hn as [Hn _]. apply Hn.
  apply elem_of_list_fmap. by exists (k, v').
Qed.
Lemma not_in_keys {k} {es : list kv} : (forall v, (k, v) ∉ es) -> k ∉ es.*1.
Proof. intros H (x & -> & Hin)%elem_of_list_fmap. destruct x. by apply H in Hin. Qed.

Lemma holds_set m P k v old es :
  holds m P ((k, old) :: es) -> holds (<[k := v]> m) P ((k, v) :: es).
Proof.
  intros H. pose proof (holds_cons_key _ _ _ _ _ H) as Hk. destruct H as [Hn Hb]. split; [done|].
  intros k' v'. rewrite elem_of_cons. destruct (decide (k' = k)) as [->|Hne].
  - rewrite lookup_insert. split.
    + intros [E|Hin]; [|by apply Hk in Hin]. injection E as ->. split; [done|].
      apply (Hb k old). left.
    + intros [[= ->] _]. auto.
  - rewrite lookup_insert_ne by done. rewrite <- Hb, elem_of_cons. naive_solver.
Qed.
Lemma holds_add m (P : bytes -> Prop) k v es :
  m !! k = None -> P k -> holds m P es -> holds (<[k := v]> m) P ((k, v) :: es).
Proof.
  intros Hm HP [Hn Hb]. assert (forall v', (k, v') ∉ es) as Hk.
  { intros v' Hin. apply Hb in Hin as [? _]. congruence. }
  split.
  - cbn. constructor; [|done]. by apply not_in_keys.
  - intros k' v'. rewrite elem_of_cons. destruct (decide (k' = k)) as [->|Hne].
    + rewrite lookup_insert. naive_solver.
    + rewrite lookup_insert_ne by done. rewrite <- Hb. naive_solver.
Qed.
Lemma holds_del m P k v es :
  holds m P ((k, v) :: es) -> holds (delete k m) P es.
Proof.
  intros H. pose proof (holds_cons_key _ _ _ _ _ H) as Hk. destruct H as [Hn Hb]. split.
  - cbn in Hn. by apply NoDup_cons in Hn as [_ ?].
  - intros k' v'. destruct (decide (k' = k)) as [->|Hne].
    + rewrite lookup_delete. split; [|naive_solver]. intros Hin. by apply Hk in Hin.
    + rewrite lookup_delete_ne by done. rewrite <- Hb, elem_of_cons. naive_solver.
Qed.
Lemma holds_filter m (P R : bytes -> Prop) `{!forall k, Decision (R k)} es :
  holds m P es -> holds m (fun k => P k /\ R k) (filter (fun x => R (fst x)) es).
Proof.
  intros [Hn Hb]. split.
  - clear Hb. induction es as [|x es IH]; [done|].
    cbn in Hn. apply NoDup_cons in Hn as [Hx Hn]. rewrite filter_cons.
    destruct (decide _); [|auto]. cbn. constructor; [|auto].
    intros (y & E & Hy)%elem_of_list_fmap. apply elem_of_list_filter in Hy as [_ Hy].
    apply Hx. rewrite E. apply elem_of_list_fmap. eauto.
  - intros k v. rewrite elem_of_list_filter, Hb. simpl. tauto.
Qed.
Lemma holds_union m (P Q : bytes -> Prop) a b :
  (forall k, P k -> Q k -> False) -> holds m P a -> holds m Q b ->
  holds m (fun k => P k \/ Q k) (a ++ b).
Proof.
  intros Hd [Hn1 Hb1] [Hn2 Hb2]. split.
  - rewrite fmap_app. apply NoDup_app. split; [done|]. split; [|done].
    intros k Ha Hb. apply elem_of_list_fmap in Ha as ([k1 v1] & E1 & H1).
    apply elem_of_list_fmap in Hb as ([k2 v2] & E2 & H2). cbn in *. subst k1. subst k2.
    apply Hb1 in H1 as [_ ?]. apply Hb2 in H2 as [_ ?]. eauto.
  - intros k v. rewrite elem_of_app, Hb1, Hb2. tauto.
Qed.

(** ** Slots, rows, files *)
Definition slot_ok (cfg : config) (f : file) (r : nat) (s : slot) (o : option kv) : Prop :=
  match o with
  | None => s_sig s = INVALID_SIG
  | Some (k, v) =>
    k <> [] /\ s_sig s = ph_sig (hashk cfg k) /\ ph_row (hashk cfg k) = r /\
    read_kv f (s_desc s) = Ok (k, v) /\
    desc_off (s_desc s) + (len k + len v) <= f_woff f
  end.

Definition rows_t := nat -> row_t.
Definition file_rep (cfg : config) (f : file) (L : rows_t) : Prop :=
  length (f_rows f) = NUM_ROWS /\
  forall r, (r < NUM_ROWS)%nat ->
    length (row_of f r) = ROW_WIDTH /\ Forall2 (slot_ok cfg f r) (row_of f r) (L r).

Definition upd_row (r : nat) (l : row_t) (L : rows_t) : rows_t :=
  fun r' => if decide (r' = r) then l else L r'.
Lemma upd_row_eq r l L : upd_row r l L r = l.
Proof. unfold upd_row. by rewrite decide_True. Qed.
Lemma upd_row_ne r r' l L : r' <> r -> upd_row r l L r' = L r'.
Proof. intros. unfold upd_row. by rewrite decide_False. Qed.

Lemma file_rep_length cfg f L r : file_rep cfg f L -> (r < NUM_ROWS)%nat -> length (L r) = ROW_WIDTH.
Proof. intros [_ H] Hr. destruct (H r Hr) as [E H2]. apply Forall2_length in H2. congruence. Qed.
Lemma file_rep_row cfg f L r : file_rep cfg f L -> (r < NUM_ROWS)%nat ->
  Forall2 (slot_ok cfg f r) (row_of f r) (L r).
Proof. intros [_ H] Hr. by apply H. Qed.
Lemma file_rep_pointwise cfg f L L' :
  (forall r, (r < NUM_ROWS)%nat -> L r = L' r) -> file_rep cfg f L -> file_rep cfg f L'.
Proof.
  intros HL [H1 H2]. split; [done|]. intros r Hr. rewrite <- HL by done. auto.
Qed.
Lemma upd_row_id cfg f L r : file_rep cfg f L -> file_rep cfg f (upd_row r (L r) L).
Proof.
  apply file_rep_pointwise. intros r' _. destruct (decide (r' = r)) as [->|].
  - by rewrite upd_row_eq.
  - by rewrite upd_row_ne.
Qed.

(** [ext f f']: everything readable in [f] reads the same in [f']. *)
Definition ext (f f' : file) : Prop :=
  f_len f <= f_len f' /\ f_woff f <= f_woff f' /\
  forall off, off < f_woff f -> f_data f' !! off = f_data f !! off.

Lemma ext_refl f : ext f f.
Proof. repeat split; auto; lia. Qed.
Lemma ext_trans f g h : ext f g -> ext g h -> ext f h.
Proof.
  intros (A1 & A2 & A3) (B1 & B2 & B3). repeat split; try lia.
  intros off Ho. rewrite B3 by lia. by apply A3.
Qed.

Lemma read_bytes_same d d' off n lim :
  (forall o, o < lim -> d' !! o = d !! o) -> off + N.of_nat n <= lim ->
  read_bytes d' off n = read_bytes d off n.
Proof.
  intros Hd. revert off. induction n as [|n IH]; intros off Hl; [done|].
  cbn [read_bytes]. rewrite Hd by lia. f_equal. apply IH. lia.
Qed.
Lemma read_bytes_length d off n : length (read_bytes d off n) = n.
Proof. revert off; induction n; simpl; auto. Qed.

Lemma read_kv_sizes f d k v : read_kv f d = Ok (k, v) -> len k = desc_klen d /\ len v = desc_vlen d.
Proof.
  unfold read_kv. destruct (16384 <=? desc_klen d); [done|].
  destruct (f_len f <? _); [done|]. generalize (desc_klen d) (desc_vlen d). intros n n' H.
  assert (k = take (N.to_nat n) (read_bytes (f_data f) (desc_off d) (N.to_nat (n + n'))) /\
          v = drop (N.to_nat n) (read_bytes (f_data f) (desc_off d) (N.to_nat (n + n')))) as [-> ->]
    by (split; congruence). clear H. unfold len.
  rewrite take_length, drop_length, read_bytes_length. lia.
Qed.
Lemma read_kv_ext f f' d k v :
  ext f f' -> read_kv f d = Ok (k, v) -> desc_off d + (len k + len v) <= f_woff f ->
  read_kv f' d = Ok (k, v).
Proof.
  intros (E1 & E2 & E3) Hr Ho. pose proof (read_kv_sizes _ _ _ _ Hr) as [Hk Hv].
  unfold read_kv in *. destruct (16384 <=? desc_klen d); [done|].
  destruct (N.ltb_spec (f_len f) (HEADER_SIZE + desc_off d + (desc_klen d + desc_vlen d))); [done|].
  destruct (N.ltb_spec (f_len f') (HEADER_SIZE + desc_off d + (desc_klen d + desc_vlen d))); [lia|].
  rewrite (read_bytes_same (f_data f) (f_data f') _ _ (f_woff f)); [done|done|lia].
Qed.
Lemma slot_ok_ext cfg f f' r s o : ext f f' -> slot_ok cfg f r s o -> slot_ok cfg f' r s o.
Proof.
  intros He. destruct o as [[k v]|]; [|done]. cbn. intros (H0 & H1 & H2 & H3 & H4).
  repeat split; auto.
  - by apply (read_kv_ext f).
  - destruct He as (_ & ? & _). lia.
Qed.
Lemma file_rep_ext cfg f f' L :
  f_rows f' = f_rows f -> ext f f' -> file_rep cfg f L -> file_rep cfg f' L.
Proof.
  intros Hrows He [H1 H2]. split; [by rewrite Hrows|]. intros r Hr. destruct (H2 r Hr) as [Hl Hf].
  unfold row_of in *. rewrite Hrows. split; [done|].
  eapply Forall2_impl; [exact Hf|]. intros. by eapply slot_ok_ext.
Qed.

Lemma row_of_set_slot f f' r c g r' :
  f_rows f' = set_slot (f_rows f) r c g ->
  row_of f' r' = if decide (r' = r) then alter g c (row_of f r) else row_of f r'.
Proof.
  intros H. unfold row_of. rewrite H. unfold set_slot. destruct (decide (r' = r)) as [->|Hne].
  - rewrite list_lookup_alter. by destruct (f_rows f !! r).
  - by rewrite list_lookup_alter_ne by done.
Qed.

Lemma Forall2_alter_insert {A B} (R : A -> B -> Prop) g c l k s o :
  Forall2 R l k -> l !! c = Some s -> R (g s) o -> Forall2 R (alter g c l) (<[c := o]> k).
Proof.
  intros H. revert c. induction H as [|x y l k Hxy H IH]; intros [|c] Hs Hg; cbn in *; simplify_eq.
  - by constructor.
  - constructor; [done|]. by apply IH.
Qed.

(** Changing one slot. *)
Lemma file_rep_slot cfg f f' L r c g s o :
  file_rep cfg f L -> (r < NUM_ROWS)%nat ->
  f_rows f' = set_slot (f_rows f) r c g -> ext f f' ->
  row_of f r !! c = Some s -> slot_ok cfg f' r (g s) o ->
  file_rep cfg f' (upd_row r (<[c := o]> (L r)) L).
Proof.
  intros [H1 H2] Hr Hrows He Hs Hg. split.
  - rewrite Hrows. unfold set_slot. by rewrite alter_length.
  - intros r' Hr'. rewrite (row_of_set_slot f f' r c g r') by done.
    destruct (decide (r' = r)) as [->|Hne].
    + rewrite upd_row_eq, alter_length. destruct (H2 r Hr) as [Hl Hf]. split; [done|].
      eapply Forall2_alter_insert; [|done|done].
      eapply Forall2_impl; [exact Hf|]. intros. by eapply slot_ok_ext.
    + rewrite upd_row_ne by done. destruct (H2 r' Hr') as [Hl Hf]. split; [done|].
      eapply Forall2_impl; [exact Hf|]. intros. by eapply slot_ok_ext.
Qed.

(** ** Accounting *)
Fixpoint sum_rows (g : nat -> N) (n : nat) : N :=
  match n with O => 0 | S n => sum_rows g n + g n end.
Lemma sum_rows_ext g h n : (forall r, (r < n)%nat -> g r = h r) -> sum_rows g n = sum_rows h n.
Proof. induction n as [|n IH]; intros H; [done|]. cbn. rewrite IH, H; auto; lia. Qed.
Lemma sum_rows_le g h n : (forall r, (r < n)%nat -> g r <= h r) -> sum_rows g n <= sum_rows h n.
Proof.
  induction n as [|n IH]; intros H; [done|]. cbn.
  assert (sum_rows g n <= sum_rows h n) by (apply IH; intros; apply H; lia).
  pose proof (H n ltac:(lia)). lia.
Qed.
Lemma sum_rows_upd g h n r :
  (r < n)%nat -> (forall r', r' <> r -> h r' = g r') -> sum_rows h n + g r = sum_rows g n + h r.
Proof.
  induction n as [|n IH]; intros Hr H; [lia|]. cbn. destruct (decide (r = n)) as [->|Hne].
  - rewrite (sum_rows_ext h g n); [lia|]. intros. apply H. lia.
  - rewrite (H n) by done. pose proof (IH ltac:(lia) H). lia.
Qed.
Lemma sum_rows_0 n : sum_rows (fun _ => 0) n = 0.
Proof. induction n; simpl; lia. Qed.
Lemma sum_rows_one g n r : (r < n)%nat -> g r <= sum_rows g n.
Proof.
  induction n as [|n IH]; intros Hr; [lia|]. cbn. destruct (decide (r = n)) as [->|]; [lia|].
  pose proof (IH ltac:(lia)). lia.
Qed.

Definition live (L : rows_t) : N := sum_rows (fun r => bytes_of (entries (L r))) NUM_ROWS.
Definition count (L : rows_t) : N := sum_rows (fun r => len (entries (L r))) NUM_ROWS.

Definition acct (x : bool) (f : file) (L : rows_t) : Prop :=
  live L + f_wasted f <= f_woff f /\
  (x = true -> live L + f_wasted f = f_woff f /\ f_ins f = f_rem f + count L).

Lemma acct_weaken x f L : acct x f L -> acct false f L.
Proof. intros [H _]. split; [done|]. done. Qed.

Lemma live_upd L r l' : (r < NUM_ROWS)%nat ->
  live (upd_row r l' L) + bytes_of (entries (L r)) = live L + bytes_of (entries l').
Proof.
  intros Hr. unfold live.
  pose proof (sum_rows_upd (fun r => bytes_of (entries (L r)))
    (fun r0 => bytes_of (entries (upd_row r l' L r0))) NUM_ROWS r Hr) as H.
  cbv beta in H. rewrite upd_row_eq in H. apply H. intros. by rewrite upd_row_ne.
Qed.
Lemma count_upd L r l' : (r < NUM_ROWS)%nat ->
  count (upd_row r l' L) + len (entries (L r)) = count L + len (entries l').
Proof.
  intros Hr. unfold count.
  pose proof (sum_rows_upd (fun r => len (entries (L r)))
    (fun r0 => len (entries (upd_row r l' L r0))) NUM_ROWS r Hr) as H.
  cbv beta in H. rewrite upd_row_eq in H. apply H. intros. by rewrite upd_row_ne.
Qed.
Lemma live_ext L L' : (forall r, (r < NUM_ROWS)%nat -> L r = L' r) -> live L = live L'.
Proof. intros H. apply sum_rows_ext. intros r Hr. by rewrite H. Qed.
Lemma count_ext L L' : (forall r, (r < NUM_ROWS)%nat -> L r = L' r) -> count L = count L'.
Proof. intros H. apply sum_rows_ext. intros r Hr. by rewrite H. Qed.

(** ** Scanning *)
Lemma scan_row_spec cfg f r row l k c0 coll :
  Forall2 (slot_ok cfg f r) row l ->
  (exists c v b, scan_row f (ph_sig (hashk cfg k)) k c0 coll row = Ok (Some ((c0 + c)%nat, v), b)
                 /\ l !! c = Some (Some (k, v))) \/
  (exists b, scan_row f (ph_sig (hashk cfg k)) k c0 coll row = Ok (None, b)
             /\ forall v, (k, v) ∉ entries l).
Proof.
  intros H. revert c0 coll. induction H as [|s o row l Hs H IH]; intros c0 coll.
  - right. exists coll. split; [done|]. intros v. by apply not_elem_of_nil.
  - cbn [scan_row]. destruct o as [[k' v']|].
    + destruct Hs as (_ & H1 & H2 & H3 & H4). rewrite H1.
      destruct (decide (k = k')) as [<-|Hne].
      * left. exists 0%nat, v', coll. rewrite N.eqb_refl, H3. cbn [rbind].
        rewrite bool_decide_eq_true_2 by done. rewrite Nat.add_0_r. done.
      * assert (forall coll', (exists c v b, scan_row f (ph_sig (hashk cfg k)) k (S c0) coll' row
                    = Ok (Some ((c0 + c)%nat, v), b) /\ (Some (k', v') :: l) !! c = Some (Some (k, v))) \/
                  (exists b, scan_row f (ph_sig (hashk cfg k)) k (S c0) coll' row = Ok (None, b)
                    /\ forall v, (k, v) ∉ entries (Some (k', v') :: l))) as IH'.
        { intros coll'. destruct (IH (S c0) coll') as [(c & v & b & E & Hl)|(b & E & Hl)].
          - left. exists (S c), v, b. split; [|done]. rewrite E. by replace (S c0 + c)%nat with (c0 + S c)%nat by lia.
          - right. exists b. split; [done|]. intros v. rewrite entries_cons. cbn.
            rewrite elem_of_cons. intros [[= ? ?]|Hin]; [done|]. by apply Hl in Hin. }
        destruct (N.eqb_spec (ph_sig (hashk cfg k')) (ph_sig (hashk cfg k))).
        -- rewrite H3. cbn [rbind]. rewrite bool_decide_eq_false_2 by done. apply IH'.
        -- apply IH'.
    + cbn in Hs. rewrite Hs. pose proof (hashk_sig cfg k).
      destruct (N.eqb_spec INVALID_SIG (ph_sig (hashk cfg k))); [congruence|].
      destruct (IH (S c0) coll) as [(c & v & b & E & Hl)|(b & E & Hl)].
      * left. exists (S c), v, b. split; [|done]. rewrite E. by replace (S c0 + c)%nat with (c0 + S c)%nat by lia.
      * right. exists b. split; [done|]. intros v. rewrite entries_cons. apply Hl.
Qed.

Lemma find_free_spec cfg f r row l c0 :
  Forall2 (slot_ok cfg f r) row l ->
  match find_free c0 row with
  | Some c => exists c', c = (c0 + c')%nat /\ l !! c' = Some None
  | None => None ∉ l
  end.
Proof.
  intros H. revert c0. induction H as [|s o row l Hs H IH]; intros c0; cbn [find_free].
  - apply not_elem_of_nil.
  - destruct o as [[k v]|].
    + destruct Hs as (_ & H1 & _). rewrite H1. pose proof (hashk_sig cfg k).
      destruct (N.eqb_spec (ph_sig (hashk cfg k)) INVALID_SIG); [congruence|].
      specialize (IH (S c0)). destruct (find_free (S c0) row).
      * destruct IH as (c' & -> & Hl). exists (S c'). split; [lia|done].
      * rewrite elem_of_cons. naive_solver.
    + cbn in Hs. rewrite Hs. simpl. exists 0%nat. split; [lia|done].
Qed.

Lemma collect_sig_spec cfg f r row l sig :
  Forall2 (slot_ok cfg f r) row l -> sig <> INVALID_SIG ->
  collect_sig f sig row = Ok (filter (fun x => ph_sig (hashk cfg (fst x)) = sig) (entries l)).
Proof.
  intros H Hsig. induction H as [|s o row l Hs H IH]; cbn [collect_sig]; [done|].
  rewrite entries_cons. destruct o as [[k v]|].
  - destruct Hs as (_ & H1 & _ & H3 & _). rewrite H1. change (option_list (Some (k, v)) ++ entries l) with ((k, v) :: entries l). rewrite filter_cons. cbn.
    destruct (N.eqb_spec (ph_sig (hashk cfg k)) sig).
    + rewrite decide_True by done. rewrite H3. cbn [rbind]. rewrite IH. done.
    + rewrite decide_False by done. done.
  - cbn in Hs. rewrite Hs. destruct (N.eqb_spec INVALID_SIG sig); [congruence|]. done.
Qed.

(** ** Writing an entry *)
Lemma put_bytes_spec i off l f w (C : fs -> Prop) (Q : unit -> fs -> Prop) E f0 :
  f_rows f = f_rows f0 -> ext f0 f -> f_woff f0 <= off ->
  (forall f', f_rows f' = f_rows f -> ext f0 f' -> f_woff f' = f_woff f ->
     f_wasted f' = f_wasted f -> f_ins f' = f_ins f -> f_rem f' = f_rem f -> f_cut f' = f_cut f ->
     f_magic f' = f_magic f -> f_version f' = f_version f -> f_len f <= f_len f' ->
     C (set_file i f' w)) ->
  (forall f', f_rows f' = f_rows f -> ext f0 f' -> f_woff f' = f_woff f ->
     f_wasted f' = f_wasted f -> f_ins f' = f_ins f -> f_rem f' = f_rem f -> f_cut f' = f_cut f ->
     f_magic f' = f_magic f -> f_version f' = f_version f -> f_len f <= f_len f' ->
     (l <> [] -> HEADER_SIZE + off + len l <= f_len f') ->
     (forall o, o < off -> f_data f' !! o = f_data f !! o) ->
     read_bytes (f_data f') off (length l) = l ->
     Q tt (set_file i f' w)) ->
  wpc (put_bytes i off l) C Q E (set_file i f w).
Proof.
  revert off f. induction l as [|b l IH]; intros off f Hrows He Hoff HC HQ; cbn [put_bytes].
  - apply wpc_ret.
    + apply HC; auto; lia.
    + apply HQ; auto; try done.
  - apply wpc_bind.
    set (f1 := apply_fupd (UPut off b) f).
    assert (f_rows f1 = f_rows f /\ f_woff f1 = f_woff f /\ f_wasted f1 = f_wasted f /\ f_ins f1 = f_ins f
      /\ f_rem f1 = f_rem f /\ f_cut f1 = f_cut f /\ f_magic f1 = f_magic f /\ f_version f1 = f_version f
      /\ f_len f1 = N.max (f_len f) (HEADER_SIZE + off + 1)
      /\ f_data f1 = <[off := b]> (f_data f)) as (A1&A2&A3&A4&A5&A6&A7&A8&A9&A10).
    { subst f1. destruct f. done. }
    assert (ext f0 f1) as He1.
    { destruct He as (B1 & B2 & B3). repeat split.
      - rewrite A9. lia.
      - rewrite A2. lia.
      - intros o Ho. rewrite A10, lookup_insert_ne by lia. by apply B3. }
    apply wpc_upd'.
    + apply HC; auto; lia.
    + apply HC; auto. fold f1. rewrite A9. lia.
    + fold f1. apply IH.
      * congruence.
      * done.
      * lia.
      * intros f' ? ? ? ? ? ? ? ? ? ?. apply HC; try congruence; try done. rewrite A9 in *. lia.
      * intros f' ? ? ? ? ? ? ? ? ? Hl Hlen Hd Hr. apply HQ; try congruence; try done.
        -- rewrite A9 in *. lia.
        -- intros _. rewrite A9 in Hl. rewrite len_cons. destruct l as [|b' l].
           ++ rewrite len_nil. lia.
           ++ pose proof (Hlen ltac:(done)). lia.
        -- intros o Ho. rewrite Hd, A10 by lia. rewrite lookup_insert_ne by lia. done.
        -- cbn [length read_bytes]. rewrite Hr. f_equal. rewrite Hd, A10 by lia.
           by rewrite lookup_insert.
Qed.

(** [near f f' n]: [f'] is [f] with at most [n] more bytes allocated (rows and counters may
    differ; the header fields do not). *)
Definition near (f f' : file) (n : N) : Prop :=
  f_cut f' = f_cut f /\ f_magic f' = f_magic f /\ f_version f' = f_version f /\
  f_len f <= f_len f' /\ f_woff f <= f_woff f' <= f_woff f + n.
Lemma near_refl f n : near f f n.
Proof. repeat split; lia. Qed.

(** Only bytes were allocated or written. *)
Definition wrote (f f' : file) (n : N) : Prop :=
  f_rows f' = f_rows f /\ ext f f' /\ near f f' n /\ f_woff f' = f_woff f + n /\
  f_wasted f' = f_wasted f /\ f_ins f' = f_ins f /\ f_rem f' = f_rem f.
Lemma wrote_rep cfg f f' n L : wrote f f' n -> file_rep cfg f L -> file_rep cfg f' L.
Proof. intros (H1 & H2 & _). by apply file_rep_ext. Qed.
Lemma wrote_acct x f f' n L : wrote f f' n -> acct x f L -> acct false f' L.
Proof.
  intros (_ & _ & _ & H1 & H2 & H3 & H4) [H5 _]. split; [|done]. rewrite H1, H2. lia.
Qed.

Lemma write_kv_spec i k v f w (C : fs -> Prop) (Q : N -> fs -> Prop) E :
  len k < 16384 -> len v < 65536 -> f_woff f + (len k + len v) < 2 ^ 32 ->
  k <> [] ->
  C (set_file i f w) ->
  (forall f', wrote f f' (len k + len v) -> C (set_file i f' w)) ->
  (forall f' d, wrote f f' (len k + len v) -> read_kv f' d = Ok (k, v) ->
     desc_off d + (len k + len v) <= f_woff f' -> Q d (set_file i f' w)) ->
  wpc (write_kv i k v) C Q E (set_file i f w).
Proof.
  intros Hk Hv Hoff Hne HC0 HC HQ. unfold write_kv. apply wpc_bind.
  set (f1 := alloc_file (len k + len v) f).
  assert (f_rows f1 = f_rows f /\ f_woff f1 = f_woff f + (len k + len v) /\ f_wasted f1 = f_wasted f
     /\ f_ins f1 = f_ins f /\ f_rem f1 = f_rem f /\ f_cut f1 = f_cut f /\ f_magic f1 = f_magic f
     /\ f_version f1 = f_version f /\ f_len f1 = f_len f /\ f_data f1 = f_data f)
    as (A1&A2&A3&A4&A5&A6&A7&A8&A9&A10).
  { subst f1. by destruct f. }
  assert (ext f f1) as He.
  { repeat split; rewrite ?A2, ?A9, ?A10; try lia. auto. }
  apply wpc_alloc'.
  - done.
  - apply HC. fold f1. repeat split; auto; try congruence; try lia; rewrite ?A2, ?A9, ?A10; auto; lia.
  - fold f1. apply wpc_bind. apply (put_bytes_spec i (f_woff f) (k ++ v) f1 w C _ E f).
    + done.
    + done.
    + lia.
    + intros f' R1 R2 R3 R4 R5 R6 R7 R8 R9 R10. apply HC.
      repeat split; try congruence; try lia; apply R2.
    + intros f' R1 R2 R3 R4 R5 R6 R7 R8 R9 R10 R11 R12 R13.
      assert (wrote f f' (len k + len v)) as HW.
      { repeat split; try congruence; try lia; apply R2. }
      apply wpc_ret; [by apply HC|].
      apply HQ; [done|..].
      * destruct (pack_desc_fields (len k) (len v) (f_woff f)) as (D1 & D2 & D3); [lia|lia|].
        unfold read_kv. rewrite D1, D2, D3.
        destruct (N.leb_spec 16384 (len k)); [lia|].
        destruct (N.ltb_spec (f_len f') (HEADER_SIZE + f_woff f + (len k + len v))) as [Hlt|Hge].
        { exfalso. rewrite len_app in R11. assert (k ++ v <> []) as Hne' by by destruct k.
          specialize (R11 Hne'). lia. }
        replace (N.to_nat (len k + len v)) with (length (k ++ v)) by (rewrite app_length; unfold len; lia).
        rewrite R13. replace (N.to_nat (len k)) with (length k) by (unfold len; lia).
        by rewrite take_app, drop_app.
      * destruct (pack_desc_fields (len k) (len v) (f_woff f)) as (D1 & D2 & D3); [lia|lia|].
        rewrite D3, R3, A2. lia.
Qed.
