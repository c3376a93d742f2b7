(** C11: what a crash during [clear], or during the creation of a store, may leave behind. *)
From Verif Require Import Base Hashing HashingProofs Fs Shard Router RouterPure Wpc Spec FileRep RowOps
  Compact Inv ShardOps Split Insert Open Merge Create Store Limits StoreRefine Kv Api Hist KvSpec
  OpenAny PlainSpec ThmStore Races.

(** ** Specification *)
(** A process opens the directory [w] and dies meanwhile, or gets an error: any number of times. *)
Inductive attempts (cfg : config) : fs -> fs -> Prop :=
| At_none w : attempts cfg w w
| At_dies w n w' : attempts cfg (crash_at n (router_new cfg) w) w' -> attempts cfg w w'
| At_fails w e w1 w' : store_open cfg w = (w1, Err e) -> attempts cfg w1 w' -> attempts cfg w w'.
(** In [s'] every key has the value it had in [s], or none. *)
Definition part_of (cfg : config) (s' s : store) : Prop :=
  forall k, get_raw cfg s' k = Ok None \/ get_raw cfg s' k = get_raw cfg s k.

(** ** Files with nothing but entries of [m] *)
Definition low_file (cfg : config) (m : kvmap) (f : file) : Prop :=
  exists L, file_rep cfg f L /\ forall r k v, (r < NUM_ROWS)%nat -> (k, v) ∈ entries (L r) -> m !! k = Some v.
Definition low (cfg : config) (m : kvmap) (w : fs) : Prop :=
  (forall a b i, fs_dir w !! FShard a b = Some i -> exists f, fs_files w !! i = Some f /\ low_file cfg m f) /\
  (forall a b, fs_dir w !! FCompact a b = None).
Definition low_shard (cfg : config) (m : kvmap) (w : fs) (sh : shard) : Prop :=
  sh_tgt sh = None /\ exists f, fs_files w !! sh_ino sh = Some f /\ low_file cfg m f.

Lemma low_blank cfg m : low_file cfg m file_empty.
Proof.
  exists (fun _ => padded []). split; [by apply blank_rep|]. intros r k v _ H.
  exfalso. revert H. unfold padded, entries. cbn. rewrite ?app_nil_l. generalize (ROW_WIDTH - 0)%nat.
  intros n. induction n as [|n IH]; cbn; [by intros ?%elem_of_nil|done].
Qed.
(** The updates made while files are opened. *)
Definition mild (u : fupd) : bool :=
  match u with UTrunc | ULen _ | UFalloc | UMagic | UVersion => true | _ => false end.
Lemma low_upd cfg m u f : mild u = true -> low_file cfg m f -> low_file cfg m (apply_fupd u f).
Proof.
  intros Hu (L & H1 & H2). destruct f as [g1 g2 g3 g4 g5 g6 g7 g8 g9 g10], u; try done; cbn; try apply low_blank;
    (exists L; split; [|done]; eapply file_rep_ext; [| |exact H1]; [reflexivity|]; unfold ext; cbn [f_len f_woff f_data];
     split; [lia|split; [lia|done]]).
Qed.
Definition low_eff {X : Type} (e : eff X) : Prop :=
  match e with
  | ESnap => True
  | EUpd _ u => mild u = true
  | ECreate (FShard _ _) _ => True
  | ERemove _ => True
  | _ => False
  end.
(** All files that were low stay low, whatever their names. *)
Definition stays (cfg : config) (m : kvmap) (w w' : fs) : Prop :=
  forall i f, fs_files w !! i = Some f -> low_file cfg m f -> exists f', fs_files w' !! i = Some f' /\ low_file cfg m f'.
Lemma stays_refl cfg m w : stays cfg m w w.
Proof. intros i f. eauto. Qed.
Lemma stays_trans cfg m w1 w2 w3 : stays cfg m w1 w2 -> stays cfg m w2 w3 -> stays cfg m w1 w3.
Proof. intros H1 H2 i f E Hf. destruct (H1 i f E Hf) as (g & E' & Hg). eauto. Qed.
Lemma low_step {X : Type} cfg m (e : eff X) w : low_eff e -> low cfg m w ->
  low cfg m (fst (run_eff e w)) /\ stays cfg m w (fst (run_eff e w)).
Proof.
  intros He [H1 H2]. destruct e as [|i n|i u|n tr|a b|a]; cbn [low_eff run_eff fst] in *; try done.
  - split; [done|apply stays_refl].
  - assert (stays cfg m w (Fs (fs_dir w) (alter (apply_fupd u) i (fs_files w)) (fs_next w))) as Hs.
    { intros j f E Hf. cbn. destruct (decide (j = i)) as [->|Hne].
      - rewrite lookup_alter, E. cbn. eexists. split; [done|]. by apply low_upd.
      - rewrite lookup_alter_ne by done. eauto. }
    split; [|done]. split; [|done]. intros a b j Hj. cbn in Hj. destruct (H1 a b j Hj) as (f & E & Hf).
    by apply (Hs j f).
  - destruct n as [a b| | | | |]; try done. destruct (fs_dir w !! FShard a b) as [i|] eqn:E; cbn.
    + destruct tr; [|split; [done|apply stays_refl]].
      assert (stays cfg m w (Fs (fs_dir w) (<[i:=file_empty]> (fs_files w)) (fs_next w))) as Hs.
      { intros j f Ej Hf. cbn. destruct (decide (j = i)) as [->|Hne].
        - rewrite lookup_insert. eexists. split; [done|apply low_blank].
        - rewrite lookup_insert_ne by done. eauto. }
      split; [|done]. split; [|done]. intros c d j Hj. cbn in Hj. destruct (H1 c d j Hj) as (f & Ej & Hf). by apply (Hs j f).
    + assert (stays cfg m w (Fs (<[FShard a b:=fs_next w]> (fs_dir w)) (<[fs_next w:=file_empty]> (fs_files w)) (fs_next w + 1))) as Hs.
      { intros j f Ej Hf. cbn. destruct (decide (j = fs_next w)) as [->|Hne].
        - rewrite lookup_insert. eexists. split; [done|apply low_blank].
        - rewrite lookup_insert_ne by done. eauto. }
      split; [|done]. split.
      * intros c d j Hj. cbn in Hj |- *. destruct (decide (FShard c d = FShard a b)) as [Ec|Hne].
        -- rewrite Ec, lookup_insert in Hj. injection Hj as <-. rewrite lookup_insert. eexists. split; [done|apply low_blank].
        -- rewrite lookup_insert_ne in Hj by done. destruct (H1 c d j Hj) as (f & Ej & Hf). by apply (Hs j f).
      * intros c d. cbn. rewrite lookup_insert_ne by done. apply H2.
  - destruct (fs_dir w !! a) as [i|] eqn:E; cbn; [|split; [done|apply stays_refl]]. split; [|by intros j f; eauto].
    split.
    + intros c d j Hj. cbn in Hj. apply lookup_delete_Some in Hj as [_ Hj]. cbn. eauto.
    + intros c d. cbn. apply lookup_delete_None. auto.
Qed.

(** A weakest precondition with the invariant built in. *)
Definition lw {A : Type} (cfg : config) (m : kvmap) (p : prog A) (Q : A -> fs -> Prop) (w : fs) : Prop :=
  wpc p (low cfg m) Q (fun _ => True) w.
Lemma lw_eff {X : Type} cfg m (e : eff X) w (Q : X -> fs -> Prop) : low_eff e -> low cfg m w ->
  (low cfg m (fst (run_eff e w)) -> stays cfg m w (fst (run_eff e w)) -> Q (snd (run_eff e w)) (fst (run_eff e w))) ->
  lw cfg m (eff1 e) Q w.
Proof.
  intros He Hw HQ. destruct (low_step cfg m e w He Hw) as [A B]. cbn. auto.
Qed.
Lemma lw_bind {A B : Type} cfg m (p : prog A) (f : A -> prog B) Q w :
  lw cfg m p (fun a w' => lw cfg m (f a) Q w') w -> lw cfg m (pbind p f) Q w.
Proof. apply wpc_bind. Qed.
Lemma lw_mono {A : Type} cfg m (p : prog A) (Q Q' : A -> fs -> Prop) w :
  (forall a w', low cfg m w' -> Q a w' -> Q' a w') -> lw cfg m p Q w -> lw cfg m p Q' w.
Proof. intros H. apply wpc_mono; auto. Qed.
Lemma lw_check cfg m b e w (Q : unit -> fs -> Prop) : low cfg m w -> Q tt w -> lw cfg m (check b e) Q w.
Proof. destruct b; cbn; auto. Qed.
Lemma lw_lift {A : Type} cfg m (r : res A) w (Q : A -> fs -> Prop) : low cfg m w -> (forall a, r = Ok a -> Q a w) -> lw cfg m (lift r) Q w.
Proof. destruct r; cbn; auto. Qed.
Lemma lw_remove cfg m n w (Q : unit -> fs -> Prop) : low cfg m w ->
  (forall w', low cfg m w' -> stays cfg m w w' -> Q tt w') -> lw cfg m (remove_file n) Q w.
Proof. intros Hw HQ. apply lw_bind, lw_eff; [done|done|]. intros A B. apply lw_check; auto. Qed.
Lemma lw_upd cfg m i u w (Q : unit -> fs -> Prop) : mild u = true -> low cfg m w ->
  (forall w', low cfg m w' -> stays cfg m w w' -> Q tt w') -> lw cfg m (upd i u) Q w.
Proof. intros Hu Hw HQ. apply lw_eff; [done|done|]. auto. Qed.
Lemma lw_mmap cfg m i w (Q : unit -> fs -> Prop) : low cfg m w ->
  (forall w', low cfg m w' -> stays cfg m w w' -> Q tt w') -> lw cfg m (mmap_new i) Q w.
Proof.
  intros Hw HQ. unfold mmap_new. apply lw_bind, lw_upd; [done|done|]. intros w1 H1 S1.
  apply lw_bind, lw_upd; [done|done|]. intros w2 H2 S2. apply lw_upd; [done|done|]. intros w3 H3 S3.
  apply HQ; [done|]. eapply stays_trans; [exact S1|]. by eapply stays_trans.
Qed.
Lemma shard_open_low cfg m s e tr w (Q : shard -> fs -> Prop) : low cfg m w ->
  (forall sh w', low cfg m w' -> stays cfg m w w' -> low_shard cfg m w' sh -> Q sh w') ->
  lw cfg m (shard_open cfg s e tr) Q w.
Proof.
  intros Hw HQ. unfold shard_open.
  set (w1 := fst (run_eff (ECreate (FShard s e) tr) w)).
  set (i := snd (run_eff (ECreate (FShard s e) tr) w)).
  assert (fs_dir w1 !! FShard s e = Some i) as Ei.
  { unfold w1, i. cbn. destruct (fs_dir w !! FShard s e) as [j|] eqn:E; cbn; [by destruct tr|]. by rewrite lookup_insert. }
  apply lw_bind, lw_eff; [done|done|]. fold w1 i. intros H1 S1.
  destruct (proj1 H1 s e i Ei) as (f & Ef & Hf).
  apply lw_bind. unfold get_file. apply lw_bind, lw_eff; [done|done|]. intros _ _. cbn [run_eff fst snd].
  apply lw_lift; [done|]. intros f' _.
  (* the checks *)
  assert (forall (p : prog N) (k : N -> prog shard) w2, low cfg m w2 -> stays cfg m w w2 -> (exists f, fs_files w2 !! i = Some f /\ low_file cfg m f) ->
            (p = Ret (f_len f') \/ p = Ret 0 \/ (exists er, p = Fail er) \/ p = (do! _ <- upd i UTrunc; Ret 0) \/ exists n, p = Ret n) ->
            (forall n w3, low cfg m w3 -> stays cfg m w w3 -> (exists f, fs_files w3 !! i = Some f /\ low_file cfg m f) -> lw cfg m (k n) Q w3) ->
            lw cfg m (pbind p k) Q w2) as Hc.
  { intros p k w2 H2 S2 (g & Eg & Hg) Hp Hk. apply lw_bind. destruct Hp as [->|[->|[(er & ->)|[->|(n & ->)]]]].
    - cbn. split; [done|]. apply Hk; eauto.
    - cbn. split; [done|]. apply Hk; eauto.
    - cbn. auto.
    - apply lw_bind, lw_upd; [done|done|]. intros w3 H3 S3. cbn. split; [done|]. apply Hk; [done|by eapply stays_trans|].
      by destruct (S3 i g Eg Hg) as (g' & Eg' & Hg'); eauto.
    - cbn. split; [done|]. apply Hk; eauto. }
  apply Hc; [done|done|by eauto| |].
  { destruct (f_len f' =? 0); [by auto|]. destruct (meta_ok f'); [by auto|]. destruct (c_clear_bad cfg); [by auto 6|]. right; right; left. eauto. }
  intros n2 w2 H2 S2 F2. apply Hc; [done|done|done| |].
  { destruct (negb (n2 =? 0) && (n2 <? HEADER_SIZE)); [|by eauto 7]. destruct (c_clear_bad cfg); [by auto 6|]. right; right; left. eauto. }
  clear Hc. intros n3 w3 H3 S3 (f3 & E3 & F3). apply lw_bind.
  assert (forall w4, low cfg m w4 -> stays cfg m w3 w4 ->
    lw cfg m (do! _ <- mmap_new i; (if tr then do! _ <- eff1 (ERemove (FCompact s e)); Ret (Shard s e i None)
      else do! w <- snap; match fs_dir w !! FCompact s e with
      | None => Ret (Shard s e i None)
      | Some t => do! _ <- mmap_new t; do! _ <- do_compaction cfg COMPACT_FUEL i t true;
        do! _ <- rename (FCompact s e) (FShard s e); Ret (Shard s e t None) end)) Q w4) as Hrest.
  { intros w4 H4 S4. apply lw_bind, lw_mmap; [done|]. intros w5 H5 S5.
    assert (stays cfg m w w5) as Sa by (eapply stays_trans; [exact S3|]; by eapply stays_trans).
    destruct (stays_trans _ _ _ _ _ S4 S5 i f3 E3 F3) as (f5 & E5 & F5).
    destruct tr.
    - apply lw_bind, lw_eff; [done|done|]. intros H6 S6. cbn. split; [done|]. apply HQ; [done|by eapply stays_trans|].
      split; [done|]. by apply (S6 i f5).
    - apply lw_bind, lw_eff; [done|done|]. intros _ _. cbn [run_eff fst snd].
      rewrite (proj2 H5 s e). cbn. split; [done|]. apply HQ; [done|done|]. split; [done|]. eauto. }
  destruct (n3 =? 0).
  - apply lw_upd; [done|done|]. intros w4 H4 S4. by apply Hrest.
  - cbn. split; [done|]. apply Hrest; [done|apply stays_refl].
Qed.
Lemma open_ranges_low cfg m tr l : forall w (Q : list shard -> fs -> Prop), low cfg m w ->
  (forall shs w', low cfg m w' -> stays cfg m w w' -> Forall (low_shard cfg m w') shs -> Q shs w') ->
  lw cfg m (open_ranges cfg tr l) Q w.
Proof.
  induction l as [|[s e] l IH]; intros w Q Hw HQ; cbn [open_ranges].
  { cbn. split; [done|]. apply HQ; [done|apply stays_refl|done]. }
  apply lw_bind, shard_open_low; [done|]. intros sh w1 H1 S1 L1. apply lw_bind, IH; [done|]. intros shs w2 H2 S2 L2.
  cbn. split; [done|]. apply HQ; [done|by eapply stays_trans|]. constructor; [|done].
  destruct L1 as (A & f & B & C). split; [done|]. by apply (S2 _ f).
Qed.
Lemma load_scan_low cfg m l : forall w (Q : list range -> fs -> Prop), low cfg m w ->
  (forall r w', low cfg m w' -> stays cfg m w w' -> Q r w') -> lw cfg m (load_scan l) Q w.
Proof.
  induction l as [|n l IH]; intros w Q Hw HQ; cbn [load_scan].
  { cbn. split; [done|]. apply HQ; [done|apply stays_refl]. }
  destruct n as [s e|s e|s e|s e|s e|x].
  - apply lw_bind, lw_check; [done|]. apply lw_bind, IH; [done|]. intros r w1 H1 S1. cbn. auto.
  - by apply IH.
  - apply lw_bind, lw_remove; [done|]. intros w1 H1 S1. apply IH; [done|]. intros r w2 H2 S2. apply HQ; [done|by eapply stays_trans].
  - apply lw_bind, lw_remove; [done|]. intros w1 H1 S1. apply IH; [done|]. intros r w2 H2 S2. apply HQ; [done|by eapply stays_trans].
  - apply lw_bind, lw_remove; [done|]. intros w1 H1 S1. apply IH; [done|]. intros r w2 H2 S2. apply HQ; [done|by eapply stays_trans].
  - by apply IH.
Qed.
Lemma remove_ranges_low cfg m l : forall w (Q : unit -> fs -> Prop), low cfg m w ->
  (forall w', low cfg m w' -> Q tt w') -> lw cfg m (remove_ranges l) Q w.
Proof.
  induction l as [|[s e] l IH]; intros w Q Hw HQ; cbn [remove_ranges]; [cbn; auto|].
  apply lw_bind, lw_remove; [done|]. intros w1 H1 S1. by apply IH.
Qed.
Lemma clear_files_low cfg m l : forall w (Q : unit -> fs -> Prop), low cfg m w ->
  (forall w', low cfg m w' -> Q tt w') -> lw cfg m (clear_files l) Q w.
Proof.
  induction l as [|n l IH]; intros w Q Hw HQ; cbn [clear_files]; [cbn; auto|].
  destruct n; try (by apply IH); apply lw_bind, lw_remove; try done; intros w1 H1 S1; by apply IH.
Qed.
Lemma create_low cfg m w (Q : list shard -> fs -> Prop) : low cfg m w ->
  (forall shs w', low cfg m w' -> Forall (low_shard cfg m w') shs -> Q shs w') ->
  lw cfg m (create_initial_shards cfg) Q w.
Proof.
  intros Hw HQ. unfold create_initial_shards. apply lw_bind, lw_lift; [done|]. intros step _. apply open_ranges_low; auto.
Qed.
Lemma router_new_low cfg m w : low cfg m w ->
  lw cfg m (router_new cfg) (fun r w' => Forall (low_shard cfg m w') (leaves r)) w.
Proof.
  intros Hw. unfold router_new, load. apply lw_bind, lw_bind, lw_eff; [done|done|]. intros _ _. cbn [run_eff fst snd].
  apply lw_bind, load_scan_low; [done|]. intros found w1 H1 S1. destruct (consolidate_ranges found) as [keep drop].
  apply lw_bind, remove_ranges_low; [done|]. intros w2 H2. apply open_ranges_low; [done|]. intros shs w3 H3 S3 L3.
  assert (forall shs w4, low cfg m w4 -> Forall (low_shard cfg m w4) shs ->
    lw cfg m (lift (treeify shs)) (fun r w' => Forall (low_shard cfg m w') (leaves r)) w4) as Ht.
  { intros l w4 H4 L4. apply lw_lift; [done|]. intros r Er. by rewrite (treeify_leaves _ _ Er). }
  apply lw_bind. destruct shs as [|sh shs].
  - apply create_low; [done|]. intros shs w4 H4 L4. by apply Ht.
  - cbn [wpc lw]. split; [done|]. by apply Ht.
Qed.
Lemma clear_low cfg m ord w : low cfg m w -> lw cfg m (clear_in ord cfg) (fun r w' => Forall (low_shard cfg m w') (leaves r)) w.
Proof.
  intros Hw. unfold clear_in. apply lw_bind, lw_eff; [done|done|]. intros _ _. cbn [run_eff fst snd].
  apply lw_bind, clear_files_low; [done|]. intros w1 H1. apply lw_bind, create_low; [done|]. intros shs w2 H2 L2.
  apply lw_lift; [done|]. intros r Er. by rewrite (treeify_leaves _ _ Er).
Qed.
Lemma attempts_low cfg m w w' : attempts cfg w w' -> low cfg m w -> low cfg m w'.
Proof.
  intros H. induction H as [w|w n w' H IH|w e w1 w' E H IH]; intros Hw; [done| |]; apply IH;
    destruct (wpc_sound _ _ _ _ _ (router_new_low cfg m w Hw)) as [A B]; [apply A|].
  unfold store_open in E. destruct (run (router_new cfg) w) as [w2 [r|e2]]; [done|]. injection E as <- _. apply B.
Qed.
Lemma route_leaf r sel : route r sel ∈ leaves r.
Proof.
  induction r as [sh|b IHb t IHt]; cbn; [by left|]. rewrite elem_of_app. destruct (sel <? rend b); auto.
Qed.
Lemma low_get cfg m w r k : Forall (low_shard cfg m w) (leaves r) ->
  get_raw cfg (Store r w) k = Ok None \/ exists v, get_raw cfg (Store r w) k = Ok (Some v) /\ m !! k = Some v.
Proof.
  intros Hl. rewrite Forall_forall in Hl. destruct (Hl _ (route_leaf r (ph_selector (hashk cfg k)))) as (Ht & f & Ef & L & H1 & H2).
  unfold get_raw, shard_get, row_file, src_file. cbn [st_root st_fs]. rewrite Ht, Ef. cbn [rbind].
  destruct (scan_row_spec cfg f (ph_row (hashk cfg k)) _ (L (ph_row (hashk cfg k))) k 0 false
              (file_rep_row _ _ _ _ H1 (ph_row_lt _))) as [(c & v & b & E & Hc)|(b & E & _)]; rewrite E; cbn; [|by left].
  right. exists v. split; [done|]. apply (H2 _ k v (ph_row_lt (hashk cfg k))).
  apply elem_of_list_lookup_2 in Hc. unfold entries. apply elem_of_list_omap. by exists (Some (k, v)).
Qed.

(** ** Theorems *)
Lemma reach_low cfg x m s : SInv cfg x m s -> compacting s = [] -> low cfg m (st_fs s).
Proof.
  intros [Hwf (Ht & Hl & Hn1 & Hn2)] Hc. rewrite Forall_forall in Hl.
  assert (forall sh, sh ∈ leaves (st_root s) -> sh_tgt sh = None) as Hnone.
  { intros sh Hsh. destruct (sh_tgt sh) eqn:E; [|done]. exfalso.
    assert (sh ∈ compacting s) as Hin; [|rewrite Hc in Hin; by apply elem_of_nil in Hin].
    apply elem_of_list_In. unfold compacting. apply List.filter_In. rewrite E. split; [by apply elem_of_list_In|done]. }
  assert (forall a b, a < b /\ b <= END_OF_SHARDS -> overlap a b 0 (0 + 2 ^ N.of_nat 16)) as Ho.
  { intros a b [H1 H2]. unfold overlap. change (0 + 2 ^ N.of_nat 16) with END_OF_SHARDS. lia. }
  split.
  - intros a b i Hi. assert ((a, b) ∈ map span_of (leaves (st_root s))) as Hin.
    { apply Hn1; [by eexists|]. apply Ho, (wf_names _ Hwf). left. by eexists. }
    apply elem_of_list_fmap in Hin as (sh & Es & Hsh). unfold span_of in Es. injection Es as -> ->.
    destruct (Hl _ Hsh) as (f & L & E1 & E2 & _ & E3 & _ & _ & E4). rewrite (Hnone _ Hsh) in E4. destruct E4 as [_ E4].
    assert (i = sh_ino sh) as -> by congruence. exists f. split; [done|]. exists L. split; [done|].
    intros r k v Hr Hkv. by apply (E4 r Hr) in Hkv as [? _].
  - intros a b. destruct (fs_dir (st_fs s) !! FCompact a b) as [i|] eqn:Ei; [|done]. exfalso.
    assert ((a, b) ∈ map span_of (leaves (st_root s))) as Hin.
    { apply Hn2; [by eexists|]. apply Ho, (wf_names _ Hwf). right. by eexists. }
    apply elem_of_list_fmap in Hin as (sh & Es & Hsh). unfold span_of in Es. injection Es as -> ->.
    destruct (Hl _ Hsh) as (f & L & _ & _ & _ & _ & _ & _ & E4). rewrite (Hnone _ Hsh) in E4. destruct E4 as [E4 _]. congruence.
Qed.
Lemma open_low cfg m w w' s' k : low cfg m w -> store_open cfg w = (w', Ok s') ->
  get_raw cfg s' k = Ok None \/ exists v, get_raw cfg s' k = Ok (Some v) /\ m !! k = Some v.
Proof.
  intros Hw E. destruct (wpc_sound _ _ _ _ _ (router_new_low cfg m w Hw)) as [_ B]. unfold store_open in E.
  destruct (run (router_new cfg) w) as [w2 [r|e2]]; [|done]. injection E as <- <-. apply low_get, B.
Qed.

(** C11, what holds: a crash at any point of [clear], without a compaction under way, never makes
    up an entry: if a later [open] succeeds at all, every key has its last value or none.  Missing:
    [open] may fail (C11_crash_during_clear_refuted), and only a part of the entries may be gone
    (C11_part_of_the_entries_refuted). *)
Theorem C11_crash_during_clear_partial cfg s ord n w w' s' :
  reachable cfg s -> compacting s = [] ->
  attempts cfg (crash_at n (clear_in ord cfg) (st_fs s)) w -> store_open cfg w = (w', Ok s') ->
  part_of cfg s' s.
Proof.
  intros Hr Hc Ha Ho k. destruct (reach_inv _ _ Hr) as (x & m & HI).
  pose proof (wpc_sound _ _ _ _ _ (clear_low cfg m ord (st_fs s) (reach_low _ _ _ _ HI Hc))) as [Hn _].
  destruct (open_low cfg m w w' s' k (attempts_low _ _ _ _ Ha (Hn n)) Ho) as [E|(v & E & Em)]; [by left|].
  right. by rewrite E, (get_raw_ok _ _ _ _ k HI), Em.
Qed.
(** ... and a crash (any number of crashes, failed openings) while a store is created in a fresh directory:
    if a later [open] succeeds, the store is empty.  Missing: it may fail
    (C11_crash_during_creation_refuted). *)
Theorem C11_crash_during_creation_partial cfg w0 w w' s' :
  fresh_dir w0 -> attempts cfg w0 w -> store_open cfg w = (w', Ok s') -> forall k, get_raw cfg s' k = Ok None.
Proof.
  intros Hf Ha Ho k. assert (low cfg ∅ w0) as Hw.
  { destruct Hf as [Hf1 _]. split; [|intros a b; apply Hf1]. intros a b i E. destruct (Hf1 a b) as [E' _]. congruence. }
  destruct (open_low cfg ∅ w w' s' k (attempts_low _ _ _ _ Ha Hw) Ho) as [E|(v & E & Em)]; [done|by rewrite lookup_empty in Em].
Qed.
