(** Opening an arbitrary directory: which shard files are kept, deleted or refused.  No
    invariant of the directory is assumed. *)
From Verif Require Import Base SipHash Hashing HashingProofs Fs Shard Router RouterPure Store.

(** ** Programs that only touch some names *)
Definition eff_names {X} (e : eff X) : list fname :=
  match e with
  | ECreate n _ | ERemove n => [n]
  | ERename a b => [a; b]
  | _ => []
  end.
Fixpoint touches {A} (P : fname -> Prop) (p : prog A) : Prop :=
  match p with
  | Ret _ | Fail _ => True
  | Vis e k => Forall P (eff_names e) /\ forall x, touches P (k x)
  end.
Lemma touches_mono {A} (P Q : fname -> Prop) (p : prog A) : (forall n, P n -> Q n) -> touches P p -> touches Q p.
Proof.
  intros H. induction p as [a|e|X e k IH]; cbn; [done|done|]. intros [H1 H2].
  split; [by eapply Forall_impl|]. intros x. by apply IH.
Qed.
Lemma touches_bind {A B} (P : fname -> Prop) (p : prog A) (f : A -> prog B) :
  touches P p -> (forall a, touches P (f a)) -> touches P (pbind p f).
Proof.
  intros H Hf. induction p as [a|e|X e k IH]; cbn in *; [by apply Hf|done|]. destruct H as [H1 H2]. auto.
Qed.
Lemma touches_lift {A} (P : fname -> Prop) (r : res A) : touches P (lift r).
Proof. by destruct r. Qed.
Lemma touches_get_file (P : fname -> Prop) i : touches P (get_file i).
Proof. apply touches_bind; [cbn; auto|]. intros w. apply touches_lift. Qed.
Lemma touches_upd (P : fname -> Prop) i u : touches P (upd i u).
Proof. cbn. auto. Qed.
Lemma touches_assert (P : fname -> Prop) b : touches P (assert_p b).
Proof. by destruct b. Qed.
Lemma touches_check (P : fname -> Prop) b e : touches P (check b e).
Proof. by destruct b. Qed.
Lemma eff_dir {X} (e : eff X) w n : n ∉ eff_names e -> fs_dir (fst (run_eff e w)) !! n = fs_dir w !! n.
Proof.
  destruct e as [|i m|i u|n' tr|a b|a]; cbn [eff_names run_eff fst]; intros Hn; try done.
  - by destruct (fs_files w !! i).
  - destruct (fs_dir w !! n') as [i|] eqn:E; cbn; [by destruct tr|].
    rewrite lookup_insert_ne; [done|]. intros ->. apply Hn. by left.
  - destruct (fs_dir w !! a) as [i|] eqn:E; cbn; [|done]. rewrite lookup_insert_ne; [|intros ->; apply Hn; right; by left].
    rewrite lookup_delete_ne; [done|]. intros ->. apply Hn. by left.
  - destruct (fs_dir w !! a) as [i|] eqn:E; cbn; [|done]. rewrite lookup_delete_ne; [done|]. intros ->. apply Hn. by left.
Qed.
Lemma touches_dir {A} (P : fname -> Prop) (p : prog A) : touches P p -> forall w n, ~ P n ->
  fs_dir (fst (run p w)) !! n = fs_dir w !! n.
Proof.
  induction p as [a|e|X e k IH]; cbn [touches run]; intros H w n Hn; [done|done|]. destruct H as [H1 H2].
  destruct (run_eff e w) as [w' x] eqn:E. rewrite IH by auto. rewrite <- (eff_dir e w n); [by rewrite E|].
  intros Hin. rewrite Forall_forall in H1. by apply Hn, H1.
Qed.
Lemma run_bind {A B} (p : prog A) (f : A -> prog B) w :
  run (pbind p f) w = match run p w with (w', Ok a) => run (f a) w' | (w', Err e) => (w', Err e) end.
Proof.
  revert w; induction p as [a|e|X e k IH]; intros w; cbn [pbind run]; [done|done|].
  destruct (run_eff e w) as [w' x]. apply IH.
Qed.

Definition none (_ : fname) : Prop := False.
Lemma put_bytes_touches (P : fname -> Prop) l : forall i off, touches P (put_bytes i off l).
Proof.
  induction l as [|b l IH]; intros i off; cbn; [done|]. auto.
Qed.
Lemma write_kv_touches (P : fname -> Prop) i k v : touches P (write_kv i k v).
Proof.
  unfold write_kv. apply touches_bind; [cbn; auto|]. intros off. apply touches_bind; [apply put_bytes_touches|]. intros _. done.
Qed.
Lemma compact_slots_touches (P : fname -> Prop) cfg fsrc t r row : forall first col,
  touches P (compact_slots cfg fsrc t r first col row).
Proof.
  induction row as [|s row IH]; intros first col; cbn [compact_slots]; [done|].
  destruct (s_sig s =? INVALID_SIG); [apply IH|].
  apply touches_bind; [apply touches_lift|]. intros [k v].
  apply touches_bind; [apply touches_get_file|]. intros ft.
  apply touches_bind; [apply touches_assert|]. intros _.
  apply touches_bind; [apply touches_assert|]. intros _.
  apply touches_bind; [apply write_kv_touches|]. intros d.
  apply touches_bind; [apply touches_assert|]. intros _.
  apply touches_bind; [apply touches_upd|]. intros _.
  apply touches_bind; [apply touches_upd|]. intros _.
  apply touches_bind; [apply touches_upd|]. intros _. apply IH.
Qed.
Lemma do_compaction_touches (P : fname -> Prop) cfg fuel : forall src t first, touches P (do_compaction cfg fuel src t first).
Proof.
  induction fuel as [|n IH]; intros src t first; cbn [do_compaction]; [done|].
  apply touches_bind; [apply touches_get_file|]. intros ft. destruct (NUM_ROWS <=? f_cut ft)%nat; [done|].
  apply touches_bind; [|intros _; apply IH]. unfold compact_row.
  apply touches_bind; [apply touches_get_file|]. intros fsrc.
  apply touches_bind; [apply compact_slots_touches|]. intros _. apply touches_upd.
Qed.
Lemma mmap_new_touches (P : fname -> Prop) i : touches P (mmap_new i).
Proof.
  unfold mmap_new. repeat (apply touches_bind; [apply touches_upd|]; intros _). apply touches_upd.
Qed.
Definition span_names (s e : N) (n : fname) : Prop := n = FShard s e \/ n = FCompact s e.
Lemma shard_open_touches cfg s e tr : touches (span_names s e) (shard_open cfg s e tr).
Proof.
  unfold shard_open.
  apply touches_bind; [cbn; split; [|done]; constructor; [by left|done]|]. intros i.
  apply touches_bind; [apply touches_get_file|]. intros f.
  apply touches_bind.
  { destruct (f_len f =? 0); [done|]. destruct (meta_ok f); [done|]. destruct (c_clear_bad cfg); [|done]. cbn. auto. }
  intros size. apply touches_bind.
  { destruct (negb (size =? 0) && (size <? HEADER_SIZE)); [|done]. destruct (c_clear_bad cfg); [|done]. cbn. auto. }
  clear size. intros size.
  apply touches_bind; [by destruct (size =? 0); cbn|]. intros _.
  apply touches_bind; [apply mmap_new_touches|]. intros _. destruct tr.
  - apply touches_bind; [|done]. cbn. split; [|done]. constructor; [by right|done].
  - apply touches_bind; [cbn; auto|]. intros w. destruct (fs_dir w !! FCompact s e) as [t|]; [|done].
    apply touches_bind; [apply mmap_new_touches|]. intros _.
    apply touches_bind; [apply do_compaction_touches|]. intros _.
    apply touches_bind; [|done]. apply touches_bind; [|intros b; apply touches_check].
    cbn. split; [|done]. constructor; [by right|]. constructor; [by left|done].
Qed.
(** A program keeps [n] in the directory. *)
Lemma create_dir n tr w : fs_dir (fst (run (eff1 (ECreate n tr)) w)) !! n = Some (match fs_dir w !! n with Some i => i | None => fs_next w end) .
Proof.
  cbn. destruct (fs_dir w !! n) as [i|] eqn:E; cbn; [destruct tr; cbn; done|]. apply lookup_insert.
Qed.
Lemma shard_open_dir cfg s e w w' sh : run (shard_open cfg s e false) w = (w', Ok sh) ->
  span_of sh = (s, e) /\ is_Some (fs_dir w' !! FShard s e) /\ fs_dir w' !! FCompact s e = None /\
  forall n, ~ span_names s e n -> fs_dir w' !! n = fs_dir w !! n.
Proof.
  intros H. apply and_assoc, and_assoc. split; [|intros n Hn; pose proof (touches_dir _ _ (shard_open_touches cfg s e false) w n Hn) as Ht; by rewrite H in Ht].
  unfold shard_open in H; rewrite run_bind in H; pose proof (create_dir (FShard s e) false w) as Hc;
    destruct (run (eff1 (ECreate (FShard s e) false)) w) as [w1 [i|er]] eqn:E1; [|done]; cbn [fst] in Hc;
    rewrite run_bind in H; pose proof (touches_dir none _ (touches_get_file none i) w1) as T1;
    destruct (run (get_file i) w1) as [w2 [f|er]]; [|done]; cbn [fst] in T1; rewrite run_bind in H.
  match type of H with context [run ?p w2] => set (p1 := p) in H end;
    assert (touches none p1) as Tp1 by (unfold p1; destruct (f_len f =? 0); [done|]; destruct (meta_ok f); [done|]; destruct (c_clear_bad cfg); cbn; auto);
    pose proof (touches_dir none _ Tp1 w2) as T2; destruct (run p1 w2) as [w3 [size|er]]; [|done]; cbn [fst] in T2; rewrite run_bind in H.
  match type of H with context [run ?p w3] => set (p2 := p) in H end;
    assert (touches none p2) as Tp2 by (unfold p2; destruct (negb (size =? 0) && (size <? HEADER_SIZE)); [|done]; destruct (c_clear_bad cfg); cbn; auto);
    pose proof (touches_dir none _ Tp2 w3) as T3; destruct (run p2 w3) as [w4 [size'|er]]; [|done]; cbn [fst] in T3; rewrite run_bind in H.
  match type of H with context [run ?p w4] => set (p3 := p) in H end;
    assert (touches none p3) as Tp3 by (unfold p3; destruct (size' =? 0); cbn; auto);
    pose proof (touches_dir none _ Tp3 w4) as T4; destruct (run p3 w4) as [w5 [?|er]]; [|done]; cbn [fst] in T4; rewrite run_bind in H;
    pose proof (touches_dir none _ (mmap_new_touches none i) w5) as T5; destruct (run (mmap_new i) w5) as [w6 [?|er]]; [|done]; cbn [fst] in T5;
    rewrite run_bind in H; cbn [run snap eff1 run_eff] in H.
  assert (forall n, fs_dir w6 !! n = fs_dir w1 !! n) as T6 by (intros n; rewrite T5, T4, T3, T2, T1; [done|intros []..]);
    clear T1 T2 T3 T4 T5 Tp1 Tp2 Tp3; destruct (fs_dir w6 !! FCompact s e) as [t|] eqn:Ec.
  2:{ cbn in H. simplify_eq. split; [|done]. split; [done|]. rewrite T6, Hc. by eexists. }
  rewrite run_bind in H; pose proof (touches_dir none _ (mmap_new_touches none t) w6) as T7;
    destruct (run (mmap_new t) w6) as [w7 [?|er]]; [|done]; cbn [fst] in T7; rewrite run_bind in H;
    pose proof (touches_dir none _ (do_compaction_touches none cfg COMPACT_FUEL i t true) w7) as T8;
    destruct (run (do_compaction cfg COMPACT_FUEL i t true) w7) as [w8 [?|er]]; [|done]; cbn [fst] in T8;
    cbn [rename pbind eff1 run run_eff] in H; rewrite T8, T7, Ec in H by (intros []); cbn in H; simplify_eq; cbn.
  split; [split; [done|]|].
  - rewrite lookup_insert. by eexists.
  - rewrite lookup_insert_ne by done. apply lookup_delete.
Qed.

(** ** Loading a directory *)
Definition temp_name (n : fname) : bool := match n with FBottom _ _ | FTop _ _ | FMerge _ _ => true | _ => false end.
Definition shard_spans (l : list fname) : list range :=
  omap (fun n => match n with FShard s e => Some (s, e) | _ => None end) l.
Lemma remove_file_run n w w' : run (remove_file n) w = (w', Ok tt) -> fs_dir w' = delete n (fs_dir w) /\ fs_files w' = fs_files w.
Proof.
  cbn. destruct (fs_dir w !! n) as [i|]; cbn; [|done]. by intros [= <-].
Qed.
Lemma load_scan_run names : forall w w' l, run (load_scan names) w = (w', Ok l) ->
  l = shard_spans names /\ Forall (fun r => fst r < snd r <= END_OF_SHARDS) l /\ fs_files w' = fs_files w /\
  forall n, fs_dir w' !! n = if temp_name n && bool_decide (n ∈ names) then None else fs_dir w !! n.
Proof.
  induction names as [|n names IH]; intros w w' l H; cbn [load_scan shard_spans omap list_omap] in *.
  { injection H as <- <-. split; [done|]. split; [done|]. split; [done|]. intros n.
    rewrite bool_decide_eq_false_2 by apply not_elem_of_nil. by rewrite andb_false_r. }
  assert (forall n', temp_name n' && bool_decide (n' ∈ n :: names) = (temp_name n' && bool_decide (n' = n)) || (temp_name n' && bool_decide (n' ∈ names))) as Hb.
  { intros n'. destruct (temp_name n'); [|done]. cbn. case_bool_decide as H1; case_bool_decide as H2; case_bool_decide as H3; cbn; try done; set_solver. }
  assert (Hrem : forall w1 w', run (do! _ <- remove_file n; load_scan names) w1 = (w', Ok l) -> temp_name n = true ->
    l = shard_spans names /\ Forall (fun r => fst r < snd r <= END_OF_SHARDS) l /\ fs_files w' = fs_files w1 /\
    forall n', fs_dir w' !! n' = if temp_name n' && bool_decide (n' ∈ n :: names) then None else fs_dir w1 !! n').
  { intros w1 w2 Hr Ht. rewrite run_bind in Hr. destruct (run (remove_file n) w1) as [w3 [[]|er]] eqn:E; [|done].
    apply remove_file_run in E as [E1 E2]. destruct (IH _ _ _ Hr) as (H1 & H2 & H3 & H4). split; [done|]. split; [done|].
    split; [by rewrite H3|]. intros n'. rewrite H4, Hb, E1. destruct (temp_name n' && bool_decide (n' ∈ names)); [by rewrite orb_true_r|].
    rewrite orb_false_r. case_bool_decide; [subst; rewrite Ht; cbn; apply lookup_delete|]. rewrite andb_false_r. by rewrite lookup_delete_ne. }
  assert (Hskip : forall w1 w', run (load_scan names) w1 = (w', Ok l) -> temp_name n = false ->
    l = shard_spans names /\ Forall (fun r => fst r < snd r <= END_OF_SHARDS) l /\ fs_files w' = fs_files w1 /\
    forall n', fs_dir w' !! n' = if temp_name n' && bool_decide (n' ∈ n :: names) then None else fs_dir w1 !! n').
  { intros w1 w2 Hr Ht. destruct (IH _ _ _ Hr) as (H1 & H2 & H3 & H4). split; [done|]. split; [done|]. split; [done|].
    intros n'. rewrite H4, Hb. destruct (temp_name n' && bool_decide (n' ∈ names)); [by rewrite orb_true_r|].
    rewrite orb_false_r. case_bool_decide; [subst; rewrite Ht; done|]. by rewrite andb_false_r. }
  destruct n as [s e|s e|s e|s e|s e|s]; [|by apply Hskip|by apply Hrem|by apply Hrem|by apply Hrem|by apply Hskip].
  clear Hrem Hskip. rewrite run_bind in H. unfold check in H. destruct ((s <? e) && (e <=? END_OF_SHARDS)) eqn:Ec; [|done]. cbn [run] in H.
  rewrite run_bind in H. destruct (run (load_scan names) w) as [w1 [l1|er]] eqn:E; [|done]. cbn in H. injection H as <- <-.
  destruct (IH _ _ _ E) as (H1 & H2 & H3 & H4). split; [by rewrite H1|]. split.
  { constructor; [|done]. apply andb_true_iff in Ec as [Ec1 Ec2]. apply N.ltb_lt in Ec1. apply N.leb_le in Ec2. cbn. lia. }
  split; [done|]. intros n'. rewrite H4, Hb. destruct (temp_name n' && bool_decide (n' ∈ names)); [by rewrite orb_true_r|].
  rewrite orb_false_r. case_bool_decide; [subst; done|]. by rewrite andb_false_r.
Qed.
Lemma remove_ranges_run l : forall w w', run (remove_ranges l) w = (w', Ok tt) ->
  fs_files w' = fs_files w /\
  forall n, fs_dir w' !! n = match n with FShard a b => if bool_decide ((a, b) ∈ l) then None else fs_dir w !! n | _ => fs_dir w !! n end.
Proof.
  induction l as [|[s e] l IH]; intros w w' H; cbn [remove_ranges] in H.
  { injection H as <-. split; [done|]. intros n. by destruct n. }
  rewrite run_bind in H. destruct (run (remove_file (FShard s e)) w) as [w1 [[]|er]] eqn:E; [|done].
  apply remove_file_run in E as [E1 E2]. destruct (IH _ _ H) as [H1 H2]. split; [congruence|]. intros n. rewrite H2, E1.
  destruct n as [a b|a b|a b|a b|a b|a]; try (by rewrite lookup_delete_ne).
  destruct (decide ((a, b) ∈ l)) as [Hl|Hl].
  - rewrite !bool_decide_eq_true_2; [done|by right|done].
  - rewrite (bool_decide_eq_false_2 _ Hl). destruct (decide (FShard a b = FShard s e)) as [[= -> ->]|Hn].
    + rewrite bool_decide_eq_true_2 by (by left). apply lookup_delete.
    + rewrite lookup_delete_ne by congruence. rewrite bool_decide_eq_false_2; [done|].
      intros [[= -> ->]|?]%elem_of_cons; done.
Qed.
Lemma open_ranges_run cfg l : forall w w' shs, run (open_ranges cfg false l) w = (w', Ok shs) ->
  map span_of shs = l /\ (forall s e, (s, e) ∈ l -> is_Some (fs_dir w' !! FShard s e) /\ fs_dir w' !! FCompact s e = None) /\
  forall n, (forall s e, (s, e) ∈ l -> ~ span_names s e n) -> fs_dir w' !! n = fs_dir w !! n.
Proof.
  induction l as [|[s e] l IH]; intros w w' shs H; cbn [open_ranges] in H.
  { cbn in H. simplify_eq. split; [done|]. split; [|done]. intros s e Hin. by apply elem_of_nil in Hin. }
  rewrite run_bind in H. destruct (run (shard_open cfg s e false) w) as [w1 [sh|er]] eqn:E1; [|done].
  rewrite run_bind in H. destruct (run (open_ranges cfg false l) w1) as [w2 [shs2|er]] eqn:E2; [|done].
  cbn in H. simplify_eq. apply shard_open_dir in E1 as (H1 & H2 & H3 & H4). apply IH in E2 as (J1 & J2 & J3).
  split; [cbn; congruence|]. split.
  - intros s' e' Hin. destruct (decide ((s', e') ∈ l)) as [Hl|Hl]; [by apply J2|].
    apply elem_of_cons in Hin as [[= -> ->]|Hin]; [|done].
    rewrite !J3; [auto|intros s' e' Hin [Hx|Hx]; simplify_eq; done|intros s' e' Hin [Hx|Hx]; simplify_eq; done].
  - intros n Hn. rewrite J3; [apply H4|].
    + apply Hn. by left.
    + intros s' e' Hin. apply Hn. by right.
Qed.

(** The shard files of a directory. *)
Definition has_shard (w : fs) (a b : N) : Prop := is_Some (fs_dir w !! FShard a b).
Lemma shard_spans_dir w a b : (a, b) ∈ shard_spans (dir_names w) <-> has_shard w a b.
Proof.
  unfold shard_spans, dir_names, has_shard. rewrite elem_of_list_omap. split.
  - intros (n & Hin & Hn). destruct n; simplify_eq. apply elem_of_list_fmap in Hin as ([n i] & Hn & Hin). cbn in Hn. subst n.
    apply elem_of_map_to_list in Hin. by eexists.
  - intros [i Hi]. exists (FShard a b). split; [|done]. apply elem_of_list_fmap. exists (FShard a b, i). split; [done|]. by apply elem_of_map_to_list.
Qed.
Lemma shard_spans_nodup l : NoDup l -> NoDup (shard_spans l).
Proof.
  induction 1 as [|n l Hn Hl IH]; [constructor|]. cbn. destruct n as [a b|a b|a b|a b|a b|a]; try done.
  constructor; [|done]. intros Hin. apply elem_of_list_omap in Hin as (n & Hin & E). destruct n; simplify_eq. done.
Qed.
Lemma dir_names_nodup w : NoDup (dir_names w).
Proof. apply NoDup_fst_map_to_list. Qed.
Lemma dir_names_elem w n : n ∈ dir_names w <-> is_Some (fs_dir w !! n).
Proof.
  unfold dir_names. rewrite elem_of_list_fmap. split.
  - intros ([n' i] & -> & Hin). apply elem_of_map_to_list in Hin. by eexists.
  - intros [i Hi]. exists (n, i). split; [done|]. by apply elem_of_map_to_list.
Qed.
(** Its span is not contained in that of another shard file. *)
Definition maximal (w : fs) (a b : N) : Prop := forall c d, has_shard w c d -> c <= a -> b <= d -> (c, d) = (a, b).

Lemma load_run cfg w w' shs : run (load cfg) w = (w', Ok shs) ->
  (forall sh, In sh shs -> has_shard w (sh_start sh) (sh_end sh) /\ maximal w (sh_start sh) (sh_end sh)) /\
  (forall a b, has_shard w a b -> maximal w a b -> In (a, b) (map span_of shs)) /\
  NoDup (map span_of shs) /\
  (forall a b, has_shard w' a b <-> has_shard w a b /\ maximal w a b) /\
  (forall n, temp_name n = true -> fs_dir w' !! n = None) /\
  (forall i, fs_dir w' !! FOther i = fs_dir w !! FOther i) /\
  (forall a b, has_shard w a b -> maximal w a b -> fs_dir w' !! FCompact a b = None).
Proof.
  unfold load. rewrite run_bind. cbn [run snap eff1 run_eff]. intros H. rewrite run_bind in H.
  destruct (run (load_scan (dir_names w)) w) as [w1 [l|er]] eqn:E1; [|done].
  apply load_scan_run in E1 as (-> & _ & _ & L).
  destruct (consolidate_ranges (shard_spans (dir_names w))) as [keep drop] eqn:Ec.
  destruct (consolidate_maximal _ _ _ (shard_spans_nodup _ (dir_names_nodup w)) Ec) as [K D].
  rewrite run_bind in H. destruct (run (remove_ranges drop) w1) as [w2 [[]|er]] eqn:E2; [|done].
  apply remove_ranges_run in E2 as [_ R]. apply open_ranges_run in H as (O1 & O2 & O3).
  assert (Hkeep : forall a b, (a, b) ∈ keep <-> has_shard w a b /\ maximal w a b).
  { intros a b. rewrite elem_of_list_In, K, <- elem_of_list_In, shard_spans_dir. unfold maximal. split; intros [H1 H2]; (split; [done|]).
    - intros c d Hc Ha Hb. apply H2; [|split; cbn; lia]. apply elem_of_list_In. by apply shard_spans_dir.
    - intros [c d] Hc [Ha Hb]. cbn in *. apply H2; [|lia|lia]. apply shard_spans_dir. by apply elem_of_list_In. }
  assert (Hdrop : forall a b, (a, b) ∈ drop <-> has_shard w a b /\ ~ maximal w a b).
  { intros a b. rewrite elem_of_list_In, D, <- elem_of_list_In, shard_spans_dir. split; intros [H1 H2]; (split; [done|]).
    - destruct H2 as ([c d] & Hc & Hne & [Ha Hb]). cbn in *. intros Hm. apply Hne. apply Hm; [|lia|lia]. apply shard_spans_dir. by apply elem_of_list_In.
    - destruct (decide ((a, b) ∈ drop)) as [Hd|Hd]; [rewrite elem_of_list_In, D in Hd; by destruct Hd|].
      exfalso. apply H2. apply Hkeep. destruct (consolidate_spec _ _ _ Ec) as (Hp & _ & _).
      assert ((a, b) ∈ keep ++ drop) as Hin by (rewrite Hp; by apply shard_spans_dir).
      apply elem_of_app in Hin as [?|?]; done. }
  assert (Hout : forall n, (match n with FShard _ _ | FCompact _ _ => False | _ => True end) -> fs_dir w' !! n = fs_dir w1 !! n).
  { intros n Hn. rewrite O3, R; [by destruct n|]. intros s e _ [-> | ->]; done. }
  split_and!.
  - intros sh Hin. apply Hkeep. rewrite <- O1. change (sh_start sh, sh_end sh) with (span_of sh). apply elem_of_list_In. by apply in_map.
  - intros a b H1 H2. rewrite O1. apply elem_of_list_In. by apply Hkeep.
  - rewrite O1. destruct (consolidate_spec _ _ _ Ec) as (Hp & _ & _).
    pose proof (shard_spans_nodup _ (dir_names_nodup w)) as Hnd. rewrite <- Hp in Hnd. by apply NoDup_app in Hnd as (? & _ & _).
  - intros a b. rewrite <- Hkeep. split.
    + intros Hh. destruct (decide ((a, b) ∈ keep)) as [Hk|Hk]; [done|]. exfalso. unfold has_shard in Hh. rewrite O3, R in Hh.
      2:{ intros s e Hin [Hx|Hx]; simplify_eq. done. }
      case_bool_decide as Hd; [by destruct Hh|]. rewrite L in Hh. cbn in Hh. apply shard_spans_dir in Hh.
      destruct (consolidate_spec _ _ _ Ec) as (Hp & _ & _). rewrite <- Hp in Hh. apply elem_of_app in Hh as [?|?]; done.
    + intros Hk. by apply O2.
  - intros n Hn. rewrite Hout, L, Hn by (by destruct n). cbn. case_bool_decide as Hd; [done|]. rewrite dir_names_elem in Hd.
    destruct (fs_dir w !! n); [|done]. exfalso. apply Hd. by eexists.
  - intros i. rewrite Hout, L by done. done.
  - intros a b H1 H2. by apply O2, Hkeep.
Qed.

Lemma pass_leaves fuel : forall u l, concat (map leaves (treeify_pass fuel u l)) = concat (map leaves l).
Proof.
  induction fuel as [|n IH]; intros u l; cbn [treeify_pass]; [done|]. destruct l as [|x [|y rest]]; [done|done|].
  destruct ((rlen x =? u) && (rlen y =? u)).
  - rewrite IH. cbn. by rewrite app_assoc.
  - change (map leaves (x :: ?l)) with (leaves x :: map leaves l). cbn [concat]. rewrite IH. done.
Qed.
Lemma loop_leaves fuel : forall u l l', treeify_loop fuel u l = Ok l' -> concat (map leaves l') = concat (map leaves l).
Proof.
  induction fuel as [|n IH]; intros u l l' H; cbn [treeify_loop] in H.
  - destruct (END_OF_SHARDS <=? u); by simplify_eq.
  - destruct (END_OF_SHARDS <=? u); [by simplify_eq|]. apply IH in H. by rewrite H, pass_leaves.
Qed.
Lemma treeify_leaves shs r : treeify shs = Ok r -> leaves r = shs.
Proof.
  unfold treeify. destruct (negb (starts_sorted _)); [done|]. destruct (negb (is_pow2 _)); [done|].
  destruct (_ =? 0)%nat; [done|]. destruct (_ && _); [done|].
  destruct (treeify_loop 17 _ _) as [l|e] eqn:E; [|done]. cbn. apply loop_leaves in E.
  destruct l as [|n [|? ?]]; [done| |done]. intros [= <-]. cbn in E. rewrite app_nil_r in E. rewrite E.
  clear. induction shs as [|sh shs IH]; [done|]. cbn. by f_equal.
Qed.

(** What [open] keeps and deletes, for any directory that holds some shard file. *)
Lemma open_keeps cfg w w' s : store_open cfg w = (w', Ok s) -> (exists a b, has_shard w a b) ->
  (forall a b, has_shard w' a b <-> has_shard w a b /\ maximal w a b) /\
  (forall a b, (exists sh, In sh (leaves (st_root s)) /\ span_of sh = (a, b)) <-> has_shard w a b /\ maximal w a b) /\
  NoDup (map span_of (leaves (st_root s))) /\
  (forall n, temp_name n = true -> fs_dir w' !! n = None) /\
  (forall i, fs_dir w' !! FOther i = fs_dir w !! FOther i).
Proof.
  unfold store_open. intros H (a0 & b0 & H0). destruct (run (router_new cfg) w) as [w1 [r|er]] eqn:E; [|done].
  injection H as <- <-. unfold router_new in E. rewrite run_bind in E.
  destruct (run (load cfg) w) as [w2 [shs|er]] eqn:E1; [|done].
  assert (Hne : shs <> []).
  { intros ->. pose proof (load_run _ _ _ _ E1) as (_ & H2 & _ & H4 & _). clear E.
    assert (exists a b, has_shard w a b /\ maximal w a b) as (a & b & Ha & Hb).
    { (* the first of the sorted ranges is kept *)
      unfold load in E1. rewrite run_bind in E1. cbn [run snap eff1 run_eff] in E1. rewrite run_bind in E1.
      destruct (run (load_scan (dir_names w)) w) as [w3 [l|er]] eqn:E3; [|done]. apply load_scan_run in E3 as (-> & _).
      destruct (consolidate_ranges (shard_spans (dir_names w))) as [keep drop] eqn:Ec.
      destruct (consolidate_maximal _ _ _ (shard_spans_nodup _ (dir_names_nodup w)) Ec) as [K D].
      destruct (consolidate_spec _ _ _ Ec) as (Hp & _ & Hd).
      assert (exists x, In x keep) as [[a b] Hx].
      { apply shard_spans_dir in H0. rewrite <- Hp in H0. apply elem_of_app in H0 as [H0|H0]; [eexists; by apply elem_of_list_In|].
        rewrite Forall_forall in Hd. apply Hd in H0 as (y & Hy & _). eauto. }
      exists a, b. apply K in Hx as [Hx1 Hx2]. split; [apply shard_spans_dir; by apply elem_of_list_In|].
      intros c d Hc Hca Hbd. apply Hx2; [|split; cbn; lia]. apply elem_of_list_In. by apply shard_spans_dir. }
    exact (H2 a b Ha Hb). }
  destruct shs as [|sh0 shs0]; [done|]. rewrite run_bind in E. cbn [run] in E.
  destruct (treeify (sh0 :: shs0)) as [r'|er] eqn:Et; [|done]. cbn in E. injection E as <- <-.
  apply treeify_leaves in Et. cbn [st_root]. rewrite Et. destruct (load_run _ _ _ _ E1) as (H1 & H2 & H3 & H4 & H5 & H6 & _).
  split; [exact H4|]. split; [|auto]. intros a b. split.
  - intros (sh & Hin & Hs). injection Hs as <- <-. by apply H1.
  - intros [Ha Hb]. specialize (H2 a b Ha Hb). apply in_map_iff in H2 as (sh & Hs & Hin). eauto.
Qed.

(** ** Opening does not touch the files of other spans *)
(** Each name has its own, existing, inode. *)
Definition wf_dir (w : fs) : Prop :=
  (forall a b i, fs_dir w !! a = Some i -> fs_dir w !! b = Some i -> a = b) /\
  (forall a i, fs_dir w !! a = Some i -> is_Some (fs_files w !! i) /\ i < fs_next w).
Lemma eff_wf {X} (e : eff X) w : wf_dir w -> wf_dir (fst (run_eff e w)).
Proof.
  intros [H1 H2]. destruct e as [|i m|i u|n tr|a b|a]; cbn [run_eff]; [done| | | | |].
  - destruct (fs_files w !! i) as [f|] eqn:E; [|done]. cbn. split; [done|]. cbn. intros a j Hj. apply H2 in Hj as [Hj1 Hj2].
    split; [|done]. destruct (decide (i = j)) as [->|Hn]; [rewrite lookup_insert; by eexists|by rewrite lookup_insert_ne].
  - cbn. split; [done|]. cbn. intros a j Hj. apply H2 in Hj as [Hj1 Hj2]. split; [|done].
    destruct (decide (i = j)) as [->|Hn]; [rewrite lookup_alter; destruct Hj1 as [f ->]; by eexists|by rewrite lookup_alter_ne].
  - destruct (fs_dir w !! n) as [i|] eqn:E; cbn.
    + destruct tr; [|done]. split; [done|]. cbn. intros a j Hj. apply H2 in Hj as [Hj1 Hj2]. split; [|done].
      destruct (decide (i = j)) as [->|Hn]; [rewrite lookup_insert; by eexists|by rewrite lookup_insert_ne].
    + split; cbn.
      * intros a b i Ha Hb. apply lookup_insert_Some in Ha as [[<- <-]|[Ha1 Ha2]]; apply lookup_insert_Some in Hb as [[Hb1 Hb2]|[Hb1 Hb2]].
        -- done.
        -- apply H2 in Hb2. lia.
        -- subst. apply H2 in Ha2. lia.
        -- by eapply H1.
      * intros a i Ha. apply lookup_insert_Some in Ha as [[<- <-]|[Ha1 Ha2]]; [rewrite lookup_insert; split; [by eexists|lia]|].
        apply H2 in Ha2 as [Hf Hlt]. split; [|lia]. rewrite lookup_insert_ne by lia. done.
  - destruct (fs_dir w !! a) as [i|] eqn:E; [|done]. cbn. split; cbn.
    + intros c d j Hc Hd. apply lookup_insert_Some in Hc as [[<- <-]|[Hc1 Hc2]]; apply lookup_insert_Some in Hd as [[Hd1 Hd2]|[Hd1 Hd2]].
      * done.
      * apply lookup_delete_Some in Hd2 as [Hd3 Hd4]. exfalso. apply Hd3. by eapply H1.
      * subst. apply lookup_delete_Some in Hc2 as [Hc3 Hc4]. exfalso. apply Hc3. by eapply H1.
      * apply lookup_delete_Some in Hc2 as [? Hc2]. apply lookup_delete_Some in Hd2 as [? Hd2]. by eapply H1.
    + intros c j Hc. apply lookup_insert_Some in Hc as [[<- <-]|[_ Hc]]; [by eapply H2|]. apply lookup_delete_Some in Hc as [_ Hc]. by eapply H2.
  - destruct (fs_dir w !! a) as [i|] eqn:E; [|done]. cbn. split; cbn.
    + intros c d j [_ Hc]%lookup_delete_Some [_ Hd]%lookup_delete_Some. by eapply H1.
    + intros c j [_ Hc]%lookup_delete_Some. by eapply H2.
Qed.

Section frame.
  Variables (n0 : fname) (i0 : ino) (f0 : file).
  Definition fr (w : fs) : Prop := wf_dir w /\ fs_dir w !! n0 = Some i0 /\ fs_files w !! i0 = Some f0.
  Lemma eff_fr {X} (e : eff X) w : fr w -> n0 ∉ eff_names e ->
    match e with EAlloc j _ | EUpd j _ => j <> i0 | _ => True end -> fr (fst (run_eff e w)).
  Proof.
    intros (H1 & H2 & H3) Hn Hj. split; [by apply eff_wf|]. split; [by rewrite eff_dir|].
    destruct e as [|i m|i u|n tr|a b|a]; cbn [run_eff eff_names] in *.
    - done.
    - destruct (fs_files w !! i); [|done]. cbn. by rewrite lookup_insert_ne.
    - cbn. by rewrite lookup_alter_ne.
    - destruct (fs_dir w !! n) as [j|] eqn:E; cbn.
      + destruct tr; [|done]. cbn. rewrite lookup_insert_ne; [done|]. intros ->. apply Hn.
        rewrite (proj1 H1 _ _ _ E H2). by left.
      + rewrite lookup_insert_ne; [done|]. intros E'. apply H1 in H2. lia.
    - destruct (fs_dir w !! a); done.
    - destruct (fs_dir w !! a); done.
  Qed.
  (** The program has no effect on directories and on the inode [i0]. *)
  Fixpoint quiet {A} (p : prog A) : Prop :=
    match p with
    | Ret _ | Fail _ => True
    | Vis e k => match e with EAlloc j _ | EUpd j _ => j <> i0 | ESnap => True | _ => False end /\ forall x, quiet (k x)
    end.
  Lemma quiet_bind {A B} (p : prog A) (f : A -> prog B) : quiet p -> (forall a, quiet (f a)) -> quiet (pbind p f).
  Proof. intros H Hf. induction p as [a|e|X e k IH]; cbn in *; [by apply Hf|done|]. destruct H as [H1 H2]. auto. Qed.
  Lemma quiet_run {A} (p : prog A) : quiet p -> forall w, fr w -> fr (fst (run p w)).
  Proof.
    induction p as [a|e|X e k IH]; cbn [quiet run]; intros H w Hw; [done|done|]. destruct H as [H1 H2].
    destruct (run_eff e w) as [w' x] eqn:E. apply IH; [apply H2|]. change w' with (fst (w', x)). rewrite <- E. apply eff_fr; [done| |by destruct e].
    destruct e; cbn; try done; apply not_elem_of_nil.
  Qed.
  Lemma quiet_lift {A} (r : res A) : quiet (lift r).
  Proof. by destruct r. Qed.
  Lemma quiet_get_file i : quiet (get_file i).
  Proof. apply quiet_bind; [cbn; auto|]. intros w. apply quiet_lift. Qed.
  Lemma quiet_upd i u : i <> i0 -> quiet (upd i u).
  Proof. cbn. auto. Qed.
  Lemma quiet_assert b : quiet (assert_p b).
  Proof. by destruct b. Qed.
  Lemma quiet_put i l : i <> i0 -> forall off, quiet (put_bytes i off l).
  Proof. intros Hi. induction l as [|b l IH]; intros off; cbn; [done|]. auto. Qed.
  Lemma quiet_write_kv i k v : i <> i0 -> quiet (write_kv i k v).
  Proof.
    intros Hi. unfold write_kv. apply quiet_bind; [cbn; auto|]. intros off. apply quiet_bind; [by apply quiet_put|]. done.
  Qed.
  Lemma quiet_mmap_new i : i <> i0 -> quiet (mmap_new i).
  Proof. intros Hi. unfold mmap_new. repeat (apply quiet_bind; [by apply quiet_upd|]; intros _). by apply quiet_upd. Qed.
  Lemma quiet_slots cfg fsrc t r row : t <> i0 -> forall first col, quiet (compact_slots cfg fsrc t r first col row).
  Proof.
    intros Ht. induction row as [|s row IH]; intros first col; cbn [compact_slots]; [done|].
    destruct (s_sig s =? INVALID_SIG); [apply IH|].
    apply quiet_bind; [apply quiet_lift|]. intros [k v].
    apply quiet_bind; [apply quiet_get_file|]. intros ft.
    apply quiet_bind; [apply quiet_assert|]. intros _.
    apply quiet_bind; [apply quiet_assert|]. intros _.
    apply quiet_bind; [by apply quiet_write_kv|]. intros d.
    apply quiet_bind; [apply quiet_assert|]. intros _.
    apply quiet_bind; [by apply quiet_upd|]. intros _.
    apply quiet_bind; [by apply quiet_upd|]. intros _.
    apply quiet_bind; [by apply quiet_upd|]. intros _. apply IH.
  Qed.
  Lemma quiet_compaction cfg fuel : forall src t first, t <> i0 -> quiet (do_compaction cfg fuel src t first).
  Proof.
    induction fuel as [|n IH]; intros src t first Ht; cbn [do_compaction]; [done|].
    apply quiet_bind; [apply quiet_get_file|]. intros ft. destruct (NUM_ROWS <=? f_cut ft)%nat; [done|].
    apply quiet_bind; [|intros _; by apply IH]. unfold compact_row.
    apply quiet_bind; [apply quiet_get_file|]. intros fsrc.
    apply quiet_bind; [by apply quiet_slots|]. intros _. by apply quiet_upd.
  Qed.
  Lemma fr_ino w n i : fr w -> fs_dir w !! n = Some i -> n <> n0 -> i <> i0.
  Proof. intros (H1 & H2 & _) Hn Hne ->. apply Hne. by eapply H1. Qed.

  (** Opening another shard leaves the file alone, whether it succeeds or not. *)
  Lemma shard_open_fr cfg s e w : fr w -> n0 <> FShard s e -> n0 <> FCompact s e -> fr (fst (run (shard_open cfg s e false) w)).
  Proof.
    intros Hw Hn1 Hn2. unfold shard_open. rewrite run_bind. pose proof (create_dir (FShard s e) false w) as Hc.
    assert (fr (fst (run (eff1 (ECreate (FShard s e) false)) w))) as F1.
    { cbn [run eff1]. pose proof (eff_fr (ECreate (FShard s e) false) w Hw) as He. destruct (run_eff _ w) as [w1 i]. cbn. apply He; [|done].
      cbn. by intros ?%elem_of_list_singleton. }
    assert (match run (eff1 (ECreate (FShard s e) false)) w with (w', Ok i) => fs_dir w' !! FShard s e = Some i | (w', Err _) => True end) as Hi.
    { cbn. destruct (fs_dir w !! FShard s e) as [i|] eqn:E; cbn; [done|]. apply lookup_insert. }
    destruct (run (eff1 (ECreate (FShard s e) false)) w) as [w1 [i|er]]; [|done]. cbn [fst] in *. clear Hc.
    assert (i <> i0) as Hne by (eapply fr_ino; [exact F1|exact Hi|congruence]).
    rewrite run_bind. pose proof (quiet_run _ (quiet_get_file i) w1 F1) as F2. destruct (run (get_file i) w1) as [w2 [f|er]]; [|done]. cbn [fst] in F2.
    rewrite run_bind.
    match goal with |- context [run ?p w2] => set (p1 := p) end.
    assert (quiet p1) as Tp1 by (unfold p1; destruct (f_len f =? 0); [done|]; destruct (meta_ok f); [done|]; destruct (c_clear_bad cfg); cbn; auto).
    pose proof (quiet_run _ Tp1 w2 F2) as F3. destruct (run p1 w2) as [w3 [size|er]]; [|done]. cbn [fst] in F3. rewrite run_bind.
    match goal with |- context [run ?p w3] => set (p2 := p) end.
    assert (quiet p2) as Tp2 by (unfold p2; destruct (negb (size =? 0) && (size <? HEADER_SIZE)); [|done]; destruct (c_clear_bad cfg); cbn; auto).
    pose proof (quiet_run _ Tp2 w3 F3) as F4. destruct (run p2 w3) as [w4 [size'|er]]; [|done]. cbn [fst] in F4. rewrite run_bind.
    match goal with |- context [run ?p w4] => set (p3 := p) end.
    assert (quiet p3) as Tp3 by (unfold p3; destruct (size' =? 0); cbn; auto).
    pose proof (quiet_run _ Tp3 w4 F4) as F5. destruct (run p3 w4) as [w5 [?|er]]; [|done]. cbn [fst] in F5. rewrite run_bind.
    pose proof (quiet_run _ (quiet_mmap_new i Hne) w5 F5) as F6. destruct (run (mmap_new i) w5) as [w6 [?|er]]; [|done]. cbn [fst] in F6.
    rewrite run_bind. cbn [run snap eff1 run_eff]. destruct (fs_dir w6 !! FCompact s e) as [t|] eqn:Ec; [|done].
    assert (t <> i0) as Hnt by (eapply fr_ino; [exact F6|exact Ec|congruence]).
    rewrite run_bind. pose proof (quiet_run _ (quiet_mmap_new t Hnt) w6 F6) as F7. destruct (run (mmap_new t) w6) as [w7 [?|er]]; [|done]. cbn [fst] in F7.
    rewrite run_bind. pose proof (quiet_run _ (quiet_compaction cfg COMPACT_FUEL i t true Hnt) w7 F7) as F8.
    destruct (run (do_compaction cfg COMPACT_FUEL i t true) w7) as [w8 [?|er]]; [|done]. cbn [fst] in F8.
    unfold rename. rewrite !run_bind. cbn [run eff1].
    pose proof (eff_fr (ERename (FCompact s e) (FShard s e)) w8 F8) as He. destruct (run_eff _ w8) as [w9 b]. cbn [fst] in He.
    assert (fr w9) as F9. { apply He; [|done]. cbn. intros [?|[?|?%elem_of_nil]%elem_of_cons]%elem_of_cons; done. }
    by destruct b.
  Qed.
  Lemma remove_file_fr n w : fr w -> n0 <> n -> fr (fst (run (remove_file n) w)).
  Proof.
    intros Hw Hn. unfold remove_file. rewrite run_bind. cbn [run eff1].
    pose proof (eff_fr (ERemove n) w Hw) as He. destruct (run_eff _ w) as [w9 b]. cbn [fst] in He.
    assert (fr w9) as F9. { apply He; [|done]. cbn. intros ?%elem_of_list_singleton. done. }
    by destruct b.
  Qed.
  Lemma load_scan_fr names : temp_name n0 = false -> forall w, fr w -> fr (fst (run (load_scan names) w)).
  Proof.
    intros Ht. induction names as [|n names IH]; intros w Hw; cbn [load_scan]; [done|].
    assert (Hrem : temp_name n = true -> fr (fst (run (do! _ <- remove_file n; load_scan names) w))).
    { intros Hn. rewrite run_bind. pose proof (remove_file_fr n w Hw) as Hr.
      destruct (run (remove_file n) w) as [w1 [[]|er]]; cbn [fst] in *; [apply IH|]; apply Hr; congruence. }
    destruct n as [s e|s e|s e|s e|s e|s]; [|by apply IH|by apply Hrem|by apply Hrem|by apply Hrem|by apply IH].
    rewrite run_bind. unfold check. destruct ((s <? e) && (e <=? END_OF_SHARDS)); [|done]. cbn [run].
    rewrite run_bind. specialize (IH w Hw). by destruct (run (load_scan names) w) as [w1 [l1|er]].
  Qed.
  Lemma remove_ranges_fr l : forall w, fr w -> (forall a b, n0 = FShard a b -> (a, b) ∉ l) -> fr (fst (run (remove_ranges l) w)).
  Proof.
    induction l as [|[s e] l IH]; intros w Hw Hn; cbn [remove_ranges]; [done|].
    assert (n0 <> FShard s e) as Hne by (intros E; apply (Hn s e E); by left).
    rewrite run_bind. pose proof (remove_file_fr _ w Hw Hne) as Hr.
    destruct (run (remove_file (FShard s e)) w) as [w1 [[]|er]]; cbn [fst] in *; [|done]. apply IH; [done|].
    intros a b E Hin. apply (Hn a b E). by right.
  Qed.
End frame.

(** ** A bad shard file *)
(** Not empty, and wrong magic, version or size. *)
Definition bad_file (f : file) : Prop :=
  f_len f <> 0 /\ (f_magic f <> SHARD_FILE_MAGIC \/ f_version f <> SHARD_FILE_VERSION \/ f_len f < HEADER_SIZE).
Lemma shard_open_bad cfg a b i f w : fr (FShard a b) i f w -> bad_file f -> c_clear_bad cfg = false ->
  exists e, run (shard_open cfg a b false) w = (w, Err e).
Proof.
  intros (H1 & H2 & H3) [Hb1 Hb2] Hc. unfold shard_open. rewrite run_bind. cbn [run eff1 run_eff]. rewrite H2.
  rewrite run_bind. unfold get_file. rewrite run_bind. cbn [run snap eff1 run_eff]. rewrite H3. cbn [lift run].
  rewrite run_bind. destruct (N.eqb_spec (f_len f) 0) as [?|_]; [done|]. rewrite Hc.
  destruct (meta_ok f) eqn:Em; [|cbn; eauto]. cbn [run]. rewrite run_bind.
  destruct (N.eqb_spec (f_len f) 0) as [?|_]; [done|]. cbn [negb andb].
  destruct (N.ltb_spec (f_len f) HEADER_SIZE) as [_|Hlt]; [cbn; eauto|]. exfalso.
  unfold meta_ok in Em. apply andb_true_iff in Em as [Em Ev]. apply andb_true_iff in Em as [_ Em].
  apply bool_decide_eq_true in Em. apply N.eqb_eq in Ev. destruct Hb2 as [?|[?|?]]; [done|done|lia].
Qed.
Lemma open_ranges_bad cfg a b i f l : bad_file f -> c_clear_bad cfg = false -> forall w, fr (FShard a b) i f w -> (a, b) ∈ l ->
  exists w' e, run (open_ranges cfg false l) w = (w', Err e) /\ fr (FShard a b) i f w'.
Proof.
  intros Hb Hc. induction l as [|[s e] l IH]; intros w Hw Hin; [by apply elem_of_nil in Hin|]. cbn [open_ranges].
  rewrite run_bind. destruct (decide ((s, e) = (a, b))) as [[= -> ->]|Hne].
  - destruct (shard_open_bad cfg a b i f w Hw Hb Hc) as [er ->]. eauto.
  - apply elem_of_cons in Hin as [?|Hin]; [congruence|].
    pose proof (shard_open_fr _ _ _ cfg s e w Hw) as Hf.
    destruct (run (shard_open cfg s e false) w) as [w1 [sh|er]]; cbn [fst] in Hf.
    + assert (fr (FShard a b) i f w1) as F1 by (apply Hf; congruence).
      rewrite run_bind. destruct (IH w1 F1 Hin) as (w2 & er & -> & F2). eauto.
    + exists w1, er. split; [done|]. apply Hf; congruence.
Qed.
Lemma open_bad cfg w a b i f : wf_dir w -> fs_dir w !! FShard a b = Some i -> fs_files w !! i = Some f ->
  bad_file f -> maximal w a b -> c_clear_bad cfg = false ->
  exists w' e, store_open cfg w = (w', Err e) /\ fs_dir w' !! FShard a b = Some i /\ fs_files w' !! i = Some f.
Proof.
  intros Hwf Hd Hf Hb Hm Hc. assert (fr (FShard a b) i f w) as F0 by done.
  assert (exists w' e, run (load cfg) w = (w', Err e) /\ fr (FShard a b) i f w') as (w' & e & Hl & F).
  { unfold load. rewrite run_bind. cbn [run snap eff1 run_eff]. rewrite run_bind.
    pose proof (load_scan_fr (FShard a b) i f (dir_names w) eq_refl w F0) as F1.
    destruct (run (load_scan (dir_names w)) w) as [w1 [l|er]] eqn:E1; [|eauto]. cbn [fst] in F1.
    apply load_scan_run in E1 as (-> & _).
    destruct (consolidate_ranges (shard_spans (dir_names w))) as [keep drop] eqn:Ec.
    destruct (consolidate_maximal _ _ _ (shard_spans_nodup _ (dir_names_nodup w)) Ec) as [K D].
    assert ((a, b) ∈ keep) as Hk.
    { apply elem_of_list_In, K. split; [apply elem_of_list_In, shard_spans_dir; by exists i|].
      intros [c d] Hcd [H1 H2]. apply Hm; [|done|done]. by apply shard_spans_dir, elem_of_list_In. }
    rewrite run_bind. pose proof (remove_ranges_fr _ _ _ drop w1 F1) as F2.
    destruct (run (remove_ranges drop) w1) as [w2 [[]|er]] eqn:E2; cbn [fst] in F2.
    - assert (fr (FShard a b) i f w2) as F3.
      { apply F2. intros a' b' [= <- <-] Hin. apply elem_of_list_In, D in Hin as [_ (r' & Hr1 & Hr2 & Hr3)].
        apply elem_of_list_In, K in Hk as [_ Hk]. by apply Hr2, Hk. }
      destruct (open_ranges_bad cfg a b i f keep Hb Hc w2 F3 Hk) as (w3 & er & E3 & F4). eauto.
    - exists w2, er. split; [done|]. apply F2. intros a' b' [= <- <-] Hin. apply elem_of_list_In, D in Hin as [_ (r' & Hr1 & Hr2 & Hr3)].
      apply elem_of_list_In, K in Hk as [_ Hk]. by apply Hr2, Hk. }
  exists w', e. unfold store_open, router_new. rewrite run_bind, Hl. destruct F as (_ & F1 & F2). done.
Qed.

(** ** clear_on_unsupported_version *)
Definition no_slots (f : file) : Prop := f_rows f = replicate NUM_ROWS (replicate ROW_WIDTH slot0).
Lemma row_no_slots f r : no_slots f -> Forall (fun s => s_sig s = INVALID_SIG) (row_of f r).
Proof.
  intros H. unfold row_of. rewrite H. destruct (replicate NUM_ROWS (replicate ROW_WIDTH slot0) !! r) as [row|] eqn:E; cbn; [|by constructor].
  apply lookup_replicate in E as [-> _]. apply Forall_replicate. done.
Qed.
Lemma scan_row_none f sig k : sig <> INVALID_SIG -> forall row c m, Forall (fun s => s_sig s = INVALID_SIG) row ->
  scan_row f sig k c m row = Ok (None, m).
Proof.
  intros Hs. induction row as [|s row IH]; intros c m Hr; cbn; [done|]. apply Forall_cons in Hr as [H1 H2].
  destruct (N.eqb_spec (s_sig s) sig); [congruence|]. by apply IH.
Qed.
Lemma shard_get_empty w sh ph k i f : sh_tgt sh = None -> sh_ino sh = i -> fs_files w !! i = Some f -> no_slots f ->
  ph_sig ph <> INVALID_SIG -> shard_get w sh ph k = Ok None.
Proof.
  intros H1 H2 H3 H4 H5. unfold shard_get, row_file, src_file. rewrite H1, H2, H3. cbn.
  rewrite scan_row_none; [done|done|by apply row_no_slots].
Qed.
Lemma shard_open_clear cfg a b i f w : fr (FShard a b) i f w -> bad_file f -> c_clear_bad cfg = true -> fs_dir w !! FCompact a b = None ->
  exists w' f', run (shard_open cfg a b false) w = (w', Ok (Shard a b i None)) /\ fr (FShard a b) i f' w' /\ no_slots f'.
Proof.
  intros (H1 & H2 & H3) [Hb1 Hb2] Hc Hn.
  assert (exists w1, fr (FShard a b) i file_empty w1 /\ fs_dir w1 = fs_dir w /\
    run (shard_open cfg a b false) w = run (do! _ <- upd i (ULen (initial_len cfg)); do! _ <- mmap_new i; Ret (Shard a b i None)) w1) as (w1 & F1 & E1 & ->).
  { exists (fst (run_eff (EUpd i UTrunc) w)).
    assert (fs_files (fst (run_eff (EUpd i UTrunc) w)) !! i = Some file_empty) as Hfe.
    { cbn. rewrite lookup_alter, H3. by destruct f. }
    split; [split; [by apply eff_wf|]; split; [exact H2|exact Hfe]|]. split; [done|].
    unfold shard_open. rewrite run_bind. cbn [run eff1 run_eff]. rewrite H2.
    rewrite run_bind. unfold get_file. rewrite run_bind. cbn [run snap eff1 run_eff]. rewrite H3. cbn [lift run].
    rewrite run_bind. destruct (N.eqb_spec (f_len f) 0) as [?|_]; [done|]. rewrite Hc.
    assert (Hrest : forall w2, fs_dir w2 = fs_dir w ->
      run (do! _ <- upd i (ULen (initial_len cfg)); do! _ <- mmap_new i; do! w0 <- snap;
        match fs_dir w0 !! FCompact a b with
        | None => Ret (Shard a b i None)
        | Some t => do! _ <- mmap_new t; do! _ <- do_compaction cfg COMPACT_FUEL i t true; do! _ <- rename (FCompact a b) (FShard a b); Ret (Shard a b t None)
        end) w2 = run (do! _ <- upd i (ULen (initial_len cfg)); do! _ <- mmap_new i; Ret (Shard a b i None)) w2).
    { intros w2 E2. unfold mmap_new, upd. cbn [eff1 pbind run run_eff snap fs_dir]. rewrite E2, Hn. done. }
    destruct (meta_ok f) eqn:Em.
    - cbn [run]. rewrite run_bind. destruct (N.eqb_spec (f_len f) 0) as [?|_]; [done|]. cbn [negb andb].
      destruct (N.ltb_spec (f_len f) HEADER_SIZE) as [_|Hlt].
      + rewrite run_bind. cbn [upd run eff1 run_eff]. change (0 =? 0) with true. cbn [run]. rewrite <- Hrest by done. done.
      + exfalso. unfold meta_ok in Em. apply andb_true_iff in Em as [Em Ev]. apply andb_true_iff in Em as [_ Em].
        apply bool_decide_eq_true in Em. apply N.eqb_eq in Ev. destruct Hb2 as [?|[?|?]]; [done|done|lia].
    - rewrite run_bind. cbn [upd run eff1 run_eff]. rewrite run_bind. change (0 =? 0) with true. cbn [negb andb run]. rewrite <- Hrest by done. done. }
  destruct F1 as (G1 & G2 & G3).
  set (f' := apply_fupd UVersion (apply_fupd UMagic (apply_fupd UFalloc (apply_fupd (ULen (initial_len cfg)) file_empty)))).
  exists (fst (run_eff (EUpd i UVersion) (fst (run_eff (EUpd i UMagic) (fst (run_eff (EUpd i UFalloc) (fst (run_eff (EUpd i (ULen (initial_len cfg))) w1)))))))), f'.
  split; [done|]. split; [|done].
  split; [by repeat apply eff_wf|]. split; [exact G2|]. cbn [run_eff fst fs_files]. rewrite !lookup_alter, G3. done.
Qed.
Lemma open_ranges_fr (n0 : fname) i f cfg l : (forall s e, (s, e) ∈ l -> ~ span_names s e n0) -> forall w, fr n0 i f w ->
  fr n0 i f (fst (run (open_ranges cfg false l) w)).
Proof.
  induction l as [|[s e] l IH]; intros Hn w Hw; cbn [open_ranges]; [done|].
  rewrite run_bind. pose proof (shard_open_fr _ _ _ cfg s e w Hw) as Hf.
  assert (~ span_names s e n0) as Hx by (apply Hn; by left).
  assert (fr n0 i f (fst (run (shard_open cfg s e false) w))) as F1.
  { apply Hf; intros E; apply Hx; [by left|by right]. }
  destruct (run (shard_open cfg s e false) w) as [w1 [sh|er]]; [|done]. cbn [fst] in F1.
  rewrite run_bind. assert (fr n0 i f (fst (run (open_ranges cfg false l) w1))) as F2.
  { apply IH; [|done]. intros s' e' Hin. apply Hn. by right. }
  by destruct (run (open_ranges cfg false l) w1) as [w2 [shs|er]].
Qed.
Lemma open_ranges_clear cfg a b i f l : bad_file f -> c_clear_bad cfg = true -> NoDup l -> forall w w' shs, fr (FShard a b) i f w ->
  fs_dir w !! FCompact a b = None -> (a, b) ∈ l -> run (open_ranges cfg false l) w = (w', Ok shs) ->
  In (Shard a b i None) shs /\ exists f', fs_files w' !! i = Some f' /\ no_slots f'.
Proof.
  intros Hb Hc. induction 1 as [|[s e] l Hnin Hnd IH]; intros w w' shs Hw Hn Hin H; [by apply elem_of_nil in Hin|].
  cbn [open_ranges] in H. rewrite run_bind in H. destruct (decide ((s, e) = (a, b))) as [[= -> ->]|Hne].
  - destruct (shard_open_clear cfg a b i f w Hw Hb Hc Hn) as (w1 & f' & E1 & F1 & Hs). rewrite E1 in H.
    rewrite run_bind in H. pose proof (open_ranges_fr (FShard a b) i f' cfg l) as Hf.
    assert (fr (FShard a b) i f' (fst (run (open_ranges cfg false l) w1))) as F2.
    { apply Hf; [|done]. intros s' e' Hin' [Hx|Hx]; simplify_eq. done. }
    destruct (run (open_ranges cfg false l) w1) as [w2 [shs2|er]]; [|done]. cbn in H, F2. simplify_eq. split; [by left|].
    exists f'. split; [apply F2|done].
  - apply elem_of_cons in Hin as [?|Hin]; [congruence|].
    pose proof (shard_open_fr _ _ _ cfg s e w Hw) as Hf.
    pose proof (touches_dir _ _ (shard_open_touches cfg s e false) w (FCompact a b)) as Ht.
    destruct (run (shard_open cfg s e false) w) as [w1 [sh|er]]; [|done]. cbn [fst] in Hf, Ht.
    assert (fr (FShard a b) i f w1) as F1 by (apply Hf; congruence).
    rewrite run_bind in H. destruct (run (open_ranges cfg false l) w1) as [w2 [shs2|er]] eqn:E2; [|done]. cbn in H. simplify_eq.
    destruct (IH w1 w' shs2 F1) as (J1 & J2); [|done|done|].
    { rewrite Ht; [done|]. intros [Hx|Hx]; simplify_eq. }
    split; [by right|done].
Qed.
Lemma open_clear cfg w w' s a b i f : wf_dir w -> fs_dir w !! FShard a b = Some i -> fs_files w !! i = Some f ->
  bad_file f -> maximal w a b -> c_clear_bad cfg = true -> fs_dir w !! FCompact a b = None ->
  store_open cfg w = (w', Ok s) ->
  exists sh, In sh (leaves (st_root s)) /\ span_of sh = (a, b) /\
    forall k, route (st_root s) (ph_selector (hashk cfg k)) = sh -> get_raw cfg s k = Ok None.
Proof.
  intros Hwf Hd Hf Hb Hm Hc Hn Ho. assert (fr (FShard a b) i f w) as F0 by done.
  unfold store_open in Ho. destruct (run (router_new cfg) w) as [w1 [r|er]] eqn:Er; [|done]. injection Ho as <- <-.
  unfold router_new in Er. rewrite run_bind in Er. destruct (run (load cfg) w) as [w2 [shs|er]] eqn:El; [|done].
  assert (In (Shard a b i None) shs /\ exists f', fs_files w2 !! i = Some f' /\ no_slots f') as (H1 & f' & H2 & H3).
  { unfold load in El. rewrite run_bind in El. cbn [run snap eff1 run_eff] in El. rewrite run_bind in El.
    pose proof (load_scan_fr (FShard a b) i f (dir_names w) eq_refl w F0) as F1.
    destruct (run (load_scan (dir_names w)) w) as [w3 [l|er]] eqn:E1; [|done]. cbn [fst] in F1.
    apply load_scan_run in E1 as (-> & _ & _ & HL).
    destruct (consolidate_ranges (shard_spans (dir_names w))) as [keep drop] eqn:Ec.
    destruct (consolidate_maximal _ _ _ (shard_spans_nodup _ (dir_names_nodup w)) Ec) as [K D].
    assert ((a, b) ∈ keep) as Hk.
    { apply elem_of_list_In, K. split; [apply elem_of_list_In, shard_spans_dir; by exists i|].
      intros [c d] Hcd [H1 H2]. apply Hm; [|done|done]. by apply shard_spans_dir, elem_of_list_In. }
    rewrite run_bind in El. pose proof (remove_ranges_fr _ _ _ drop w3 F1) as F2.
    destruct (run (remove_ranges drop) w3) as [w4 [[]|er]] eqn:E2; cbn [fst] in F2; [|done].
    assert (fr (FShard a b) i f w4) as F3.
    { apply F2. intros a' b' [= <- <-] Hin. apply elem_of_list_In, D in Hin as [_ (r' & Hr1 & Hr2 & Hr3)].
      apply elem_of_list_In, K in Hk as [_ Hk]. by apply Hr2, Hk. }
    apply remove_ranges_run in E2 as [_ HR].
    eapply (open_ranges_clear cfg a b i f keep); [done|done| |exact F3| |exact Hk|exact El].
    - destruct (consolidate_spec _ _ _ Ec) as (Hp & _ & _).
      pose proof (shard_spans_nodup _ (dir_names_nodup w)) as Hnd. rewrite <- Hp in Hnd. by apply NoDup_app in Hnd as (? & _ & _).
    - rewrite HR, HL. done. }
  destruct shs as [|sh0 shs0]; [done|]. rewrite run_bind in Er. cbn [run] in Er.
  destruct (treeify (sh0 :: shs0)) as [r'|er] eqn:Et; [|done]. cbn in Er. injection Er as <- <-.
  apply treeify_leaves in Et. exists (Shard a b i None). cbn [st_root]. rewrite Et. split; [done|]. split; [done|].
  intros k Hr. unfold get_raw. cbn [st_root st_fs]. rewrite Hr. eapply shard_get_empty; [done|done|exact H2|done|apply hashk_sig].
Qed.

(** ** Creating the initial shards *)
Fixpoint returns {A} (P : A -> Prop) (p : prog A) : Prop :=
  match p with Ret a => P a | Fail _ => True | Vis e k => forall x, returns P (k x) end.
Lemma returns_bind {A B} (P : B -> Prop) (p : prog A) (f : A -> prog B) : (forall a, returns P (f a)) -> returns P (pbind p f).
Proof. intros Hf. induction p as [a|e|X e k IH]; cbn; [apply Hf|done|done]. Qed.
Lemma returns_run {A} (P : A -> Prop) (p : prog A) : returns P p -> forall w w' a, run p w = (w', Ok a) -> P a.
Proof.
  induction p as [a|e|X e k IH]; cbn [returns run]; intros H w w' b E; [by simplify_eq|done|].
  destruct (run_eff e w) as [w1 x]. by eapply IH.
Qed.
Lemma shard_open_span cfg s e tr : returns (fun sh => span_of sh = (s, e)) (shard_open cfg s e tr).
Proof.
  unfold shard_open. do 4 (apply returns_bind; intros ?). do 2 (apply returns_bind; intros ?). destruct tr.
  - apply returns_bind. intros ?. done.
  - apply returns_bind. intros w. destruct (fs_dir w !! FCompact s e); [|done]. do 3 (apply returns_bind; intros ?). done.
Qed.
Lemma open_ranges_spans cfg tr l : forall w w' shs, run (open_ranges cfg tr l) w = (w', Ok shs) -> map span_of shs = l.
Proof.
  induction l as [|[s e] l IH]; intros w w' shs H; cbn [open_ranges] in H; [cbn in H; by simplify_eq|].
  rewrite run_bind in H. destruct (run (shard_open cfg s e tr) w) as [w1 [sh|er]] eqn:E1; [|done].
  rewrite run_bind in H. destruct (run (open_ranges cfg tr l) w1) as [w2 [shs2|er]] eqn:E2; [|done].
  cbn in H. simplify_eq. cbn. rewrite (returns_run _ _ (shard_open_span cfg s e tr) _ _ _ E1). f_equal. by eapply IH.
Qed.
Lemma load_fresh cfg w : (forall a b, fs_dir w !! FShard a b = None) ->
  run (load cfg) w = match run (load_scan (dir_names w)) w with (w', Ok _) => (w', Ok []) | (w', Err e) => (w', Err e) end.
Proof.
  intros H. unfold load. rewrite run_bind. cbn [run snap eff1 run_eff]. rewrite run_bind.
  destruct (run (load_scan (dir_names w)) w) as [w1 [l|er]] eqn:E; [|done]. apply load_scan_run in E as (-> & _).
  assert (shard_spans (dir_names w) = []) as ->; [|done].
  destruct (shard_spans (dir_names w)) as [|[a b] l] eqn:El; [done|]. exfalso.
  assert ((a, b) ∈ shard_spans (dir_names w)) as Hin by (rewrite El; left). apply shard_spans_dir in Hin. unfold has_shard in Hin.
  rewrite H in Hin. by destruct Hin.
Qed.
Lemma open_fresh_spans cfg w w' s : (forall a b, fs_dir w !! FShard a b = None) -> store_open cfg w = (w', Ok s) ->
  exists j, (j <= 16)%nat /\ calc_step (c_expected cfg) = Ok (2 ^ N.of_nat j) /\
    map span_of (leaves (st_root s)) = map (fun i => (N.of_nat i * 2 ^ N.of_nat j, N.of_nat (S i) * 2 ^ N.of_nat j)) (seq 0 (2 ^ (16 - j))).
Proof.
  intros Hf Ho. unfold store_open in Ho. destruct (run (router_new cfg) w) as [w1 [r|er]] eqn:E; [|done]. injection Ho as <- <-.
  unfold router_new in E. rewrite run_bind, load_fresh in E by done.
  destruct (run (load_scan (dir_names w)) w) as [w2 [l|er]]; [|done]. rewrite run_bind in E.
  destruct (run (create_initial_shards cfg) w2) as [w3 [shs|er]] eqn:Ec; [|done].
  destruct (treeify shs) as [r'|er] eqn:Et; [|done]. cbn in E. injection E as <- <-. cbn [st_root]. rewrite (treeify_leaves _ _ Et).
  unfold create_initial_shards in Ec. rewrite run_bind in Ec.
  assert (exists j, (j <= 16)%nat /\ calc_step (c_expected cfg) = Ok (2 ^ N.of_nat j)) as (j & Hj & Hs).
  { destruct (N.le_gt_cases (c_expected cfg) (END_OF_SHARDS * EXPECTED_CAPACITY)) as [H|H]; [by apply calc_step_spec|].
    rewrite (calc_step_panics _ H) in Ec. done. }
  exists j. split; [done|]. split; [done|]. rewrite Hs in Ec. cbn [lift run] in Ec. apply open_ranges_spans in Ec. rewrite Ec. by apply initial_spans_ok.
Qed.
Lemma open_fresh_panics cfg w : (forall a b, fs_dir w !! FShard a b = None) -> wf_dir w ->
  END_OF_SHARDS * EXPECTED_CAPACITY < c_expected cfg -> exists w', store_open cfg w = (w', Err EPanic).
Proof.
  intros Hf Hwf Hc. unfold store_open, router_new. rewrite run_bind, load_fresh by done.
  assert (exists w2 l, run (load_scan (dir_names w)) w = (w2, Ok l)) as (w2 & l & ->).
  { assert (forall names w1, NoDup names -> (forall n, n ∈ names -> is_Some (fs_dir w1 !! n)) -> (forall a b, FShard a b ∉ names) ->
      exists w2 l, run (load_scan names) w1 = (w2, Ok l)) as H.
    { induction names as [|n names IH]; intros w1 Hnd Hin Hsh; cbn [load_scan]; [cbn; eauto|]. apply NoDup_cons in Hnd as [Hn Hnd].
      assert (forall w2, (forall n', n' <> n -> fs_dir w2 !! n' = fs_dir w1 !! n') -> exists w3 l, run (load_scan names) w2 = (w3, Ok l)) as Hnext.
      { intros w2 H2. apply IH; [done| |].
        - intros n' Hn'. rewrite H2; [apply Hin; by right|]. intros ->. done.
        - intros a b Hx. apply (Hsh a b). by right. }
      assert (forall p, p = (do! _ <- remove_file n; load_scan names) -> exists w2 l, run p w1 = (w2, Ok l)) as Hrem.
      { intros p ->. rewrite run_bind. destruct (Hin n) as [i Hi]; [by left|]. cbn. rewrite Hi. cbn. apply Hnext. intros n' Hne. cbn. by rewrite lookup_delete_ne. }
      destruct n as [s e|s e|s e|s e|s e|s]; [|by apply Hnext|by apply Hrem|by apply Hrem|by apply Hrem|by apply Hnext].
      exfalso. apply (Hsh s e). by left. }
    apply H; [apply dir_names_nodup|intros n; apply dir_names_elem|]. intros a b Hin. apply dir_names_elem in Hin. rewrite Hf in Hin. by destruct Hin. }
  rewrite run_bind. unfold create_initial_shards. rewrite run_bind, (calc_step_panics _ Hc). cbn. eauto.
Qed.
