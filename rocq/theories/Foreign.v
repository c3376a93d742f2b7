(** Programs of the store touch only the store's own files (C67). *)
From Verif Require Import Base Hashing Fs Shard Router Store Kv Lists Queues Api Spec Limits Hist.

Definition ours (n : fname) : Prop := match n with FOther _ => False | _ => True end.

Section foreign.
  (** The i-nodes of the files that are not the store's. *)
  Context (F : ino -> Prop).
  Definition sep (w : fs) : Prop := (forall n i, fs_dir w !! n = Some i -> ours n -> ~ F i) /\ (forall i, F i -> i < fs_next w).
  Definition kept (w w' : fs) : Prop :=
    (forall n, fs_dir w' !! FOther n = fs_dir w !! FOther n) /\ (forall i, F i -> fs_files w' !! i = fs_files w !! i).
  Lemma kept_refl w : kept w w.
  Proof. done. Qed.
  Lemma kept_trans w1 w2 w3 : kept w1 w2 -> kept w2 w3 -> kept w1 w3.
  Proof. intros [H1 H2] [H3 H4]. split; [intros n; by rewrite H3|]. intros i Hi. by rewrite H4, H2. Qed.

  (** Every effect of the program, whatever the earlier ones returned, is on a file of the store. *)
  Inductive pok {A} (Q : A -> Prop) : prog A -> Prop :=
  | pok_ret a : Q a -> pok Q (Ret a)
  | pok_fail e : pok Q (Fail e)
  | pok_snap k : (forall w, sep w -> pok Q (k w)) -> pok Q (Vis ESnap k)
  | pok_alloc i n k : ~ F i -> (forall x, pok Q (k x)) -> pok Q (Vis (EAlloc i n) k)
  | pok_upd i u k : ~ F i -> (forall x, pok Q (k x)) -> pok Q (Vis (EUpd i u) k)
  | pok_create n t k : ours n -> (forall i, ~ F i -> pok Q (k i)) -> pok Q (Vis (ECreate n t) k)
  | pok_rename a b k : ours a -> ours b -> (forall x, pok Q (k x)) -> pok Q (Vis (ERename a b) k)
  | pok_remove a k : ours a -> (forall x, pok Q (k x)) -> pok Q (Vis (ERemove a) k).

  (** ** One effect *)
  Lemma eff_alloc i n w : sep w -> ~ F i -> sep (fst (run_eff (EAlloc i n) w)) /\ kept w (fst (run_eff (EAlloc i n) w)).
  Proof.
    intros [H1 H2] Hi. cbn [run_eff]. destruct (fs_files w !! i) as [f|]; cbn [fst]; [|done]. split; [done|]. split; [done|].
    intros j Hj. cbn [fs_files]. rewrite lookup_insert_ne; [done|by intros ->].
  Qed.
  Lemma eff_upd i u w : sep w -> ~ F i -> sep (fst (run_eff (EUpd i u) w)) /\ kept w (fst (run_eff (EUpd i u) w)).
  Proof.
    intros [H1 H2] Hi. cbn [run_eff fst]. split; [done|]. split; [done|].
    intros j Hj. cbn [fs_files]. rewrite lookup_alter_ne; [done|by intros ->].
  Qed.
  Lemma eff_create n t w : sep w -> ours n ->
    ~ F (snd (run_eff (ECreate n t) w)) /\ sep (fst (run_eff (ECreate n t) w)) /\ kept w (fst (run_eff (ECreate n t) w)).
  Proof.
    intros [H1 H2] Hn. cbn [run_eff]. destruct (fs_dir w !! n) as [i|] eqn:E; cbn [fst snd].
    - assert (~ F i) as Hi by eauto. split; [done|]. destruct t; [|done]. split; [done|]. split; [done|].
      intros j Hj. cbn [fs_files]. rewrite lookup_insert_ne; [done|by intros ->].
    - assert (~ F (fs_next w)) as Hi by (intros Hi; specialize (H2 _ Hi); lia). split; [done|]. split; [split|split].
      + intros m j. cbn [fs_dir]. rewrite lookup_insert_Some. intros [[<- <-]|[_ Hm]]; [done|]. eauto.
      + intros j Hj. cbn [fs_next]. specialize (H2 _ Hj). lia.
      + intros m. cbn [fs_dir]. rewrite lookup_insert_ne; [done|by intros ->].
      + intros j Hj. cbn [fs_files]. rewrite lookup_insert_ne; [done|by intros <-].
  Qed.
  Lemma eff_rename a b w : sep w -> ours a -> ours b -> sep (fst (run_eff (ERename a b) w)) /\ kept w (fst (run_eff (ERename a b) w)).
  Proof.
    intros [H1 H2] Ha Hb. cbn [run_eff]. destruct (fs_dir w !! a) as [i|] eqn:E; cbn [fst]; [|done]. split; [split|split].
    - intros m j. cbn [fs_dir]. rewrite lookup_insert_Some. intros [[<- <-]|[_ Hm]]; [by intros _; eauto|]. apply lookup_delete_Some in Hm as [_ Hm]. eauto.
    - done.
    - intros m. cbn [fs_dir]. rewrite lookup_insert_ne, lookup_delete_ne; [done|by intros ->|by intros ->].
    - done.
  Qed.
  Lemma eff_remove a w : sep w -> ours a -> sep (fst (run_eff (ERemove a) w)) /\ kept w (fst (run_eff (ERemove a) w)).
  Proof.
    intros [H1 H2] Ha. cbn [run_eff]. destruct (fs_dir w !! a) as [i|] eqn:E; cbn [fst]; [|done]. split; [split|split].
    - intros m j. cbn [fs_dir]. intros Hm. apply lookup_delete_Some in Hm as [_ Hm]. eauto.
    - done.
    - intros m. cbn [fs_dir]. rewrite lookup_delete_ne; [done|by intros ->].
    - done.
  Qed.

  (** ** Runs and crashes *)
  Lemma pok_crash {A} (Q : A -> Prop) p : pok Q p -> forall w n, sep w -> sep (crash_at n p w) /\ kept w (crash_at n p w).
  Proof.
    assert (forall X (e : eff X) (k : X -> prog A) w n, sep w -> (sep (fst (run_eff e w)) /\ kept w (fst (run_eff e w))) ->
      (forall w' m, sep w' -> sep (crash_at m (k (snd (run_eff e w))) w') /\ kept w' (crash_at m (k (snd (run_eff e w))) w')) ->
      sep (crash_at n (Vis e k) w) /\ kept w (crash_at n (Vis e k) w)) as G.
    { intros X e k w n Hw [H1 H2] H3. destruct n as [|n]; [done|]. cbn [crash_at]. destruct (run_eff e w) as [w' x]. cbn [fst snd] in *.
      destruct (H3 w' n H1) as [H4 H5]. split; [done|]. by eapply kept_trans. }
    induction 1 as [a Ha|e|k Hk IH|i n k Hi Hk IH|i u k Hi Hk IH|n t k Hn Hk IH|a b k Ha Hb Hk IH|a k Ha Hk IH]; intros w m Hw.
    - by destruct m.
    - by destruct m.
    - apply G; [done|done|]. intros w' m' Hw'. by apply IH.
    - apply G; [done|by apply eff_alloc|]. intros w' m' Hw'. by apply IH.
    - apply G; [done|by apply eff_upd|]. intros w' m' Hw'. by apply IH.
    - destruct (eff_create n t w Hw Hn) as (H1 & H2 & H3). apply G; [done|done|]. intros w' m' Hw'. by apply IH.
    - apply G; [done|by apply eff_rename|]. intros w' m' Hw'. by apply IH.
    - apply G; [done|by apply eff_remove|]. intros w' m' Hw'. by apply IH.
  Qed.
  Lemma pok_run {A} (Q : A -> Prop) p : pok Q p -> forall w, sep w ->
    sep (fst (run p w)) /\ kept w (fst (run p w)) /\ forall a, snd (run p w) = Ok a -> Q a.
  Proof.
    assert (forall X (e : eff X) (k : X -> prog A) w, (sep (fst (run_eff e w)) /\ kept w (fst (run_eff e w))) ->
      (forall w', sep w' -> sep (fst (run (k (snd (run_eff e w))) w')) /\ kept w' (fst (run (k (snd (run_eff e w))) w')) /\
        forall a, snd (run (k (snd (run_eff e w))) w') = Ok a -> Q a) ->
      sep (fst (run (Vis e k) w)) /\ kept w (fst (run (Vis e k) w)) /\ forall a, snd (run (Vis e k) w) = Ok a -> Q a) as G.
    { intros X e k w [H1 H2] H3. cbn [run]. destruct (run_eff e w) as [w' x]. cbn [fst snd] in *.
      destruct (H3 w' H1) as (H4 & H5 & H6). split; [done|]. split; [by eapply kept_trans|done]. }
    induction 1 as [a Ha|e|k Hk IH|i n k Hi Hk IH|i u k Hi Hk IH|n t k Hn Hk IH|a b k Ha Hb Hk IH|a k Ha Hk IH]; intros w Hw.
    - cbn [run fst snd]. split; [done|]. split; [done|]. intros b Hb. injection Hb as <-. done.
    - done.
    - apply G; [done|]. intros w' Hw'. by apply IH.
    - apply G; [by apply eff_alloc|]. intros w' Hw'. by apply IH.
    - apply G; [by apply eff_upd|]. intros w' Hw'. by apply IH.
    - destruct (eff_create n t w Hw Hn) as (H1 & H2 & H3). apply G; [done|]. intros w' Hw'. by apply IH.
    - apply G; [by apply eff_rename|]. intros w' Hw'. by apply IH.
    - apply G; [by apply eff_remove|]. intros w' Hw'. by apply IH.
  Qed.

  (** ** Rules *)
  Lemma pok_bind {A B} (Q : A -> Prop) (R : B -> Prop) p f : pok Q p -> (forall a, Q a -> pok R (f a)) -> pok R (pbind p f).
  Proof. intros Hp Hf. induction Hp; cbn [pbind]; [by apply Hf|..]; by constructor. Qed.
  Lemma pok_mono {A} (Q R : A -> Prop) p : pok Q p -> (forall a, Q a -> R a) -> pok R p.
  Proof. intros Hp HQ. induction Hp; constructor; auto. Qed.
  Definition any {A} (a : A) : Prop := True.
  Definition fine {A} (p : prog A) : Prop := pok any p.
  Lemma pok_then {A B} (R : B -> Prop) (p : prog A) f : fine p -> (forall a, pok R (f a)) -> pok R (pbind p f).
  Proof. intros Hp Hf. eapply pok_bind; [exact Hp|]. intros a _. apply Hf. Qed.
  Lemma lift_ok {A} (Q : A -> Prop) (r : res A) : (forall a, r = Ok a -> Q a) -> pok Q (lift r).
  Proof. destruct r as [a|e]; cbn [lift]; constructor; auto. Qed.
  Lemma lift_fine {A} (r : res A) : fine (lift r).
  Proof. by apply lift_ok. Qed.
  Lemma fine_ret {A} (a : A) : fine (Ret a).
  Proof. by constructor. Qed.
  Lemma fine_fail {A} e : fine (@Fail A e).
  Proof. constructor. Qed.
  Lemma upd_fine i u : ~ F i -> fine (upd i u).
  Proof. intros Hi. constructor; [done|]. intros x. by constructor. Qed.
  Lemma snap_ok : pok sep snap.
  Proof. constructor. intros w Hw. by constructor. Qed.
  Lemma get_file_fine i : fine (get_file i).
  Proof. eapply pok_bind; [apply snap_ok|]. intros w _. apply lift_fine. Qed.
  Lemma assert_fine b : fine (assert_p b).
  Proof. destruct b; constructor; done. Qed.
  Lemma check_fine b e : fine (check b e).
  Proof. destruct b; constructor; done. Qed.
  Lemma rename_fine a b : ours a -> ours b -> fine (rename a b).
  Proof. intros Ha Hb. constructor; [done|done|]. intros x. apply check_fine. Qed.
  Lemma remove_fine a : ours a -> fine (remove_file a).
  Proof. intros Ha. constructor; [done|]. intros x. apply check_fine. Qed.

  (** ** shard.rs *)
  Lemma put_bytes_fine i l : forall off, ~ F i -> fine (put_bytes i off l).
  Proof.
    induction l as [|b l IH]; intros off Hi; cbn [put_bytes]; [apply fine_ret|]. apply pok_then; [by apply upd_fine|]. intros _. by apply IH.
  Qed.
  Lemma write_kv_fine i k v : ~ F i -> fine (write_kv i k v).
  Proof. intros Hi. constructor; [done|]. intros off. apply pok_then; [by apply put_bytes_fine|]. intros _. apply fine_ret. Qed.
  Lemma mmap_new_fine i : ~ F i -> fine (mmap_new i).
  Proof. intros Hi. unfold mmap_new. apply pok_then; [by apply upd_fine|]. intros _. apply pok_then; [by apply upd_fine|]. intros _. by apply upd_fine. Qed.
  Lemma mmap_create_ok cfg n : ours n -> pok (fun i => ~ F i) (mmap_create cfg n).
  Proof.
    intros Hn. constructor; [done|]. intros i Hi. apply pok_then; [by apply upd_fine|]. intros _. apply pok_then; [by apply mmap_new_fine|]. intros _. by constructor.
  Qed.

  Definition sh_ok (sh : shard) : Prop := ~ F (sh_ino sh) /\ match sh_tgt sh with Some (t, _) => ~ F t | None => True end.
  Definition r_ok (r : router) : Prop := Forall sh_ok (leaves r).

  Lemma row_file_ok w sh r i f : sh_ok sh -> row_file w sh r = Ok (i, f) -> ~ F i.
  Proof.
    intros [H1 H2]. assert (src_file w sh = Ok (i, f) -> ~ F i) as G.
    { unfold src_file. destruct (fs_files w !! sh_ino sh); [|done]. intros E. by injection E as <- _. }
    unfold row_file. destruct (sh_tgt sh) as [[t b]|]; [|done]. destruct (fs_files w !! t) as [ft|]; [|done].
    destruct (r <? f_cut ft)%nat; [|done]. intros E. by injection E as <- _.
  Qed.
  Lemma put_entry_fine {A} i r col k v sig (p : prog A) : ~ F i -> fine p ->
    fine (do! d <- write_kv i k v; do! _ <- upd i (UDesc r col d); do! _ <- upd i (USig r col sig); do! _ <- upd i UIns; p).
  Proof.
    intros Hi Hp. apply pok_then; [by apply write_kv_fine|]. intros d. apply pok_then; [by apply upd_fine|]. intros _.
    apply pok_then; [by apply upd_fine|]. intros _. apply pok_then; [by apply upd_fine|]. done.
  Qed.
  Lemma compact_slots_fine cfg fsrc t r first row : forall col, ~ F t -> fine (compact_slots cfg fsrc t r first col row).
  Proof.
    induction row as [|s row IH]; intros col Ht; cbn [compact_slots]; [apply fine_ret|]. destruct (s_sig s =? INVALID_SIG); [by apply IH|].
    apply pok_then; [apply lift_fine|]. intros [k v]. apply pok_then; [apply get_file_fine|]. intros ft. apply pok_then; [apply assert_fine|]. intros _.
    apply pok_then; [apply assert_fine|]. intros _. apply pok_then; [by apply write_kv_fine|]. intros d. apply pok_then; [apply assert_fine|]. intros _.
    apply pok_then; [by apply upd_fine|]. intros _. apply pok_then; [by apply upd_fine|]. intros _. apply pok_then; [by apply upd_fine|]. intros _. by apply IH.
  Qed.
  Lemma compact_row_fine cfg src t first r : ~ F t -> fine (compact_row cfg src t first r).
  Proof.
    intros Ht. unfold compact_row. apply pok_then; [apply get_file_fine|]. intros f. apply pok_then; [by apply compact_slots_fine|]. intros _. by apply upd_fine.
  Qed.
  Lemma do_compaction_fine cfg fuel src t : forall first, ~ F t -> fine (do_compaction cfg fuel src t first).
  Proof.
    induction fuel as [|n IH]; intros first Ht; cbn [do_compaction]; [apply fine_fail|]. apply pok_then; [apply get_file_fine|]. intros ft.
    destruct (NUM_ROWS <=? f_cut ft)%nat; [apply fine_ret|]. apply pok_then; [by apply compact_row_fine|]. intros _. by apply IH.
  Qed.
  Lemma finish_ok sh t : ~ F t -> pok sh_ok (finish_compaction sh t).
  Proof. intros Ht. unfold finish_compaction. apply pok_then; [by apply rename_fine|]. intros _. by constructor. Qed.
  Lemma bg_row_ok cfg sh : sh_ok sh -> pok sh_ok (bg_row cfg sh).
  Proof.
    intros Hs. pose proof Hs as [H1 H2]. unfold bg_row. destruct (sh_tgt sh) as [[t b]|] eqn:E; [|by constructor]. apply pok_then; [apply get_file_fine|]. intros ft.
    destruct (NUM_ROWS <=? f_cut ft)%nat; [by constructor|]. apply pok_then; [by apply compact_row_fine|]. intros _. by constructor.
  Qed.
  Lemma bg_finish_ok sh : sh_ok sh -> pok sh_ok (bg_finish sh).
  Proof.
    intros Hs. pose proof Hs as [H1 H2]. unfold bg_finish. destruct (sh_tgt sh) as [[t b]|] eqn:E; [|by constructor]. apply pok_then; [apply get_file_fine|]. intros ft.
    destruct (NUM_ROWS <=? f_cut ft)%nat; [by apply finish_ok|]. by constructor.
  Qed.
  Lemma wait_ok cfg sh : sh_ok sh -> pok sh_ok (wait_compaction cfg sh).
  Proof.
    intros Hs. pose proof Hs as [H1 H2]. unfold wait_compaction. destruct (sh_tgt sh) as [[t b]|] eqn:E; [|by constructor].
    apply pok_then; [by apply do_compaction_fine|]. intros _. by apply finish_ok.
  Qed.
  Lemma begin_ok cfg sh n : sh_ok sh -> pok sh_ok (begin_compaction cfg sh n).
  Proof.
    intros Hs. pose proof Hs as [H1 H2]. unfold begin_compaction. apply pok_then; [apply get_file_fine|]. intros f. destruct (f_woff f <? n); [by constructor|].
    destruct (sh_tgt sh) as [[t b]|] eqn:E; [by constructor|]. eapply pok_bind; [by apply mmap_create_ok|]. cbv beta. intros t Ht.
    apply pok_then; [by apply upd_fine|]. intros _. by constructor.
  Qed.
  Lemma insert_row_fine i f ph k v mode : ~ F i -> fine (insert_row i f ph k v mode).
  Proof.
    intros Hi. unfold insert_row. cbv zeta. apply pok_then; [apply lift_fine|]. intros [[[c old]|] coll].
    - assert (fine (if bool_decide (v = old) then Ret (SReplaced old)
        else do! d <- write_kv i k v; do! _ <- upd i (UDesc (ph_row ph) c d); do! _ <- upd i (UWaste (len k + len old)); Ret (SReplaced old))) as G.
      { case_bool_decide; [apply fine_ret|]. apply pok_then; [by apply write_kv_fine|]. intros d. apply pok_then; [by apply upd_fine|]. intros _.
        apply pok_then; [by apply upd_fine|]. intros _. apply fine_ret. }
      destruct mode as [|[ex|]|]; [exact G| |exact G|apply fine_ret]. destruct (bool_decide (ex = old)); [exact G|apply fine_ret].
    - assert (fine (match find_free 0 (row_of f (ph_row ph)) with
        | Some c => do! d <- write_kv i k v; do! _ <- upd i (UDesc (ph_row ph) c d); do! _ <- upd i (USig (ph_row ph) c (ph_sig ph)); do! _ <- upd i UIns; Ret SAdded
        | None => Ret SSplit end)) as G.
      { destruct (find_free 0 _) as [c|]; [|apply fine_ret]. by apply put_entry_fine, fine_ret. }
      destruct mode; [exact G|apply fine_ret|exact G].
  Qed.
  Lemma shard_insert_ok cfg sh ph k v mode : sh_ok sh -> pok (fun x => sh_ok (fst x)) (shard_insert cfg sh ph k v mode).
  Proof.
    intros Hs. unfold shard_insert. eapply pok_bind; [apply snap_ok|]. intros w _. eapply pok_bind; [apply (lift_ok (fun x => ~ F (fst x)))|].
    { intros [i f] E. by eapply row_file_ok. }
    cbv beta. intros [i f] Hi. cbn [fst] in Hi. destruct (sh_tgt sh) as [[t b]|].
    - apply pok_then; [by apply insert_row_fine|]. intros st. by constructor.
    - destruct (c_min_compact cfg <=? f_wasted f).
      + apply pok_then; [by apply insert_row_fine|]. intros st. eapply pok_bind; [by apply begin_ok|]. intros sh' Hs'. by constructor.
      + destruct (c_max_shard cfg <? f_woff f + (len k + len v)); [by constructor|]. apply pok_then; [by apply insert_row_fine|]. intros st. by constructor.
  Qed.
  Lemma shard_remove_fine sh ph k : sh_ok sh -> fine (shard_remove sh ph k).
  Proof.
    intros Hs. unfold shard_remove. eapply pok_bind; [apply snap_ok|]. intros w _. eapply pok_bind; [apply (lift_ok (fun x => ~ F (fst x)))|].
    { intros [i f] E. by eapply row_file_ok. }
    cbv beta. intros [i f] Hi. cbn [fst] in Hi. cbv zeta. apply pok_then; [apply lift_fine|]. intros [[[c old]|] coll]; [|apply fine_ret].
    apply pok_then; [by apply upd_fine|]. intros _. apply pok_then; [by apply upd_fine|]. intros _. apply pok_then; [by apply upd_fine|]. intros _. apply fine_ret.
  Qed.
  Lemma split_slots_fine cfg fsrc mid b t r row : forall bcol tcol, ~ F b -> ~ F t -> fine (split_slots cfg fsrc mid b t r bcol tcol row).
  Proof.
    induction row as [|s row IH]; intros bcol tcol Hb Ht; cbn [split_slots]; [apply fine_ret|]. destruct (s_sig s =? INVALID_SIG); [by apply IH|].
    apply pok_then; [apply lift_fine|]. intros [k v]. cbv zeta. apply pok_then; [apply assert_fine|]. intros _.
    apply pok_then; [apply get_file_fine|]. intros ft. apply pok_then; [apply assert_fine|]. intros _.
    apply put_entry_fine; [by destruct (_ <? mid)|]. by apply IH.
  Qed.
  Lemma split_rows_fine cfg fsrc mid b t rows : forall r, ~ F b -> ~ F t -> fine (split_rows cfg fsrc mid b t r rows).
  Proof.
    induction rows as [|row rows IH]; intros r Hb Ht; cbn [split_rows]; [apply fine_ret|]. apply pok_then; [by apply split_slots_fine|]. intros _. by apply IH.
  Qed.
  Lemma shard_split_ok cfg sh : sh_ok sh -> pok (fun x => sh_ok (fst x) /\ sh_ok (snd x)) (shard_split cfg sh).
  Proof.
    intros Hs. unfold shard_split. eapply pok_bind; [by apply wait_ok|]. intros sh' Hs'. cbv zeta.
    eapply pok_bind; [by apply mmap_create_ok|]. cbv beta. intros b Hb. eapply pok_bind; [by apply mmap_create_ok|]. cbv beta. intros t Ht.
    apply pok_then; [apply get_file_fine|]. intros f. apply pok_then; [by apply split_rows_fine|]. intros _.
    apply pok_then; [by apply rename_fine|]. intros _. apply pok_then; [by apply rename_fine|]. intros _. apply pok_then; [by apply remove_fine|]. intros _. by constructor.
  Qed.
  Lemma merge_slots_fine cfg fsrc t r row : forall col, ~ F t -> fine (merge_slots cfg fsrc t r col row).
  Proof.
    induction row as [|s row IH]; intros col Ht; cbn [merge_slots]; [apply fine_ret|]. destruct (s_sig s =? INVALID_SIG); [by apply IH|].
    apply pok_then; [apply lift_fine|]. intros [k v]. cbv zeta. apply pok_then; [apply assert_fine|]. intros _. destruct (ROW_WIDTH <=? col)%nat; [apply fine_ret|].
    apply pok_then; [apply get_file_fine|]. intros ft. apply pok_then; [apply assert_fine|]. intros _. apply put_entry_fine; [done|]. by apply IH.
  Qed.
  Lemma merge_rows_fine cfg fb ft t n : forall r, ~ F t -> fine (merge_rows cfg fb ft t r n).
  Proof.
    induction n as [|n IH]; intros r Ht; cbn [merge_rows]; [apply fine_ret|]. apply pok_then; [by apply merge_slots_fine|]. intros [c|]; [|apply fine_ret].
    apply pok_then; [by apply merge_slots_fine|]. intros [c2|]; [|apply fine_ret]. by apply IH.
  Qed.
  Definition osh_ok (m : option shard) : Prop := match m with Some sh => sh_ok sh | None => True end.
  Lemma shard_merge_ok cfg b t : pok osh_ok (shard_merge cfg b t).
  Proof.
    unfold shard_merge. cbv zeta. eapply pok_bind; [by apply mmap_create_ok|]. cbv beta. intros m Hm.
    apply pok_then; [apply get_file_fine|]. intros fb. apply pok_then; [apply get_file_fine|]. intros ft. apply pok_then; [by apply merge_rows_fine|]. intros [|].
    - apply pok_then; [by apply rename_fine|]. intros _. apply pok_then; [by apply remove_fine|]. intros _. apply pok_then; [by apply remove_fine|]. intros _. by constructor.
    - apply pok_then; [by apply remove_fine|]. intros _. by constructor.
  Qed.
  Lemma stats_ok cfg sh : sh_ok sh -> pok (fun x => sh_ok (fst x)) (shard_get_stats cfg sh).
  Proof.
    intros Hs. unfold shard_get_stats. eapply pok_bind; [by apply wait_ok|]. intros sh' Hs'. apply pok_then; [apply get_file_fine|]. intros f. by constructor.
  Qed.
  Lemma shard_open_ok cfg s e b : pok sh_ok (shard_open cfg s e b).
  Proof.
    unfold shard_open. constructor; [done|]. intros i Hi. cbn [pbind]. apply pok_then; [apply get_file_fine|]. intros f.
    apply pok_then.
    { destruct (f_len f =? 0); [apply fine_ret|]. destruct (meta_ok f); [apply fine_ret|]. destruct (c_clear_bad cfg); [|apply fine_fail].
      apply pok_then; [by apply upd_fine|]. intros _. apply fine_ret. }
    intros size. apply pok_then.
    { destruct (negb (size =? 0) && (size <? HEADER_SIZE)); [|apply fine_ret]. destruct (c_clear_bad cfg); [|apply fine_fail].
      apply pok_then; [by apply upd_fine|]. intros _. apply fine_ret. }
    intros size'. apply pok_then; [destruct (size' =? 0); [by apply upd_fine|apply fine_ret]|]. intros _. apply pok_then; [by apply mmap_new_fine|]. intros _. destruct b.
    - constructor; [done|]. intros x. by constructor.
    - eapply pok_bind; [apply snap_ok|]. intros w [Hw _]. destruct (fs_dir w !! FCompact s e) as [t|] eqn:E; [|by constructor].
      assert (~ F t) as Ht by (by eapply Hw). apply pok_then; [by apply mmap_new_fine|]. intros _. apply pok_then; [by apply do_compaction_fine|]. intros _.
      apply pok_then; [by apply rename_fine|]. intros _. by constructor.
  Qed.

  (** ** router.rs *)
  Lemma load_scan_fine l : fine (load_scan l).
  Proof.
    induction l as [|n l IH]; cbn [load_scan]; [apply fine_ret|]. destruct n; try done; try (apply pok_then; [by apply remove_fine|done]).
    apply pok_then; [apply check_fine|]. intros _. apply pok_then; [done|]. intros x. apply fine_ret.
  Qed.
  Lemma remove_ranges_fine l : fine (remove_ranges l).
  Proof. induction l as [|[s e] l IH]; cbn [remove_ranges]; [apply fine_ret|]. apply pok_then; [by apply remove_fine|done]. Qed.
  Lemma open_ranges_ok cfg b l : pok (Forall sh_ok) (open_ranges cfg b l).
  Proof.
    induction l as [|[s e] l IH]; cbn [open_ranges]; [by constructor|]. eapply pok_bind; [apply shard_open_ok|]. intros sh Hs.
    eapply pok_bind; [exact IH|]. intros shs Hss. constructor. by constructor.
  Qed.
  Lemma load_ok cfg : pok (Forall sh_ok) (load cfg).
  Proof.
    unfold load. eapply pok_bind; [apply snap_ok|]. intros w _. apply pok_then; [apply load_scan_fine|]. intros l. destruct (consolidate_ranges l) as [k d].
    apply pok_then; [apply remove_ranges_fine|]. intros _. apply open_ranges_ok.
  Qed.
  Lemma create_initial_ok cfg : pok (Forall sh_ok) (create_initial_shards cfg).
  Proof. unfold create_initial_shards. apply pok_then; [apply lift_fine|]. intros x. apply open_ranges_ok. Qed.
  Lemma leaves_pass fuel : forall unit l, concat (map leaves (treeify_pass fuel unit l)) = concat (map leaves l).
  Proof.
    induction fuel as [|n IH]; intros unit l; cbn [treeify_pass]; [done|]. destruct l as [|a [|b l]]; [done|done|].
    destruct ((rlen a =? unit) && (rlen b =? unit)).
    - rewrite IH. cbn [map leaves concat]. by rewrite app_assoc.
    - cbn [map concat]. rewrite IH. done.
  Qed.
  Lemma leaves_loop fuel : forall unit l l', treeify_loop fuel unit l = Ok l' -> concat (map leaves l') = concat (map leaves l).
  Proof.
    induction fuel as [|n IH]; intros unit l l'; cbn [treeify_loop]; (destruct (END_OF_SHARDS <=? unit); [intros E; by injection E as <-|]); [done|].
    intros E. apply IH in E. rewrite E. apply leaves_pass.
  Qed.
  Lemma treeify_ok l r : Forall sh_ok l -> treeify l = Ok r -> r_ok r.
  Proof.
    intros Hl. unfold treeify. repeat (case_match; [done|]). destruct (treeify_loop 17 _ _) as [nodes|] eqn:E; [|done]. cbn. destruct nodes as [|n [|]]; [done| |done].
    intros E2. injection E2 as <-. apply leaves_loop in E. cbn in E. rewrite app_nil_r in E. unfold r_ok. rewrite E.
    replace (concat (map leaves (map RLeaf l))) with l; [done|]. clear. induction l as [|a l IH]; [done|]. cbn in *. by f_equal.
  Qed.
  Lemma treeify_lift_ok l : Forall sh_ok l -> pok r_ok (lift (treeify l)).
  Proof. intros Hl. apply lift_ok. intros r. by apply treeify_ok. Qed.
  Lemma router_new_ok cfg : pok r_ok (router_new cfg).
  Proof.
    unfold router_new. eapply pok_bind; [apply load_ok|]. intros l Hl. apply (pok_bind (Forall sh_ok)); [|intros l'; apply treeify_lift_ok].
    destruct l; [apply create_initial_ok|by constructor].
  Qed.
  Lemma clear_files_fine l : fine (clear_files l).
  Proof. induction l as [|n l IH]; cbn [clear_files]; [apply fine_ret|]. destruct n; try done; (apply pok_then; [by apply remove_fine|done]). Qed.
  Lemma router_clear_ok cfg : pok r_ok (router_clear cfg).
  Proof.
    unfold router_clear. eapply pok_bind; [apply snap_ok|]. intros w _. apply pok_then; [apply clear_files_fine|]. intros _.
    eapply pok_bind; [apply create_initial_ok|]. intros l Hl. by apply treeify_lift_ok.
  Qed.
  Lemma r_ok_vertex b t : r_ok (RVertex b t) <-> r_ok b /\ r_ok t.
  Proof. unfold r_ok. cbn [leaves]. apply Forall_app. Qed.
  Lemma r_ok_leaf sh : r_ok (RLeaf sh) <-> sh_ok sh.
  Proof. unfold r_ok. cbn [leaves]. apply Forall_singleton. Qed.
  Lemma route_ok r sel : r_ok r -> sh_ok (route r sel).
  Proof.
    induction r as [sh|b IHb t IHt]; cbn [route]; [by rewrite r_ok_leaf|]. rewrite r_ok_vertex. intros [Hb Ht]. destruct (sel <? rend b); auto.
  Qed.
  Lemma on_leaf_ok {A} r sel (f : shard -> prog (router * A)) : r_ok r -> (forall sh, sh_ok sh -> pok (fun x => r_ok (fst x)) (f sh)) ->
    pok (fun x => r_ok (fst x)) (on_leaf r sel f).
  Proof.
    intros Hr Hf. induction r as [sh|b IHb t IHt]; cbn [on_leaf]; [apply Hf; by rewrite r_ok_leaf in Hr|]. rewrite r_ok_vertex in Hr. destruct Hr as [Hb Ht].
    destruct (sel <? rend b).
    - eapply pok_bind; [by apply IHb|]. intros [b' a] Hb'. constructor. cbn [fst] in *. by rewrite r_ok_vertex.
    - eapply pok_bind; [by apply IHt|]. intros [t' a] Ht'. constructor. cbn [fst] in *. by rewrite r_ok_vertex.
  Qed.
  Lemma leaf_insert_ok cfg fuel ph k v mode : forall sh, sh_ok sh -> pok (fun x => r_ok (fst x)) (leaf_insert cfg fuel ph k v mode sh).
  Proof.
    induction fuel as [|n IH]; intros sh Hs; cbn [leaf_insert]; (eapply pok_bind; [by apply shard_insert_ok|]); cbv beta; intros [sh' st] Hs'; cbn [fst] in Hs';
      assert (forall x : ins_status, pok (fun x => r_ok (fst x)) (Ret (RLeaf sh', x))) as G by (intros x; constructor; cbn [fst]; by rewrite r_ok_leaf).
    - destruct st; try apply G. constructor.
    - destruct st; try apply G. eapply pok_bind; [by apply shard_split_ok|]. cbv beta. intros [b t] [Hb Ht]. cbn [fst snd] in *. destruct (ph_selector ph <? sh_end b).
      + eapply pok_bind; [by apply IH|]. cbv beta. intros [b' st] Hb'. constructor. cbn [fst] in *. by rewrite r_ok_vertex, r_ok_leaf.
      + eapply pok_bind; [by apply IH|]. cbv beta. intros [t' st] Ht'. constructor. cbn [fst] in *. by rewrite r_ok_vertex, r_ok_leaf.
  Qed.
  Lemma router_stats_ok cfg r : r_ok r -> pok (fun x => r_ok (fst x)) (router_stats cfg r).
  Proof.
    induction r as [sh|b IHb t IHt]; cbn [router_stats].
    - rewrite r_ok_leaf. intros Hs. eapply pok_bind; [by apply stats_ok|]. cbv beta. intros [sh' st] Hs'. constructor. cbn [fst] in *. by rewrite r_ok_leaf.
    - rewrite r_ok_vertex. intros [Hb Ht]. eapply pok_bind; [by apply IHb|]. cbv beta. intros [b' l1] Hb'. eapply pok_bind; [by apply IHt|]. cbv beta. intros [t' l2] Ht'.
      constructor. cbn [fst] in *. by rewrite r_ok_vertex.
  Qed.
  Definition mp (x : option shard * N) : Prop := osh_ok (fst x).
  Lemma merge_leaves_ok cfg b t mf rem : sh_ok b -> sh_ok t -> pok mp (merge_leaves cfg b t mf rem).
  Proof.
    intros Hb Ht. unfold merge_leaves. destruct (rem =? 0); [by constructor|]. eapply pok_bind; [by apply stats_ok|]. cbv beta. intros [b' sb] Hb'. cbn [fst] in Hb'.
    apply pok_then; [apply lift_fine|]. intros nb. destruct (mf <? nb); [by constructor|]. eapply pok_bind; [by apply stats_ok|]. cbv beta. intros [t' st] Ht'. cbn [fst] in Ht'.
    apply pok_then; [apply lift_fine|]. intros nt. destruct (mf <? nt); [by constructor|]. eapply pok_bind; [apply shard_merge_ok|]. intros [m|] Hm; by constructor.
  Qed.
  Lemma merge_vertex_ok cfg r mf : forall rem, r_ok r -> pok mp (merge_vertex cfg r mf rem).
  Proof.
    assert (forall rem : N, pok mp (if rem =? 0 then Ret (None, rem) else Fail EDeadlock)) as G by (intros rem; destruct (rem =? 0); by constructor).
    induction r as [sh|b IHb t IHt]; intros rem Hr; cbn [merge_vertex]; [by constructor|]. rewrite r_ok_vertex in Hr. destruct Hr as [Hb Ht].
    destruct (rem =? 0); [by constructor|]. destruct b as [shb|b1 b2], t as [sht|t1 t2].
    - rewrite r_ok_leaf in Hb, Ht. by apply merge_leaves_ok.
    - eapply pok_bind; [by apply IHt|]. cbv beta. intros [[m|] r'] Hm; [apply G|by constructor].
    - eapply pok_bind; [by apply IHb|]. cbv beta. intros [[m|] r'] Hm; [apply G|by constructor].
    - eapply pok_bind; [by apply IHb|]. cbv beta. intros [m1 r1] Hm1. eapply pok_bind; [by apply IHt|]. cbv beta. intros [m2 r2] Hm2.
      destruct m1 as [m1|], m2 as [m2|]; [by apply merge_leaves_ok|apply G|apply G|by constructor].
  Qed.
  Lemma merge_ok cfg r mf : r_ok r -> pok (fun x => r_ok (fst x)) (merge_small_shards cfg r mf).
  Proof.
    intros Hr. unfold merge_small_shards. eapply pok_bind; [by apply router_stats_ok|]. cbv beta. intros [r1 sts] Hr1. cbn [fst] in Hr1.
    apply pok_then; [apply lift_fine|]. intros items. cbv zeta. apply pok_then; [apply lift_fine|]. intros needed. destruct (len sts <=? needed); [by constructor|].
    eapply pok_bind; [by apply merge_vertex_ok|]. intros x _. eapply pok_bind; [apply load_ok|]. intros l Hl.
    eapply pok_bind; [by apply treeify_lift_ok|]. intros r' Hr'. by constructor.
  Qed.

  (** ** store.rs *)
  Lemma insert_ok cfg r k v mode : r_ok r -> pok (fun x => r_ok (fst x)) (insert_prog cfg r k v mode).
  Proof.
    intros Hr. unfold insert_prog. repeat (case_match; [constructor|]). unfold router_insert. apply on_leaf_ok; [done|]. intros sh Hs. by apply leaf_insert_ok.
  Qed.
  Lemma remove_ok cfg r k : r_ok r -> pok (fun x => r_ok (fst x)) (remove_prog cfg r k).
  Proof.
    intros Hr. unfold remove_prog. cbv zeta. apply pok_then; [by apply shard_remove_fine, route_ok|]. intros x. by constructor.
  Qed.
  Lemma maint_ok cfg m r : r_ok r -> pok (fun x => r_ok (fst x)) (maint_prog cfg m r).
  Proof.
    intros Hr. destruct m as [sel|sel| |mf]; cbn [maint_prog].
    - apply on_leaf_ok; [done|]. intros sh Hs. eapply pok_bind; [by apply bg_row_ok|]. intros sh' Hs'. constructor. cbn [fst]. by rewrite r_ok_leaf.
    - apply on_leaf_ok; [done|]. intros sh Hs. eapply pok_bind; [by apply bg_finish_ok|]. intros sh' Hs'. constructor. cbn [fst]. by rewrite r_ok_leaf.
    - eapply pok_bind; [by apply router_stats_ok|]. cbv beta. intros [r' l] Hr'. by constructor.
    - eapply pok_bind; [by apply merge_ok|]. cbv beta. intros [r' b] Hr'. by constructor.
  Qed.
  Lemma clear_ok cfg : pok (fun x => r_ok (fst x)) (do! r <- router_clear cfg; Ret (r, tt)).
  Proof. eapply pok_bind; [apply router_clear_ok|]. intros r Hr. by constructor. Qed.

  Definition st_ok (w0 : fs) (s : store) : Prop := r_ok (st_root s) /\ sep (st_fs s) /\ kept w0 (st_fs s).
  Lemma exec_ok {A} w0 s (p : prog (router * A)) : st_ok w0 s -> pok (fun x => r_ok (fst x)) p -> st_ok w0 (fst (exec s p)).
  Proof.
    intros (H1 & H2 & H3) Hp. destruct (pok_run _ p Hp (st_fs s) H2) as (K1 & K2 & K3). unfold exec. destruct (run p (st_fs s)) as [w [[r a]|e]]; cbn [fst snd] in *.
    - split; [by apply (K3 (r, a))|]. split; [done|]. by eapply kept_trans.
    - split; [done|]. split; [done|]. by eapply kept_trans.
  Qed.
  Lemma kop_ok {X} w0 cfg (o : kop X) s : st_ok w0 s -> st_ok w0 (fst (run_kop cfg o s)).
  Proof.
    intros Hs. pose proof Hs as (H1 & _). destruct o as [k|k v mode|k|ph|i|i]; cbn [run_kop fst]; try exact Hs.
    - apply exec_ok; [done|]. by apply insert_ok.
    - apply exec_ok; [done|]. by apply remove_ok.
  Qed.
  Lemma krun_ok {A} w0 cfg (p : kprog A) : forall s, st_ok w0 s -> st_ok w0 (fst (krun cfg p s)).
  Proof.
    induction p as [a|e|X o k IH]; intros s Hs; cbn [krun]; [done|done|]. pose proof (kop_ok w0 cfg o s Hs) as H. destruct (run_kop cfg o s) as [s' [x|e]]; cbn [fst] in *; [|done]. by apply IH.
  Qed.
  Lemma kdies_ok {A} w0 cfg (p : kprog A) s w : kdies cfg p s w -> st_ok w0 s -> sep w /\ kept w0 w.
  Proof.
    induction 1 as [p s|X o k s n|X o k s s' x w E Hd IH]; intros Hs.
    - by destruct Hs as (_ & H2 & H3).
    - destruct Hs as (H1 & H2 & H3). destruct o as [k1|k1 v mode|k1|ph|i|i]; cbn [kop_dies]; try done.
      + destruct (pok_crash _ _ (insert_ok cfg (st_root s) k1 v mode H1) (st_fs s) n H2) as [K1 K2]. split; [done|]. by eapply kept_trans.
      + destruct (pok_crash _ _ (remove_ok cfg (st_root s) k1 H1) (st_fs s) n H2) as [K1 K2]. split; [done|]. by eapply kept_trans.
    - apply IH. pose proof (kop_ok w0 cfg o s Hs) as H. by rewrite E in H.
  Qed.
  Lemma dies_ok w0 cfg s a w : dies cfg s a w -> st_ok w0 s -> sep w /\ kept w0 w.
  Proof.
    intros Hd Hs. pose proof Hs as (H1 & H2 & H3). destruct a as [|c|m]; cbn [dies] in Hd; [by subst|by eapply kdies_ok|]. destruct Hd as [n ->].
    destruct (pok_crash _ _ (maint_ok cfg m (st_root s) H1) (st_fs s) n H2) as [K1 K2]. split; [done|]. by eapply kept_trans.
  Qed.
  Lemma open_ok w0 cfg w w' s : sep w -> kept w0 w -> store_open cfg w = (w', Ok s) -> st_ok w0 s.
  Proof.
    intros H1 H2. unfold store_open. destruct (pok_run _ _ (router_new_ok cfg) w H1) as (K1 & K2 & K3). destruct (run (router_new cfg) w) as [w1 [r|e]]; [|done].
    intros E. injection E as _ <-. cbn [fst snd] in *. split; [by apply K3|]. split; [done|]. by eapply kept_trans.
  Qed.
  Lemma recovers_ok w0 cfg w s : recovers cfg w s -> sep w -> kept w0 w -> st_ok w0 s.
  Proof.
    induction 1 as [w w' s _ E|w cfg1 n s _ _ _ IH]; intros H1 H2; [by eapply open_ok|].
    destruct (pok_crash _ _ (router_new_ok cfg1) w n H1) as [K1 K2]. apply IH; [done|]. by eapply kept_trans.
  Qed.
  Lemma hstep_ok w0 cfg s e cfg' s' : hstep cfg s e cfg' s' -> st_ok w0 s -> st_ok w0 s'.
  Proof.
    intros Hst Hs. pose proof Hs as (H1 & H2 & H3). destruct Hst as [cfg s c s' r E|cfg s m s' E|cfg s s' E|cfg s cfg' w' s' _ E|cfg s a w cfg' s' Hd _ Hr].
    - pose proof (krun_ok w0 cfg (call_prog cfg c) s Hs) as H. by rewrite E in H.
    - pose proof (exec_ok w0 s _ Hs (maint_ok cfg m (st_root s) H1)) as H. by rewrite E in H.
    - pose proof (exec_ok w0 s _ Hs (clear_ok cfg)) as H. unfold store_clear in E. by rewrite E in H.
    - by eapply open_ok.
    - destruct (dies_ok w0 cfg s a w Hd Hs) as [K1 K2]. by eapply recovers_ok.
  Qed.
  Lemma hist_ok w0 G cfg s es cfg' s' : hist G cfg s es cfg' s' -> st_ok w0 s -> st_ok w0 s'.
  Proof. induction 1 as [|cfg s e cfg1 s1 es cfg' s' _ Hst _ IH]; [done|]. intros Hs. apply IH. by eapply hstep_ok. Qed.
End foreign.
