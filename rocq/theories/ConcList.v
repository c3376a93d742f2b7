(** List calls that hold the list's lock, used by many threads. *)
From Verif Require Import Base Hashing HashingProofs Fs Shard Router RouterPure Wpc Spec FileRep RowOps
  Compact Inv ShardOps Split Insert Open Merge Create Store Limits StoreRefine Kv Lists Queues Api Hist KvSpec
  HistInv KeySpace ListSpec ListRep ListProg ListHist ThmList Conc ConcSpec ConcLin ConcLock.
Implicit Types (M : kvmap) (its : ixs) (l : items).
Local Arguments u64_bytes : simpl never.
Local Arguments enc_rec : simpl never.

(** ** Locality of the list programs *)
Lemma find_item_filter suf ib l1 l2 :
  List.filter (fun x : kv => ends_with (fst x) suf) l1 = List.filter (fun x : kv => ends_with (fst x) suf) l2 ->
  find_item suf ib l1 = find_item suf ib l2.
Proof.
  assert (forall l : list kv, find_item suf ib l = find_item suf ib (List.filter (fun x : kv => ends_with (fst x) suf) l)) as H.
  { induction l as [|[k v] l IH]; [done|]. cbn [find_item List.filter fst]. destruct (ends_with k suf) eqn:E; cbn [andb]; [|done].
    cbn [find_item]. rewrite E. cbn [andb]. by destruct (ends_with v ib). }
  intros E. by rewrite (H l1), (H l2), E.
Qed.

Ltac kl1 :=
  match goal with
  | |- anyv _ => exact Logic.I
  | |- forall _, _ => intros ?
  | |- klocal _ _ _ (kmap _ _) => apply klocal_seq
  | |- klocal _ _ _ (kbind (match _ with _ => _ end) _) => apply klocal_seq
  | |- klocal _ _ _ (kbind (kbind _ _) _) => apply klocal_seq
  | |- klocal _ _ _ (kbind (kset _ _) _) => apply klocal_seq; [apply klocal_set; auto with kne|]
  | |- klocal _ _ _ (kbind (kgoc _ _) _) => apply klocal_seq; [apply klocal_goc; auto with kne|]
  | |- klocal _ _ _ (kbind (kreplace _ _ _) _) => apply klocal_seq; [apply klocal_replace; auto with kne|]
  | |- klocal _ _ _ (kbind (klift _) _) => apply klocal_seq; [apply klocal_lift|]
  | |- klocal _ _ _ (kbind (KRet _) _) => apply klocal_seq; [exact Logic.I|]
  | |- klocal _ _ _ (kbind (kop1 (KUnlock _)) _) => apply klocal_seq; [exact (fun _ => Logic.I)|]
  | |- klocal _ _ _ (kbind (kop1 _) _) => apply klocal_seq; [split; [auto with kne|exact (fun _ => Logic.I)]|]
  | |- klocal _ _ _ (klift _) => apply klocal_lift
  | |- klocal _ _ _ (KRet _) => exact Logic.I
  | |- klocal _ _ _ (KFail _) => exact Logic.I
  | |- klocal _ _ _ (match ?x with _ => _ end) => destruct x eqn:?
  end.
Ltac kl := repeat kl1.

Ltac nk := first [ by intros [? ?] | (intros [? Hk]; first [ns_contra Hk | congruence]) ].
Ltac pw1 :=
  match goal with
  | |- forall _, _ => intros ?
  | |- pw _ (kbind (match _ with _ => _ end) _) => apply pw_bind
  | |- pw _ (kbind (klift _) _) => apply pw_bind; [apply calmp_lift|]
  | |- pw _ (kbind (KRet _) _) => apply pw_bind; [exact Logic.I|]
  | |- pw _ (kbind (kop1 (KGet _)) _) => apply pw_bind; [exact (fun _ => Logic.I)|]
  | |- pw _ (kbind (kgoc (list_key _) _) _) => apply pw_bind; [apply calmp_goc; nk|]
  | |- pw _ (kbind (kset (list_key _) _) _) => apply pw_bind; [apply calmp_set; nk|]
  | |- pw _ (kbind (kset (chain_key _ _) _) _) => apply pw_bind; [apply calmp_set; nk|]
  | |- pw _ (kbind (kop1 (KRem (chain_key _ _))) _) => apply pw_bind; [split; [nk|exact (fun _ => Logic.I)]|]
  | |- pw _ (kbind (kset (item_key _ _) _) _) => right; intros ?
  | |- pw _ (kbind (kreplace (item_key _ _) _ _) _) => right; intros ?
  | |- pw _ (kbind (kop1 (KRem (item_key _ _))) _) => right; intros ?
  | |- pw _ (KRet _) => exact Logic.I
  | |- pw _ (KFail _) => exact Logic.I
  | |- pw _ (match ?x with _ => _ end) => destruct x
  | |- exists r, kbind (kbind (KRet ?a) _) _ = klift r => destruct a; first [by eexists (Ok _) | by eexists (Err _)]
  end.
Ltac pws := repeat pw1.
Ltac calm1 :=
  match goal with
  | |- forall _, _ => intros ?
  | |- calmp _ (kbind (match _ with _ => _ end) _) => apply calmp_bind
  | |- calmp _ (kbind (klift _) _) => apply calmp_bind; [apply calmp_lift|]
  | |- calmp _ (kbind (KRet _) _) => apply calmp_bind; [exact Logic.I|]
  | |- calmp _ (kbind (kop1 (KGet _)) _) => apply calmp_bind; [exact (fun _ => Logic.I)|]
  | |- calmp _ (kbind (kop1 (KByHash _)) _) => apply calmp_bind; [exact (fun _ => Logic.I)|]
  | |- calmp _ (kbind (kset _ _) _) => apply calmp_bind; [apply calmp_set; first [nk|by intros []]|]
  | |- calmp _ (kbind (kop1 (KRem _)) _) => apply calmp_bind; [split; [first [nk|by intros []]|exact (fun _ => Logic.I)]|]
  | |- calmp _ (klift _) => apply calmp_lift
  | |- calmp _ (KRet _) => exact Logic.I
  | |- calmp _ (KFail _) => exact Logic.I
  | |- calmp _ (match ?x with _ => _ end) => destruct x
  end.
Ltac calms := repeat calm1.

(** The program after the lock has been taken. *)
Definition after_lock {A} (i : N) (P : kprog A -> Prop) (p : kprog A) : Prop :=
  match p with
  | KVis o k => match o in kop X return (X -> kprog A) -> Prop with KLock j => fun k => j = i /\ P (k tt) | _ => fun _ => False end k
  | _ => False
  end.
Lemma after_lock_bind {A B} i (P : kprog A -> Prop) (P' : kprog B -> Prop) (p : kprog A) (f : A -> kprog B) : after_lock i P p ->
  (forall q, P q -> P' (kbind q f)) -> after_lock i P' (kbind p f).
Proof. destruct p as [a|e|X o k]; cbn [after_lock kbind]; try done. destruct o; try done. cbn. intros [-> H] Hf. split; [done|]. by apply Hf. Qed.
Lemma after_lock_locked {A} cfg ph (P : kprog A -> Prop) (p : kprog A) :
  P (dok a <- p; dok _ <- kop1 (KUnlock (lock_idx cfg ph)); KRet a) -> after_lock (lock_idx cfg ph) P (klocked cfg ph p).
Proof. intros H. split; [done|]. exact H. Qed.

Section local.
  Context (cfg : config) (lk : bytes).
  Local Notation lph := (list_ph cfg lk).
  Local Notation K := (list_keys cfg lk).
  Local Notation F := (fun k : bytes => ends_with k (item_suffix lph)).
  Local Notation i := (lock_idx cfg lph).
  Definition item_keys (k : bytes) : Prop := exists ik, k = item_key lph ik.
  Lemma F_ok k : F k = true -> K k.
  Proof. intros H. apply ends_with_item in H as [ik ->]. auto with kne. Qed.
  Lemma at_index_local j : klocal K F (item_of cfg lk) (get_at_index lph j).
  Proof.
    unfold get_at_index. apply klocal_seq; [split; [auto with kne|done]|]. intros [b|]; [|exact Logic.I].
    apply klocal_seq; [apply klocal_lift|]. intros ph. cbn [kop1 kbind klocal]. split.
    - intros l1 l2 E. by rewrite (find_item_filter _ (u64_bytes j) l1 l2 E).
    - intros x. destruct (find_item _ _ x) as [[k v]|] eqn:E; [|exact Logic.I]. cbn [klocal item_of].
      apply find_item_spec in E as (_ & E & _). by apply ends_with_item.
  Qed.
  Lemma compact_items_local n : forall j nj, klocal K F anyv (compact_items lph n j nj).
  Proof.
    induction n as [|n IH]; intros j nj; cbn [compact_items]; [done|].
    eapply klocal_bind; [apply at_index_local|]. intros [[[ph k] v]|]; [|intros _; apply IH]. cbn [item_of]. intros [ik ->]. kl. apply IH.
  Qed.
  Lemma discard_items_local js : klocal K F anyv (discard_items lph js).
  Proof.
    induction js as [|j js IH]; cbn [discard_items]; [done|].
    eapply klocal_bind; [apply at_index_local|]. intros [[[ph k] v]|]; [|intros _; apply IH]. cbn [item_of]. intros [ik ->]. kl. apply IH.
  Qed.

  Definition locked_call (c : lcall) : bool :=
    match c with LSet _ _ | LReplace _ _ _ | LGetOrCreate _ _ | LRemove _ | LCompact _ _ | LDiscard => true | _ => false end.
  (** Everything after the lock is local and the items are last written at the end. *)
  Definition IKof (c : lcall) : bytes -> Prop := match c with LCompact _ _ | LDiscard => fun _ => False | _ => item_keys end.
  Definition good {A} (c : lcall) (q : kprog A) : Prop := klocal K F anyv q /\ lastw i (IKof c) q.

  Lemma good_bind {A B} c (p : kprog A) (f : A -> kprog B) : after_lock i (good c) p -> (forall a, exists r, f a = klift r) ->
    after_lock i (good c) (kbind p f).
  Proof.
    intros H Hf. eapply after_lock_bind; [exact H|]. intros q [H1 H2]. split; [|by apply lastw_pure].
    apply klocal_seq; [done|]. intros a. destruct (Hf a) as [r ->]. apply klocal_lift.
  Qed.
  Lemma good_locked {A} c (p : kprog A) : klocal K F anyv p -> pw (IKof c) p -> after_lock i (good c) (klocked cfg lph p).
  Proof.
    intros H1 H2. apply after_lock_locked. split; [|by apply lastw_locked].
    apply klocal_seq; [done|]. intros a. kl.
  Qed.

  Lemma insert_good c ik v mode : IKof c = item_keys -> after_lock i (good c) (insert_to_list cfg lk ik v mode).
  Proof.
    intros E. unfold insert_to_list. cbv zeta. apply good_locked.
    - kl.
    - rewrite E. pws.
  Qed.
  Lemma remove_good c ik : IKof c = item_keys -> after_lock i (good c) (remove_from_list cfg lk ik).
  Proof.
    intros E. unfold remove_from_list. cbv zeta. apply good_locked.
    - kl.
    - rewrite E. pws; calms. all: try (by eexists (Ok _)).
  Qed.
  Lemma at_index_calm IK j : calmp IK (get_at_index lph j).
  Proof. unfold get_at_index. calms. Qed.
  Lemma compact_items_calm n : forall j nj, calmp (fun _ => False) (compact_items lph n j nj).
  Proof.
    induction n as [|n IH]; intros j nj; cbn [compact_items]; [done|]. apply calmp_bind; [apply at_index_calm|]. calms; apply IH.
  Qed.
  Lemma discard_items_calm js : calmp (fun _ => False) (discard_items lph js).
  Proof.
    induction js as [|j js IH]; cbn [discard_items]; [done|]. apply calmp_bind; [apply at_index_calm|]. calms; apply IH.
  Qed.
  Lemma list_good c : locked_call c = true -> after_lock i (good c) (list_prog cfg lk c).
  Proof.
    destruct c as [ik v|ik v|ik v ex|ik v|ik|ik|few ml|fwd|fwd|fwd| |]; try done; intros _; cbn [list_prog]; (apply good_bind; [|intros a; by eexists (Ok _)]).
    - unfold set_in_list. cbn [kbind]. apply good_bind; [by apply insert_good|]. intros []; first [by eexists (Ok _) | by eexists (Err _)].
    - unfold replace_in_list. apply good_bind; [by apply insert_good|]. intros []; first [by eexists (Ok _) | by eexists (Err _)].
    - unfold get_or_create_in_list. apply good_bind; [by apply insert_good|]. intros []; first [by eexists (Ok _) | by eexists (Err _)].
    - by apply remove_good.
    - unfold compact_list. cbv zeta. apply good_locked.
      + kl. apply klocal_seq; [apply compact_items_local|]. kl.
      + apply calmp_pw. cbn [IKof]. calms. apply calmp_bind; [apply compact_items_calm|]. calms.
    - unfold discard_list. cbv zeta. apply good_locked.
      + kl. apply klocal_seq; [apply discard_items_local|]. kl.
      + apply calmp_pw. cbn [IKof]. calms. apply calmp_bind; [apply discard_items_calm|]. calms.
  Qed.
End local.

(** ** Indices *)
(** The 64-bit indices of the list suffice for [n] more calls (an insertion uses one, a
    compaction as many as there are items). *)
Definition idx_ok (key : bytes) (n : N) (M : kvmap) : Prop :=
  FIRST_IDX + (n + 1) * (n + 1) + 1 < U64 /\
  forall b r, M !! key = Some b -> dec_rec b = Ok r -> l_tail r + (n + 1) * (l_num r + n + 1) < U64.
Lemma idx_ok_mono key n m M : n <= m -> idx_ok key m M -> idx_ok key n M.
Proof. intros H [H1 H2]. split; [nia|]. intros b r Hb Hr. specialize (H2 _ _ Hb Hr). nia. Qed.
Lemma idx_ok_room key n M : idx_ok key n M -> index_room key M.
Proof. intros [_ H] b r Hb Hr. specialize (H _ _ Hb Hr). nia. Qed.
Lemma idx_ok_same key n M M' : M' !! key = M !! key -> idx_ok key n M -> idx_ok key n M'.
Proof. intros E [H1 H2]. split; [done|]. rewrite E. done. Qed.
Lemma dec_enc_tail h t n r : t < U64 -> n < U64 -> dec_rec (enc_rec (LRec h t n)) = Ok r -> l_tail r = t /\ l_num r = n.
Proof.
  intros H2 H3. unfold dec_rec. rewrite enc_rec_len. cbn [Nat.eqb]. unfold enc_rec. cbn [l_head l_tail l_num].
  rewrite take_app_alt by (by rewrite u64_bytes_len). rewrite drop_app_alt by (by rewrite u64_bytes_len).
  rewrite take_app_alt by (by rewrite u64_bytes_len).
  replace 16%nat with (length (u64_bytes h ++ u64_bytes t)) by (by rewrite app_length, !u64_bytes_len).
  rewrite app_assoc, drop_app. rewrite (le_N_u64 t H2), (le_N_u64 n H3). by intros [= <-].
Qed.
Lemma idx_ok_rec key n M h t k : t < U64 -> k < U64 -> FIRST_IDX + (n + 1) * (n + 1) + 1 < U64 -> t + (n + 1) * (k + n + 1) < U64 -> idx_ok key n (<[key := enc_rec (LRec h t k)]> M).
Proof.
  intros Ht Hk H1 H2. split; [done|]. intros b r. rewrite lookup_insert. intros [= <-] Hr.
  apply dec_enc_tail in Hr as [-> ->]; done.
Qed.
Lemma idx_ok_gone key n M : FIRST_IDX + (n + 1) * (n + 1) + 1 < U64 -> idx_ok key n (delete key M).
Proof. intros H. split; [done|]. intros b r. by rewrite lookup_delete. Qed.

Section header.
  Context (cfg : config) (lk : bytes) (n : N).
  Local Notation lph := (list_ph cfg lk).
  Local Notation T := (fun _ : kvmap => True).
  Local Notation TE := (fun (_ : err) (_ : kvmap) => True).
  Local Notation J := (idx_ok (list_key lk) n).
  Lemma kwp_lift_any {A} (r : res A) (Q : A -> kvmap -> Prop) M : (forall a, r = Ok a -> Q a M) -> kwp cfg (klift r) T Q TE M.
  Proof. intros H. destruct r as [a|e]; (split; [done|]); [by apply H|done]. Qed.
  Lemma kwp_set_any (k v : bytes) (Q : set_status -> kvmap -> Prop) M : k <> [] -> (forall st, Q st (<[k := v]> M)) -> kwp cfg (kset k v) T Q TE M.
  Proof. intros Hk H. apply kwp_set2; auto. Qed.
  Lemma kwp_rep_any (k v : bytes) (ex : option bytes) (Q : replace_status -> kvmap -> Prop) M : k <> [] -> (forall st, Q st (<[k := v]> M)) -> (forall st, Q st M) -> kwp cfg (kreplace k v ex) T Q TE M.
  Proof.
    intros Hk H H'. cbn. split; [done|]. split; [done|]. destruct (ins_err cfg k v); [done|].
    unfold spec_ins. destruct (M !! k); destruct ex; cbn; try case_bool_decide; cbn; auto.
  Qed.
  Lemma J_off k (x : bytes) M : k <> list_key lk -> J M -> J (<[k := x]> M).
  Proof. intros Hk. apply idx_ok_same. by rewrite lookup_insert_ne. Qed.
  Lemma J_del k M : k <> list_key lk -> J M -> J (delete k M).
  Proof. intros Hk. apply idx_ok_same. by rewrite lookup_delete_ne. Qed.
  Lemma insert_header ik v mode M : idx_ok (list_key lk) (n + 1) M -> kwp cfg (insert_to_list cfg lk ik v mode) T (fun _ => J) TE M.
  Proof.
    intros HJ. assert (idx_ok (list_key lk) n M) as HJ1 by (eapply idx_ok_mono; [|exact HJ]; lia). unfold insert_to_list. cbv zeta. apply kwp_locked, kwp_bind, kwp_get; [done|].
    destruct (M !! item_key lph ik) as [ev|] eqn:Eev.
    - apply kwp_bind, kwp_lift_any. intros [old suf] _.
      assert (kwp cfg (dok _ <- kreplace (item_key lph ik) (v ++ suf) None; KRet (IReplaced old)) T (fun _ => J) TE M) as Hrep.
      { apply kwp_bind, kwp_rep_any; [auto with kne| |]; intros st; apply kwp_ret; try done. apply J_off; [kdiff|done]. }
      destruct mode as [|[ex|]|]; try done. case_bool_decide; [done|by apply kwp_ret].
    - assert (kwp cfg (dok res <- kgoc (list_key lk) (enc_rec (LRec FIRST_IDX (FIRST_IDX + 1) 1));
        match res with
        | GCreated _ => dok _ <- kset (chain_key lph FIRST_IDX) (u64_bytes (hashk cfg (item_key lph ik))); dok _ <- kset (item_key lph ik) (v ++ u64_bytes FIRST_IDX); KRet (ICreated v)
        | GExisting lb =>
          dok r <- klift (dec_rec lb); dok tail <- klift (inc64 (l_tail r)); dok num <- klift (inc64 (l_num r));
          dok _ <- kset (list_key lk) (enc_rec (LRec (l_head r) tail num));
          dok _ <- kset (chain_key lph (l_tail r)) (u64_bytes (hashk cfg (item_key lph ik)));
          dok _ <- kset (item_key lph ik) (v ++ u64_bytes (l_tail r)); KRet (ICreated v)
        end) T (fun _ => J) TE M) as Hins; [|by destruct mode; try done; apply kwp_ret].
      apply kwp_bind, kwp_goc2; [auto with kne|done|done| |].
      + intros lb _ Elb. apply kwp_bind, kwp_lift_any. intros r Er. destruct HJ as [F1 F2]. specialize (F2 _ _ Elb Er).
        apply kwp_bind, kwp_lift_any. intros t Et. apply kwp_bind, kwp_lift_any. intros k Ek.
        assert (t = l_tail r + 1 /\ k = l_num r + 1) as [-> ->].
        { unfold inc64 in *. destruct (l_tail r + 1 <? U64), (l_num r + 1 <? U64); try done. split; congruence. }
        apply kwp_bind, kwp_set_any; [auto with kne|]. intros _. apply kwp_bind, kwp_set_any; [auto with kne|]. intros _.
        apply kwp_bind, kwp_set_any; [auto with kne|]. intros _. apply kwp_ret; [done|].
        apply J_off; [kdiff|]. apply J_off; [kdiff|]. apply idx_ok_rec; nia.
      + intros _ En. destruct HJ as [F1 _]. split; [done|]. apply kwp_bind, kwp_set_any; [auto with kne|]. intros _.
        apply kwp_bind, kwp_set_any; [auto with kne|]. intros _. apply kwp_ret; [done|].
        apply J_off; [kdiff|]. apply J_off; [kdiff|]. apply idx_ok_rec; nia.
  Qed.
  Lemma remove_header ik M : J M -> kwp cfg (remove_from_list cfg lk ik) T (fun _ => J) TE M.
  Proof.
    intros HJ. unfold remove_from_list. cbv zeta. apply kwp_locked, kwp_bind, kwp_get; [done|].
    destruct (M !! item_key lph ik) as [ev|]; [|by apply kwp_ret]. apply kwp_bind, kwp_lift_any. intros [old suf] _.
    apply kwp_bind, kwp_get; [done|]. apply kwp_bind.
    assert (Hend : forall M1, J M1 -> kwp cfg (dok _ <- kop1 (KRem (chain_key lph (le_N suf))); dok _ <- kop1 (KRem (item_key lph ik)); KRet (Some old)) T (fun _ => J) TE M1).
    { intros M1 H1. apply kwp_bind, kwp_rem; [done|done|]. apply kwp_bind, kwp_rem; [done|done|]. apply kwp_ret; [done|].
      apply J_del; [kdiff|]. apply J_del; [kdiff|]. done. }
    destruct (M !! list_key lk) as [lb|] eqn:Elb; [|apply kwp_ret; [done|by apply Hend]].
    apply kwp_bind, kwp_lift_any. intros r Er. destruct HJ as [F1 F2]. specialize (F2 _ _ Elb Er).
    apply kwp_bind, kwp_lift_any. intros k Ek.
    assert (k < l_num r) as Hk by (unfold dec64 in Ek; destruct (N.eqb_spec (l_num r) 0); [done|]; injection Ek as <-; lia).
    assert (Hfin : forall hd tl, tl <= l_tail r -> kwp cfg (if hd =? tl then dok _ <- kop1 (KRem (list_key lk)); KRet tt
      else dok _ <- kset (list_key lk) (enc_rec (LRec hd tl k)); KRet tt) T
      (fun _ => kwp cfg (dok _ <- kop1 (KRem (chain_key lph (le_N suf))); dok _ <- kop1 (KRem (item_key lph ik)); KRet (Some old)) T (fun _ => J) TE) TE M).
    { intros hd tl Htl. destruct (hd =? tl).
      - apply kwp_bind, kwp_rem; [done|done|]. apply kwp_ret; [done|]. apply Hend. by apply idx_ok_gone.
      - apply kwp_bind, kwp_set_any; [auto with kne|]. intros _. apply kwp_ret; [done|]. apply Hend. apply idx_ok_rec; nia. }
    destruct (l_head r =? le_N suf).
    - apply kwp_bind, kwp_ret; [done|]. apply kwp_bind, kwp_bind, kwp_lift_any. intros hd _. apply kwp_ret; [done|]. cbv beta iota. apply Hfin. lia.
    - apply kwp_bind, kwp_lift_any. intros i1 _. apply kwp_bind. destruct (l_tail r =? i1).
      + apply kwp_bind, kwp_lift_any. intros tl Htl. apply kwp_ret; [done|]. cbv beta iota. apply Hfin.
        unfold dec64 in Htl. destruct (N.eqb_spec (l_tail r) 0); [done|]. injection Htl as <-. lia.
      + apply kwp_ret; [done|]. cbv beta iota. apply Hfin. lia.
  Qed.
  Lemma discard_header M : J M -> kwp cfg (discard_list cfg lk) T (fun _ => J) TE M.
  Proof.
    intros HJ. unfold discard_list. apply kwp_locked, kwp_bind, kwp_get; [done|]. destruct (M !! list_key lk) as [lb|]; [|by apply kwp_ret].
    apply kwp_bind, kwp_lift_any. intros r _. apply kwp_bind.
    eapply kwp_mono; [| | |apply (kwp_frame cfg (list_keys cfg lk) _ anyv M); [apply discard_items_writes|done]]; [done| |done].
    intros ? M1 _ _. apply kwp_bind, kwp_rem; [done|done|]. apply kwp_ret; [done|]. apply idx_ok_gone, HJ.
  Qed.
End header.

(** ** The instance *)
Section inst.
  Context (cfg : config) (lk : bytes) (rd : bool).
  Local Notation lph := (list_ph cfg lk).
  Local Notation i := (lock_idx cfg lph).
  Definition lR (B : N) (M : kvmap) (l : items) : Prop :=
    exists its, rep cfg lk M its 0 /\ map snd its = l /\ idx_ok (list_key lk) B M.
  (** What readers see at any time (if the list is not being discarded). *)
  Definition lV (M : kvmap) (l : items) : Prop :=
    rd = true -> forall ik, match (M !! item_key lph ik : option bytes) with
      | Some ev => exists (v : bytes) j, ev = (v ++ u64_bytes j : bytes) /\ l_get l ik = Some v
      | None => l_get l ik = None
      end.
  Definition list_call (l : items) (c : call) (r : res reply) (l' : items) : Prop := list_step lk cfg l (ECall c r) cfg l'.
  Definition list_w (c : call) : N := match c with CList lk' _ => if bool_decide (lk' = lk) then 1 else 0 | _ => 0 end.
  Definition list_ok (c : call) : Prop :=
    match c with
    | CList lk' c =>
      if bool_decide (lk' = lk) then
        lcall_accepts cfg lk c /\
        ((locked_call c = true /\ (rd = true -> c <> LDiscard)) \/ (rd = true /\ exists ik, c = LGet ik))
      else list_ph cfg lk' <> lph
    | _ => True
    end.

  Lemma entries_step a M (lks : gmap N nat) p M' (lks' : gmap N nat) p' : kop_step cfg a M lks p M' lks' p' -> entries_ok cfg M -> entries_ok cfg M'.
  Proof.
    destruct p as [y|e|X o k]; cbn [kop_step]; [done|done|]. destruct o as [key|key v mode|key|ph|j|j].
    - by intros (-> & _).
    - intros (_ & H). destruct (ins_err cfg key v) eqn:E; destruct H as [-> _]; [done|]. intros HM.
      unfold spec_ins. destruct (M !! key), mode as [|[]|]; cbn [fst]; try case_bool_decide; cbn [fst]; try done; by apply entries_insert.
    - intros (-> & _). apply entries_delete.
    - by intros (-> & _).
    - by intros (-> & _).
    - by intros (-> & _).
  Qed.
  Lemma lR_loc B M M' l : agree (list_keys cfg lk) M M' -> lR B M l -> lR B M' l.
  Proof.
    intros Ha (its & H1 & H2 & H3). exists its. split; [by eapply rep_ext|]. split; [done|].
    eapply idx_ok_same; [|exact H3]. apply Ha. auto with kne.
  Qed.
  Lemma lV_loc M M' l : agree (list_keys cfg lk) M M' -> lV M l -> lV M' l.
  Proof. intros Ha Hv Hr ik. rewrite (Ha (item_key lph ik)) by auto with kne. by apply Hv. Qed.
  Lemma lV_item M M' l : agree (item_keys cfg lk) M M' -> lV M l -> lV M' l.
  Proof. intros Ha Hv Hr ik. rewrite (Ha (item_key lph ik)) by (by exists ik). by apply Hv. Qed.
  Lemma lR_V B M l : lR B M l -> lV M l.
  Proof.
    intros (its & HR & <- & _) _ ik. rewrite (core_get cfg lk M its ik (rep_core _ _ _ _ _ HR)), li_find_get.
    destruct (li_find its ik) as [[j v]|]; cbn; [|done]. exists v, j. done.
  Qed.

  (** Compaction keeps the values. *)
  Lemma at_index_V (C : kvmap -> Prop) (j : N) M (Q : option (phash * bytes * bytes) -> kvmap -> Prop) : C M ->
    (forall ph ik w, M !! item_key lph ik = Some w -> Q (Some (ph, item_key lph ik, w)) M) -> Q None M ->
    kwp cfg (get_at_index lph j) C Q (fun _ _ => True) M.
  Proof.
    intros HC H1 H2. unfold get_at_index. apply kwp_bind, kwp_get; [done|]. destruct (M !! chain_key lph j) as [b|]; [|by apply kwp_ret].
    apply kwp_bind. destruct (dec_u64 b) as [ph|e]; [|done]. cbn [klift]. apply kwp_ret; [done|]. apply kwp_bind. cbn [kop1 kwp]. split; [done|].
    destruct (_ =? _); [done|]. intros ls (_ & L2 & _). split; [done|]. destruct (find_item _ _ ls) as [[k w]|] eqn:Ef; [|by apply kwp_ret].
    apply find_item_spec in Ef as (F1 & F2 & _). apply ends_with_item in F2 as [ik ->]. apply L2 in F1 as [F1 _]. apply kwp_ret; [done|]. by apply H1.
  Qed.
  Lemma lV_off k (v : bytes) M l : (forall ik, k <> item_key lph ik) -> lV M l -> lV (<[k := v]> M) l.
  Proof. intros Hk Hv Hr ik. rewrite lookup_insert_ne by apply Hk. by apply Hv. Qed.
  Lemma lV_del k M l : (forall ik, k <> item_key lph ik) -> lV M l -> lV (delete k M) l.
  Proof. intros Hk Hv Hr ik. rewrite lookup_delete_ne by apply Hk. by apply Hv. Qed.
  Lemma compact_items_V l n : forall j nj M, lV M l ->
    kwp cfg (compact_items lph n j nj) (fun M' => lV M' l) (fun _ M' => lV M' l) (fun _ _ => True) M.
  Proof.
    induction n as [|n IH]; intros j nj M HV; cbn [compact_items]; [by apply kwp_ret|].
    apply kwp_bind, at_index_V; [done| |by apply IH]. intros ph ik w Ew.
    assert (Hch : forall x M, lV M l -> lV (<[chain_key lph x := u64_bytes ph]> M) l) by (intros x M1 H1; apply lV_off; [intros ?; kdiff|done]).
    apply kwp_bind, kwp_set2; [auto with kne|done|done|]. intros _. split; [by apply Hch|]. intros _.
    apply kwp_bind. destruct (cut_tail 8 w) as [[v' x]|e] eqn:Ec; [|split; [by apply Hch|done]]. apply kwp_ret; [by apply Hch|]. cbv beta iota.
    assert (lV (<[item_key lph ik := v' ++ u64_bytes nj]> (<[chain_key lph nj := u64_bytes ph]> M)) l) as HV2.
    { intros Hr ik'. destruct (decide (ik' = ik)) as [->|Hne].
      - rewrite lookup_insert. specialize (HV Hr ik). rewrite Ew in HV. destruct HV as (v & j' & -> & Hg). rewrite cut8 in Ec. injection Ec as <- <-. eauto.
      - rewrite lookup_insert_ne by (intros E; by apply item_key_inj in E). by apply Hch. }
    apply kwp_bind, kwp_set2; [auto with kne|by apply Hch|by intros|]. intros _. split; [done|]. intros _.
    assert (lV (delete (chain_key lph j) (<[item_key lph ik := v' ++ u64_bytes nj]> (<[chain_key lph nj := u64_bytes ph]> M))) l) as HV3.
    { apply lV_del; [intros ?; kdiff|done]. }
    apply kwp_bind, kwp_rem; [done|done|]. apply kwp_bind. destruct (inc64 nj) as [x'|e]; [|by split]. apply kwp_ret; [done|]. by apply IH.
  Qed.
  Lemma compact_V l few ml M : lV M l ->
    kwp cfg (list_prog cfg lk (LCompact few ml)) (fun M' => lV M' l) (fun _ _ => True) (fun _ _ => True) M.
  Proof.
    intros HV. cbn [list_prog]. apply kwp_map. unfold compact_list. cbv zeta. apply kwp_locked, kwp_bind, kwp_get; [done|].
    destruct (M !! list_key lk) as [b|]; [|by apply kwp_ret]. apply kwp_bind. destruct (dec_rec b) as [r|e]; [|by split]. apply kwp_ret; [done|].
    apply kwp_bind. destruct (sub64 (l_tail r) (l_head r)) as [sp|e]; [|by split]. apply kwp_ret; [done|].
    destruct (sp <? ml); [by apply kwp_ret|]. apply kwp_bind. destruct (sub64 sp (l_num r)) as [ho|e]; [|by split]. apply kwp_ret; [done|].
    destruct (few sp ho); [by apply kwp_ret|]. apply kwp_bind. eapply kwp_mono; [| | |by apply (compact_items_V l)]; [done| |done].
    intros ni M1 _ H1. apply kwp_bind. destruct (_ =? _).
    - assert (lV (delete (list_key lk) M1) l) by (apply lV_del; [intros ?; kdiff|done]). apply kwp_bind, kwp_rem; [done|done|]. apply kwp_ret; [done|]. by apply kwp_ret.
    - assert (forall x, lV (<[list_key lk := x]> M1) l) as H2 by (intros x; apply lV_off; [intros ?; kdiff|done]).
      apply kwp_bind, kwp_set2; [auto with kne|done|by intros|]. intros _. split; [done|]. intros _. apply kwp_ret; [done|]. by apply kwp_ret.
  Qed.
  Lemma compact_header B its few ml M : rep cfg lk M its 0 -> entries_ok cfg M -> idx_ok (list_key lk) (B + 1) M ->
    kwp cfg (list_prog cfg lk (LCompact few ml)) (fun _ => True) (fun _ => idx_ok (list_key lk) B) (fun _ _ => True) M.
  Proof.
    intros HR Hent HJ. assert (idx_ok (list_key lk) B M) as HJ1 by (eapply idx_ok_mono; [|exact HJ]; lia).
    pose proof (rep_core _ _ _ _ _ HR) as HC.
    cbn [list_prog]. apply kwp_map. unfold compact_list. cbv zeta. apply kwp_locked, kwp_bind, kwp_get; [done|].
    destruct (rec_case _ _ _ _ _ HR) as [(Hr & _)|(h & t & Hr & H1 & H2 & H3 & H4)]; rewrite Hr; [by apply kwp_ret|].
    assert (t + (B + 2) * (len its + B + 2) < U64) as Hroom.
    { destruct HJ as [_ HJ]. specialize (HJ _ _ Hr (dec_enc_rec h t (len its + 0) ltac:(lia) H2 ltac:(lia))). cbn [l_tail l_num] in HJ. nia. }
    apply kwp_bind. eapply kwp_lift_ok; [apply dec_enc_rec; lia|done|]. cbn [l_head l_tail l_num].
    apply kwp_bind. eapply (kwp_lift_ok _ (t - h)); [unfold sub64; destruct (N.ltb_spec t h); [lia|done]|done|].
    destruct (t - h <? ml); [by apply kwp_ret|].
    apply kwp_bind. eapply (kwp_lift_ok _ (t - h - (len its + 0))); [unfold sub64; destruct (N.ltb_spec (t - h) (len its + 0)); [lia|done]|done|].
    destruct (few (t - h) (t - h - (len its + 0))); [by apply kwp_ret|].
    apply kwp_bind. eapply kwp_mono; [| | |apply (kwp_compact_items cfg lk (enc_rec (LRec h t (len its + 0))) t (N.to_nat (t - h)) h t M its [])]; [done| |done| | | | | | | |].
    - intros new' M1 _ (D & K1 & K2 & K3 & K4 & K5 & K6 & K7). cbn [map app] in K4.
      assert (len D = len its) as El by (rewrite <- (len_map_snd D), K4, len_map_snd; done).
      apply kwp_bind. destruct (N.eqb_spec t new') as [Et|Et].
      + apply kwp_bind, kwp_rem; [done|done|]. apply kwp_ret; [done|]. apply kwp_ret; [done|]. apply idx_ok_gone, HJ1.
      + apply kwp_bind, kwp_set2; [auto with kne|done|done|]. intros _. split; [done|]. intros _. apply kwp_ret; [done|]. apply kwp_ret; [done|].
        apply idx_ok_rec; [lia|lia|apply HJ1|]. nia.
    - by rewrite app_nil_r.
    - done.
    - done.
    - lia.
    - done.
    - done.
    - unfold len. cbn. lia.
    - nia.
  Qed.

  Lemma list_header B its c M : locked_call c = true -> rep cfg lk M its 0 -> entries_ok cfg M -> idx_ok (list_key lk) (B + 1) M ->
    kwp cfg (list_prog cfg lk c) (fun _ => True) (fun _ => idx_ok (list_key lk) B) (fun _ _ => True) M.
  Proof.
    intros Hc HR Hent HJ. assert (idx_ok (list_key lk) B M) as HJ1 by (eapply idx_ok_mono; [|exact HJ]; lia).
    destruct c as [ik v|ik v|ik v ex|ik v|ik|ik|few ml|fwd|fwd|fwd| |]; try done; [| | | |by eapply compact_header|]; cbn [list_prog]; apply kwp_map.
    - unfold set_in_list. cbn [kbind]. apply kwp_bind. eapply kwp_mono; [| | |by apply (insert_header cfg lk B)]; [done| |done].
      intros st M1 _ H1. destruct st; first [by apply kwp_ret|done].
    - unfold replace_in_list. apply kwp_bind. eapply kwp_mono; [| | |by apply (insert_header cfg lk B)]; [done| |done].
      intros st M1 _ H1. destruct st; first [by apply kwp_ret|done].
    - unfold get_or_create_in_list. apply kwp_bind. eapply kwp_mono; [| | |by apply (insert_header cfg lk B)]; [done| |done].
      intros st M1 _ H1. destruct st; first [by apply kwp_ret|done].
    - by apply remove_header.
    - by apply discard_header.
  Qed.

  Lemma list_own c : locked_call c = true -> lcall_accepts cfg lk c -> (rd = true -> c <> LDiscard) ->
    own cfg i (list_keys cfg lk) (fun k : bytes => ends_with k (item_suffix lph)) lR lV (entries_ok cfg) list_w list_call (CList lk c) (call_prog cfg (CList lk c)).
  Proof.
    intros Hc Hacc Hd.
    apply (own_kwp cfg i (list_keys cfg lk) (fun k : bytes => ends_with k (item_suffix lph)) lR lV (entries_ok cfg) list_w list_call lR_V
      (IKof cfg lk c) (CList lk c) _ (fun l M' => match c with LCompact _ _ => lV M' l | _ => True end)
      (fun B l y M' => exists l', list_call l (CList lk c) (Ok y) l' /\ lR B M' l') (fun _ _ _ _ => False)); [|done|done| |].
    - pose proof (list_good cfg lk c Hc) as Hg. cbn [call_prog]. destruct (list_prog cfg lk c) as [y|e|X o k]; [done|done|]. destruct o; done.
    - intros l M M' Ha HV HC. destruct c; try done; try (by eapply lV_item).
      intros Hr. by destruct (Hd Hr).
    - intros B M l HG (its & HR & <- & HJ). cbn [call_prog].
      assert (list_w (CList lk c) = 1) as Ew by (cbn; by rewrite bool_decide_eq_true_2). rewrite Ew in HJ.
      assert (kwp cfg (list_prog cfg lk c) (fun M' => match c with LCompact _ _ => lV M' (map snd its) | _ => True end) (fun _ _ => True) (fun _ _ => True) M) as HV.
      { assert (lV M (map snd its)) as HV0 by (apply (lR_V (B + 1)); by exists its).
        destruct c; try (eapply kwp_mono; [| | |by eapply (list_header B)]; done). by apply compact_V. }
      pose proof (list_kwp cfg lk M its 0 c HR (fun _ => conj HG (idx_ok_room _ _ _ HJ))) as Hk.
      pose proof (list_header B its c M Hc HR HG HJ) as Hh.
      eapply kwp_mono; [| | |exact (kwp_and _ _ _ _ _ _ _ _ _ HV (kwp_and _ _ _ _ _ _ _ _ _ Hk Hh))]; [by intros M' [? _]| |].
      + intros y M' _ (_ & (its' & lost' & K1 & K2 & K3) & K4). assert (lost' = 0) as -> by lia.
        exists (map snd its'). split; [|by exists its']. unfold list_call. cbn [list_step]. rewrite bool_decide_eq_true_2 by done.
        exists y. split; [done|]. by apply list_spec_0.
      + intros e M' _ (_ & (its' & lost' & K1 & K2 & K3 & K4) & _). done.
  Qed.
  Lemma list_reader ik : rd = true -> reader cfg lV list_call (CList lk (LGet ik)) (call_prog cfg (CList lk (LGet ik))).
  Proof.
    intros Hr. split; [done|]. split; [done|]. intros a M lks M' lks' p' l HV Hk. cbn in Hk. destruct Hk as (-> & -> & ->). split; [done|].
    exists (Ok (YOpt (l_get l ik))). unfold list_call. cbn [list_step]. rewrite bool_decide_eq_true_2 by done.
    split; [by eexists|]. specialize (HV Hr ik). destruct (M !! item_key lph ik) as [ev|].
    - destruct HV as (v & j & -> & ->). by rewrite cut8.
    - by rewrite HV.
  Qed.
  Lemma list_other c : list_ok c -> (forall lc, c <> CList lk lc) -> other (list_keys cfg lk) list_call c (call_prog cfg c).
  Proof.
    intros Hok Hn. split.
    - exists (call_keys cfg c). split; [apply call_writes|]. intros k Hk Hk2.
      destruct (call_keys_list cfg c lk k Hk Hk2) as (lk' & c' & -> & Hp). cbn in Hok. case_bool_decide as E; [subst; by destruct (Hn c')|done].
    - intros l r. unfold list_call. destruct c as [o|tid o|lk' lc|qk qc|b bc]; try done. cbn. rewrite bool_decide_eq_false_2; [done|]. intros ->. by destruct (Hn lc).
  Qed.
  Lemma list_calls c : list_ok c ->
    own cfg i (list_keys cfg lk) (fun k : bytes => ends_with k (item_suffix lph)) lR lV (entries_ok cfg) list_w list_call c (call_prog cfg c) \/
    reader cfg lV list_call c (call_prog cfg c) \/ other (list_keys cfg lk) list_call c (call_prog cfg c).
  Proof.
    intros Hok. assert ((exists lc, c = CList lk lc) \/ forall lc, c <> CList lk lc) as [[lc ->]|Hn].
    { destruct c as [o|tid o|lk' lc|qk qc|b bc]; try (right; done). destruct (decide (lk' = lk)) as [->|]; [left; eauto|right; congruence]. }
    - cbn [list_ok] in Hok. rewrite bool_decide_eq_true_2 in Hok by done. destruct Hok as [H1 [[H2 H3]|[H2 [ik ->]]]].
      + left. by apply list_own.
      + right. left. by apply list_reader.
    - right. right. by apply list_other.
  Qed.

  (** Every concurrent run on the abstract map. *)
  Lemma lin_list M es A l : arun cfg (AS M ∅ ∅) es A -> (forall a c, EvCall a c ∈ es -> list_ok c) ->
    entries_ok cfg M -> lR (weight list_w es) M l ->
    exists l' P, lrun list_call l ∅ es l' P /\ lV (a_map A) l' /\ (a_ths A = ∅ -> lR 0 (a_map A) l').
  Proof.
    intros Ha Hok HG HR.
    destruct (lin_locked cfg i (list_keys cfg lk) (fun k : bytes => ends_with k (item_suffix lph)) (F_ok cfg lk) lR lV (entries_ok cfg) list_w list_call list_ok
      entries_step lR_loc lV_loc lR_V list_calls _ _ _ Ha l ∅ (weight list_w es) None []) as (l' & P' & B' & md & X & L1 & L2 & L3 & L4 & L5).
    - done.
    - done.
    - exact HR.
    - intros a. cbn [a_ths]. by rewrite !lookup_empty.
    - cbn [total]. lia.
    - exists l', P'. split; [done|]. split; [eapply mode_V; [exact lR_V|exact L3]|]. intros Ht. destruct md as [a|].
      + destruct L3 as (c & p & B0 & E & _). by rewrite Ht, lookup_empty in E.
      + cbn [mode_ok] in L3. destruct L3 as (its & H1 & H2 & H3). exists its. split; [done|]. split; [done|]. eapply idx_ok_mono; [|exact H3]. lia.
  Qed.
End inst.
