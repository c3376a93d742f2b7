(** The effect of every list program on the representation of ListRep.v. *)
From Coq Require Import Sorted.
From Verif Require Import Base Hashing HashingProofs Fs Shard Router RouterPure Wpc Spec FileRep RowOps
  Compact Inv ShardOps Split Insert Open Merge Create Store Limits StoreRefine Kv Lists Queues Api Hist KvSpec
  HistInv KeySpace ListSpec ListRep.
Implicit Types (M : kvmap) (its : ixs) (i j h t lost : N) (ik v : bytes).
Local Arguments u64_bytes : simpl never.
Local Arguments enc_rec : simpl never.

Lemma find_item_None suf ib l k v : find_item suf ib l = None -> (k, v) ∈ l -> ends_with k suf = true -> ends_with v ib = true -> False.
Proof.
  intros H Hin H1 H2. induction l as [|[k1 v1] l IH]; [by apply elem_of_nil in Hin|]. cbn [find_item] in H.
  destruct (ends_with k1 suf && ends_with v1 ib) eqn:E; [done|]. apply elem_of_cons in Hin as [E1|Hin]; [|by apply IH].
  assert (k1 = k /\ v1 = v) as [-> ->] by (split; congruence). rewrite H1, H2 in E. done.
Qed.
Lemma ends_with_same p a b : length a = length b -> ends_with (p ++ a) b = true -> a = b.
Proof. intros Hl H. apply ends_with_spec in H as [q H]. by apply app_inj_2 in H as [_ H]. Qed.

Section progs.
Context (cfg : config) (lk : bytes).
Local Notation lph := (list_ph cfg lk).
Local Notation ihash ik := (u64_bytes (hashk cfg (item_key lph ik))).
Local Notation core := (core cfg lk).
Local Notation rep := (rep cfg lk).

Definition at_item (its : ixs) (i : N) : option (phash * bytes * bytes) :=
  (fun x : bytes * bytes => (hashk cfg (item_key lph (fst x)), item_key lph (fst x), snd x ++ u64_bytes i)) <$> at_idx its i.
Lemma kwp_at_index M its i (C : kvmap -> Prop) (Q : option (phash * bytes * bytes) -> kvmap -> Prop) (E : err -> kvmap -> Prop) :
  core M its -> i < U64 -> C M -> Q (at_item its i) M -> kwp cfg (get_at_index lph i) C Q E M.
Proof.
  intros HC Hi HCM HQ. unfold get_at_index. apply kwp_bind, kwp_get; [done|].
  pose proof (sorted_nodup _ (co_sorted _ _ _ _ HC)) as Hnd. pose proof (co_bound _ _ _ _ HC) as Hb. rewrite Forall_forall in Hb.
  destruct (M !! chain_key lph i) as [b|] eqn:Eb.
  - destruct (co_links _ _ _ _ HC _ _ Eb) as [k ->]. apply kwp_bind.
    eapply kwp_lift_ok; [apply dec_u64_bytes, hashk_bound|done|]. apply kwp_bind. cbn [kop1 kwp]. split; [done|].
    destruct (N.eqb_spec (ph_sig (hashk cfg k)) INVALID_SIG) as [Hs|_]; [exfalso; revert Hs; apply hashk_sig|].
    intros l (L1 & L2 & L3). split; [done|]. destruct (find_item (item_suffix lph) (u64_bytes i) l) as [[k' w]|] eqn:Ef.
    + apply find_item_spec in Ef as (F1 & F2 & F3). apply L2 in F1 as (F1 & _). apply ends_with_item in F2 as [ik ->].
      apply (co_items _ _ _ _ HC) in F1 as (j & v & Hin & ->).
      apply ends_with_same in F3; [|by rewrite !u64_bytes_len]. apply u64_bytes_inj in F3; [|by apply Hb in Hin|done]. subst j.
      pose proof (at_idx_in its i (ik, v) Hnd Hin) as Ea. pose proof (co_chain _ _ _ _ HC _ _ _ Hin) as Ec.
      assert (hashk cfg k = hashk cfg (item_key lph ik)) as Eh.
      { apply u64_bytes_inj; [apply hashk_bound|apply hashk_bound|]. by apply (inj Some); rewrite <- Eb, <- Ec. }
      apply kwp_ret; [done|]. unfold at_item in HQ. rewrite Ea in HQ. cbn in HQ. by rewrite Eh.
    + apply kwp_ret; [done|]. unfold at_item in HQ. destruct (at_idx its i) as [[ik v]|] eqn:Ea; [|exact HQ]. exfalso.
      apply at_idx_Some in Ea. pose proof (co_chain _ _ _ _ HC _ _ _ Ea) as Ec.
      assert (hashk cfg (item_key lph ik) = hashk cfg k) as Eh.
      { apply u64_bytes_inj; [apply hashk_bound|apply hashk_bound|]. by apply (inj Some); rewrite <- Eb, <- Ec. }
      eapply find_item_None; [exact Ef|apply L3; [|exact Eh]| |].
      * apply (co_items _ _ _ _ HC). eauto.
      * apply ends_with_app.
      * apply ends_with_app.
  - apply kwp_ret; [done|]. unfold at_item in HQ. destruct (at_idx its i) as [[ik v]|] eqn:Ea; [|exact HQ]. exfalso.
    apply at_idx_Some in Ea. rewrite (co_chain _ _ _ _ HC _ _ _ Ea) in Eb. done.
Qed.
Lemma kwp_trunc M ik v i (C : kvmap -> Prop) (Q : kv -> kvmap -> Prop) (E : err -> kvmap -> Prop) :
  C M -> Q (ik, v) M -> kwp cfg (trunc_item (item_key lph ik) (v ++ u64_bytes i)) C Q E M.
Proof.
  intros HC HQ. unfold trunc_item. apply kwp_bind. eapply kwp_lift_ok; [apply cut8|done|]. apply kwp_bind.
  eapply kwp_lift_ok; [apply cut9|done|]. by apply kwp_ret.
Qed.
Lemma kwp_iter M its (C : kvmap -> Prop) (E : err -> kvmap -> Prop) : core M its -> C M ->
  forall js (Q : list kv -> kvmap -> Prop), (forall j, j ∈ js -> j < U64) -> Q (omap (at_idx its) js) M ->
  kwp cfg (iter_items lph js) C Q E M.
Proof.
  intros HC HCM. induction js as [|j js IH]; intros Q Hj HQ; cbn [iter_items]; [by apply kwp_ret|].
  assert (forall i, i ∈ js -> i < U64) as Hj' by (intros i Hi; apply Hj; by right).
  apply kwp_bind, (kwp_at_index M its); [done|apply Hj; left|done|]. cbn [omap list_omap] in HQ. unfold at_item.
  destruct (at_idx its j) as [[ik v]|]; cbn [fmap option_fmap option_map fst snd].
  - apply kwp_bind, kwp_trunc; [done|]. apply kwp_bind, IH; [done|]. by apply kwp_ret.
  - by apply IH.
Qed.
Lemma kwp_peek M its (C : kvmap -> Prop) (E : err -> kvmap -> Prop) : core M its -> C M ->
  forall js (Q : option kv -> kvmap -> Prop), (forall j, j ∈ js -> j < U64) -> Q (first (omap (at_idx its) js)) M ->
  kwp cfg (peek_items lph js) C Q E M.
Proof.
  intros HC HCM. induction js as [|j js IH]; intros Q Hj HQ; cbn [peek_items]; [by apply kwp_ret|].
  assert (forall i, i ∈ js -> i < U64) as Hj' by (intros i Hi; apply Hj; by right).
  apply kwp_bind, (kwp_at_index M its); [done|apply Hj; left|done|]. cbn [omap list_omap] in HQ. unfold at_item.
  destruct (at_idx its j) as [[ik v]|]; cbn [fmap option_fmap option_map fst snd].
  - apply kwp_bind, kwp_trunc; [done|]. by apply kwp_ret.
  - by apply IH.
Qed.

(** ** The record *)
Lemma rep_core M its lost : rep M its lost -> core M its.
Proof. by intros [H _]. Qed.
Lemma rec_num_lt (h t n : N) : h <= t -> t < U64 -> n <= t - h -> n < U64.
Proof. lia. Qed.
(** The range read by iterators and pops. *)
Lemma kwp_range M its lost (C : kvmap -> Prop) (Q : option (N * N) -> kvmap -> Prop) (E : err -> kvmap -> Prop) : rep M its lost -> C M ->
  (its = [] -> lost = 0 -> Q None M) ->
  (forall h t, t < U64 -> Forall (fun x : N * (bytes * bytes) => h <= fst x < t) its -> Q (Some (h, t)) M) ->
  kwp cfg (list_range cfg lk) C Q E M.
Proof.
  intros [_ Hr] HC H1 H2. unfold list_range. apply kwp_locked, kwp_bind, kwp_get; [done|]. unfold rec_ok in Hr.
  destruct (M !! list_key lk) as [b|].
  - destruct Hr as (h & t & -> & Hh & Ht & Hf & Hn). apply kwp_bind. eapply kwp_lift_ok; [apply dec_enc_rec; lia|done|].
    apply kwp_ret; [done|]. cbn [l_head l_tail]. by apply H2.
  - destruct Hr as [-> ->]. apply kwp_ret; [done|]. by apply H1.
Qed.

Lemma rep_of M its lost h t n : core M its -> M !! list_key lk = Some (enc_rec (LRec h t n)) -> h <= t -> t < U64 ->
  Forall (fun x : N * (bytes * bytes) => h <= fst x < t) its -> n = len its + lost -> n <= t - h -> rep M its lost.
Proof.
  intros HC Hr H1 H2 H3 -> H4. split; [done|]. unfold rec_ok. rewrite Hr. exists h, t. done.
Qed.
Lemma core_rec M its b : core M its -> core (<[list_key lk := b]> M) its.
Proof. apply core_ext; intros; by rewrite lookup_insert_ne by kdiff. Qed.
Lemma core_unrec M its : core M its -> core (delete (list_key lk) M) its.
Proof. apply core_ext; intros; by rewrite lookup_delete_ne by kdiff. Qed.
Lemma rec_case M its lost : rep M its lost ->
  (M !! list_key lk = None /\ its = [] /\ lost = 0) \/
  (exists h t, M !! list_key lk = Some (enc_rec (LRec h t (len its + lost))) /\ h <= t /\ t < U64 /\
    Forall (fun x : N * (bytes * bytes) => h <= fst x < t) its /\ len its + lost <= t - h).
Proof.
  intros [_ Hr]. unfold rec_ok in Hr. destruct (M !! list_key lk) as [b|]; [right|left; done].
  destruct Hr as (h & t & -> & Hr). eauto 10.
Qed.
Lemma rep_index M its lost h t : rep M its lost -> index_room (list_key lk) M -> M !! list_key lk = Some (enc_rec (LRec h t (len its + lost))) ->
  h <= t -> t < U64 -> len its + lost <= t - h -> t + (len its + lost) + 1 < U64.
Proof.
  intros HR Hi Hl H1 H2 H3. exact (Hi _ _ Hl (dec_enc_rec h t (len its + lost) ltac:(lia) H2 ltac:(lia))).
Qed.

(** ** Insertion *)
Definition ins_post (l : items) (mode : ins_mode) (ik v : bytes) (st : ilist_status) (l' : items) : Prop :=
  match l_get l ik with
  | Some old =>
    match mode with
    | MGetOrCreate => st = IExistingValue old /\ l' = l
    | MReplace (Some ex) => (length ex = 8%nat /\ st = IReplaced old /\ l' = l_update l ik v) \/ (st = IWrongValue old /\ l' = l)
    | _ => st = IReplaced old /\ l' = l_update l ik v
    end
  | None =>
    match mode with
    | MReplace _ => st = IDoesNotExist /\ l' = l
    | _ => st = ICreated v /\ l' = l ++ [(ik, v)]
    end
  end.
Lemma acc_record ik v r : list_accepts cfg lk ik v -> ins_err cfg (list_key lk) (enc_rec r) = None.
Proof. intros (H & _). rewrite <- H. apply ins_err_len; [done|]. by rewrite enc_rec_len, replicate_length. Qed.
Lemma chain_key_len ph i : length (chain_key ph i) = 17%nat.
Proof. unfold chain_key. by rewrite !app_length, !u64_bytes_len. Qed.
Lemma acc_chain ik v i x : list_accepts cfg lk ik v -> ins_err cfg (chain_key lph i) (u64_bytes x) = None.
Proof. intros (_ & H & _). rewrite <- H. apply ins_err_len; [by rewrite chain_key_len, replicate_length|]. by rewrite u64_bytes_len, replicate_length. Qed.
Lemma acc_item ik v i : list_accepts cfg lk ik v -> ins_err cfg (item_key lph ik) (v ++ u64_bytes i) = None.
Proof.
  intros (_ & _ & H). rewrite <- H. unfold item_key. apply ins_err_len; rewrite !app_length, replicate_length; [by rewrite item_suffix_len|by rewrite u64_bytes_len].
Qed.

Lemma kwp_insert M its lost ik v mode : rep M its lost -> index_room (list_key lk) M ->
  kwp cfg (insert_to_list cfg lk ik v mode)
    (fun M' => exists its' lost', rep M' its' lost' /\ lost' <= lost + 1 /\ (map snd its' = map snd its \/ exists st, ins_post (map snd its) mode ik v st (map snd its')))
    (fun st M' => exists its', rep M' its' lost /\ ins_post (map snd its) mode ik v st (map snd its'))
    (fun e M' => exists lost', rep M' its lost' /\ lost' <= lost + 1 /\ ~ list_accepts cfg lk ik v) M.
Proof.
  intros HR Hidx. pose proof (rep_core _ _ _ HR) as HC. set (C := fun M' => _). set (Q := fun st M' => _). set (E := fun e M' => _).
  assert (C0 : forall M' lost', rep M' its lost' -> lost' <= lost + 1 -> C M').
  { intros M' lost' H1 H2. exists its, lost'. auto. }
  assert (C1 : forall M' its' st, rep M' its' lost -> ins_post (map snd its) mode ik v st (map snd its') -> C M').
  { intros M' its' st H1 H2. exists its', lost. split; [done|]. split; [lia|eauto]. }
  assert (E0 : forall e M' lost', rep M' its lost' -> lost' <= lost + 1 -> ~ list_accepts cfg lk ik v -> E e M').
  { intros e M' lost' H1 H2 H3. exists lost'. auto. }
  unfold insert_to_list. cbv zeta. apply kwp_locked, kwp_bind, kwp_get; [apply (C0 _ lost); [done|lia]|].
  rewrite (core_get cfg lk M its ik HC). destruct (li_find its ik) as [[i old]|] eqn:Ef; cbn [fmap option_fmap option_map fst snd].
  - apply kwp_bind. eapply kwp_lift_ok; [apply cut8|apply (C0 _ lost); [done|lia]|].
    assert (l_get (map snd its) ik = Some old) as Eg by (by rewrite li_find_get, Ef).
    assert (Hrepl : forall st, (ins_post (map snd its) mode ik v st (l_update (map snd its) ik v)) ->
      st = IReplaced old -> kwp cfg (dok _ <- kreplace (item_key lph ik) (v ++ u64_bytes i) None; KRet (IReplaced old)) C Q E M).
    { intros st Hst ->. apply kwp_bind, kwp_replace2; [auto with kne|apply (C0 _ lost); [done|lia]| | |].
      - rewrite (core_get cfg lk M its ik HC), Ef. by eexists.
      - intros e He. apply (E0 _ _ lost); [done|lia|]. intros Ha. apply (acc_item ik v i) in Ha. congruence.
      - intros _. set (M1 := <[_ := _]> M).
        assert (rep M1 (li_update its ik v) lost) as HR1.
        { split; [by eapply core_update|]. destruct HR as [_ Hr]. unfold rec_ok in *. unfold M1. rewrite lookup_insert_ne by kdiff.
          destruct (M !! list_key lk) as [b|].
          - destruct Hr as (h & t & -> & H1 & H2 & H3 & H4). exists h, t.
            assert (len (li_update its ik v) = len its) as El by (unfold len, li_update; by rewrite map_length). rewrite El.
            split; [done|]. split; [done|]. split; [done|]. split; [|done].
            apply (proj1 (List.Forall_map fst (fun i => h <= i < t) _)). rewrite li_update_fst. by apply List.Forall_map.
          - destruct Hr as [-> ->]. done. }
        split; [eapply C1; [exact HR1|]; rewrite li_update_map; exact Hst|]. intros _. apply kwp_ret.
        + eapply C1; [exact HR1|]. rewrite li_update_map. exact Hst.
        + exists (li_update its ik v). rewrite li_update_map. done. }
    unfold ins_post in Hrepl, C1. rewrite Eg in Hrepl, C1. destruct mode as [|[ex|]|].
    + eapply Hrepl; [|done]. done.
    + case_bool_decide as Hex.
      * eapply Hrepl; [|done]. left. subst ex. by rewrite u64_bytes_len.
      * apply kwp_ret; [apply (C0 _ lost); [done|lia]|]. exists its. split; [done|]. unfold ins_post. rewrite Eg. by right.
    + eapply Hrepl; [|done]. done.
    + apply kwp_ret; [apply (C0 _ lost); [done|lia]|]. exists its. split; [done|]. unfold ins_post. by rewrite Eg.
  - assert (l_get (map snd its) ik = None) as Eg by (by rewrite li_find_get, Ef).
    assert (Happ : forall t h n, Forall (fun x : N * (bytes * bytes) => h <= fst x < t) its -> h <= t -> t + 1 < U64 ->
       n = len its + lost -> n <= t - h -> (mode = MSet \/ mode = MGetOrCreate) ->
       forall M1, M1 = <[list_key lk := enc_rec (LRec h (t + 1) (n + 1))]> M ->
       rep M1 its (lost + 1) /\
       kwp cfg (dok _ <- kset (chain_key lph t) (ihash ik); dok _ <- kset (item_key lph ik) (v ++ u64_bytes t); KRet (ICreated v)) C Q E M1).
    { intros t h n Hf Hht Ht Hn Hnt Hmode M1 ->.
      assert (Forall (fun x : N * (bytes * bytes) => fst x < t) its) as Hft by (eapply Forall_impl; [exact Hf|]; intros x Hx; cbn beta in *; lia).
      assert (Forall (fun x : N * (bytes * bytes) => h <= fst x < t + 1) its) as Hf1 by (eapply Forall_impl; [exact Hf|]; intros x Hx; cbn beta in *; lia).
      assert (forall x, (t, x) ∉ its) as Hnin. { intros x Hx. rewrite Forall_forall in Hft. apply Hft in Hx. cbn in Hx. lia. }
      assert (rep (<[list_key lk:=enc_rec (LRec h (t + 1) (n + 1))]> M) its (lost + 1)) as HR1.
      { apply (rep_of _ _ _ h (t + 1) (n + 1)); [by apply core_rec|apply lookup_insert|lia|lia|done|lia|lia]. }
      split; [done|]. set (M1 := <[list_key lk := _]> M) in *.
      apply kwp_bind, kwp_set2; [auto with kne|by apply (C0 _ (lost + 1)); [|lia]| |].
      { intros e He. apply (E0 _ _ (lost + 1)); [done|lia|]. intros Ha. apply (acc_chain ik v t (hashk cfg (item_key lph ik))) in Ha. congruence. }
      intros _. set (M2 := <[chain_key lph t := _]> M1).
      assert (rep M2 its (lost + 1)) as HR2.
      { apply (rep_of _ _ _ h (t + 1) (n + 1)); [apply core_link; [by apply core_rec|lia|done]| |lia| |exact Hf1| |]; [unfold M2, M1; rewrite lookup_insert_ne by kdiff; apply lookup_insert|lia|lia|lia]. }
      split; [by apply (C0 _ (lost + 1)); [|lia]|]. intros _.
      apply kwp_bind, kwp_set2; [auto with kne|by apply (C0 _ (lost + 1)); [|lia]| |].
      { intros e He. apply (E0 _ _ (lost + 1)); [done|lia|]. intros Ha. apply (acc_item ik v t) in Ha. congruence. }
      intros _. set (M3 := <[item_key lph ik := _]> M2).
      assert (rep M3 (its ++ [(t, (ik, v))]) lost) as HR3.
      { apply (rep_of _ _ _ h (t + 1) (n + 1)); [apply core_append; [by apply core_rec|done|lia|done]| |lia| | | |].
        - unfold M3, M2, M1. rewrite !lookup_insert_ne by kdiff. apply lookup_insert.
        - lia.
        - apply Forall_app. split; [done|]. constructor; [cbn; lia|done].
        - rewrite Base.len_app. change (len [(t, (ik, v))]) with 1. lia.
        - lia. }
      assert (ins_post (map snd its) mode ik v (ICreated v) (map snd (its ++ [(t, (ik, v))]))) as Hp.
      { unfold ins_post. rewrite Eg, map_app. by destruct Hmode as [-> | ->]. }
      split; [by eapply C1|]. intros _. apply kwp_ret; [by eapply C1|]. by exists (its ++ [(t, (ik, v))]). }
    assert (Hmain : (mode = MSet \/ mode = MGetOrCreate) ->
      kwp cfg (dok res <- kgoc (list_key lk) (enc_rec (LRec FIRST_IDX (FIRST_IDX + 1) 1));
      match res with
      | GCreated _ =>
        dok _ <- kset (chain_key lph FIRST_IDX) (ihash ik);
        dok _ <- kset (item_key lph ik) (v ++ u64_bytes FIRST_IDX);
        KRet (ICreated v)
      | GExisting lb =>
        dok l <- klift (dec_rec lb);
        let idx := l_tail l in
        dok tail <- klift (inc64 (l_tail l));
        dok num <- klift (inc64 (l_num l));
        dok _ <- kset (list_key lk) (enc_rec (LRec (l_head l) tail num));
        dok _ <- kset (chain_key lph idx) (ihash ik);
        dok _ <- kset (item_key lph ik) (v ++ u64_bytes idx);
        KRet (ICreated v)
      end) C Q E M).
    { intros Hmode. apply kwp_bind, kwp_goc2; [auto with kne|by apply (C0 _ lost); [|lia]| | |].
      - intros e He. apply (E0 _ _ lost); [done|lia|]. intros Ha. apply (acc_record ik v) with (r := LRec FIRST_IDX (FIRST_IDX + 1) 1) in Ha. congruence.
      - intros b _ Hb. destruct (rec_case _ _ _ HR) as [(Hr & _)|(h & t & Hr & H1 & H2 & H3 & H4)]; [congruence|].
        assert (b = enc_rec (LRec h t (len its + lost))) as -> by congruence.
        pose proof (rep_index _ _ _ _ _ HR Hidx Hr H1 H2 H4) as Hroom.
        apply kwp_bind. eapply kwp_lift_ok; [apply dec_enc_rec; lia|by apply (C0 _ lost); [|lia]|]. cbv zeta. cbn [l_tail l_num l_head].
        apply kwp_bind. eapply (kwp_lift_ok _ (t + 1)); [unfold inc64; by replace (t + 1 <? U64) with true by (symmetry; apply N.ltb_lt; lia)|by apply (C0 _ lost); [|lia]|].
        apply kwp_bind. eapply (kwp_lift_ok _ (len its + lost + 1)); [unfold inc64; by replace (len its + lost + 1 <? U64) with true by (symmetry; apply N.ltb_lt; lia)|by apply (C0 _ lost); [|lia]|].
        destruct (Happ t h (len its + lost) H3 H1 ltac:(lia) eq_refl H4 Hmode _ eq_refl) as [HR1 Hk].
        apply kwp_bind, kwp_set2; [auto with kne|by apply (C0 _ lost); [|lia]| |].
        { intros e He. apply (E0 _ _ lost); [done|lia|]. intros Ha. apply (acc_record ik v) with (r := LRec h (t + 1) (len its + lost + 1)) in Ha. congruence. }
        intros _. split; [by apply (C0 _ (lost + 1)); [|lia]|]. intros _. exact Hk.
      - intros _ Hb. destruct (rec_case _ _ _ HR) as [(Hr & -> & ->)|(h & t & Hr & H1 & H2 & H3 & H4)]; [|congruence].
        destruct (Happ FIRST_IDX FIRST_IDX 0 (Forall_nil_2 _) ltac:(lia) ltac:(done) eq_refl ltac:(lia) Hmode _ eq_refl) as [HR1 Hk].
        change (0 + 1) with 1 in *. split; [by apply (C0 _ 1); [|lia]|]. exact Hk. }
    destruct mode as [|ex|].
    + apply Hmain. by left.
    + apply kwp_ret; [apply (C0 _ lost); [done|lia]|]. exists its. split; [done|]. unfold ins_post. by rewrite Eg.
    + apply Hmain. by right.
Qed.

(** ** Removal *)
Lemma entries_insert M k v : entries_ok cfg M -> ins_err cfg k v = None -> entries_ok cfg (<[k := v]> M).
Proof. intros H1 H2 k' v' H. apply lookup_insert_Some in H as [[<- <-]|[_ H]]; [done|by apply H1]. Qed.
Lemma entries_delete M k : entries_ok cfg M -> entries_ok cfg (delete k M).
Proof. intros H1 k' v' H. apply lookup_delete_Some in H as [_ H]. by apply H1. Qed.
Lemma entries_same M k v v' : entries_ok cfg M -> M !! k = Some v -> length v' = length v -> ins_err cfg k v' = None.
Proof. intros H1 H2 H3. rewrite <- (H1 k v H2). by apply ins_err_len. Qed.
Lemma inc64_ok n : n + 1 < U64 -> inc64 n = Ok (n + 1).
Proof. intros H. unfold inc64. by replace (n + 1 <? U64) with true by (symmetry; by apply N.ltb_lt). Qed.
Lemma dec64_ok n : n <> 0 -> dec64 n = Ok (n - 1).
Proof. intros H. unfold dec64. by destruct (N.eqb_spec n 0). Qed.

Lemma li_remove_other its ik i v x : StronglySorted N.lt (map fst its) -> (i, (ik, v)) ∈ its -> x ∈ li_remove its ik -> x ∈ its /\ fst x <> i.
Proof.
  intros Hs Hin Hx. apply li_remove_in in Hx as [Hx Hne]. split; [done|]. intros E. apply Hne.
  apply sorted_nodup in Hs. pose proof (at_idx_in its i (ik, v) Hs Hin) as E1. destruct x as [j y]. cbn in E. subst j.
  pose proof (at_idx_in its i y Hs Hx) as E2. assert (y = (ik, v)) as -> by congruence. done.
Qed.
Lemma index_le M M' h t n h' t' n' : index_room (list_key lk) M -> M !! list_key lk = Some (enc_rec (LRec h t n)) -> h < U64 -> t < U64 -> n < U64 ->
  M' !! list_key lk = Some (enc_rec (LRec h' t' n')) -> h' < U64 -> t' <= t -> n' <= n -> index_room (list_key lk) M'.
Proof.
  intros Hi Hr H1 H2 H3 Hr' H4 H5 H6 b r Hb Hd. assert (b = enc_rec (LRec h' t' n')) as -> by congruence.
  rewrite dec_enc_rec in Hd by lia. assert (r = LRec h' t' n') as -> by congruence. cbn [l_tail l_num].
  pose proof (Hi _ _ Hr (dec_enc_rec h t n ltac:(lia) ltac:(lia) ltac:(lia))) as X. cbn [l_tail l_num] in X. lia.
Qed.
Lemma index_none M : M !! list_key lk = None -> index_room (list_key lk) M.
Proof. intros H b r Hb. congruence. Qed.

Lemma kwp_remove M its lost ik : rep M its lost -> entries_ok cfg M ->
  kwp cfg (remove_from_list cfg lk ik) (fun _ => True)
    (fun y M' => rep M' (li_remove its ik) lost /\ y = snd <$> li_find its ik /\ (index_room (list_key lk) M -> index_room (list_key lk) M'))
    (fun _ _ => False) M.
Proof.
  intros HR Hent. pose proof (rep_core _ _ _ HR) as HC. unfold remove_from_list. cbv zeta. apply kwp_locked, kwp_bind, kwp_get; [done|].
  rewrite (core_get cfg lk M its ik HC). destruct (li_find its ik) as [[i old]|] eqn:Ef; cbn [fmap option_fmap option_map fst snd].
  2:{ apply kwp_ret; [done|]. split; [|done].
      assert (li_remove its ik = its) as ->; [|done]. pose proof (li_find_None _ _ Ef) as Hn. clear -Hn. induction its as [|[j [k w]] its IH]; [done|].
      unfold li_remove. cbn. case_bool_decide as Hk; cbn [negb].
      - exfalso. subst k. eapply Hn. left.
      - f_equal. apply IH. intros a b Hab. eapply Hn. right. exact Hab. }
  pose proof (li_find_Some _ _ _ _ Ef) as Hin. pose proof (co_bound _ _ _ _ HC) as Hb. rewrite Forall_forall in Hb.
  pose proof (Hb _ Hin) as Hi. cbn in Hi.
  apply kwp_bind. eapply kwp_lift_ok; [apply cut8|done|]. cbv beta iota. rewrite le_N_u64 by done.
  apply kwp_bind, kwp_get; [done|]. apply kwp_bind.
  destruct (rec_case _ _ _ HR) as [(_ & -> & _)|(h & t & Hr & H1 & H2 & H3 & H4)]; [by apply elem_of_nil in Hin|].
  rewrite Hr. pose proof (len_remove its ik i old (co_keys _ _ _ _ HC) Ef) as Hlen.
  rewrite Forall_forall in H3. pose proof (H3 _ Hin) as Hi2. cbn in Hi2.
  apply kwp_bind. eapply kwp_lift_ok; [apply dec_enc_rec; lia|done|]. cbn [l_head l_tail l_num].
  apply kwp_bind. eapply kwp_lift_ok; [apply dec64_ok; lia|done|].
  (* the new range *)
  set (h' := if h =? i then h + 1 else h). set (t' := if h =? i then t else if t =? i + 1 then t - 1 else t).
  assert (Forall (fun x : N * (bytes * bytes) => h' <= fst x < t') (li_remove its ik)) as H3'.
  { apply Forall_forall. intros x Hx. apply (li_remove_other its ik i old) in Hx as [Hx Hne]; [|apply (co_sorted _ _ _ _ HC)|done].
    pose proof (H3 _ Hx) as Hx2. cbn beta in Hx2. unfold h', t'. destruct (N.eqb_spec h i); [lia|]. destruct (N.eqb_spec t (i + 1)); lia. }
  assert (h' <= t' /\ t' <= t /\ h' < U64 /\ len (li_remove its ik) + lost <= t' - h') as (H1' & H2' & Hh' & H4').
  { unfold h', t'. destruct (N.eqb_spec h i); [lia|]. destruct (N.eqb_spec t (i + 1)); [lia|].
    assert (len (li_remove its ik) + lost + 1 <= t - h) by lia. lia. }
  assert (Hcont : forall M1, core M1 its -> M1 !! list_key lk = (if h' =? t' then None else Some (enc_rec (LRec h' t' (len its + lost - 1)))) ->
    kwp cfg (dok _ <- kop1 (KRem (chain_key lph i)); dok _ <- kop1 (KRem (item_key lph ik)); KRet (Some old)) (fun _ => True)
      (fun y M' => rep M' (li_remove its ik) lost /\ y = Some old /\ (index_room (list_key lk) M -> index_room (list_key lk) M')) (fun _ _ => False) M1).
  { intros M1 HC1 Hr1. apply kwp_bind, kwp_rem; [done|done|]. apply kwp_bind, kwp_rem; [done|done|]. apply kwp_ret; [done|].
    set (M2 := delete _ _). assert (core M2 (li_remove its ik)) as HC2 by (by eapply core_remove).
    assert (M2 !! list_key lk = M1 !! list_key lk) as E2 by (unfold M2; by rewrite !lookup_delete_ne by kdiff).
    rewrite Hr1 in E2. destruct (N.eqb_spec h' t') as [Eh|Eh].
    - assert (li_remove its ik = []) as En.
      { destruct (li_remove its ik) as [|x l]; [done|]. apply Forall_cons in H3' as [H3' _]. lia. }
      rewrite En in *. change (len []) with 0 in *. split; [split; [done|]; unfold rec_ok; rewrite E2; split; [done|lia]|]. split; [done|].
      intros _. by apply index_none.
    - split; [eapply rep_of; [done|exact E2|done|lia|done|lia|lia]|]. split; [done|].
      intros Hx. eapply index_le; [exact Hx|exact Hr|lia|lia|lia|exact E2|done|lia|lia]. }
  apply kwp_bind. apply (kwp_mono _ _ (fun _ => True) (fun _ => True) (fun a M' => M' = M /\ (h =? i = false -> a = i + 1)) _ (fun _ _ => False) _); [done| |done|].
  2:{ destruct (N.eqb_spec h i) as [E|E]; [by apply kwp_ret|]. eapply kwp_lift_ok; [apply inc64_ok; lia|done|done]. }
  intros idx1 M' _ [-> Hidx1]. apply kwp_bind.
  apply (kwp_mono _ _ (fun _ => True) (fun _ => True) (fun a M' => M' = M /\ a = (h', t')) _ (fun _ _ => False) _); [done| |done|].
  2:{ unfold h', t'. destruct (N.eqb_spec h i) as [E|E].
      - apply kwp_bind. eapply kwp_lift_ok; [apply inc64_ok; lia|done|]. by apply kwp_ret.
      - rewrite Hidx1 by done. destruct (N.eqb_spec t (i + 1)) as [E'|E'].
        + apply kwp_bind. eapply kwp_lift_ok; [apply dec64_ok; lia|done|]. by apply kwp_ret.
        + by apply kwp_ret. }
  intros ht M' _ [-> ->]. destruct (h' =? t') eqn:Eht.
  - apply kwp_bind, kwp_rem; [done|done|]. apply kwp_ret; [done|]. apply Hcont; [by apply core_unrec|]. apply lookup_delete.
  - apply kwp_bind, kwp_set; [auto with kne|eapply entries_same; [done|exact Hr|by rewrite !enc_rec_len]|done|done|].
    apply kwp_ret; [done|]. apply Hcont; [by apply core_rec|]. apply lookup_insert.
Qed.

(** ** Popping *)
Lemma kwp_pop M its lost : rep M its lost -> entries_ok cfg M -> forall js, (forall j, j ∈ js -> j < U64) ->
  kwp cfg (pop_items cfg lk js) (fun _ => True)
    (fun y M' => y = first (omap (at_idx its) js) /\
       match y with Some x => rep M' (li_remove its (fst x)) lost | None => M' = M end)
    (fun _ _ => False) M.
Proof.
  intros HR Hent. pose proof (rep_core _ _ _ HR) as HC. induction js as [|j js IH]; intros Hj; cbn [pop_items]; [by apply kwp_ret|].
  assert (forall i, i ∈ js -> i < U64) as Hj' by (intros i Hi; apply Hj; by right).
  apply kwp_bind, (kwp_at_index M its); [done|apply Hj; left|done|]. unfold at_item. cbn [omap list_omap].
  destruct (at_idx its j) as [[ik v]|] eqn:Ea; cbn [fmap option_fmap option_map fst snd].
  - apply kwp_bind, kwp_trunc; [done|]. cbv beta. cbn [fst]. apply kwp_bind.
    eapply kwp_mono; [| | |by apply (kwp_remove M its lost ik)]; [done| |done].
    intros y M' _ (HR' & -> & _). apply at_idx_Some in Ea. rewrite (core_find _ _ _ _ _ _ _ HC Ea). cbn. done.
  - by apply IH.
Qed.

(** ** Discarding *)
Lemma kwp_discard : forall js M its b, core M its -> M !! list_key lk = Some b -> (forall j, j ∈ js -> j < U64) ->
  kwp cfg (discard_items lph js) (fun _ => True)
    (fun _ M' => exists its', core M' its' /\ M' !! list_key lk = Some b /\ forall x, x ∈ its' -> x ∈ its /\ fst x ∉ js)
    (fun _ _ => False) M.
Proof.
  induction js as [|j js IH]; intros M its b HC Hr Hj; cbn [discard_items].
  { apply kwp_ret; [done|]. exists its. split; [done|]. split; [done|]. intros x Hx. split; [done|apply not_elem_of_nil]. }
  assert (forall i, i ∈ js -> i < U64) as Hj' by (intros i Hi; apply Hj; by right).
  apply kwp_bind, (kwp_at_index M its); [done|apply Hj; left|done|]. unfold at_item.
  destruct (at_idx its j) as [[ik v]|] eqn:Ea; cbn [fmap option_fmap option_map fst snd].
  - apply at_idx_Some in Ea. pose proof (core_find _ _ _ _ _ _ _ HC Ea) as Ef.
    apply kwp_bind, kwp_rem; [done|done|]. apply kwp_bind, kwp_rem; [done|done|].
    eapply kwp_mono; [| | |apply (IH _ (li_remove its ik) b); [by eapply core_remove|by rewrite !lookup_delete_ne by kdiff|done]]; [done| |done].
    intros [] M' _ (its' & H1 & H2 & H3). exists its'. split; [done|]. split; [done|]. intros x Hx. apply H3 in Hx as [Hx Hn].
    apply (li_remove_other its ik j v) in Hx as [Hx Hne]; [|apply (co_sorted _ _ _ _ HC)|done].
    split; [done|]. apply not_elem_of_cons. done.
  - eapply kwp_mono; [| | |by apply (IH M its b)]; [done| |done].
    intros [] M' _ (its' & H1 & H2 & H3). exists its'. split; [done|]. split; [done|]. intros x Hx. apply H3 in Hx as [Hx Hn].
    split; [done|]. apply not_elem_of_cons. split; [|done]. intros E. destruct x as [i y]. cbn in E. subst i. by eapply at_idx_None.
Qed.

(** ** Compaction *)
Lemma core_move M R D idx new ik v : core M ((idx, (ik, v)) :: R ++ D) -> new < U64 ->
  Forall (fun x : N * (bytes * bytes) => fst x < new) ((idx, (ik, v)) :: R ++ D) ->
  core (delete (chain_key lph idx) (<[item_key lph ik := v ++ u64_bytes new]> (<[chain_key lph new := ihash ik]> M))) (R ++ D ++ [(new, (ik, v))]).
Proof.
  intros HC Hn Hf. apply Forall_cons in Hf as [Hi Hf]. cbn in Hi.
  assert (li_find ((idx, (ik, v)) :: R ++ D) ik = Some (idx, v)) as Ef by (unfold li_find; cbn; by rewrite bool_decide_eq_true_2).
  pose proof (core_remove cfg lk _ _ _ _ _ HC Ef) as HC1.
  pose proof (co_keys _ _ _ _ HC) as Hnd. cbn in Hnd. apply NoDup_cons in Hnd as [Hnd _].
  assert (forall y, y ∈ R ++ D -> ik_of y <> ik) as Hk.
  { intros y Hy E. apply Hnd. apply elem_of_list_fmap. exists y. done. }
  assert (li_remove ((idx, (ik, v)) :: R ++ D) ik = R ++ D) as Er.
  { unfold li_remove. cbn. rewrite bool_decide_eq_true_2 by done. cbn [negb]. clear -Hk. induction (R ++ D) as [|x l IH]; [done|]. cbn.
    rewrite bool_decide_eq_false_2 by (apply Hk; left). cbn. f_equal. apply IH. intros y Hy. apply Hk. by right. }
  rewrite Er in HC1. rewrite app_assoc.
  eapply core_ext; [| |apply (core_append cfg lk _ _ new ik v HC1)].
  - intros ik'. rewrite lookup_delete_ne by kdiff. destruct (decide (ik' = ik)) as [->|Hne]; [by rewrite !lookup_insert|].
    rewrite !(lookup_insert_ne _ (item_key lph ik)) by (intros E; by apply item_key_inj in E).
    rewrite !(lookup_insert_ne _ (chain_key lph new)) by kdiff. rewrite lookup_delete_ne by (intros E; by apply item_key_inj in E).
    by rewrite lookup_delete_ne by kdiff.
  - intros j. destruct (decide (chain_key lph idx = chain_key lph j)) as [E|Hne].
    + rewrite <- E, lookup_delete. rewrite (lookup_insert_ne _ (item_key lph ik)) by kdiff.
      rewrite lookup_insert_ne.
      * rewrite lookup_delete_ne by kdiff. by rewrite lookup_delete.
      * intros E'. apply chain_key_inj in E'; lia.
    + rewrite lookup_delete_ne by done. rewrite !(lookup_insert_ne _ (item_key lph ik)) by kdiff.
      destruct (decide (chain_key lph new = chain_key lph j)) as [E'|Hne']; [by rewrite E', !lookup_insert|].
      rewrite !lookup_insert_ne by done. rewrite lookup_delete_ne by kdiff. by rewrite lookup_delete_ne.
  - destruct (li_find (R ++ D) ik) as [[j w]|] eqn:E; [|done]. apply li_find_Some in E. exfalso. by apply (Hk _ E).
  - done.
  - done.
Qed.
Lemma kwp_compact_items b t0 : forall n idx new M R D, core M (R ++ D) -> entries_ok cfg M -> M !! list_key lk = Some b ->
  idx + N.of_nat n = t0 -> Forall (fun x : N * (bytes * bytes) => idx <= fst x < t0) R -> Forall (fun x : N * (bytes * bytes) => t0 <= fst x < new) D ->
  new = t0 + len D -> new + len R < U64 ->
  kwp cfg (compact_items lph n idx new) (fun _ => True)
    (fun new' M' => exists D', core M' D' /\ entries_ok cfg M' /\ M' !! list_key lk = Some b /\ map snd D' = map snd D ++ map snd R /\
       Forall (fun x : N * (bytes * bytes) => t0 <= fst x < new') D' /\ new' = t0 + len D' /\ new' < U64)
    (fun _ _ => False) M.
Proof.
  induction n as [|n IH]; intros idx new M R D HC Hent Hr Hidx HfR HfD Hnew Hroom; cbn [compact_items].
  - apply kwp_ret; [done|]. destruct R as [|x R]; [|apply Forall_cons in HfR as [HfR _]; lia]. exists D. cbn [map app] in *.
    rewrite app_nil_r. split; [done|]. split; [done|]. split; [done|]. split; [done|]. split; [done|]. split; [done|]. lia.
  - assert (idx < U64) as Hi by lia. apply kwp_bind, (kwp_at_index M (R ++ D)); [done|done|done|]. unfold at_item.
    pose proof (co_sorted _ _ _ _ HC) as Hs.
    destruct (at_idx (R ++ D) idx) as [[ik v]|] eqn:Ea; cbn [fmap option_fmap option_map fst snd].
    + apply at_idx_Some in Ea.
      assert (exists R', R = (idx, (ik, v)) :: R') as [R' ->].
      { apply elem_of_app in Ea as [Ea|Ea]; [|rewrite Forall_forall in HfD; apply HfD in Ea; cbn in Ea; lia].
        destruct R as [|[j y] R]; [by apply elem_of_nil in Ea|]. apply elem_of_cons in Ea as [->|Ea]; [by eexists|].
        exfalso. cbn in Hs. apply StronglySorted_inv in Hs as [_ Hs]. rewrite Forall_forall in Hs.
        assert (idx ∈ map fst (R ++ D)) as Hin. { apply elem_of_list_fmap. exists (idx, (ik, v)). split; [done|]. apply elem_of_app. by left. }
        apply Hs in Hin. apply Forall_cons in HfR as [HfR _]. cbn in HfR. lia. }
      apply Forall_cons in HfR as [_ HfR]. cbn [app] in HC, Ea.
      assert (len ((idx, (ik, v)) :: R') = 1 + len R') as El by (unfold len; cbn [length]; lia). rewrite El in *.
      assert (M !! chain_key lph idx = Some (ihash ik)) as Ech by (eapply (co_chain _ _ _ _ HC); left).
      assert (M !! item_key lph ik = Some (v ++ u64_bytes idx)) as Eit by (apply (co_items _ _ _ _ HC); exists idx, v; split; [left|done]).
      assert (ins_err cfg (chain_key lph new) (ihash ik) = None) as He1.
      { rewrite <- (Hent _ _ Ech). apply ins_err_len; [by rewrite !chain_key_len|done]. }
      assert (ins_err cfg (item_key lph ik) (v ++ u64_bytes new) = None) as He2.
      { eapply entries_same; [done|exact Eit|]. by rewrite !app_length, !u64_bytes_len. }
      apply kwp_bind, kwp_set; [auto with kne|done|done|done|]. cbv beta. apply kwp_bind. eapply kwp_lift_ok; [apply cut8|done|]. cbv beta iota.
      apply kwp_bind, kwp_set; [auto with kne|done|done|done|]. apply kwp_bind, kwp_rem; [done|done|].
      apply kwp_bind. eapply kwp_lift_ok; [apply inc64_ok; lia|done|].
      assert (Forall (fun x : N * (bytes * bytes) => idx + 1 <= fst x < t0) R') as HfR'.
      { rewrite Forall_forall in HfR |- *. intros x Hx. pose proof (HfR x Hx) as H. cbn beta in H |- *.
        cbn in Hs. apply StronglySorted_inv in Hs as [_ Hs]. rewrite Forall_forall in Hs.
        assert (fst x ∈ map fst (R' ++ D)) as Hin. { apply elem_of_list_fmap. exists x. split; [done|]. apply elem_of_app. by left. }
        apply Hs in Hin. lia. }
      eapply kwp_mono; [| | |apply (IH (idx + 1) (new + 1) _ R' (D ++ [(new, (ik, v))]))]; [done| |done| | | | | | | |].
      * intros new' M' _ (D' & H1 & H2 & H3 & H4 & H5 & H6). exists D'. split; [done|]. split; [done|]. split; [done|]. split; [|done].
        rewrite H4, map_app. cbn. by rewrite <- app_assoc.
      * apply core_move; [done|lia|]. constructor; [cbn; lia|]. apply Forall_app. split.
        -- eapply Forall_impl; [exact HfR|]. intros x Hx. cbn beta in *. lia.
        -- eapply Forall_impl; [exact HfD|]. intros x Hx. cbn beta in *. lia.
      * apply entries_delete. apply entries_insert; [|done]. by apply entries_insert.
      * rewrite lookup_delete_ne by kdiff. by rewrite !lookup_insert_ne by kdiff.
      * lia.
      * exact HfR'.
      * apply Forall_app. split; [eapply Forall_impl; [exact HfD|]; intros x Hx; cbn beta in *; lia|]. constructor; [cbn; lia|done].
      * rewrite Base.len_app. change (len [(new, (ik, v))]) with 1. lia.
      * lia.
    + apply (IH (idx + 1) new M R D); try done; [lia|].
      rewrite Forall_forall in HfR |- *. intros [j x] Hx. pose proof (HfR _ Hx) as H. cbn in H |- *.
      assert (j <> idx) as Hne; [|lia]. intros ->. eapply at_idx_None; [exact Ea|]. apply elem_of_app. left. exact Hx.
Qed.

(** ** All calls *)
Definition lcrash (c : lcall) (its : ixs) (lost : N) (M' : kvmap) : Prop :=
  adds_or_reads c = true -> exists its' lost', rep M' its' lost' /\ lost' <= lost + 1 /\
    (map snd its' = map snd its \/ exists y, list_spec_lost (map snd its) lost c y (map snd its')).
Definition lpost (c : lcall) (its : ixs) (lost : N) (y : reply) (M' : kvmap) : Prop :=
  exists its' lost', rep M' its' lost' /\ lost' <= lost /\ list_spec_lost (map snd its) lost c y (map snd its').
Definition lfail (c : lcall) (its : ixs) (lost : N) (M' : kvmap) : Prop :=
  exists its' lost', rep M' its' lost' /\ lost' <= lost + 1 /\ ~ lcall_accepts cfg lk c /\
    (map snd its' = map snd its \/ exists ik v, c = LSetPromoting ik v /\ map snd its' = l_remove (map snd its) ik).

Lemma lcrash_same c its lost M : rep M its lost -> lcrash c its lost M.
Proof. intros HR _. exists its, lost. split; [done|]. split; [lia|by left]. Qed.
Lemma lcrash_unsafe c its lost M : adds_or_reads c = false -> lcrash c its lost M.
Proof. intros E E'. congruence. Qed.
Lemma len_map_snd its : len (map snd its) = len its.
Proof. unfold len. by rewrite map_length. Qed.
Lemma l_get_remove its ik : l_get (map snd (li_remove its ik)) ik = None.
Proof.
  rewrite li_find_get. destruct (li_find (li_remove its ik) ik) as [[i v]|] eqn:E; [|done]. apply li_find_Some in E.
  apply li_remove_in in E as [_ E]. done.
Qed.

Lemma list_kwp M its lost c : rep M its lost -> (list_reads c = false -> entries_ok cfg M /\ index_room (list_key lk) M) ->
  kwp cfg (list_prog cfg lk c) (lcrash c its lost) (lpost c its lost) (fun _ => lfail c its lost) M.
Proof.
  intros HR Hroom0. pose proof (rep_core _ _ _ HR) as HC.
  assert (Hread : forall M', M' = M -> lcrash c its lost M') by (intros M' ->; by apply lcrash_same).
  assert (Hpost : forall y l' its', rep M its lost -> map snd its' = l' -> list_spec_lost (map snd its) lost c y l' -> forall M' lost', rep M' its' lost' -> lost' <= lost -> lpost c its lost y M').
  { intros y l' its' _ <- Hs M' lost' HR' Hl. exists its', lost'. done. }
  destruct c as [ik v|ik v|ik v ex|ik v|ik|ik|few ml|fwd|fwd|fwd| |]; cbn [list_prog]; apply kwp_map.
  - (* LSet *)
    destruct (Hroom0 eq_refl) as [Hent Hidx].
    unfold set_in_list. apply kwp_bind, kwp_ret; [by apply Hread|]. apply kwp_bind.
    eapply kwp_mono; [| | |by apply (kwp_insert M its lost ik v MSet)].
    + intros M' (its' & lost' & H1 & H2 & H3) _. exists its', lost'. split; [done|]. split; [done|].
      destruct H3 as [H3|[st H3]]; [by left|right]. cbn [list_spec_lost list_spec]. unfold l_set. unfold ins_post in H3.
      destruct (l_get (map snd its) ik); destruct H3 as [_ ->]; eauto.
    + intros st M' Hc (its' & H1 & H2). unfold ins_post in H2.
      assert (Hcr : lcrash (LSet ik v) its lost M').
      { intros _. exists its', lost. split; [done|]. split; [lia|]. right. cbn [list_spec_lost list_spec]. unfold l_set.
        destruct (l_get (map snd its) ik); destruct H2 as [_ ->]; eauto. }
      destruct (l_get (map snd its) ik) as [old|] eqn:Eg; destruct H2 as [-> H2]; apply kwp_ret; try done; exists its', lost; (split; [done|]); (split; [lia|]);
        cbn [list_spec_lost list_spec]; unfold l_set; rewrite Eg; done.
    + intros e M' _ (lost' & H1 & H2 & H3). exists its, lost'. split; [done|]. split; [done|]. split; [done|by left].
  - (* LSetPromoting *)
    destruct (Hroom0 eq_refl) as [Hent Hidx].
    unfold set_in_list. eapply kwp_mono with (C := fun _ => True); [intros M' _; by apply lcrash_unsafe|intros a M' _ HQ; exact HQ|intros a M' _ HQ; exact HQ|].
    apply kwp_bind, kwp_bind. eapply kwp_mono; [| | |by apply (kwp_remove M its lost ik)]; [done| |done].
    intros y M1 _ (HR1 & _ & Hidx1). apply kwp_ret; [done|]. apply kwp_bind.
    eapply kwp_mono; [| | |apply (kwp_insert M1 (li_remove its ik) lost ik v MSet); [done|by apply Hidx1]].
    + done.
    + intros st M' _ (its' & H1 & H2). unfold ins_post in H2. rewrite l_get_remove in H2. destruct H2 as [-> H2].
      apply kwp_ret; [done|]. exists its', lost. split; [done|]. split; [lia|]. cbn [list_spec_lost list_spec]. by rewrite H2, li_remove_map.
    + intros e M' _ (lost' & H1 & H2 & H3). exists (li_remove its ik), lost'. split; [done|]. split; [done|]. split; [done|]. right.
      exists ik, v. split; [done|]. by rewrite li_remove_map.
  - (* LReplace *)
    destruct (Hroom0 eq_refl) as [Hent Hidx].
    unfold replace_in_list. apply kwp_bind.
    eapply kwp_mono; [| | |by apply (kwp_insert M its lost ik v (MReplace ex))].
    + intros M' (its' & lost' & H1 & H2 & H3) _. exists its', lost'. split; [done|]. split; [done|].
      destruct H3 as [H3|[st H3]]; [by left|]. unfold ins_post in H3. destruct (l_get (map snd its) ik) as [old|] eqn:Eg; [|left; by destruct H3].
      destruct ex as [ex|].
      * destruct H3 as [(Hx & _ & H3)|[_ H3]]; [|by left]. right. exists (YReplace (RPrevValue old)). cbn [list_spec_lost list_spec]. rewrite Eg. by left.
      * destruct H3 as [_ H3]. right. exists (YReplace (RPrevValue old)). cbn [list_spec_lost list_spec]. by rewrite Eg.
    + intros st M' Hc (its' & H1 & H2). unfold ins_post in H2.
      assert (Hcr : lcrash (LReplace ik v ex) its lost M').
      { intros _. exists its', lost. split; [done|]. split; [lia|]. cbn [list_spec_lost list_spec].
        destruct (l_get (map snd its) ik) as [old|] eqn:Eg; [|left; by destruct H2]. destruct ex as [ex|].
        - destruct H2 as [(Hx & _ & H2)|[_ H2]]; [right|by left]. exists (YReplace (RPrevValue old)). by left.
        - right. exists (YReplace (RPrevValue old)). by destruct H2. }
      destruct (l_get (map snd its) ik) as [old|] eqn:Eg.
      * destruct ex as [ex|].
        -- destruct H2 as [(Hx & -> & H2)|[-> H2]]; apply kwp_ret; try done; exists its', lost; (split; [done|]); (split; [lia|]);
             cbn [list_spec_lost list_spec]; rewrite Eg; [by left|by right].
        -- destruct H2 as [-> H2]. apply kwp_ret; [done|]. exists its', lost. split; [done|]. split; [lia|]. cbn [list_spec_lost list_spec]. by rewrite Eg.
      * destruct H2 as [-> H2]. apply kwp_ret; [done|]. exists its', lost. split; [done|]. split; [lia|]. cbn [list_spec_lost list_spec]. rewrite Eg. by destruct ex.
    + intros e M' _ (lost' & H1 & H2 & H3). exists its, lost'. split; [done|]. split; [done|]. split; [done|by left].
  - (* LGetOrCreate *)
    destruct (Hroom0 eq_refl) as [Hent Hidx].
    unfold get_or_create_in_list. apply kwp_bind.
    eapply kwp_mono; [| | |by apply (kwp_insert M its lost ik v MGetOrCreate)].
    + intros M' (its' & lost' & H1 & H2 & H3) _. exists its', lost'. split; [done|]. split; [done|].
      destruct H3 as [H3|[st H3]]; [by left|]. unfold ins_post in H3. destruct (l_get (map snd its) ik) as [old|] eqn:Eg; [left; by destruct H3|].
      right. exists (YGoc (GCreated v)). cbn [list_spec_lost list_spec]. rewrite Eg. by destruct H3.
    + intros st M' Hc (its' & H1 & H2). unfold ins_post in H2.
      assert (Hcr : lcrash (LGetOrCreate ik v) its lost M').
      { intros _. exists its', lost. split; [done|]. split; [lia|]. cbn [list_spec_lost list_spec].
        destruct (l_get (map snd its) ik) as [old|] eqn:Eg; [left; by destruct H2|]. right. exists (YGoc (GCreated v)). by destruct H2. }
      destruct (l_get (map snd its) ik) as [old|] eqn:Eg; destruct H2 as [-> H2]; apply kwp_ret; try done; exists its', lost; (split; [done|]); (split; [lia|]);
        cbn [list_spec_lost list_spec]; by rewrite Eg.
    + intros e M' _ (lost' & H1 & H2 & H3). exists its, lost'. split; [done|]. split; [done|]. split; [done|by left].
  - (* LGet *)
    unfold get_from_list. apply kwp_bind, kwp_get; [by apply Hread|]. rewrite (core_get cfg lk M its ik HC).
    assert (forall y, y = l_get (map snd its) ik -> lpost (LGet ik) its lost (YOpt y) M) as Hp.
    { intros y ->. exists its, lost. done. }
    rewrite li_find_get in Hp. destruct (li_find its ik) as [[i v]|]; cbn [fmap option_fmap option_map fst snd] in *.
    + apply kwp_bind. eapply kwp_lift_ok; [apply cut8|by apply Hread|]. cbv beta iota. apply kwp_ret; [by apply Hread|]. by apply Hp.
    + apply kwp_ret; [by apply Hread|]. by apply Hp.
  - (* LRemove *)
    destruct (Hroom0 eq_refl) as [Hent Hidx].
    eapply kwp_mono; [| | |by apply (kwp_remove M its lost ik)]; [intros M' _; by apply lcrash_unsafe| |done].
    intros y M' _ (HR1 & -> & _). exists (li_remove its ik), lost. split; [done|]. split; [lia|].
    cbn [list_spec_lost list_spec]. by rewrite li_remove_map, li_find_get.
  - (* LCompact *)
    destruct (Hroom0 eq_refl) as [Hent Hidx].
    eapply kwp_mono with (C := fun _ => True) (E := fun _ _ => False); [intros M' _; by apply lcrash_unsafe|intros a M' _ HQ; exact HQ|done|].
    unfold compact_list. cbv zeta. apply kwp_locked, kwp_bind, kwp_get; [done|].
    assert (forall y, lpost (LCompact few ml) its lost (YBool y) M) as Hsame.
    { intros y. exists its, lost. split; [done|]. split; [lia|]. cbn. eauto. }
    destruct (rec_case _ _ _ HR) as [(Hr & _)|(h & t & Hr & H1 & H2 & H3 & H4)]; rewrite Hr; [by apply kwp_ret|].
    pose proof (rep_index _ _ _ _ _ HR Hidx Hr H1 H2 H4) as Hroom.
    apply kwp_bind. eapply kwp_lift_ok; [apply dec_enc_rec; lia|done|]. cbn [l_head l_tail l_num].
    apply kwp_bind. eapply (kwp_lift_ok _ (t - h)); [unfold sub64; destruct (N.ltb_spec t h); [lia|done]|done|].
    destruct (t - h <? ml); [by apply kwp_ret|].
    apply kwp_bind. eapply (kwp_lift_ok _ (t - h - (len its + lost))); [unfold sub64; destruct (N.ltb_spec (t - h) (len its + lost)); [lia|done]|done|].
    destruct (few (t - h) (t - h - (len its + lost))); [by apply kwp_ret|].
    apply kwp_bind. eapply kwp_mono; [| | |apply (kwp_compact_items (enc_rec (LRec h t (len its + lost))) t (N.to_nat (t - h)) h t M its [])]; [done| |done| | | | | | | |].
    + intros new' M1 _ (D & K1 & K2 & K3 & K4 & K5 & K6 & K7). cbn [map app] in K4. apply kwp_bind.
      destruct (N.eqb_spec t new') as [Et|Et].
      * apply kwp_bind, kwp_rem; [done|done|]. apply kwp_ret; [done|]. apply kwp_ret; [done|].
        assert (D = []) as -> by (destruct D; [done|]; unfold len in K6; cbn in K6; lia).
        exists [], 0. split; [split; [by apply core_unrec|]; unfold rec_ok; by rewrite lookup_delete|]. split; [lia|]. cbn. cbn in K4. split; [done|eauto].
      * apply kwp_bind, kwp_set; [auto with kne| |done|done|].
        { eapply entries_same; [done|exact K3|]. by rewrite !enc_rec_len. }
        apply kwp_ret; [done|]. apply kwp_ret; [done|]. exists D, 0. cbn in K4. split; [|split; [lia|]; cbn; eauto].
        eapply rep_of; [by apply core_rec|apply lookup_insert|lia|lia|done|lia|lia].
    + by rewrite app_nil_r.
    + done.
    + done.
    + lia.
    + done.
    + done.
    + unfold len. cbn. lia.
    + lia.
  - (* LIter *)
    unfold iter_list. apply kwp_bind, (kwp_range M its lost); [done|by apply Hread| |].
    + intros -> ->. apply kwp_ret; [by apply Hread|]. exists [], 0. split; [done|]. split; [lia|]. cbn. by destruct fwd.
    + intros h t Ht Hf. cbv beta iota. apply (kwp_iter M its); [done|by apply Hread| |].
      * intros j Hj. apply idx_order_in in Hj. lia.
      * rewrite enum_order; [|apply (co_sorted _ _ _ _ HC)|done]. exists its, lost. split; [done|]. split; [lia|]. done.
  - (* LPeek *)
    unfold peek_list. apply kwp_bind, (kwp_range M its lost); [done|by apply Hread| |].
    + intros -> ->. apply kwp_ret; [by apply Hread|]. exists [], 0. split; [done|]. split; [lia|]. cbn. by destruct fwd.
    + intros h t Ht Hf. cbv beta iota. apply (kwp_peek M its); [done|by apply Hread| |].
      * intros j Hj. apply idx_order_in in Hj. lia.
      * rewrite enum_order; [|apply (co_sorted _ _ _ _ HC)|done]. exists its, lost. split; [done|]. split; [lia|]. done.
  - (* LPop *)
    destruct (Hroom0 eq_refl) as [Hent Hidx].
    eapply kwp_mono with (C := fun _ => True) (E := fun _ _ => False); [intros M' _; by apply lcrash_unsafe|intros a M' _ HQ; exact HQ|done|].
    unfold pop_list. apply kwp_bind, (kwp_range M its lost); [done|done| |].
    + intros -> ->. apply kwp_ret; [done|]. exists [], 0. split; [done|]. split; [lia|]. cbn. by destruct fwd.
    + intros h t Ht Hf. cbv beta iota. eapply kwp_mono; [| | |apply (kwp_pop M its lost HR Hent (idx_order fwd h t))]; [done| |done|].
      * intros y M' _ [-> Hy]. rewrite enum_order in *; [|apply (co_sorted _ _ _ _ HC)|done|apply (co_sorted _ _ _ _ HC)|done].
        destruct (first (direct fwd (map snd its))) as [[ik v]|] eqn:Ey.
        -- exists (li_remove its ik), lost. split; [done|]. split; [lia|]. cbn [list_spec_lost list_spec]. rewrite Ey. split; [done|]. apply li_remove_map.
        -- subst M'. exists its, lost. split; [done|]. split; [lia|]. cbn [list_spec_lost list_spec]. by rewrite Ey.
      * intros j Hj. apply idx_order_in in Hj. lia.
  - (* LDiscard *)
    destruct (Hroom0 eq_refl) as [Hent Hidx].
    eapply kwp_mono with (C := fun _ => True) (E := fun _ _ => False); [intros M' _; by apply lcrash_unsafe|intros a M' _ HQ; exact HQ|done|].
    unfold discard_list. apply kwp_locked, kwp_bind, kwp_get; [done|].
    destruct (rec_case _ _ _ HR) as [(Hr & -> & ->)|(h & t & Hr & H1 & H2 & H3 & H4)]; rewrite Hr.
    + apply kwp_ret; [done|]. exists [], 0. split; [done|]. split; [lia|]. cbn. split; [done|]. exists false. by split.
    + apply kwp_bind. eapply kwp_lift_ok; [apply dec_enc_rec; lia|done|]. cbn [l_head l_tail l_num]. apply kwp_bind.
      eapply kwp_mono; [| | |apply (kwp_discard (idx_seq h t) M its _ HC Hr)]; [done| |done|].
      * intros [] M1 _ (its' & K1 & K2 & K3). apply kwp_bind, kwp_rem; [done|done|]. apply kwp_ret; [done|].
        assert (its' = []) as ->.
        { destruct its' as [|x its']; [done|]. exfalso. destruct (K3 x) as [K4 K5]; [left|]. apply K5. rewrite Forall_forall in H3.
          apply H3 in K4. unfold idx_seq. apply elem_of_list_fmap. exists (N.to_nat (fst x - h)). split; [lia|]. apply elem_of_seq. lia. }
        exists [], 0. split; [split; [by apply core_unrec|]; unfold rec_ok; by rewrite lookup_delete|]. split; [lia|]. cbn. eauto.
      * intros j Hj. apply (idx_order_in true) in Hj. lia.
  - (* LLen *)
    unfold list_len. apply kwp_bind, kwp_get; [by apply Hread|].
    destruct (rec_case _ _ _ HR) as [(Hr & -> & ->)|(h & t & Hr & H1 & H2 & H3 & H4)]; rewrite Hr.
    + apply kwp_ret; [by apply Hread|]. exists [], 0. done.
    + apply kwp_bind. eapply kwp_lift_ok; [apply dec_enc_rec; lia|by apply Hread|]. apply kwp_ret; [by apply Hread|].
      exists its, lost. split; [done|]. split; [lia|]. cbn [list_spec_lost]. by rewrite len_map_snd.
Qed.
End progs.
