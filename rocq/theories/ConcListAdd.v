(** List calls of many threads that only add, change values and look (C51). *)
From Coq Require Import Sorted.
From Verif Require Import Base Hashing HashingProofs Fs Shard Router RouterPure Wpc Spec FileRep RowOps
  Compact Inv ShardOps Split Insert Open Merge Create Store Limits StoreRefine Kv Lists Queues Api Hist KvSpec
  HistInv KeySpace ListSpec ListRep ListProg ListHist ThmList Conc ConcSpec ConcLin ConcLock ConcList ConcSeen ConcSess ConcListAll ConcReads.
Local Arguments u64_bytes : simpl never.
Local Arguments enc_rec : simpl never.

(** ** Specification *)
(** The calls on the list add items, change values and look; with [vals] they do not change values,
    and do not ask for the length. *)
Definition list_adds (cfg : config) (lk : bytes) (vals : bool) (c : call) : Prop :=
  match c with
  | CList lk' lc => if bool_decide (lk' = lk) then lcall_accepts cfg lk lc /\
      match lc with
      | LGetOrCreate _ _ | LGet _ | LIter _ | LPeek _ => True
      | LSet _ _ | LReplace _ _ _ | LLen => vals = false
      | _ => False
      end else list_ph cfg lk' <> list_ph cfg lk
  | _ => True
  end.
(** An item returned for the item [p] of the list: the same key, with a value that it had at some
    moment [seen]; with [vals] the same value. *)
Definition item_seen (vals : bool) (seen : list items) (x p : kv) : Prop :=
  fst x = fst p /\ seen_in seen (fst x) (snd x) /\ (vals = true -> snd x = snd p).
(** What a call that takes effect on the list [l] may return and leave, having [seen] the states
    since it was made: an iterator returns the keys of one of these states, all of them and in
    order, a peek the key at the end of one of them; the length is off by at most one; the others
    act as on a map in insertion order. *)
Definition ladd (vals : bool) (seen : list items) (l : items) (c : lcall) (y : reply) (l' : items) : Prop :=
  match c with
  | LIter fwd => l' = l /\ exists l0 xs, l0 ∈ seen /\ y = YItems xs /\ Forall2 (item_seen vals seen) xs (direct fwd l0)
  | LPeek fwd => l' = l /\ exists l0 o, l0 ∈ seen /\ y = YItem o /\ option_Forall2 (item_seen vals seen) o (first (direct fwd l0))
  | LLen => l' = l /\ exists n, y = YNum n /\ n <= len l + 1 /\ len l <= n + 1 /\ (vals = true -> n = len l)
  | _ => list_spec l c y l'
  end.
Definition list_add_seen (lk : bytes) (vals : bool) (seen : list items) (l : items) (c : call) (r : res reply) (l' : items) : Prop :=
  match c with
  | CList lk' lc => if bool_decide (lk' = lk) then exists y, r = Ok y /\ ladd vals seen l lc y l' else l' = l
  | _ => l' = l
  end.
Definition no_mid {S : Type} (l : S) (c : call) (l' : S) : Prop := False.

(** ** Views of the history *)
Definition hmap {S T : Type} (f : S -> T) (ph : hphase S) : hphase T :=
  match ph with HCalled c seen => HCalled c (map f seen) | HDone r => HDone r end.
Lemma hmap_saw {S T : Type} (f : S -> T) l (P : gmap nat (hphase S)) : hmap f <$> (saw l <$> P) = saw (f l) <$> (hmap f <$> P).
Proof. rewrite <- !map_fmap_compose. apply map_fmap_ext. by intros a [c seen|r] _. Qed.
Lemma hrun_view {S T : Type} (f : S -> T) (spec : list S -> S -> call -> res reply -> S -> Prop) (spec' : list T -> T -> call -> res reply -> T -> Prop) (mid : S -> call -> S -> Prop) (mid' : T -> call -> T -> Prop) :
  (forall seen l c r l', spec seen l c r l' -> spec' (map f seen) (f l) c r (f l')) -> (forall l c l', mid l c l' -> mid' (f l) c (f l')) ->
  forall l P es l' P', hrun spec mid l P es l' P' -> hrun spec' mid' (f l) (hmap f <$> P) es (f l') (hmap f <$> P').
Proof.
  intros Hs Hm. induction 1 as [l P|l P a c es l' P' H _ IH|l P a c seen r l1 es l' P' H H1 _ IH|l P a c seen l1 es l' P' H H1 _ IH|l P a r es l' P' H _ IH].
  - apply hr_nil.
  - rewrite fmap_insert in IH. apply hr_call; [by rewrite lookup_fmap, H|exact IH].
  - rewrite hmap_saw, fmap_insert in IH. eapply hr_effect; [by rewrite lookup_fmap, H|by apply Hs|exact IH].
  - rewrite hmap_saw in IH. eapply hr_mid; [by rewrite lookup_fmap, H|by apply Hm|exact IH].
  - rewrite fmap_delete in IH. apply hr_ret; [by rewrite lookup_fmap, H|exact IH].
Qed.

(** ** The state: the items with their indices and the range in the record *)
Notation lstate := (ixs * option (N * N))%type.
Implicit Types (M : kvmap) (l : lstate) (lc : lcall) (ik v : bytes) (h t n B j : N) (its : ixs) (vals : bool).
Definition itm (l : lstate) : items := map snd (fst l).
(** What stays of the item at an index. *)
Definition stays (vals : bool) (o o' : option kv) : Prop := if vals then o' = o else fst <$> o' = fst <$> o.
Definition lgrows (vals : bool) (l l' : lstate) : Prop := forall h t, snd l = Some (h, t) ->
  exists h' t', snd l' = Some (h', t') /\ h' <= h /\ t <= t' /\ forall j, h <= j < t -> stays vals (at_idx (fst l) j) (at_idx (fst l') j).
Lemma stays_refl vals o : stays vals o o.
Proof. by destruct vals. Qed.
Lemma lgrows_refl vals l : lgrows vals l l.
Proof. intros h t E. exists h, t. split; [done|]. split; [lia|]. split; [lia|]. intros. apply stays_refl. Qed.
Lemma stays_trans vals o1 o2 o3 : stays vals o1 o2 -> stays vals o2 o3 -> stays vals o1 o3.
Proof. unfold stays. destruct vals; congruence. Qed.
Lemma lgrows_trans vals l1 l2 l3 : lgrows vals l1 l2 -> lgrows vals l2 l3 -> lgrows vals l1 l3.
Proof.
  intros H1 H2 h t E. destruct (H1 _ _ E) as (h' & t' & E' & A1 & A2 & A3). destruct (H2 _ _ E') as (h2 & t2 & E2 & B1 & B2 & B3).
  exists h2, t2. split; [done|]. split; [lia|]. split; [lia|]. intros j Hj. eapply stays_trans; [by apply A3|apply B3; lia].
Qed.
Definition ltop (vals : bool) (H : list lstate) (l : lstate) : Prop := l ∈ H /\ forall x, x ∈ H -> lgrows vals x l.
Definition ladd_seen (lk : bytes) (vals : bool) (H : list lstate) (l : lstate) (c : call) (r : res reply) (l' : lstate) : Prop :=
  list_add_seen lk vals (map itm H) (itm l) c r (itm l') /\ lgrows vals l l'.

Lemma item_seen_mono vals (H H' : list items) x p : H ⊆ H' -> item_seen vals H x p -> item_seen vals H' x p.
Proof. intros Hs (H1 & H2 & H3). split; [done|]. split; [by eapply seen_mono|done]. Qed.
Lemma ladd_mono vals (H H' : list items) (l : items) lc y (l' : items) : H ⊆ H' -> ladd vals H l lc y l' -> ladd vals H' l lc y l'.
Proof.
  intros Hs. destruct lc as [ik v|ik v|ik v ex|ik v|ik|ik|few ml|fwd|fwd|fwd| |]; cbn [ladd]; try done.
  - intros [-> (l0 & xs & H1 & -> & H2)]. split; [done|]. exists l0, xs. split; [by apply Hs|]. split; [done|]. eapply Forall2_impl; [exact H2|]. intros x p. by apply item_seen_mono.
  - intros [-> (l0 & o & H1 & -> & H2)]. split; [done|]. exists l0, o. split; [by apply Hs|]. split; [done|]. inversion H2; constructor. by eapply item_seen_mono.
Qed.
Lemma ladd_seen_mono lk vals (H H' : list lstate) l c r l' : H ⊆ H' -> ladd_seen lk vals H l c r l' -> ladd_seen lk vals H' l c r l'.
Proof.
  intros Hs [H1 H2]. split; [|done]. assert (map itm H ⊆ map itm H') as Hs' by (intros x Hx; apply elem_of_list_fmap in Hx as (y & -> & Hy); apply elem_of_list_fmap; exists y; split; [done|by apply Hs]).
  destruct c as [o|tid o|lk' lc|qk qc|b bc]; cbn [list_add_seen] in *; try done. case_bool_decide; [|done].
  destruct H1 as (y & -> & Hy). exists y. split; [done|]. by eapply ladd_mono.
Qed.

Section inst.
  Context (cfg : config) (lk : bytes) (vals : bool).
  Local Notation lph := (list_ph cfg lk).
  Local Notation ihash ik := (u64_bytes (hashk cfg (item_key lph ik))).
  Local Notation i := (lock_idx cfg lph).
  Local Notation K := (list_keys cfg lk).
  Local Notation F := (fun k : bytes => ends_with k (item_suffix lph)).
  Local Notation TE := (fun (_ : err) (_ : kvmap) => True).
  Definition rec_at (M : kvmap) (rng : option (N * N)) : Prop :=
    match rng with
    | Some (h, t) => exists n, @eq (option bytes) (M !! list_key lk) (Some (enc_rec (LRec h t n))) /\ h <= t /\ t < U64 /\ n < U64
    | None => @eq (option bytes) (M !! list_key lk) None
    end.
  Definition rng_ok (l : lstate) : Prop :=
    match snd l with
    | Some (h, t) => Forall (fun x : N * (bytes * bytes) => h <= fst x < t) (fst l) /\ t < U64
    | None => fst l = []
    end.
  Definition aR (B : N) (M : kvmap) (l : lstate) : Prop := rep cfg lk M (fst l) 0 /\ rec_at M (snd l) /\ idx_ok (list_key lk) B M.
  Definition aV (M : kvmap) (l : lstate) : Prop := core cfg lk M (fst l) /\ near lk M (itm l) /\ rng_ok l.
  Local Notation G := (entries_ok cfg).
  Local Notation w := (list_w lk).
  Local Notation spec := (ladd_seen lk vals).
  Local Notation mid := (@no_mid lstate).
  Local Notation top := (ltop vals).
  Local Notation sess := (ss cfg i aR aV G w spec mid top).
  Local Notation ends := (ends_ok cfg i aR aV G w spec mid top).

  Lemma rec_inj h t n h' t' n' : h < U64 -> t < U64 -> n < U64 -> h' < U64 -> t' < U64 -> n' < U64 -> enc_rec (LRec h t n) = enc_rec (LRec h' t' n') -> h' = h /\ t' = t /\ n' = n.
  Proof. intros A1 A2 A3 A4 A5 A6 E. apply (f_equal dec_rec) in E. rewrite !dec_enc_rec in E by done. by injection E as <- <- <-. Qed.
  Lemma rep_rng M l : rep cfg lk M (fst l) 0 -> rec_at M (snd l) -> rng_ok l.
  Proof.
    intros HR Hr. unfold rng_ok. destruct (rec_case _ _ _ _ _ HR) as [(H1 & H2 & _)|(h & t & H1 & H2 & H3 & H4 & H5)]; destruct (snd l) as [[h' t']|]; cbn [rec_at] in Hr.
    - destruct Hr as (n & Hr & _). by rewrite H1 in Hr.
    - done.
    - destruct Hr as (n & Hr & A1 & A2 & A3). rewrite H1 in Hr. apply (inj Some) in Hr. apply rec_inj in Hr as (-> & -> & _); try lia. done.
    - by rewrite H1 in Hr.
  Qed.
  Lemma aR_aV B M l : aR B M l -> aV M l.
  Proof. intros (HR & Hr & _). split; [by eapply rep_core|]. split; [|by eapply rep_rng]. by destruct (rep_sV cfg lk true M (fst l) HR) as (_ & _ & ?). Qed.
  Lemma core_loc M M' its : agree K M M' -> core cfg lk M its -> core cfg lk M' its.
  Proof. intros Ha. apply core_ext; intros; apply Ha; auto with kne. Qed.
  Lemma aV_loc M M' l : agree K M M' -> aV M l -> aV M' l.
  Proof. intros Ha (H1 & H2 & H3). split; [by eapply core_loc|]. split; [|done]. eapply near_same; [|exact H2]. apply Ha. auto with kne. Qed.
  Lemma aR_loc B M M' l : agree K M M' -> aR B M l -> aR B M' l.
  Proof.
    intros Ha ([HR1 HR2] & Hr & HJ). assert (@eq (option bytes) (M' !! list_key lk) (M !! list_key lk)) as E by (apply Ha; auto with kne). split; [split; [by eapply core_loc|]|split].
    - unfold rec_ok in *. by rewrite E.
    - unfold rec_at in *. destruct (snd l) as [[h t]|]; by rewrite E.
    - unfold idx_ok in *. by rewrite E.
  Qed.
  Lemma aR_mono B B' M l : B <= B' -> aR B' M l -> aR B M l.
  Proof. intros HB (HR & Hr & HJ). split; [done|]. split; [done|]. by eapply idx_ok_mono. Qed.
  Lemma core_at M its j ik v : core cfg lk M its -> j < U64 -> at_idx its j = Some (ik, v) <-> @eq (option bytes) (M !! item_key lph ik) (Some (v ++ u64_bytes j)).
  Proof.
    intros HC Hj. pose proof (co_bound _ _ _ _ HC) as Hb. rewrite Forall_forall in Hb. split.
    - intros E. apply at_idx_Some in E. apply (co_items _ _ _ _ HC). eauto.
    - intros E. apply (co_items _ _ _ _ HC) in E as (j' & v' & Hin & E). pose proof (Hb _ Hin) as Hb'. cbn in Hb'.
      apply app_inj_2 in E as [-> E]; [|by rewrite !u64_bytes_len]. apply u64_bytes_inj in E; [|done|done]. subst j'.
      apply at_idx_in; [apply sorted_nodup, (co_sorted _ _ _ _ HC)|done].
  Qed.
  Lemma inc64_inv (a b : N) : inc64 a = Ok b -> b = a + 1 /\ a + 1 < U64.
  Proof. unfold inc64. destruct (N.ltb_spec (a + 1) U64); [|done]. intros [= <-]. done. Qed.
  (** Insertion: what is left. *)
  Definition shape (M : kvmap) (l : lstate) (ik v : bytes) (mode : ins_mode) (M' : kvmap) : Prop :=
    M' = M \/
    (mode <> MGetOrCreate /\ exists j old, li_find (fst l) ik = Some (j, old) /\ M' = <[item_key lph ik := v ++ u64_bytes j]> M) \/
    (li_find (fst l) ik = None /\ exists h t n, (forall h0 t0, snd l = Some (h0, t0) -> h0 = h /\ t0 = t) /\ h <= t /\ t + 1 < U64 /\ n < U64 /\
      M' = <[item_key lph ik := v ++ u64_bytes t]> (<[chain_key lph t := ihash ik]> (<[list_key lk := enc_rec (LRec h (t + 1) n)]> M))).
  Definition chainC (l : lstate) (M' : kvmap) : Prop := forall j ik v, (j, (ik, v)) ∈ fst l -> @eq (option bytes) (M' !! chain_key lph j) (Some (ihash ik)).
  Lemma chainC_off k (x : bytes) l M : (forall j, k <> chain_key lph j) -> chainC l M -> chainC l (<[k := x]> M).
  Proof. intros Hk HC j ik v Hin. rewrite lookup_insert_ne by apply Hk. by eapply HC. Qed.
  Lemma insert_shape ik v mode M l : rep cfg lk M (fst l) 0 -> rec_at M (snd l) ->
    kwp cfg (insert_to_list cfg lk ik v mode) (chainC l) (fun _ M' => shape M l ik v mode M') TE M.
  Proof.
    intros HR Hr. pose proof (rep_core _ _ _ _ _ HR) as HC. pose proof (rep_rng _ _ HR Hr) as Hrng. pose proof (co_bound _ _ _ _ HC) as Hb. rewrite Forall_forall in Hb.
    assert (chainC l M) as HN by (intros j k u Hin; by eapply (co_chain _ _ _ _ HC)).
    assert (Hit : forall (x : bytes) M, chainC l M -> chainC l (<[item_key lph ik := x]> M)) by (intros x M1; apply chainC_off; intros ?; kdiff).
    unfold insert_to_list. cbv zeta. apply kwp_locked, kwp_bind, kwp_get; [done|].
    rewrite (core_get cfg lk M (fst l) ik HC). destruct (li_find (fst l) ik) as [[j old]|] eqn:Ef; cbn [fmap option_fmap option_map fst snd].
    - apply kwp_bind. eapply kwp_lift_ok; [apply cut8|done|].
      assert (mode <> MGetOrCreate -> kwp cfg (dok _ <- kreplace (item_key lph ik) (v ++ u64_bytes j) None; KRet (IReplaced old)) (chainC l) (fun _ M' => shape M l ik v mode M') TE M) as Hrep.
      { intros Hm. apply kwp_bind, kwp_rep_C; [auto with kne|done|by apply Hit| |]; intros st; apply kwp_ret; try done; [by apply Hit| |by left].
        right. left. split; [done|]. by exists j, old. }
      destruct mode as [|[ex|]|]; try (by apply Hrep).
      + case_bool_decide; [by apply Hrep|apply kwp_ret; [done|by left]].
      + apply kwp_ret; [done|by left].
    - set (q := kbind (kgoc (list_key lk) _) _).
      assert (kwp cfg q (chainC l) (fun _ M' => shape M l ik v mode M') TE M) as Hins; [|by destruct mode; try done; apply kwp_ret; [|left]]. unfold q.
      assert (Happ : forall h t n M1, (forall h0 t0, snd l = Some (h0, t0) -> h0 = h /\ t0 = t) -> h <= t -> t + 1 < U64 -> n < U64 ->
        (forall x, (t, x) ∉ fst l) -> M1 = <[list_key lk := enc_rec (LRec h (t + 1) n)]> M -> chainC l M1 /\
        kwp cfg (dok _ <- kset (chain_key lph t) (ihash ik); dok _ <- kset (item_key lph ik) (v ++ u64_bytes t); KRet (ICreated v)) (chainC l) (fun _ M' => shape M l ik v mode M') TE M1).
      { intros h t n M1 A1 A2 A3 A4 A5 ->. set (M1 := <[list_key lk := _]> M). assert (chainC l M1) as HN1 by (apply chainC_off; [intros ?; kdiff|done]). split; [done|].
        assert (chainC l (<[chain_key lph t := ihash ik]> M1)) as HN2.
        { intros j k u Hin. rewrite lookup_insert_ne; [by eapply HN1|]. intros E. pose proof (Hb _ Hin) as Hb'. cbn in Hb'. apply chain_key_inj in E; [|lia|done]. subst j. by eapply A5. }
        apply kwp_bind, kwp_set_C; [auto with kne|done|done|]. intros _. apply kwp_bind, kwp_set_C; [auto with kne|done|by apply Hit|]. intros _. apply kwp_ret; [by apply Hit|].
        right. right. split; [done|]. by exists h, t, n. }
      assert (FIRST_IDX + 1 < U64) by done.
      destruct (snd l) as [[h t]|] eqn:El; cbn [rec_at] in Hr.
      + destruct Hr as (n & Hr & H1 & H2 & H3). unfold rng_ok in Hrng. rewrite El in Hrng. destruct Hrng as [Hf _]. rewrite Forall_forall in Hf.
        apply kwp_bind, kwp_goc2; [auto with kne|done|done| |]; [|intros _ En; congruence]. intros lb _ Elb. rewrite Hr in Elb. injection Elb as <-.
        apply kwp_bind. eapply kwp_lift_ok; [apply dec_enc_rec; lia|done|]. cbn [l_head l_tail l_num].
        apply kwp_bind, kwp_lift_C; [done|]. intros t' Et. apply kwp_bind, kwp_lift_C; [done|]. intros k Ek. apply inc64_inv in Et as [-> Et], Ek as [-> Ek].
        destruct (Happ h t (n + 1) _ ltac:(intros h0 t0 E; by injection E as <- <-) H1 Et Ek ltac:(intros x Hx; apply Hf in Hx; cbn in Hx; lia) eq_refl) as [P1 P2].
        apply kwp_bind, kwp_set_C; [auto with kne|done|done|]. intros _. exact P2.
      + apply kwp_bind, kwp_goc2; [auto with kne|done|done| |]; [intros lb _ Elb; congruence|]. intros _ _.
        unfold rng_ok in Hrng. rewrite El in Hrng.
        destruct (Happ FIRST_IDX FIRST_IDX 1 _ ltac:(done) ltac:(done) ltac:(done) ltac:(done) ltac:(intros x Hx; rewrite Hrng in Hx; by apply elem_of_nil in Hx) eq_refl) as [P1 P2]. by split.
  Qed.
  Lemma at_same M M' its its' j : core cfg lk M its -> core cfg lk M' its' -> j < U64 ->
    (forall ik v, @eq (option bytes) (M' !! item_key lph ik) (Some (v ++ u64_bytes j)) <-> @eq (option bytes) (M !! item_key lph ik) (Some (v ++ u64_bytes j))) -> at_idx its' j = at_idx its j.
  Proof.
    intros HC HC' Hj Hs. destruct (at_idx its j) as [[ik v]|] eqn:E.
    - apply (core_at _ _ _ _ _ HC Hj) in E. apply (core_at _ _ _ _ _ HC' Hj). by apply Hs.
    - destruct (at_idx its' j) as [[ik v]|] eqn:E'; [|done]. apply (core_at _ _ _ _ _ HC' Hj) in E'. apply Hs, (core_at _ _ _ _ _ HC Hj) in E'. congruence.
  Qed.
  Lemma shape_grows ik v mode M M' l l' : (vals = true -> mode = MGetOrCreate) ->
    rep cfg lk M (fst l) 0 -> rec_at M (snd l) -> shape M l ik v mode M' -> core cfg lk M' (fst l') -> rec_at M' (snd l') -> lgrows vals l l'.
  Proof.
    intros Hm HR Hr Hsh HC' Hr'. pose proof (rep_core _ _ _ _ _ HR) as HC. pose proof (co_bound _ _ _ _ HC) as Hb. rewrite Forall_forall in Hb. intros h t E. rewrite E in Hr. destruct Hr as (n & Hr & A1 & A2 & A3).
    assert (Hrec : forall t1 n1, t <= t1 -> t1 < U64 -> n1 < U64 -> @eq (option bytes) (M' !! list_key lk) (Some (enc_rec (LRec h t1 n1))) -> (forall j, h <= j < t -> stays vals (at_idx (fst l) j) (at_idx (fst l') j)) ->
      exists h' t', snd l' = Some (h', t') /\ h' <= h /\ t <= t' /\ forall j, h <= j < t -> stays vals (at_idx (fst l) j) (at_idx (fst l') j)).
    { intros t1 n1 B1 B2 B3 B4 B5. destruct (snd l') as [[h2 t2]|]; cbn [rec_at] in Hr'.
      - destruct Hr' as (n2 & Hr' & C1 & C2 & C3). rewrite B4 in Hr'. apply (inj Some) in Hr'. apply rec_inj in Hr' as (-> & -> & _); try lia. exists h, t1. split; [done|]. split; [lia|]. split; [lia|done].
      - by rewrite B4 in Hr'. }
    destruct Hsh as [->|[(Hg & j0 & old & Ef & ->)|(Ef & h0 & t0 & n0 & B1 & B2 & B3 & B4 & ->)]].
    - apply (Hrec t n); [lia|done|done|done|]. intros j Hj. rewrite (at_same M M (fst l) (fst l')); [apply stays_refl|done|done|lia|done].
    - assert (vals = false) as Ev by (destruct vals; [by destruct (Hg (Hm eq_refl))|done]).
      apply (Hrec t n); [lia|done|done|by rewrite lookup_insert_ne by kdiff|]. intros j Hj. unfold stays. rewrite Ev.
      apply li_find_Some in Ef. pose proof (Hb _ Ef) as Hb'. cbn in Hb'.
      destruct (decide (j = j0)) as [->|Hne].
      + rewrite (at_idx_in (fst l) j0 (ik, old)); [|apply sorted_nodup, (co_sorted _ _ _ _ HC)|done].
        rewrite (proj2 (core_at _ (fst l') j0 ik v HC' ltac:(lia))); [done|]. by rewrite lookup_insert.
      + f_equal. eapply at_same; [exact HC|exact HC'|lia|]. intros k u. destruct (decide (k = ik)) as [->|Hk].
        * rewrite lookup_insert. rewrite (core_get cfg lk M (fst l) ik HC), (core_find _ _ _ _ _ _ _ HC Ef). cbn.
          assert (forall u' : bytes, @eq (option bytes) (Some (u' ++ u64_bytes j0)) (Some (u ++ u64_bytes j)) -> False) as Hno.
          { intros u' Ex. apply (inj Some) in Ex. apply app_inj_2 in Ex as [_ Ex]; [|by rewrite !u64_bytes_len]. apply u64_bytes_inj in Ex; [by subst|done|lia]. }
          split; intros Ex; by apply Hno in Ex.
        * by rewrite lookup_insert_ne by (intros Ex; by apply item_key_inj in Ex).
    - destruct (B1 _ _ E) as [<- <-]. apply (Hrec (t + 1) n0); [lia|lia|done|rewrite !lookup_insert_ne by kdiff; apply lookup_insert|]. intros j Hj.
      rewrite (at_same M _ (fst l) (fst l') j HC HC'); [apply stays_refl|lia|]. intros k u. destruct (decide (k = ik)) as [->|Hk].
      + rewrite lookup_insert. rewrite (core_get cfg lk M (fst l) ik HC), Ef. cbn. split; [|done]. intros Ex. apply (inj Some) in Ex. apply app_inj_2 in Ex as [_ Ex]; [|by rewrite !u64_bytes_len]. apply u64_bytes_inj in Ex; [lia|lia|lia].
      + rewrite lookup_insert_ne by (intros Ex; by apply item_key_inj in Ex). by rewrite !lookup_insert_ne by kdiff.
  Qed.
  Lemma shape_rec ik v mode M M' l : rec_at M (snd l) -> shape M l ik v mode M' -> exists rng', rec_at M' rng'.
  Proof.
    intros Hr [->|[(_ & j & old & _ & ->)|(_ & h & t & n & _ & B2 & B3 & B4 & ->)]].
    - by exists (snd l).
    - exists (snd l). unfold rec_at in *. destruct (snd l) as [[h t]|]; by rewrite lookup_insert_ne by kdiff.
    - exists (Some (h, t + 1)). exists n. split; [rewrite !lookup_insert_ne by kdiff; apply lookup_insert|]. lia.
  Qed.

  Lemma aw_lk lc : w (CList lk lc) = 1.
  Proof. cbn. by rewrite bool_decide_eq_true_2. Qed.
  Lemma spec_lk (H : list lstate) l lc y l' : ladd vals (map itm H) (itm l) lc y (itm l') -> lgrows vals l l' -> spec H l (CList lk lc) (Ok y) l'.
  Proof. intros Hs Hg. split; [|done]. cbn. rewrite bool_decide_eq_true_2 by done. by exists y. Qed.
  Lemma ltop_one l : top [l] l.
  Proof. split; [by apply elem_of_list_singleton|]. intros x Hx. apply elem_of_list_singleton in Hx as ->. apply lgrows_refl. Qed.
  Lemma ltop_in H l : top H l -> l ∈ H. Proof. by intros [? _]. Qed.
  Lemma ltop_push H l l' : top H l -> moves spec mid l l' -> top (l' :: H) l'.
  Proof.
    intros [H1 H2] Hm. assert (lgrows vals l l') as Hg by (destruct Hm as [->|[(H0 & c & r & _ & Hs)|[c []]]]; [apply lgrows_refl|done]).
    split; [apply elem_of_cons; by left|]. intros x Hx. apply elem_of_cons in Hx as [->|Hx]; [apply lgrows_refl|]. eapply lgrows_trans; [by apply H2|done].
  Qed.
  Lemma chain_V l M M' : agree (item_keys cfg lk) M M' -> aV M l -> chainC l M' /\ nearC cfg lk (itm l) M' -> aV M' l.
  Proof.
    intros Ha (V1 & _ & V3) (C1 & C2 & C3). split; [|done]. destruct V1 as [A1 A2 A3 A4 A5 A6]. constructor; try done.
    intros ik x. pose proof (Ha (item_key lph ik) ltac:(by exists ik)) as E. split; intros Hx.
    - apply A1. exact (eq_trans (eq_sym E) Hx).
    - apply A1 in Hx. exact (eq_trans E Hx).
  Qed.
  (** Insertions. *)
  Lemma sess_insert lc ik v mode (H : list lstate) (f : ilist_status -> kprog reply) : (vals = true -> mode = MGetOrCreate) ->
    keq (kbind (insert_to_list cfg lk ik v mode) f) (list_prog cfg lk lc) -> (forall x, exists r, f x = klift r) ->
    locked_call lc = true -> lcall_accepts cfg lk lc -> (forall (X : list items) (l : items) y (l' : items), list_spec l lc y l' -> ladd vals X l lc y l') ->
    sess (CList lk lc) H (list_prog cfg lk lc) Out.
  Proof.
    intros Hm Hk Hf Hlc Hacc Hsp. eapply ss_ext; [exact Hk|]. destruct (insert_section cfg lk ik v mode) as (q & Eq & S1 & S2). rewrite Eq.
    eapply (ss_section cfg i aR aV G w spec mid top aR_aV (item_keys cfg lk) (CList lk lc) H lph q f (fun l M' => chainC l M' /\ nearC cfg lk (itm l) M')
      (fun B l x M' => kwp cfg (f x) (fun _ => True) (fun y M' => exists l', list_spec (itm l) lc y (itm l') /\ lgrows vals l l' /\ aR B M' l') (fun _ _ => False) M')); [done|done|exact chain_V| |].
    - intros H' B l x M' _ Hl Hw. left. destruct (Hf x) as [r Er]. rewrite Er in *. destruct r as [y|e]; cbn [klift kwp] in Hw; destruct Hw as [_ Hw]; [|done].
      destruct Hw as (l' & K1 & K2 & K3). exists (Ok y), l'. split; [done|]. split; [|done]. apply spec_lk; [by apply Hsp|done].
    - intros B M l HG (HR & Hr & HJ). rewrite aw_lk in HJ. apply (kwp_locked_inv cfg lph). rewrite <- Eq. pose proof (idx_ok_room _ _ _ HJ) as Hroom.
      pose proof (list_kwp cfg lk M (fst l) 0 lc HR (fun _ => conj HG Hroom)) as Hw.
      pose proof (list_header cfg lk B (fst l) lc M Hlc HR HG HJ) as Hh.
      pose proof (kwp_and _ _ _ _ _ _ _ _ _ Hw Hh) as Hwh. eapply kwp_ext in Hwh; [|apply keq_sym, Hk]. apply kwp_bind_inv in Hwh.
      eapply kwp_mono; [| | |exact (kwp_and _ _ _ _ _ _ _ _ _ (insert_shape ik v mode M l HR Hr) (kwp_and _ _ _ _ _ _ _ _ _ (insert_near cfg lk (fst l) ik v mode M HR) Hwh))].
      + by intros M' (? & ? & _).
      + intros x M' _ (Hsh & _ & Hx). destruct (shape_rec _ _ _ _ _ _ Hr Hsh) as [rng' Hrng'].
        destruct (Hf x) as [r Er]. rewrite Er in *. destruct r as [y|e]; cbn [klift kwp] in *; destruct Hx as [_ Hx]; (split; [done|]).
        * destruct Hx as ((its' & lost' & K1 & K2 & K3) & K4). assert (lost' = 0) as -> by lia. exists (its', rng'). unfold itm. cbn [fst snd].
          split; [by apply list_spec_0|]. split; [|done]. eapply shape_grows; [exact Hm|exact HR|exact Hr|exact Hsh|by eapply rep_core|done].
        * destruct Hx as ((its' & lost' & K1 & K2 & K3 & K4) & _). by apply K3.
      + intros e M2 _ (_ & _ & (its' & lost' & K1 & K2 & K3 & K4) & _). by apply K3.
  Qed.
  (** Looking at an index outside the lock. *)
  Lemma asess_at_index c (H : list lstate) l h t j (f : option (phash * bytes * bytes) -> kprog reply) : l ∈ H -> snd l = Some (h, t) -> h <= j < t -> t < U64 ->
    (at_idx (fst l) j = None -> forall H', H ⊆ H' -> sess c H' (f None) Out) ->
    (forall ik v0, at_idx (fst l) j = Some (ik, v0) -> forall H' ph v, H ⊆ H' -> item_seen vals (map itm H') (ik, v) (ik, v0) -> sess c H' (f (Some (ph, item_key lph ik, v ++ u64_bytes j))) Out) ->
    sess c H (kbind (get_at_index lph j) f) Out.
  Proof.
    intros Hl El Hj Ht H1 H2. unfold get_at_index. cbn [kop1 kbind ss]. intros H' M l1 Hs [Hl1 Ht1] (V1 & _).
    destruct (Ht1 l (Hs _ Hl) _ _ El) as (h1 & t1 & E1 & A1 & A2 & A3). specialize (A3 j Hj).
    assert (forall (o : option kv), stays vals (at_idx (fst l) j) o -> at_idx (fst l) j = None -> o = None) as HsN.
    { intros o Hst En. rewrite En in Hst. unfold stays in Hst. destruct vals; [done|]. by destruct o. }
    assert (forall (o : option kv) ik v0, stays vals (at_idx (fst l) j) o -> at_idx (fst l) j = Some (ik, v0) -> exists v, o = Some (ik, v) /\ (vals = true -> v = v0)) as HsS.
    { intros o ik v0 Hst En. rewrite En in Hst. unfold stays in Hst. destruct vals; [exists v0; by subst|]. destruct o as [[ik' v']|]; [|done]. injection Hst as ->. by exists v'. }
    destruct (M !! chain_key lph j) as [b|] eqn:Eb.
    2:{ cbn [kbind]. apply H1; [|done]. destruct (at_idx (fst l) j) as [[ik v0]|] eqn:Ea; [|done]. destruct (HsS _ _ _ A3 eq_refl) as (v & Ev & _).
        apply at_idx_Some in Ev. rewrite (co_chain _ _ _ _ V1 _ _ _ Ev) in Eb. done. }
    destruct (co_links _ _ _ _ V1 _ _ Eb) as [k ->].
    rewrite dec_u64_bytes by apply hashk_bound. cbn [klift kbind kop1 ss].
    destruct (N.eqb_spec (ph_sig (hashk cfg k)) INVALID_SIG) as [E|_]; [by apply hashk_sig in E|].
    intros H2' M2 l2 ls Hs2 [Hl2 Ht2] (V2 & _) (_ & L2 & L3). assert (H ⊆ H2') as HsA by (by etransitivity).
    destruct (Ht2 l (HsA _ Hl) _ _ El) as (h2 & t2 & E2 & B1 & B2 & B3). specialize (B3 j Hj).
    pose proof (co_bound _ _ _ _ V2) as Hb2. rewrite Forall_forall in Hb2.
    destruct (find_item _ _ ls) as [[k0 w0]|] eqn:Ef; cbn [kbind].
    - apply find_item_spec in Ef as (F1 & F2 & F3). apply ends_with_item in F2 as [ik ->]. apply L2 in F1 as [F1 _].
      apply (co_items _ _ _ _ V2) in F1 as (j' & v & Hin & ->). pose proof (Hb2 _ Hin) as Hb'. cbn in Hb'.
      apply ends_with_same in F3; [|by rewrite !u64_bytes_len]. apply u64_bytes_inj in F3; [|done|lia]. subst j'.
      pose proof (at_idx_in (fst l2) j (ik, v) (sorted_nodup _ (co_sorted _ _ _ _ V2)) Hin) as Ea2.
      destruct (at_idx (fst l) j) as [[ik0 v0]|] eqn:Ea.
      + destruct (HsS _ _ _ B3 eq_refl) as (v' & Ev & Hv). rewrite Ea2 in Ev. injection Ev as -> ->. apply (H2 _ _ eq_refl); [done|].
        split; [done|]. split; [|exact Hv]. exists (itm l2). split; [apply elem_of_list_fmap; by exists l2|]. cbn [fst snd]. unfold itm. rewrite li_find_get, (core_find _ _ _ _ _ _ _ V2 Hin). done.
      + rewrite (HsN _ B3 eq_refl) in Ea2. done.
    - apply H1; [|done]. destruct (at_idx (fst l) j) as [[ik v0]|] eqn:Ea; [|done]. exfalso.
      destruct (HsS _ _ _ A3 eq_refl) as (v & Ev & _). apply at_idx_Some in Ev. pose proof (co_chain _ _ _ _ V1 _ _ _ Ev) as Ec. rewrite Eb in Ec. apply (inj Some) in Ec. apply u64_bytes_inj in Ec; [|apply hashk_bound|apply hashk_bound].
      destruct (HsS _ _ _ B3 eq_refl) as (v2 & Ev2 & _). apply at_idx_Some in Ev2.
      eapply find_item_None; [exact Ef|apply L3; [|symmetry; exact Ec]| |].
      + apply (co_items _ _ _ _ V2). eauto.
      + apply ends_with_app.
      + apply ends_with_app.
  Qed.
  Lemma map_sub (H H' : list lstate) : H ⊆ H' -> map itm H ⊆ map itm H'.
  Proof. intros Hs x Hx. apply elem_of_list_fmap in Hx as (y & -> & Hy). apply elem_of_list_fmap. exists y. split; [done|by apply Hs]. Qed.
  Lemma asess_iter c l h t js : snd l = Some (h, t) -> t < U64 -> (forall j, j ∈ js -> h <= j < t) -> forall (H : list lstate) (f : list kv -> kprog reply), l ∈ H ->
    (forall H' (xs : list kv), H ⊆ H' -> Forall2 (item_seen vals (map itm H')) xs (omap (at_idx (fst l)) js) -> sess c H' (f xs) Out) ->
    sess c H (kbind (iter_items lph js) f) Out.
  Proof.
    intros El Ht. induction js as [|j js IH]; intros Hj H f Hl Hf; cbn [iter_items kbind].
    - apply Hf; [done|]. constructor.
    - assert (forall i, i ∈ js -> h <= i < t) as Hj' by (intros i Hi; apply Hj; by right).
      eapply ss_ext; [apply keq_sym, keq_assoc|]. eapply (asess_at_index c H l h t j); [done|done|apply Hj; by left|done| |]; cbn [omap list_omap] in Hf.
      + intros Ea H' Hs. rewrite Ea in Hf. apply IH; [done|by apply Hs|]. intros H2 xs Hs2. apply Hf. by etransitivity.
      + intros ik v0 Ea H' ph v Hs Hseen. rewrite Ea in Hf. rewrite trunc_item_ok. cbn [kbind]. eapply ss_ext; [apply keq_sym, keq_assoc|]. cbn [kbind].
        apply IH; [done|by apply Hs|]. intros H2 xs Hs2 Hxs. apply Hf; [by etransitivity|]. constructor; [|done]. eapply item_seen_mono; [|exact Hseen]. by apply map_sub.
  Qed.
  Lemma asess_peek c l h t js : snd l = Some (h, t) -> t < U64 -> (forall j, j ∈ js -> h <= j < t) -> forall (H : list lstate) (f : option kv -> kprog reply), l ∈ H ->
    (forall H' (o : option kv), H ⊆ H' -> option_Forall2 (item_seen vals (map itm H')) o (first (omap (at_idx (fst l)) js)) -> sess c H' (f o) Out) ->
    sess c H (kbind (peek_items lph js) f) Out.
  Proof.
    intros El Ht. induction js as [|j js IH]; intros Hj H f Hl Hf; cbn [peek_items kbind].
    - apply Hf; [done|]. constructor.
    - assert (forall i, i ∈ js -> h <= i < t) as Hj' by (intros i Hi; apply Hj; by right).
      eapply ss_ext; [apply keq_sym, keq_assoc|]. eapply (asess_at_index c H l h t j); [done|done|apply Hj; by left|done| |]; cbn [omap list_omap] in Hf.
      + intros Ea H' Hs. rewrite Ea in Hf. apply IH; [done|by apply Hs|]. intros H2 xs Hs2. apply Hf. by etransitivity.
      + intros ik v0 Ea H' ph v Hs Hseen. rewrite Ea in Hf. rewrite trunc_item_ok. cbn [kbind]. apply Hf; [done|]. by constructor.
  Qed.
  Lemma asess_range lc (H : list lstate) (f : option (N * N) -> kprog reply) :
    (forall H' l, H ⊆ H' -> l ∈ H' -> StronglySorted N.lt (map fst (fst l)) -> rng_ok l -> sess (CList lk lc) H' (f (snd l)) Out) -> sess (CList lk lc) H (kbind (list_range cfg lk) f) Out.
  Proof.
    intros Hf. destruct (range_section cfg lk) as (q & Eq & S1 & S2). rewrite Eq.
    eapply (ss_section cfg i aR aV G w spec mid top aR_aV (fun _ => False) (CList lk lc) H lph q f (fun l M' => aV M' l) (fun B l r M' => aR (B + 1) M' l /\ r = snd l)); [done|done|done| |].
    - intros H' B l x M' Hs Hl [HR ->]. right. exists l. split; [by left|]. rewrite aw_lk. split; [done|]. apply Hf; [etransitivity; [exact Hs|apply sub_tail]|apply elem_of_cons; by left| |].
      + destruct HR as (HR & _). apply (co_sorted _ _ _ _ (rep_core _ _ _ _ _ HR)).
      + destruct HR as (HR & Hr & _). by eapply rep_rng.
    - intros B M l HG HRR. rewrite aw_lk in HRR. apply (kwp_locked_inv cfg lph). rewrite <- Eq. pose proof (aR_aV _ _ _ HRR) as HV. pose proof HRR as (HR & Hr & HJ).
      unfold list_range. apply kwp_locked, kwp_bind, kwp_get; [done|]. unfold rec_at in Hr. destruct (snd l) as [[h t]|].
      + destruct Hr as (n & -> & A1 & A2 & A3). apply kwp_bind. eapply kwp_lift_ok; [apply dec_enc_rec; lia|done|]. apply kwp_ret; [done|]. done.
      + rewrite Hr. apply kwp_ret; [done|]. done.
  Qed.
  Lemma ardr_get ik : rdr cfg aV spec top (CList lk (LGet ik)) (call_prog cfg (CList lk (LGet ik))).
  Proof.
    split; [done|]. split; [done|]. intros a M lks M' lks' p' l HV Hk. cbn in Hk. destruct Hk as (-> & -> & ->). split; [done|].
    destruct HV as (V1 & _). exists (Ok (YOpt (l_get (itm l) ik))). split.
    - unfold itm. rewrite (core_get cfg lk M (fst l) ik V1), li_find_get. destruct (li_find (fst l) ik) as [[j v]|]; cbn [fmap option_fmap option_map fst snd]; [|done]. by rewrite cut8.
    - intros H _. apply spec_lk; [|apply lgrows_refl]. cbn [ladd list_spec]. done.
  Qed.
  Lemma ardr_len : vals = false -> rdr cfg aV spec top (CList lk LLen) (call_prog cfg (CList lk LLen)).
  Proof.
    intros Hvf. split; [done|]. split; [done|]. intros a M lks M' lks' p' l HV Hk. cbn [call_prog list_prog] in Hk. unfold kmap, list_len in Hk. cbn [kop1 kbind kop_step] in Hk.
    destruct Hk as (-> & -> & ->). split; [done|].
    destruct HV as (_ & V3 & _). unfold near in V3. destruct (M !! list_key lk) as [b|].
    - destruct V3 as (h & t & n & -> & K1 & K2 & K3 & K4). exists (Ok (YNum n)). rewrite dec_enc_rec by done. split; [done|]. intros H _. apply spec_lk; [|apply lgrows_refl]. cbn [ladd]. split; [done|]. exists n. destruct K4 as [K4 K5]. rewrite Hvf. done.
    - exists (Ok (YNum 0)). split; [done|]. intros H _. apply spec_lk; [|apply lgrows_refl]. cbn [ladd]. split; [done|]. exists 0. rewrite Hvf. split; [done|]. split; [lia|]. split; [lia|done].
  Qed.
  Lemma list_adds_all c : list_adds cfg lk vals c ->
    mine cfg i K F aR aV G w spec mid top c (call_prog cfg c) \/ rdr cfg aV spec top c (call_prog cfg c) \/ oth K spec c (call_prog cfg c).
  Proof.
    intros Hok. assert ((exists lc, c = CList lk lc) \/ forall lc, c <> CList lk lc) as [[lc ->]|Hn].
    { destruct c as [o|tid o|lk' lc|qk qc|b bc]; try (right; done). destruct (decide (lk' = lk)) as [->|]; [left; eauto|right; congruence]. }
    - cbn [list_adds] in Hok. rewrite bool_decide_eq_true_2 in Hok by done. destruct Hok as [Hacc Hd].
      destruct lc as [ik v|ik v|ik v ex|ik v|ik|ik|few ml|fwd|fwd|fwd| |]; try done.
      + left. split; [apply list_local|]. intros l. apply (sess_insert (LSet ik v) ik v MSet _ (fun x => kbind (match x with IReplaced o => KRet (PrevValue o) | ICreated _ => KRet CreatedNew | _ => KFail EPanic end) (fun a => KRet (YSet a)))); [by rewrite Hd| | |done|done|done].
        * exact (keq_sym _ _ (keq_assoc (insert_to_list cfg lk ik v MSet) _ (fun a => KRet (YSet a)))).
        * intros []; first [by eexists (Ok _) | by eexists (Err _)].
      + left. split; [apply list_local|]. intros l. eapply (sess_insert (LReplace ik v ex) ik v (MReplace ex)); [by rewrite Hd|apply keq_sym, keq_assoc| |done|done|done].
        intros []; first [by eexists (Ok _) | by eexists (Err _)].
      + left. split; [apply list_local|]. intros l. eapply (sess_insert (LGetOrCreate ik v) ik v MGetOrCreate); [done|apply keq_sym, keq_assoc| |done|done|done].
        intros []; first [by eexists (Ok _) | by eexists (Err _)].
      + right. left. apply ardr_get.
      + left. split; [apply list_local|]. intros l. cbn [call_prog list_prog]. unfold kmap, iter_list. eapply ss_ext; [apply keq_sym, keq_assoc|].
        apply asess_range. intros H' l0 Hs Hl0 Hso Hrng.
        assert (Hfin : forall H2 (xs : list kv), H' ⊆ H2 -> Forall2 (item_seen vals (map itm H2)) xs (direct fwd (itm l0)) -> sess (CList lk (LIter fwd)) H2 (KRet (YItems xs)) Out).
        { intros H2 xs Hs2 Hxs. cbn [ss]. intros H3 l3 Hs3 _. apply spec_lk; [|apply lgrows_refl]. cbn [ladd]. split; [done|]. exists (itm l0), xs.
          split; [apply elem_of_list_fmap; exists l0; split; [done|by apply Hs3, Hs2]|]. split; [done|]. eapply Forall2_impl; [exact Hxs|]. intros x p. apply item_seen_mono. by apply map_sub. }
        unfold rng_ok in Hrng. destruct (snd l0) as [[h t]|] eqn:El; cbn [kbind].
        * destruct Hrng as [R1 R2]. eapply asess_iter; [exact El|done| |exact Hl0|].
          -- intros j Hj. by apply idx_order_in in Hj.
          -- rewrite enum_order by done. exact Hfin.
        * apply Hfin; [done|]. unfold itm. rewrite Hrng. destruct fwd; constructor.
      + left. split; [apply list_local|]. intros l. cbn [call_prog list_prog]. unfold kmap, peek_list. eapply ss_ext; [apply keq_sym, keq_assoc|].
        apply asess_range. intros H' l0 Hs Hl0 Hso Hrng.
        assert (Hfin : forall H2 (o : option kv), H' ⊆ H2 -> option_Forall2 (item_seen vals (map itm H2)) o (first (direct fwd (itm l0))) -> sess (CList lk (LPeek fwd)) H2 (KRet (YItem o)) Out).
        { intros H2 o Hs2 Ho. cbn [ss]. intros H3 l3 Hs3 _. apply spec_lk; [|apply lgrows_refl]. cbn [ladd]. split; [done|]. exists (itm l0), o.
          split; [apply elem_of_list_fmap; exists l0; split; [done|by apply Hs3, Hs2]|]. split; [done|]. inversion Ho; constructor. eapply item_seen_mono; [|done]. by apply map_sub. }
        unfold rng_ok in Hrng. destruct (snd l0) as [[h t]|] eqn:El; cbn [kbind].
        * destruct Hrng as [R1 R2]. eapply asess_peek; [exact El|done| |exact Hl0|].
          -- intros j Hj. by apply idx_order_in in Hj.
          -- rewrite enum_order by done. exact Hfin.
        * apply Hfin; [done|]. unfold itm. rewrite Hrng. destruct fwd; constructor.
      + right. left. by apply ardr_len.
    - right. right. destruct (list_other cfg lk true c) as [H1 _]; [|done|].
      + destruct c as [o|tid o|lk' lc|qk qc|b bc]; try done. cbn in *. destruct (decide (lk' = lk)) as [->|Hne]; [by destruct (Hn lc)|]. by rewrite bool_decide_eq_false_2 in *.
      + split; [done|]. intros H l r. split; [|apply lgrows_refl]. destruct c as [o|tid o|lk' lc|qk qc|b bc]; try done. cbn. rewrite bool_decide_eq_false_2; [done|]. intros ->. by destruct (Hn lc).
  Qed.
  (** Every concurrent run on the abstract map. *)
  Lemma lin_list_adds M es A l : arun cfg (AS M ∅ ∅) es A -> (forall a c, EvCall a c ∈ es -> list_adds cfg lk vals c) ->
    entries_ok cfg M -> aR (weight w es) M l ->
    exists l' P, hrun (list_add_seen lk vals) no_mid (itm l) ∅ es (itm l') P /\ (a_ths A = ∅ -> aR 0 (a_map A) l' /\ P = ∅).
  Proof.
    intros Ha Hok HG HR.
    destruct (lin_sess cfg i K F (F_ok cfg lk) aR aV G w spec mid (list_adds cfg lk vals) top (entries_step cfg) aR_loc aV_loc aR_aV ltop_one ltop_in ltop_push (ladd_seen_mono lk vals) list_adds_all
      _ _ _ Ha l ∅ (weight w es) None []) as (l' & P' & B' & md & X & L1 & L2 & L3 & L4 & L5).
    - done.
    - done.
    - exact HR.
    - intros a. cbn [a_ths]. by rewrite !lookup_empty.
    - cbn [total]. lia.
    - exists l', (hmap itm <$> P'). split.
      + eapply (hrun_view itm _ (list_add_seen lk vals) _ no_mid) in L1; [by rewrite fmap_empty in L1| |done]. intros seen l1 c r l2 Hs. apply Hs.
      + intros Ht. destruct md as [a|].
        * destruct L3 as (c & H & p & B0 & E & _). by rewrite Ht, lookup_empty in E.
        * cbn [modes] in L3. split; [eapply aR_mono; [|exact L3]; lia|]. assert (P' = ∅) as ->; [|apply fmap_empty]. apply map_eq. intros a. rewrite lookup_empty. specialize (L4 a). rewrite Ht, lookup_empty in L4.
          by destruct (P' !! a) as [[]|].
  Qed.
End inst.
