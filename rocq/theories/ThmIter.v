(** Iteration (C15, C16). *)
From Verif Require Import Base SipHash Hashing HashingProofs Fs Shard Router RouterPure Wpc Spec FileRep RowOps
  Compact Inv ShardOps Split Insert Open Merge Create Store Limits StoreRefine Kv Lists Queues Api Hist KvSpec
  HistInv KeySpace PlainSpec Plain Check ThmStore Iter.
Implicit Types (cfg : config) (s : store) (it : iter_state).

(** One call of [next()]. *)
Definition next (s : store) (it : iter_state) : res (option kv * iter_state) := iter_next ITER_FUEL s it.
(** [yields s it l it']: calling [next()] on [it] again and again returns the items [l], one by
    one, leaving the iterator [it']. *)
Inductive yields (s : store) : iter_state -> list kv -> iter_state -> Prop :=
| yields_nil it : yields s it [] it
| yields_cons it y it1 l it2 : next s it = Ok (Some y, it1) -> yields s it1 l it2 -> yields s it (y :: l) it2.
(** Iterating from [it] returns exactly [l] and then [None]. *)
Definition iterates (s : store) (it : iter_state) (l : list kv) : Prop :=
  exists it1 it2, yields s it l it1 /\ next s it1 = Ok (None, it2).

Lemma iter_fuel_N : N.of_nat ITER_FUEL = 65537. Proof. unfold ITER_FUEL. by rewrite N2Nat.id. Qed.

Lemma next_spec cfg x m s it : SInv cfg x m s -> it_ok it -> it_sel it <= END_OF_SHARDS ->
  exists o it', next s it = Ok (o, it') /\ it_ok it' /\ it_sel it' <= END_OF_SHARDS /\ it_raw it' = it_raw it /\
    match o with
    | Some y => it_sel it' < END_OF_SHARDS /\ it_rest s it = y :: it_rest s it'
    | None => it_sel it' = END_OF_SHARDS /\ it_rest s it = [] /\ (it_sel it < END_OF_SHARDS -> it_row it' = 0%nat /\ it_col it' = 0%nat)
    end.
Proof. intros HI H1 H2. eapply iter_next_spec; [done|done|done|]. rewrite iter_fuel_N. unfold END_OF_SHARDS in *. lia. Qed.

Lemma iterates_rest cfg x m s : SInv cfg x m s -> forall l it, it_ok it -> it_sel it <= END_OF_SHARDS -> it_rest s it = l -> iterates s it l.
Proof.
  intros HI. induction l as [|y l IH]; intros it H1 H2 E;
    destruct (next_spec _ _ _ _ it HI H1 H2) as (o & it' & En & G1 & G2 & G3 & G4); destruct o as [z|].
  - destruct G4 as [_ G4]. congruence.
  - exists it, it'. split; [constructor|done].
  - destruct G4 as [_ G4]. rewrite E in G4. injection G4 as -> ->. destruct (IH it' G1 G2 eq_refl) as (it1 & it2 & Y1 & Y2).
    exists it1, it2. split; [by econstructor|done].
  - destruct G4 as (_ & G4 & _). congruence.
Qed.
Lemma yields_rest cfg x m s : SInv cfg x m s -> forall it l it', yields s it l it' -> it_ok it -> it_sel it <= END_OF_SHARDS ->
  it_ok it' /\ it_sel it' <= END_OF_SHARDS /\ it_raw it' = it_raw it /\ it_rest s it = l ++ it_rest s it' /\ (it_sel it < END_OF_SHARDS -> it_sel it' < END_OF_SHARDS).
Proof.
  intros HI it l it' Hy. induction Hy as [it|it y it1 l it2 En Hy IH]; intros H1 H2; [done|].
  destruct (next_spec _ _ _ _ it HI H1 H2) as (o & it0 & En' & G1 & G2 & G3 & G4). rewrite En in En'. injection En' as <- <-.
  destruct G4 as [G4 G5]. destruct (IH G1 G2) as (K1 & K2 & K3 & K4 & K5). rewrite G5, K4. repeat (split; [done || congruence|]). intros _. by apply K5.
Qed.

(** ** C15 *)
(** The keys [k] with values [v] that [iter()] shows. *)
Lemma pick_user x y : iter_pick false x = Some y <-> x = (user_key (fst y), snd y).
Proof.
  unfold iter_pick. destruct x as [k v], y as [k' v']. cbn [fst snd]. destruct (ends_with k [USER_NS]) eqn:E.
  - apply ends_with_spec in E as [p ->]. rewrite app_length. cbn [length]. replace (length p + 1 - 1)%nat with (length p) by lia.
    rewrite take_app. unfold user_key. split.
    + intros H. by simplify_eq.
    + intros H. injection H as H1 ->. apply app_inj_tail in H1 as [-> _]. done.
  - split; [done|]. intros H. injection H as -> ->. unfold user_key in E. by rewrite ends_with_app in E.
Qed.

(** On an unmodified store, iterating returns every key exactly once, with its current value, nothing else, and
    then ends. *)
Theorem C15_iter_returns_all : forall cfg s, reachable cfg s ->
  exists l, iterates s (iter_new false) l /\ NoDup (map fst l) /\
    forall k v, In (k, v) l <-> get cfg s k = Ok (Some v).
Proof.
  intros cfg s Hr. destruct (reach_inv _ _ Hr) as (x & M & HI).
  destruct (it_rest_new _ _ _ _ false HI) as (l & E & Hn & Hl).
  exists (it_rest s (iter_new false)). split; [|split].
  - eapply iterates_rest; [done|apply iter_new_ok|done|done].
  - rewrite E. clear - Hn. induction l as [|[k v] l IH]; [constructor|]. cbn in Hn. apply NoDup_cons in Hn as [Hk Hn].
    change (omap (M := list) (iter_pick false) ((k, v) :: l)) with
      (match iter_pick false (k, v) with Some y => y :: omap (M := list) (iter_pick false) l | None => omap (M := list) (iter_pick false) l end).
    destruct (iter_pick false (k, v)) as [y|] eqn:Ey; [|by apply IH]. cbn [map]. constructor; [|by apply IH].
    apply pick_user in Ey. injection Ey as -> ->. intros Hin. apply elem_of_list_fmap in Hin as (z & Ez & Hz).
    apply elem_of_list_omap in Hz as (q & Hq & Eq). apply pick_user in Eq. apply Hk. apply elem_of_list_fmap. exists q. split; [|done]. by rewrite Eq, Ez.
  - intros k v. rewrite E. rewrite <- elem_of_list_In, elem_of_list_omap. unfold get. rewrite (get_raw_ok _ _ _ _ _ HI). split.
    + intros (q & Hq & Eq). apply pick_user in Eq. subst q. cbn [fst snd] in Hq. apply Hl in Hq. by rewrite Hq.
    + intros H. injection H as H. exists (user_key k, v). split; [by apply Hl|]. by apply pick_user.
Qed.
(** [iter_raw()] returns every stored entry of every kind exactly once. *)
Theorem C15_iter_raw_returns_all : forall cfg s, reachable cfg s ->
  exists l, iterates s (iter_new true) l /\ NoDup (map fst l) /\
    forall k v, In (k, v) l <-> get_raw cfg s k = Ok (Some v).
Proof.
  intros cfg s Hr. destruct (reach_inv _ _ Hr) as (x & M & HI).
  destruct (it_rest_new _ _ _ _ true HI) as (l & E & Hn & Hl).
  assert (omap (M := list) (iter_pick true) l = l) as El.
  { clear. induction l as [|y l IH]; [done|]. cbn. f_equal. exact IH. }
  rewrite El in E. exists l. split; [|split].
  - eapply iterates_rest; [done|apply iter_new_ok|done|done].
  - done.
  - intros k v. rewrite <- elem_of_list_In, Hl, (get_raw_ok _ _ _ _ _ HI). split; [by intros ->|]. by intros [= H].
Qed.
(** The sequence of items is determined, and so is what [next()] does. *)
Theorem C15_iteration_is_determined : forall s it l l', iterates s it l -> iterates s it l' -> l = l'.
Proof.
  intros s it l l' (a & b & Ya & Na) (c & d & Yc & Nc). revert l' c d Yc Nc.
  induction Ya as [it|it y it1 l it2 En Ya IH]; intros l' c d Yc Nc; destruct Yc as [it'|it' y' it1' l' it2' En' Yc]; rewrite ?En in *.
  - done.
  - congruence.
  - congruence.
  - injection En' as -> ->. f_equal. by eapply IH.
Qed.

(** ** C16 *)
Lemma land_small a : a < 65536 -> N.land a 65535 = a.
Proof. intros H. change 65535 with (N.ones 16). rewrite N.land_ones. by apply N.mod_small. Qed.
Lemma cookie_fields a b c : a < 65536 -> b < 65536 -> c < 65536 ->
  let k := N.lor (N.lor (N.shiftl a 32) (N.shiftl b 16)) c in
  N.land (N.shiftr k 32) 65535 = a /\ N.land (N.shiftr k 16) 65535 = b /\ N.land k 65535 = c.
Proof.
  intros Ha Hb Hc. cbn zeta.
  assert (forall z, z < 65536 -> forall i, 16 <= i -> N.testbit z i = false) as Hhi.
  { intros z Hz i Hi. destruct (decide (z = 0)) as [->|Hz0]; [apply N.bits_0|]. apply N.bits_above_log2.
    apply N.log2_lt_pow2; [lia|]. apply N.lt_le_trans with (2 ^ 16); [exact Hz|]. apply N.pow_le_mono_r; lia. }
  change 65535 with (N.ones 16). rewrite !N.land_ones.
  split; [|split]; apply N.bits_inj; intros i; (destruct (N.lt_ge_cases i 16) as [Hi|Hi];
    [rewrite N.mod_pow2_bits_low by done|rewrite N.mod_pow2_bits_high by done; symmetry; apply Hhi; lia]);
    rewrite ?N.shiftr_spec', !N.lor_spec.
  - rewrite N.shiftl_spec_high' by lia. replace (i + 32 - 32) with i by lia.
    rewrite N.shiftl_spec_high' by lia. rewrite (Hhi b) by lia. rewrite (Hhi c) by lia. by rewrite !orb_false_r.
  - rewrite N.shiftl_spec_low by lia. rewrite N.shiftl_spec_high' by lia. replace (i + 16 - 16) with i by lia.
    rewrite (Hhi c) by lia. by rewrite orb_false_r.
  - rewrite !N.shiftl_spec_low by lia. done.
Qed.
Lemma from_cookie_ok it : it_ok it -> it_sel it < END_OF_SHARDS -> from_cookie (cookie it) (it_raw it) = it.
Proof.
  intros [H1 H2] H3. unfold END_OF_SHARDS in H3. unfold from_cookie, cookie.
  pose proof row_width_N. pose proof num_rows_N. unfold it_pos in H2.
  assert (N.of_nat (it_row it) < 65536) by nia. assert (N.of_nat (it_col it) < 65536) by lia.
  rewrite (land_small (it_sel it)), (land_small (N.of_nat (it_row it))), (land_small (N.of_nat (it_col it))) by assumption.
  destruct (cookie_fields (it_sel it) (N.of_nat (it_row it)) (N.of_nat (it_col it))) as (-> & -> & ->); try done.
  rewrite !Nat2N.id. by destruct it.
Qed.
(** After any number of items, an iterator made from the cookie returns exactly the items not returned yet, in
    the same order. Missing: an iterator that has already returned [None]; see the refutation. *)
Theorem C16_cookie_resumes_partial : forall cfg s raw l it, reachable cfg s ->
  yields s (iter_new raw) l it ->
  exists rest, iterates s (from_cookie (cookie it) raw) rest /\ iterates s (iter_new raw) (l ++ rest).
Proof.
  intros cfg s raw l it Hr Hy. destruct (reach_inv _ _ Hr) as (x & M & HI).
  destruct (yields_rest _ _ _ _ HI _ _ _ Hy (iter_new_ok raw) ltac:(done)) as (K1 & K2 & K3 & K4 & K5).
  specialize (K5 ltac:(done)). cbn [iter_new it_raw] in K3. exists (it_rest s it). split.
  - rewrite <- K3. rewrite from_cookie_ok by done. by eapply iterates_rest.
  - eapply iterates_rest; [done|apply iter_new_ok|done|done].
Qed.

(** The full claim is false at the end: once an iterator has returned [None], its cookie starts all over again. *)
Theorem C16_cookie_at_the_end_refuted : forall cfg s raw l, reachable cfg s -> iterates s (iter_new raw) l ->
  exists it it', yields s (iter_new raw) l it /\ next s it = Ok (None, it') /\ iterates s (from_cookie (cookie it') raw) l.
Proof.
  intros cfg s raw l Hr (it & it' & Hy & Hn). exists it, it'. split; [done|]. split; [done|].
  destruct (reach_inv _ _ Hr) as (x & M & HI).
  destruct (yields_rest _ _ _ _ HI _ _ _ Hy (iter_new_ok raw) ltac:(done)) as (K1 & K2 & K3 & K4 & K5). specialize (K5 ltac:(done)).
  destruct (next_spec _ _ _ _ it HI K1 K2) as (o & it0 & En & G1 & G2 & G3 & G4). rewrite Hn in En. injection En as <- <-.
  destruct G4 as (G4 & _ & G5). destruct (G5 K5) as [G6 G7].
  assert (from_cookie (cookie it') raw = iter_new raw) as ->; [|by exists it, it'].
  unfold from_cookie, cookie. rewrite G4, G6, G7. done.
Qed.
