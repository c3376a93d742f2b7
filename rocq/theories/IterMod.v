(** Iterating while the store is modified: which untouched keys are still returned. *)
From Verif Require Import Base SipHash Hashing HashingProofs Fs Shard Router RouterPure Wpc Spec FileRep RowOps
  Compact Inv ShardOps Split Insert Open Merge Create Store Limits StoreRefine Kv Lists Queues Api Hist KvSpec
  HistInv KeySpace PlainSpec Plain Check ThmStore Iter ThmIter Refine.
Implicit Types (cfg : config) (s : store) (it : iter_state).

Definition sel_of cfg (k : bytes) : N := ph_selector (hashk cfg (user_key k)).
Definition row_of_key cfg (k : bytes) : nat := ph_row (hashk cfg (user_key k)).

(** Key [k] is in a part of the store the iterator has yet to enter. *)
Definition ahead cfg s it k : Prop :=
  it_sel it < 65536 /\
  let sh := route (st_root s) (it_sel it) in
  sh_end sh <= sel_of cfg k \/
  (sh_start sh <= sel_of cfg k < sh_end sh /\
   ((it_row it < row_of_key cfg k)%nat \/ (it_row it = row_of_key cfg k /\ it_col it = 0%nat))).

Lemma elem_picks k v l : (k, v) ∈ picks false l <-> Some (user_key k, v) ∈ l.
Proof.
  unfold picks. rewrite elem_of_list_omap. setoid_rewrite elem_of_entries. split.
  - intros (q & Hq & E). apply pick_user in E. by subst q.
  - intros H. exists (user_key k, v). split; [done|]. by apply pick_user.
Qed.
(** Where a key is in its shard. *)
Lemma flat_at cfg x m w sh k v j : wf w -> leaf_ok cfg x m w sh -> flat w sh !! j = Some (Some (k, v)) ->
  exists c, (c < ROW_WIDTH)%nat /\ j = (ph_row (hashk cfg k) * ROW_WIDTH + c)%nat /\ sh_start sh <= ph_selector (hashk cfg k) < sh_end sh.
Proof.
  intros Hwf Hl Hj. assert (j < NUM_ROWS * ROW_WIDTH)%nat as Hlt.
  { apply lookup_lt_Some in Hj. unfold flat in Hj. by rewrite flat_n_length in Hj. }
  pose proof row_width_N. set (r := (j / ROW_WIDTH)%nat). set (c := (j mod ROW_WIDTH)%nat).
  assert (ROW_WIDTH <> 0)%nat as Hw0 by lia.
  pose proof (Nat.div_mod j ROW_WIDTH Hw0) as Ej. pose proof (Nat.mod_upper_bound j ROW_WIDTH Hw0) as Hc. fold r c in Ej, Hc.
  assert (r < NUM_ROWS)%nat as Hr by nia.
  assert (j = r * ROW_WIDTH + c)%nat as Ej' by lia. rewrite Ej' in Hj. unfold flat in Hj. rewrite flat_n_lookup in Hj by done.
  destruct (read_at_ok cfg x m w sh Hwf Hl r Hr) as [_ [_ Hh]].
  assert ((k, v) ∈ entries (row_slots w sh r)) as Hin.
  { apply elem_of_entries. injection Hj as Hj. rewrite <- Hj. unfold row_slots. apply elem_of_list_fmap. exists c. split; [done|].
    apply elem_of_seq. lia. }
  apply Hh in Hin as [_ [Hs Hrow]]. exists c. split; [done|]. rewrite Hrow. split; [done|]. exact Hs.
Qed.
Section s.
Context (cfg : config) (x : bool) (M : kvmap) (s : store) (HI : SInv cfg x M s).
Lemma ahead_rest it k v : it_raw it = false -> it_ok it -> M !! user_key k = Some v -> ahead cfg s it k -> (k, v) ∈ it_rest s it.
Proof.
  intros Hraw [Hc Hp] HM [Hlt Ha]. unfold it_rest. change END_OF_SHARDS with 65536.
  destruct (N.ltb_spec (it_sel it) 65536); [|lia]. rewrite Hraw.
  pose proof HI as (Hwf & Htr & Hl & _).
  destruct (route_ok _ _ _ _ _ (it_sel it) HI Hlt) as [Hlf Hs].
  destruct (route_ok _ _ _ _ _ (sel_of cfg k) HI (hashk_sel cfg _)) as [Hlk Hsk].
  destruct (route_in (st_root s) 0 16 (it_sel it) Htr) as [Hin _]; [change (0 + 2 ^ N.of_nat 16) with 65536; lia|].
  destruct (route_in (st_root s) 0 16 (sel_of cfg k) Htr) as [Hink _]; [apply sel_in|].
  set (sh := route (st_root s) (it_sel it)) in *.
  assert (forall q, leaf_ok cfg x M (st_fs s) q -> sh_start q <= sel_of cfg k < sh_end q -> exists j, flat (st_fs s) q !! j = Some (Some (user_key k, v))) as Hfind.
  { intros q Hq Hsq. destruct (flat_holds cfg x M (st_fs s) q Hwf Hq) as [_ Hh].
    assert ((user_key k, v) ∈ entries (flat (st_fs s) q)) as He by (apply Hh; split; [done|exact Hsq]).
    apply elem_of_entries in He. by apply elem_of_list_lookup in He. }
  apply elem_of_app. cbn zeta in Ha. destruct Ha as [Ha|[Hs2 Ha]].
  - right. unfold items_of. apply elem_of_list_In, in_concat. exists (picks false (flat (st_fs s) (route (st_root s) (sel_of cfg k)))).
    split.
    + apply in_map_iff. eexists. split; [done|]. apply filter_In. split; [done|]. apply N.leb_le.
      destruct (N.le_gt_cases (sh_end sh) (sh_start (route (st_root s) (sel_of cfg k)))) as [|Hgt]; [done|exfalso].
      pose proof (leaves_bounds _ _ _ _ Htr Hin). pose proof (leaves_bounds _ _ _ _ Htr Hink).
      pose proof (leaf_unique _ _ _ _ (sh_end sh - 1) Htr Hin ltac:(lia)) as E1.
      pose proof (leaf_unique _ _ _ _ (sh_end sh - 1) Htr Hink ltac:(lia)) as E2.
      rewrite E1 in E2. rewrite <- E2 in Hsk. lia.
    + apply elem_of_list_In, elem_picks. destruct (Hfind _ Hlk Hsk) as [j Hj]. by eapply elem_of_list_lookup_2.
  - left. apply elem_picks. destruct (Hfind _ Hlf Hs2) as [j Hj]. destruct (flat_at _ _ _ _ _ _ _ _ Hwf Hlf Hj) as (c & Hcc & Ej & _).
    fold (row_of_key cfg k) in Ej. apply elem_of_list_lookup. exists (j - it_pos it)%nat. rewrite lookup_drop.
    replace (it_pos it + (j - it_pos it))%nat with j; [done|]. unfold it_pos. destruct Ha as [Ha|[Ha1 Ha2]]; nia.
Qed.
Lemma rest_ahead it k v : it_raw it = false -> it_ok it -> (k, v) ∈ it_rest s it ->
  ~ (it_row it = row_of_key cfg k /\ it_col it <> 0%nat) -> ahead cfg s it k.
Proof.
  intros Hraw [Hc Hp] Hin Hno. unfold it_rest in Hin. change END_OF_SHARDS with 65536 in Hin.
  destruct (N.ltb_spec (it_sel it) 65536) as [Hlt|]; [|by apply elem_of_nil in Hin]. split; [done|]. cbn zeta.
  pose proof HI as (Hwf & Htr & Hl & _). rewrite Hraw in Hin.
  destruct (route_ok _ _ _ _ _ (it_sel it) HI Hlt) as [Hlf Hs].
  set (sh := route (st_root s) (it_sel it)) in *.
  apply elem_of_app in Hin as [Hin|Hin].
  - right. apply elem_picks, elem_of_list_lookup in Hin as [j Hj]. rewrite lookup_drop in Hj.
    destruct (flat_at _ _ _ _ _ _ _ _ Hwf Hlf Hj) as (c & Hcc & Ej & Hsel). split; [exact Hsel|].
    fold (row_of_key cfg k) in Ej. unfold it_pos in Ej.
    destruct (Nat.lt_trichotomy (it_row it) (row_of_key cfg k)) as [Hr|[Hr|Hr]]; [by left| |nia].
    right. split; [done|]. destruct (decide (it_col it = 0%nat)); [done|]. exfalso. by apply Hno.
  - left. unfold items_of in Hin. apply elem_of_list_In, in_concat in Hin as (l & Hl1 & Hl2).
    apply in_map_iff in Hl1 as (q & <- & Hq). pose proof (after_ok cfg x M s HI (sh_end sh)) as Haf. rewrite Forall_forall in Haf.
    specialize (Haf q ltac:(by apply elem_of_list_In)). apply filter_In in Hq as [_ Hq]. apply N.leb_le in Hq.
    apply elem_of_list_In, elem_picks, elem_of_list_lookup in Hl2 as [j Hj].
    destruct (flat_at _ _ _ _ _ _ _ _ Hwf Haf Hj) as (c & _ & _ & Hsel). unfold sel_of. lia.
Qed.
Lemma spans_SInv : spans_ok (st_root s).
Proof. intros sh Hin. destruct HI as (_ & Htr & _). pose proof (leaves_bounds _ _ _ _ Htr Hin). lia. Qed.
End s.

(** The iterator stands at the start of a shard. *)
Definition aligned s it : Prop := it_sel it < 65536 -> sh_start (route (st_root s) (it_sel it)) = it_sel it.
Lemma ahead_finer cfg x x' M M' s s' it k : SInv cfg x M s -> SInv cfg x' M' s' -> finer (st_root s) (st_root s') ->
  aligned s it -> aligned s' it /\ (ahead cfg s it k -> ahead cfg s' it k).
Proof.
  intros HI HI' Hf Hal. destruct (Hf (spans_SInv _ _ _ _ HI)) as [_ Hw].
  pose proof HI as (_ & Htr & _). pose proof HI' as (_ & Htr' & _).
  assert (it_sel it < 65536 -> sh_start (route (st_root s') (it_sel it)) = it_sel it /\ sh_end (route (st_root s') (it_sel it)) <= sh_end (route (st_root s) (it_sel it))) as Hk.
  { intros Hlt. destruct (route_in (st_root s') 0 16 (it_sel it) Htr') as [Hin' Hs']; [change (0 + 2 ^ N.of_nat 16) with 65536; lia|].
    destruct (Hw _ Hin') as (sh & Hin & Hb). rewrite <- (leaf_unique _ _ _ _ (it_sel it) Htr Hin) in Hb by lia. rewrite (Hal Hlt) in Hb. lia. }
  split; [intros Hlt; by apply Hk|]. intros [Hlt Ha]. split; [done|]. cbn zeta in *. destruct (Hk Hlt) as [K1 K2].
  destruct Ha as [Ha|[Ha1 Ha2]]; [left; lia|].
  destruct (N.le_gt_cases (sh_end (route (st_root s') (it_sel it))) (sel_of cfg k)) as [|Hgt]; [by left|right].
  split; [|done]. rewrite (Hal Hlt) in Ha1. lia.
Qed.
Lemma next_aligned cfg x M s it y it' : SInv cfg x M s -> next s it = Ok (Some y, it') -> aligned s it'.
Proof.
  intros HI. unfold next. generalize ITER_FUEL as fuel. intros fuel. revert it.
  induction fuel as [|fuel IH]; intros it Hn; cbn [iter_next] in Hn; [done|].
  destruct (N.ltb_spec (it_sel it) END_OF_SHARDS) as [Hlt|]; [|done].
  destruct (scan_shard _ _ _ _ _ _) as [[[o r] c]|e]; [|done]. cbn [rbind] in Hn. destruct o as [z|].
  - injection Hn as _ <-. intros _. cbn [it_sel]. pose proof HI as (_ & Htr & _).
    destruct (route_in (st_root s) 0 16 (it_sel it) Htr) as [Hin Hs]; [change (0 + 2 ^ N.of_nat 16) with 65536; unfold END_OF_SHARDS in Hlt; lia|].
    by rewrite (leaf_unique _ _ _ _ (sh_start (route (st_root s) (it_sel it))) Htr Hin) by lia.
  - by eapply IH.
Qed.

(** ** Sessions: calls of [next()] that return an item, and events in between. *)
Inductive istep := INext (y : kv) | IEvent (e : event).
Inductive session (G : store -> iter_state -> event -> store -> Prop) (cfg : config)
  : store -> iter_state -> list istep -> store -> iter_state -> Prop :=
| sn_nil s it : session G cfg s it [] s it
| sn_next s it y it1 l s' it' : next s it = Ok (Some y, it1) -> session G cfg s it1 l s' it' ->
    session G cfg s it (INext y :: l) s' it'
| sn_event s it e s1 l s' it' : fits cfg s e -> hstep cfg s e cfg s1 -> G s it e s1 -> session G cfg s1 it l s' it' ->
    session G cfg s it (IEvent e :: l) s' it'.

(** The iterator stands in the middle of the row of key [k]. *)
Definition inside_row cfg k it : Prop := it_row it = row_of_key cfg k /\ it_col it <> 0%nat.


Lemma hist_snoc G cfg s es cfg1 s1 e cfg2 s2 : hist G cfg s es cfg1 s1 -> G cfg1 s1 e -> hstep cfg1 s1 e cfg2 s2 ->
  hist G cfg s (es ++ [e]) cfg2 s2.
Proof.
  induction 1 as [cfg s|cfg s e0 cfg0 s0 es cfg1 s1 H1 H2 H3 IH]; intros Hg Hs; cbn [app].
  - econstructor; [done|done|constructor].
  - econstructor; [done|done|]. by apply IH.
Qed.
Lemma reachable_step cfg s e cfg' s' : reachable cfg s -> fits cfg s e -> hstep cfg s e cfg' s' -> reachable cfg' s'.
Proof.
  intros (cfg0 & s0 & es & Hc & Hh) Hf Hs. exists cfg0, s0, (es ++ [e]). split; [done|]. by eapply hist_snoc.
Qed.

(** ** Items are never stale: whatever the iterator and however the store was modified before, an item that
    [next()] returns is in the store at that moment. *)
Lemma scan_current cfg x M w sh raw : wf w -> leaf_ok cfg x M w sh -> forall fuel r c y r' c',
  scan_shard fuel w sh raw r c = Ok (Some y, r', c') -> exists k v, M !! k = Some v /\ iter_pick raw (k, v) = Some y.
Proof.
  intros Hwf Hl. induction fuel as [|fuel IH]; intros r c y r' c' Hs; cbn [scan_shard] in Hs; [done|].
  destruct (Nat.ltb_spec r NUM_ROWS) as [Hr|]; [|done].
  destruct (if (ROW_WIDTH <=? S c)%nat then (S r, 0%nat) else (r, S c)) as [r1 c1].
  destruct (shard_read_at w sh r c) as [o|e] eqn:Er; [|done]. cbn [rbind] in Hs.
  destruct o as [[k v]|]; [|by eapply IH].
  destruct (iter_pick raw (k, v)) as [z|] eqn:Ez; [|by eapply IH]. injection Hs as -> _ _. exists k, v. split; [|done].
  destruct (read_at_ok cfg x M w sh Hwf Hl r Hr) as [Hrd [_ Hh]].
  assert (c < ROW_WIDTH)%nat as Hc.
  { destruct (leaf_focus cfg x M w sh r 0 Hwf Hl Hr) as (i & f & L & nm & F1 & F2 & F3 & F4 & F5 & F6 & _).
    unfold shard_read_at in Er. rewrite F1 in Er. cbn [rbind] in Er.
    destruct (row_of f r !! c) as [sl|] eqn:Esl; [|done]. apply lookup_lt_Some in Esl.
    pose proof (file_rep_row _ _ _ _ F6 Hr) as Hrow. apply Forall2_length in Hrow. rewrite Hrow, (file_rep_length _ _ _ _ F6 Hr) in Esl. done. }
  apply (Hh k v). apply elem_of_entries. rewrite (Hrd c Hc) in Er. injection Er as Er. rewrite <- Er.
  unfold row_slots. apply elem_of_list_fmap. exists c. split; [done|]. apply elem_of_seq. lia.
Qed.
Lemma next_current cfg x M s it y it' : SInv cfg x M s -> next s it = Ok (Some y, it') ->
  exists k v, M !! k = Some v /\ iter_pick (it_raw it) (k, v) = Some y.
Proof.
  intros HI. unfold next. generalize ITER_FUEL as fuel. intros fuel. revert it.
  induction fuel as [|fuel IH]; intros it Hn; cbn [iter_next] in Hn; [done|].
  destruct (N.ltb_spec (it_sel it) END_OF_SHARDS) as [Hlt|]; [|done].
  destruct (scan_shard _ _ _ _ _ _) as [[[o r] c]|e] eqn:Es; [|done]. cbn [rbind] in Hn. pose proof HI as (Hwf & _).
  destruct o as [z|].
  - injection Hn as -> _. destruct (route_ok _ _ _ _ _ (it_sel it) HI Hlt) as [Hl _]. by eapply scan_current.
  - apply IH in Hn as (k & v & H1 & H2). cbn [it_raw] in H2. eauto.
Qed.
Theorem C17_items_are_current : forall cfg s it k v it', reachable cfg s ->
  it_raw it = false -> next s it = Ok (Some (k, v), it') -> get cfg s k = Ok (Some v).
Proof.
  intros cfg s it k v it' Hr Hraw Hn. destruct (reach_inv _ _ Hr) as (x & M & HI).
  destruct (next_current _ _ _ _ _ _ _ HI Hn) as (k0 & v0 & H1 & H2). rewrite Hraw in H2. apply pick_user in H2. injection H2 as -> ->.
  unfold get. rewrite (get_raw_ok _ _ _ _ _ HI). cbn [fst snd] in H1. by rewrite H1.
Qed.

(** ** Untouched keys are returned unless they share a row with the iterator's position *)
Definition any_guard (s : store) (it : iter_state) (e : event) (s1 : store) : Prop := True.
Lemma session_mono (G G' : store -> iter_state -> event -> store -> Prop) cfg s it l s' it' :
  (forall s it e s1, G s it e s1 -> G' s it e s1) -> session G cfg s it l s' it' -> session G' cfg s it l s' it'.
Proof. intros H. induction 1; econstructor; eauto. Qed.
Lemma session_ok G cfg s it l s' it' : session G cfg s it l s' it' -> reachable cfg s -> it_ok it -> it_sel it <= END_OF_SHARDS ->
  reachable cfg s' /\ it_ok it' /\ it_sel it' <= END_OF_SHARDS /\ it_raw it' = it_raw it.
Proof.
  induction 1 as [s it|s it y it1 l s' it' Hn Hs IH|s it e s1 l s' it' Hf Hs Hg Hss IH]; intros Hr H1 H2.
  - done.
  - destruct (reach_inv _ _ Hr) as (x & M & HI). destruct (next_spec _ _ _ _ it HI H1 H2) as (o & it0 & En & G1 & G2 & G3 & _).
    rewrite Hn in En. injection En as <- <-. destruct (IH Hr G1 G2) as (K1 & K2 & K3 & K4). repeat (split; [done|]). congruence.
  - apply IH; [|done|done]. by eapply reachable_step.
Qed.
(** Whatever happens to the store in between, [next()] never fails. *)
Theorem C17_next_never_fails : forall cfg s raw l s' it', reachable cfg s ->
  session any_guard cfg s (iter_new raw) l s' it' -> exists o it'', next s' it' = Ok (o, it'').
Proof.
  intros cfg s raw l s' it' Hr Hs. destruct (session_ok _ _ _ _ _ _ _ Hs Hr (iter_new_ok raw) ltac:(done)) as (H1 & H2 & H3 & _).
  destruct (reach_inv _ _ H1) as (x & M & HI). destruct (next_spec _ _ _ _ it' HI H2 H3) as (o & it'' & E & _). eauto.
Qed.

(** A key that has the same value all the time is returned, provided that whenever the store is modified the iterator
    is not in the middle of the key's row. The modifications may be calls of any kind and number (also on the key itself), with
    splits and background compaction. Missing: modifications while the iterator is in the middle of the row; see the
    refutations. *)
Theorem C17_other_rows_partial : forall cfg s k v l s' it it', reachable cfg s -> get cfg s k = Ok (Some v) ->
  session (fun s it e s1 => modifies e /\ get cfg s1 k = Ok (Some v) /\ ~ inside_row cfg k it) cfg s (iter_new false) l s' it ->
  next s' it = Ok (None, it') -> INext (k, v) ∈ l.
Proof.
  intros cfg s k v l s' it it' Hr Hk Hs Hn.
  assert (aligned s (iter_new false)) as Hal.
  { intros _. destruct (reach_inv _ _ Hr) as (x & M & HI). destruct (route_ok _ _ _ _ _ 0 HI ltac:(done)) as [_ H]. cbn. lia. }
  assert (forall s it, reachable cfg s -> get cfg s k = Ok (Some v) -> exists x M, SInv cfg x M s /\ M !! user_key k = Some v) as Hget.
  { intros s0 _ Hr0 Hk0. destruct (reach_inv _ _ Hr0) as (x & M & HI). exists x, M. split; [done|].
    unfold get in Hk0. rewrite (get_raw_ok _ _ _ _ _ HI) in Hk0. by injection Hk0. }
  assert ((k, v) ∈ it_rest s (iter_new false)) as Hin.
  { destruct (Hget s (iter_new false) Hr Hk) as (x & M & HI & HM). destruct (it_rest_new _ _ _ _ false HI) as (q & -> & _ & Hq).
    apply elem_of_list_omap. exists (user_key k, v). split; [by apply Hq|by apply pick_user]. }
  assert (it_ok (iter_new false)) as Hok by apply iter_new_ok.
  assert (it_sel (iter_new false) <= END_OF_SHARDS) as Hsel by done.
  assert (it_raw (iter_new false) = false) as Hraw by done.
  revert Hn Hal Hin Hok Hsel Hraw. revert Hr Hk.
  induction Hs as [s it|s it y it1 l s' it2 Hy Hs IH|s it e s1 l s' it2 Hf Hh Hg Hs IH]; intros Hr Hk Hn Hal Hin Hok Hsel Hraw.
  - exfalso. destruct (Hget s it Hr Hk) as (x & M & HI & HM). destruct (next_spec _ _ _ _ it HI Hok Hsel) as (o & it0 & En & _ & _ & _ & Ho).
    rewrite Hn in En. injection En as <- <-. destruct Ho as (_ & Ho & _). rewrite Ho in Hin. by apply elem_of_nil in Hin.
  - destruct (Hget s it Hr Hk) as (x & M & HI & HM). destruct (next_spec _ _ _ _ it HI Hok Hsel) as (o & it0 & En & G1 & G2 & G3 & Ho).
    rewrite Hy in En. injection En as <- <-. destruct Ho as [_ Ho]. rewrite Ho in Hin. apply elem_of_cons in Hin as [<-|Hin]; [left|].
    right. apply IH; [done|done|done| |done|done|done|congruence]. by eapply next_aligned.
  - destruct Hg as (Hm & Hk1 & Hno). pose proof (reachable_step _ _ _ _ _ Hr Hf Hh) as Hr1. right.
    destruct (Hget s it Hr Hk) as (x & M & HI & HM). destruct (Hget s1 it Hr1 Hk1) as (x1 & M1 & HI1 & HM1).
    destruct (ahead_finer cfg x x1 M M1 s s1 it k HI HI1 (hstep_finer _ _ _ _ _ Hh Hm) Hal) as [Hal1 Hah].
    apply IH; [done|done|done|done| |done|done|done]. eapply ahead_rest; [done|done|done|done|]. apply Hah. by eapply rest_ahead.
Qed.

(** ** C47: iterating from any cookie *)
Lemma succ_fuel (f : nat) (n : N) : N.of_nat f = n + 1 -> exists g, f = S g /\ N.of_nat g = n.
Proof. intros H. exists (pred f). lia. Qed.
Lemma scan_past fuel w sh raw r c : fuel <> 0%nat -> (NUM_ROWS <= r)%nat -> scan_shard fuel w sh raw r c = Ok (None, 0%nat, 0%nat).
Proof. intros Hf Hr. destruct fuel as [|fuel]; [done|]. cbn [scan_shard]. destruct (Nat.ltb_spec r NUM_ROWS); [lia|done]. Qed.
Lemma iter_skip g s it : it_sel it < END_OF_SHARDS -> (NUM_ROWS <= it_row it)%nat ->
  iter_next (S g) s it = iter_next g s (Iter (sh_end (route (st_root s) (it_sel it))) 0 0 (it_raw it)).
Proof.
  intros H1 H2. cbn [iter_next]. destruct (N.ltb_spec (it_sel it) END_OF_SHARDS); [|lia].
  rewrite scan_past; [done| |done]. assert (N.of_nat SCAN_FUEL = 32769) by (unfold SCAN_FUEL; by rewrite N2Nat.id). lia.
Qed.
(** Any 64-bit number whose last 16 bits are below 512 can be used as a cookie: the iteration never fails and ends, and
    every item it returns is in the store. Missing: the other cookies, on which [next()] panics (ExIter.v). *)
Theorem C47_any_cookie_partial : forall cfg s c, reachable cfg s -> N.land c 65535 < 512 ->
  exists l, iterates s (from_cookie c false) l /\ forall k v, In (k, v) l -> get cfg s k = Ok (Some v).
Proof.
  intros cfg s c Hr Hc. destruct (reach_inv _ _ Hr) as (x & M & HI).
  set (it := from_cookie c false). assert (it_col it < ROW_WIDTH)%nat as Hcol.
  { cbn [it from_cookie it_col]. pose proof row_width_N. lia. }
  assert (it_sel it < 65536) as Hsel.
  { cbn [it from_cookie it_sel]. change 65535 with (N.ones 16). rewrite N.land_ones. apply N.mod_lt. done. }
  assert (exists l, iterates s it l) as [l Hl].
  { destruct (decide (it_pos it <= NUM_ROWS * ROW_WIDTH)%nat) as [Hp|Hp].
    - eexists. eapply iterates_rest; [done|by split|unfold END_OF_SHARDS; lia|done].
    - (* past the last row: the first call goes on to the next shard *)
      pose proof HI as (Hwf & Htr & _).
      destruct (route_ok _ _ _ _ _ (it_sel it) HI Hsel) as [_ Hs].
      destruct (route_in (st_root s) 0 16 (it_sel it) Htr) as [Hin _]; [change (0 + 2 ^ N.of_nat 16) with 65536; lia|].
      pose proof (leaves_bounds _ _ _ _ Htr Hin) as Hb. change (0 + 2 ^ N.of_nat 16) with 65536 in Hb.
      set (it1 := Iter (sh_end (route (st_root s) (it_sel it))) 0 0 (it_raw it)).
      assert (it_ok it1) as Hok1 by (split; [cbn [it1 it_col]; pose proof row_width_N; lia|unfold it_pos; cbn [it1 it_row it_col]; lia]).
      destruct (succ_fuel ITER_FUEL 65536 iter_fuel_N) as (g & Eg & Hg).
      assert (iter_next (S g) s it = iter_next g s it1) as E.
      { apply iter_skip; [unfold END_OF_SHARDS; lia|]. unfold it_pos in Hp. nia. }
      destruct (iter_next_spec cfg x M s HI g it1 Hok1) as (o & it2 & En & G1 & G2 & G3 & G4);
        [cbn [it1 it_sel]; unfold END_OF_SHARDS; lia|cbn [it1 it_sel]; unfold END_OF_SHARDS; lia|].
      rewrite <- E, <- Eg in En. fold (next s it) in En. clear E Eg. destruct o as [y|].
      + destruct (iterates_rest _ _ _ _ HI _ it2 G1 G2 eq_refl) as (a & b & Y1 & Y2).
        exists (y :: it_rest s it2), a, b. split; [by econstructor|done].
      + exists [], it, it2. split; [constructor|done]. }
  exists l. split; [done|]. destruct Hl as (a & b & Hy & _). assert (it_raw it = false) as Hraw by done. clearbody it.
  clear - Hr Hy Hraw HI. induction Hy as [it|it y it1 l it2 En Hy IH]; intros k v Hin; [done|].
  destruct Hin as [->|Hin].
  - by eapply C17_items_are_current.
  - apply IH; [|done]. clear - En Hraw. revert En. unfold next. generalize ITER_FUEL as fuel. intros fuel. revert it Hraw.
    induction fuel as [|fuel IHf]; intros it Hraw En; cbn [iter_next] in En; [done|]. destruct (_ <? _); [|done].
    destruct (scan_shard _ _ _ _ _ _) as [[[o r] c]|]; [|done]. cbn [rbind] in En. destruct o as [z|]; [by injection En as _ <-|].
    by eapply IHf; [|exact En].
Qed.
