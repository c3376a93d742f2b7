(** Iterating beside other threads comes to an end (C66). *)
From Verif Require Import Base Hashing HashingProofs Fs Shard Router RouterPure Wpc Spec FileRep RowOps
  Compact Inv ShardOps Split Insert Open Merge Create Store Limits StoreRefine Kv Lists Queues Api Hist KvSpec
  HistInv KeySpace PlainSpec Plain Check ThmStore Iter ThmIter Conc ConcSpec ConcLocal ConcFile ConcTree
  ConcInv ConcStep ConcRow ConcStruct ConcMain ConcLin ThmConc ConcIter ConcWalk ThmConcIter.
Implicit Types (cfg : config) (s : store) (es : list wevent) (c : cstate) (n : nat) (chs : list wchoice) (b : wstate) (its : list walker).

(** ** Spans never grow *)
Lemma starts_grow cfg x c A os h c' e A' os' : CInv cfg x c A os -> CInv cfg x c' A' os' -> cstep cfg c h = Some (c', e) ->
  forall sel, sel < 65536 -> sh_start (route (c_root c) sel) <= sh_start (route (c_root c') sel).
Proof.
  intros H H' Hs sel Hsel. pose proof (ci_skel _ _ _ _ _ H) as Hsk. pose proof (ci_skel _ _ _ _ _ H') as Hsk'.
  destruct (step_spans _ _ _ _ _ _ _ _ _ _ H H' Hs) as [Hsp|(a & o & k & s1 & e1 & -> & Ha & (sh & Hsh & Esp) & Hout)].
  - specialize (Hsp _ Hsel). unfold span_of in Hsp. injection Hsp as -> _. done.
  - destruct (decide (s1 <= sel < e1)) as [Hin|Hn]; [|by rewrite Hout].
    unfold span_of in Esp. injection Esp as <- <-. destruct (skel_leaf _ _ _ Hsk Hsh) as (D1 & D2 & D3). rewrite (D3 _ Hin).
    destruct (skel_route _ _ _ Hsk' Hsel) as [R1' R2']. set (sh' := route (c_root c') sel) in *.
    destruct (skel_leaf _ _ _ Hsk' R1') as (D1' & D2' & D3').
    destruct (N.le_gt_cases (sh_start sh) (sh_start sh')) as [|Hlt]; [done|exfalso].
    assert (route (c_root c') (sh_start sh - 1) = sh') as E1 by (apply D3'; lia).
    rewrite Hout in E1 by lia. destruct (skel_route _ _ (sh_start sh - 1) Hsk ltac:(lia)) as [Q1 Q2]. rewrite E1 in Q1.
    destruct (skel_leaf _ _ _ Hsk Q1) as (_ & _ & Q3). pose proof (Q3 sel ltac:(lia)) as Q4.
    rewrite D3 in Q4 by lia. rewrite <- Q4 in *. lia.
Qed.

(** ** How far an iterator is from the end *)
Definition SLOTS : N := 32768.
Definition shard_at (r : router) (T : walker) : N :=
  match T with
  | WIn _ s _ => s
  | WOut it | WNext it => if it_sel it <? 65536 then sh_start (route r (it_sel it)) else 65536
  end.
Definition place (it : iter_state) : N :=
  if (it_row it <? NUM_ROWS)%nat then N.of_nat (it_row it) * 512 + N.of_nat (it_col it) else SLOTS.
Definition left (r : router) (T : walker) : N :=
  2 * ((65536 - shard_at r T) * (SLOTS + 1) - place (w_it T)) + match T with WNext _ => 1 | _ => 0 end.

Lemma place_le it : (it_col it < ROW_WIDTH)%nat -> place it <= SLOTS.
Proof. intros H. pose proof num_rows_N. pose proof row_width_N. unfold place, SLOTS. destruct (Nat.ltb_spec (it_row it) NUM_ROWS); lia. Qed.
Lemma place_advance it : (it_col it < ROW_WIDTH)%nat -> (it_row it < NUM_ROWS)%nat -> place (advance it) = place it + 1.
Proof.
  intros H Hr. pose proof num_rows_N. pose proof row_width_N. unfold place, advance, SLOTS.
  destruct (Nat.leb_spec ROW_WIDTH (S (it_col it))); cbn [it_row it_col].
  - rewrite (proj2 (Nat.ltb_lt _ _) Hr). destruct (Nat.ltb_spec (S (it_row it)) NUM_ROWS); lia.
  - rewrite (proj2 (Nat.ltb_lt _ _) Hr). lia.
Qed.
Lemma left_start r it : left r (WOut it) <= 2 * 65536 * (SLOTS + 1).
Proof. unfold left. set (a := shard_at r (WOut it)). assert ((65536 - a) * (SLOTS + 1) <= 65536 * (SLOTS + 1)) by (apply N.mul_le_mono_r; lia). lia. Qed.

Lemma left_walk cfg x c A os T T' y : CInv cfg x c A os -> wok (c_root c) T -> walk_step cfg c T = Some (T', y) ->
  left (c_root c) T' + 1 <= left (c_root c) T.
Proof.
  intros H [W1 W2] Hs. pose proof (ci_skel _ _ _ _ _ H) as Hsk. destruct T as [it|it|it s e]; cbn [walk_step w_it] in *; [done| |].
  - destruct (N.ltb_spec (it_sel it) END_OF_SHARDS) as [Hlt|Hge]; injection Hs as <- <-; unfold left; cbn [shard_at w_it]; [|lia].
    change END_OF_SHARDS with 65536 in Hlt. rewrite (proj2 (N.ltb_lt _ _) Hlt). lia.
  - destruct W2 as (W2 & W3 & W4). destruct (skel_route _ _ _ Hsk W3) as [R1 R2]. set (sh := route (c_root c) s) in *.
    unfold span_of in W4. injection W4 as E1 E2. destruct (skel_leaf _ _ _ Hsk R1) as (B1 & B2 & B3).
    destruct (Nat.ltb_spec (it_row it) NUM_ROWS) as [Hr|Hr].
    2:{ injection Hs as <- <-. unfold left. cbn [shard_at w_it it_sel]. unfold place at 2. destruct (Nat.ltb_spec (it_row it) NUM_ROWS); [lia|].
        assert (place (Iter e 0 0 (it_raw it)) = 0) as ->.
        { unfold place. cbn [it_row it_col]. pose proof num_rows_N. destruct (Nat.ltb_spec 0 NUM_ROWS); lia. }
        assert ((if e <? 65536 then sh_start (route (c_root c) e) else 65536) = e) as ->.
        { destruct (N.ltb_spec e 65536) as [He|]; [|lia]. rewrite <- E2. eapply after_next; [apply (sk_tree _ _ Hsk)|exact R1|].
          change (0 + 2 ^ N.of_nat 16) with 65536. lia. }
        unfold SLOTS. lia. }
    destruct (row_free _ _ _); [|done]. pose proof (place_advance it W1 Hr) as Hp. pose proof (place_le it W1) as Hle.
    destruct (advance_col it W1) as (A1 & A2 & A3). pose proof (place_le (advance it) A1) as Hle'.
    assert (forall T1, shard_at (c_root c) T1 = s -> place (w_it T1) = place (advance it) -> match T1 with WNext _ => False | _ => True end ->
      left (c_root c) T1 + 1 <= left (c_root c) (WIn it s e)) as Hadv.
    { intros T1 F1 F2 F3. unfold left. rewrite F1, F2, Hp. cbn [shard_at w_it].
      assert (SLOTS + 1 <= (65536 - s) * (SLOTS + 1)) by (unfold SLOTS in *; lia).
      set (z := (65536 - s) * (SLOTS + 1)) in *. destruct T1; [lia|done|lia]. }
    assert (shard_at (c_root c) (WOut (Iter s (it_row (advance it)) (it_col (advance it)) (it_raw it))) = s) as Hout.
    { cbn [shard_at it_sel]. rewrite (proj2 (N.ltb_lt _ _) W3). exact E1. }
    destruct (shard_read_at _ _ _ _) as [[q|]|er].
    + destruct (iter_pick _ _); injection Hs as <- <-; [by apply Hadv|by apply Hadv].
    + injection Hs as <- <-. by apply Hadv.
    + injection Hs as <- <-. apply Hadv; [|done|done]. cbn [shard_at]. rewrite A2, (proj2 (N.ltb_lt _ _)) by lia. rewrite B3 by lia. exact E1.
Qed.

Definition is_run (i : nat) (ch : wchoice) : bool := match ch with WRun j => (j =? i)%nat | _ => false end.
Definition is_call (i : nat) (ch : wchoice) : bool := match ch with WCall j => (j =? i)%nat | _ => false end.
Definition count (f : wchoice -> bool) chs : N := len (List.filter f chs).
Lemma count_cons f ch chs : count f (ch :: chs) = (if f ch then 1 else 0) + count f chs.
Proof. unfold count. cbn [List.filter]. destruct (f ch); unfold len; cbn [length]; lia. Qed.

Lemma wrun_ends cfg x b chs es b' i : wrun cfg calm_step b chs es b' -> forall A os,
  CInv cfg x (w_c b) A os -> (forall j T, w_its b !! j = Some T -> wok (c_root (w_c b)) T) ->
  forall T, w_its b !! i = Some T -> count (is_run i) chs <= left (c_root (w_c b)) T + count (is_call i) chs.
Proof.
  induction 1 as [b|b ch b1 e chs es b' Hs HG Hr IH]; intros A os HI Hw T HT.
  - unfold count. cbn. lia.
  - rewrite !count_cons. destruct ch as [h|j|j]; cbn [wstep is_run is_call] in *.
    + destruct (kept b h) eqn:Hk; [done|]. destruct (cstep cfg (w_c b) h) as [[c' e']|] eqn:Ec; [|done]. injection Hs as <- <-.
      destruct (step_good _ _ _ _ _ _ _ _ HI HG Ec) as (A1 & os1 & HI1 & _).
      assert (left (c_root c') T <= left (c_root (w_c b)) T) as Hle.
      { assert (shard_at (c_root (w_c b)) T <= shard_at (c_root c') T) as Hsh.
        { destruct T as [it|it|it s e0]; cbn [shard_at]; [| |done]; destruct (N.ltb_spec (it_sel it) 65536); try done; by eapply starts_grow. }
        unfold left. assert ((65536 - shard_at (c_root c') T) * (SLOTS + 1) <= (65536 - shard_at (c_root (w_c b)) T) * (SLOTS + 1)) by (apply N.mul_le_mono_r; lia). lia. }
      specialize (IH A1 os1 HI1). cbn [w_c w_its] in IH. etransitivity; [apply IH; [|exact HT]|lia].
      intros l Tl Hl. eapply wok_step; [exact HI|exact HI1|exact Ec|exact Hk|exact Hl|by eapply Hw].
    + destruct (w_its b !! j) as [[it| |]|] eqn:Ej; try done. injection Hs as <- <-. specialize (IH A os HI). cbn [w_c w_its] in IH.
      assert (forall l Tl, <[j := WNext it]> (w_its b) !! l = Some Tl -> wok (c_root (w_c b)) Tl) as Hw'.
      { intros l Tl Hl. destruct (decide (l = j)) as [->|Hne].
        - rewrite list_lookup_insert in Hl by (by eapply lookup_lt_Some). injection Hl as <-. split; [|done]. by apply (Hw _ _ Ej).
        - rewrite list_lookup_insert_ne in Hl by done. by eapply Hw. }
      specialize (IH Hw'). destruct (Nat.eqb_spec j i) as [->|Hne].
      * rewrite HT in Ej. injection Ej as ->. specialize (IH (WNext it)). rewrite list_lookup_insert in IH by (by eapply lookup_lt_Some).
        specialize (IH eq_refl). unfold left in *. cbn [shard_at w_it] in *. lia.
      * specialize (IH T). rewrite list_lookup_insert_ne in IH by done. by apply IH.
    + destruct (w_its b !! j) as [Tj|] eqn:Ej; [|done]. destruct (walk_step cfg (w_c b) Tj) as [[T' y]|] eqn:Es; [|done]. injection Hs as <- <-.
      destruct (walk_ok _ _ _ _ _ _ _ _ HI (Hw _ _ Ej) Es) as (K1 & _ & _). specialize (IH A os HI). cbn [w_c w_its] in IH.
      assert (forall l Tl, <[j := T']> (w_its b) !! l = Some Tl -> wok (c_root (w_c b)) Tl) as Hw'.
      { intros l Tl Hl. destruct (decide (l = j)) as [->|Hne].
        - rewrite list_lookup_insert in Hl by (by eapply lookup_lt_Some). by injection Hl as <-.
        - rewrite list_lookup_insert_ne in Hl by done. by eapply Hw. }
      specialize (IH Hw'). destruct (Nat.eqb_spec j i) as [->|Hne].
      * rewrite HT in Ej. injection Ej as ->. specialize (IH T'). rewrite list_lookup_insert in IH by (by eapply lookup_lt_Some).
        specialize (IH eq_refl). pose proof (left_walk _ _ _ _ _ _ _ _ HI (Hw _ _ HT) Es). lia.
      * specialize (IH T). rewrite list_lookup_insert_ne in IH by done. by apply IH.
Qed.

(** ** C66: iterating ends *)
(** However the threads run beside it, and however often shards are split and compacted meanwhile, an
    iterator makes at most one step for each call of [next()] and two for each slot there is room for in
    65536 shards: every [next()] returns, and after finitely many items it returns [None].  *)
Theorem C66_iterating_ends : forall cfg s n its chs es b i it,
  live cfg s -> starts its -> its !! i = Some (WOut it) ->
  wrun cfg calm_step (W (conc s n) its) chs es b ->
  count (is_run i) chs <= count (is_call i) chs + 2 * 65536 * (32768 + 1).
Proof.
  intros cfg s n its chs es b i it Hl Hst Hi Hr. destruct (live_inv _ _ Hl) as (x & M & HI).
  pose proof (wrun_ends cfg x _ _ _ _ i Hr (AS M ∅ ∅) _ (conc_init cfg x M s n HI)) as H. cbn [w_its w_c] in H.
  etransitivity; [apply (fun Hw => H Hw _ Hi)|].
  - intros j T Hj. destruct (Hst _ _ Hj) as (it1 & -> & Hc). by split.
  - pose proof (left_start (c_root (conc s n)) it). unfold SLOTS in *. lia.
Qed.

(** In every state, an iterator that is inside [next()] can go on, or else a thread can. *)
Theorem C66_next_waits_for_running_threads : forall cfg b i T,
  w_its b !! i = Some T -> (forall it, T <> WOut it) ->
  (exists b' e, wstep cfg b (WRun i) = Some (b', e)) \/
  (exists a b' e, wstep cfg b (WThr (ChRun a)) = Some (b', e)).
Proof.
  intros cfg b i T Hi Hn. cbn [wstep]. rewrite Hi.
  destruct T as [it|it|it s0 e]; [by destruct (Hn it)|left|].
  - cbn [walk_step]. destruct (_ <? _); by do 2 eexists.
  - cbn [walk_step]. destruct (_ <? _)%nat; [|left; by do 2 eexists].
    destruct (row_free cfg (c_ths (w_c b)) (s0, it_row it, false)) eqn:Hf.
    + left. destruct (shard_read_at _ _ _ _) as [[q|]|er]; [destruct (iter_pick _ _)|..]; by do 2 eexists.
    + right. unfold row_free in Hf.
      assert (exists T, In T (c_ths (w_c b)) /\ is_Some (row_lock cfg T)) as (Ta & Hin & Hlk).
      { apply Bool.not_true_iff_false in Hf. clear - Hf. induction (c_ths (w_c b)) as [|Ta l IH]; [by destruct Hf|].
        destruct (row_lock cfg Ta) eqn:E; [exists Ta; split; [by left|by rewrite E]|]. cbn [forallb] in Hf. rewrite E in Hf. cbn [andb] in Hf.
        destruct (IH Hf) as (T' & ? & ?). exists T'. split; [by right|done]. }
      apply elem_of_list_In, elem_of_list_lookup in Hin as [a Ha]. exists a.
      unfold kept. rewrite Ha. cbn [cstep]. unfold thr_step. rewrite Ha.
      destruct Ta as [|p|o k|o k sh p|o k s1 e1 v wo|o k s1 e1|s1|s1 sh t r p|]; cbn [row_lock] in Hlk; try (by destruct Hlk).
      * destruct p as [[v [wo|]]|er|X ef kk]; [by do 2 eexists..|]. destruct (run_eff ef _). by do 2 eexists.
      * destruct p as [[]|er|X ef kk]; [by do 2 eexists..|]. destruct (run_eff ef _). by do 2 eexists.
Qed.
