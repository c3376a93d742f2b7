(** Iteration over the store: the items an iterator still has to return. *)
From Verif Require Import Base Hashing HashingProofs Fs Shard Router RouterPure Wpc Spec FileRep RowOps
  Compact Inv ShardOps Split Insert Open Merge Create Store Limits StoreRefine.
Implicit Types (cfg : config) (s : store) (w : fs) (sh : shard).

Lemma row_width_N : N.of_nat ROW_WIDTH = 512. Proof. by vm_compute. Qed.
Lemma num_rows_N : N.of_nat NUM_ROWS = 64. Proof. by vm_compute. Qed.

(** The slots of a row, of a shard. *)
Definition slot_at w sh (r c : nat) : option kv := match shard_read_at w sh r c with Ok o => o | Err _ => None end.
Definition row_slots w sh (r : nat) : row_t := map (slot_at w sh r) (seq 0 ROW_WIDTH).
Definition flat_n w sh (n : nat) : row_t := concat (map (row_slots w sh) (seq 0 n)).
Definition flat w sh : row_t := flat_n w sh NUM_ROWS.
Definition picks (raw : bool) (l : row_t) : list kv := omap (M := list) (iter_pick raw) (entries l).

Lemma row_slots_length w sh r : length (row_slots w sh r) = ROW_WIDTH.
Proof. unfold row_slots. by rewrite map_length, seq_length. Qed.
Lemma flat_n_S w sh n : flat_n w sh (S n) = flat_n w sh n ++ row_slots w sh n.
Proof. unfold flat_n. rewrite seq_S, map_app, concat_app. cbn. by rewrite app_nil_r. Qed.
Lemma flat_n_length w sh n : length (flat_n w sh n) = (n * ROW_WIDTH)%nat.
Proof.
  induction n as [|n IH]; [done|]. rewrite flat_n_S, app_length, IH, row_slots_length. lia.
Qed.
Lemma flat_n_lookup w sh n r c : (r < n)%nat -> (c < ROW_WIDTH)%nat ->
  flat_n w sh n !! (r * ROW_WIDTH + c)%nat = Some (slot_at w sh r c).
Proof.
  induction n as [|n IH]; intros Hr Hc; [lia|]. rewrite flat_n_S.
  destruct (decide (r = n)) as [->|Hne].
  - rewrite lookup_app_r by (rewrite flat_n_length; lia). rewrite flat_n_length.
    replace (n * ROW_WIDTH + c - n * ROW_WIDTH)%nat with c by lia.
    unfold row_slots. rewrite list_lookup_fmap, lookup_seq_lt by done. done.
  - rewrite lookup_app_l; [apply IH; lia|]. rewrite flat_n_length. nia.
Qed.

Section leaf.
Context (cfg : config) (x : bool) (m : kvmap) (w : fs) (sh : shard) (Hwf : wf w) (Hl : leaf_ok cfg x m w sh).
Lemma read_at_ok r : (r < NUM_ROWS)%nat ->
  (forall c, (c < ROW_WIDTH)%nat -> shard_read_at w sh r c = Ok (slot_at w sh r c)) /\
  holds m (home cfg (sh_start sh) (sh_end sh) r) (entries (row_slots w sh r)).
Proof.
  intros Hr. destruct (leaf_focus cfg x m w sh r 0 Hwf Hl Hr) as (i & f & L & nm & F1 & F2 & F3 & F4 & F5 & F6 & F7 & F8 & _).
  pose proof (file_rep_row _ _ _ _ F6 Hr) as Hrow.
  assert (forall c, (c < ROW_WIDTH)%nat -> exists o, L r !! c = Some o /\ shard_read_at w sh r c = Ok o) as Hrd.
  { intros c Hc. destruct (lookup_lt_is_Some_2 (L r) c) as [o Ho]; [by rewrite (file_rep_length _ _ _ _ F6 Hr)|].
    exists o. split; [done|]. destruct (Forall2_lookup_r _ _ _ _ _ Hrow Ho) as (sl & Hsl & Hok).
    unfold shard_read_at. rewrite F1. cbn [rbind]. rewrite Hsl. destruct o as [[k v]|].
    - destruct Hok as (Hne & Hs & Hph & Hrk & _). destruct (N.eqb_spec (s_sig sl) INVALID_SIG) as [E|_].
      + exfalso. rewrite Hs in E. by apply (hashk_sig cfg k).
      + by rewrite Hrk.
    - cbn [slot_ok] in Hok. rewrite Hok. by rewrite N.eqb_refl. }
  split.
  - intros c Hc. destruct (Hrd c Hc) as (o & _ & E). unfold slot_at. by rewrite E.
  - assert (row_slots w sh r = L r) as ->; [|done].
    apply list_eq. intros c. destruct (decide (c < ROW_WIDTH)%nat) as [Hc|Hc].
    + destruct (Hrd c Hc) as (o & Ho & E). rewrite Ho. unfold row_slots. rewrite list_lookup_fmap, lookup_seq_lt by done.
      cbn. unfold slot_at. by rewrite E.
    + rewrite !lookup_ge_None_2; [done| |]; [rewrite (file_rep_length _ _ _ _ F6 Hr)|rewrite row_slots_length]; lia.
Qed.
Lemma flat_holds : holds m (in_span cfg (sh_start sh) (sh_end sh)) (entries (flat w sh)).
Proof.
  assert (forall n, (n <= NUM_ROWS)%nat ->
    holds m (fun k => in_span cfg (sh_start sh) (sh_end sh) k /\ (ph_row (hashk cfg k) < n)%nat) (entries (flat_n w sh n))) as H.
  { induction n as [|n IH]; intros Hn.
    - split; [constructor|]. intros k v. split; [by intros ?%elem_of_nil|]. intros [_ [_ H]]. lia.
    - rewrite flat_n_S, entries_app. destruct (read_at_ok n) as [_ Hh]; [lia|].
      eapply holds_ext; [| |refine (holds_union m _ _ _ _ _ (IH ltac:(lia)) Hh)].
      + intros k. unfold home, in_span. cbn. split; [intros [[H1 H2]|[H1 H2]]; (split; [done|lia])|].
        intros [H1 H2]. destruct (decide (ph_row (hashk cfg k) = n)); [right|left]; (split; [done|lia]).
      + done.
      + unfold home. cbn. intros k [_ H1] [_ H2]. lia. }
  eapply holds_ext; [| |apply (H NUM_ROWS); done]; [|done].
  intros k. cbn. split; [by intros [? _]|]. intros ?. split; [done|apply ph_row_lt].
Qed.

(** Scanning from position [p]. *)
Lemma scan_ok raw fuel : forall r c p, (c < ROW_WIDTH)%nat -> p = (r * ROW_WIDTH + c)%nat -> (p <= NUM_ROWS * ROW_WIDTH)%nat ->
  (NUM_ROWS * ROW_WIDTH < fuel + p)%nat ->
  exists o r' c', scan_shard fuel w sh raw r c = Ok (o, r', c') /\
    match o with
    | Some y => (c' < ROW_WIDTH)%nat /\ (r' * ROW_WIDTH + c' <= NUM_ROWS * ROW_WIDTH)%nat /\
        picks raw (drop p (flat w sh)) = y :: picks raw (drop (r' * ROW_WIDTH + c') (flat w sh))
    | None => r' = 0%nat /\ c' = 0%nat /\ picks raw (drop p (flat w sh)) = []
    end.
Proof.
  induction fuel as [|fuel IH]; intros r c p Hc Hp Hle Hf; [lia|]. cbn [scan_shard].
  destruct (Nat.ltb_spec r NUM_ROWS) as [Hr|Hr].
  - destruct (read_at_ok r Hr) as [Hrd _]. rewrite (Hrd c Hc). cbn [rbind].
    assert (flat w sh !! p = Some (slot_at w sh r c)) as Hfl by (subst p; by apply flat_n_lookup).
    rewrite (drop_S _ _ _ Hfl). unfold picks. rewrite entries_cons.
    assert (exists r1 c1, (if (ROW_WIDTH <=? S c)%nat then (S r, 0%nat) else (r, S c)) = (r1, c1) /\ (c1 < ROW_WIDTH)%nat /\ (r1 * ROW_WIDTH + c1 = S p)%nat /\ (S p <= NUM_ROWS * ROW_WIDTH)%nat) as (r1 & c1 & -> & Hc1 & Hp1 & Hle1).
    { assert (S p <= NUM_ROWS * ROW_WIDTH)%nat as HS by (subst p; nia).
      destruct (Nat.leb_spec ROW_WIDTH (S c)); [exists (S r), 0%nat|exists r, (S c)]; repeat split; try done; lia. }
    destruct (IH r1 c1 (S p) Hc1 ltac:(lia) Hle1 ltac:(lia)) as (o & r' & c' & E & Ho).
    destruct (slot_at w sh r c) as [y|]; cbn [option_list app].
    + destruct (iter_pick raw y) as [z|] eqn:Ez.
      * exists (Some z), r1, c1. split; [done|]. split; [done|]. split; [lia|]. cbn. rewrite Ez. by rewrite Hp1.
      * exists o, r', c'. split; [done|]. cbn. rewrite Ez. exact Ho.
    + exists o, r', c'. split; [done|]. exact Ho.
  - exists None, 0%nat, 0%nat. split; [done|]. split; [done|]. split; [done|].
    assert (p = NUM_ROWS * ROW_WIDTH)%nat as -> by (subst p; nia).
    rewrite drop_ge; [done|]. unfold flat. rewrite flat_n_length. lia.
Qed.
End leaf.

(** ** All shards, in order *)
Definition items_of (raw : bool) w (l : list shard) : list kv := concat (map (fun sh => picks raw (flat w sh)) l).
Definition after (r : router) (e : N) : list shard := List.filter (fun sh => e <=? sh_start sh) (leaves r).

Lemma filter_all {A} (f : A -> bool) l : (forall a, In a l -> f a = true) -> List.filter f l = l.
Proof.
  induction l as [|a l IH]; intros H; [done|]. cbn. rewrite (H a) by by left. rewrite IH; [done|].
  intros b Hb. apply H. by right.
Qed.
Lemma filter_none {A} (f : A -> bool) l : (forall a, In a l -> f a = false) -> List.filter f l = [].
Proof.
  induction l as [|a l IH]; intros H; [done|]. cbn. rewrite (H a) by by left. apply IH.
  intros b Hb. apply H. by right.
Qed.

Lemma after_cons r (a0 : N) n sh : tree_ok r a0 n -> In sh (leaves r) ->
  after r (sh_start sh) = sh :: after r (sh_end sh).
Proof.
  revert a0 n; induction r as [sh'|b IHb t IHt]; intros a0 n; cbn [tree_ok leaves].
  - intros [E1 E2] [->|[]]. pose proof (pow2_pos n). unfold after. cbn [leaves List.filter].
    destruct (N.leb_spec (sh_start sh) (sh_start sh)); [|lia].
    destruct (N.leb_spec (sh_end sh) (sh_start sh)); [lia|done].
  - destruct n as [|k]; [done|]. intros [Hb Ht] Hin. unfold after in *. cbn [leaves]. rewrite !List.filter_app.
    apply in_app_iff in Hin as [Hin|Hin].
    + rewrite (IHb _ _ Hb Hin). cbn [app]. f_equal. f_equal. pose proof (leaves_bounds _ _ _ _ Hb Hin).
      rewrite !filter_all; [done| |]; intros a Ha; pose proof (leaves_bounds _ _ _ _ Ht Ha); apply N.leb_le; lia.
    + rewrite (IHt _ _ Ht Hin). pose proof (leaves_bounds _ _ _ _ Ht Hin).
      rewrite !(filter_none _ (leaves b)); [done| |]; intros a Ha; pose proof (leaves_bounds _ _ _ _ Hb Ha); apply N.leb_gt; lia.
Qed.
Lemma after_next r (a0 : N) n sh : tree_ok r a0 n -> In sh (leaves r) -> sh_end sh < a0 + 2 ^ N.of_nat n ->
  sh_start (route r (sh_end sh)) = sh_end sh.
Proof.
  intros Ht Hin He. pose proof (leaves_bounds _ _ _ _ Ht Hin) as Hb.
  destruct (route_in r a0 n (sh_end sh) Ht ltac:(lia)) as [Hin' Hs].
  destruct (decide (sh_start (route r (sh_end sh)) = sh_end sh)) as [E|Hne]; [done|exfalso].
  pose proof (leaf_unique r a0 n _ (sh_end sh - 1) Ht Hin ltac:(lia)) as E1.
  pose proof (leaf_unique r a0 n _ (sh_end sh - 1) Ht Hin' ltac:(lia)) as E2.
  rewrite E1 in E2. rewrite <- E2 in Hs. lia.
Qed.
Lemma after_end r (a0 : N) n e : tree_ok r a0 n -> a0 + 2 ^ N.of_nat n <= e -> after r e = [].
Proof.
  intros Ht He. apply filter_none. intros a Ha. pose proof (leaves_bounds _ _ _ _ Ht Ha). apply N.leb_gt. lia.
Qed.
Lemma after_start r (a0 : N) n : tree_ok r a0 n -> after r a0 = leaves r.
Proof. intros Ht. apply filter_all. intros a Ha. pose proof (leaves_bounds _ _ _ _ Ht Ha). apply N.leb_le. lia. Qed.

(** What an iterator still has to return. *)
Definition it_pos (it : iter_state) : nat := (it_row it * ROW_WIDTH + it_col it)%nat.
Definition it_rest s (it : iter_state) : list kv :=
  if it_sel it <? END_OF_SHARDS then
    let sh := route (st_root s) (it_sel it) in
    picks (it_raw it) (drop (it_pos it) (flat (st_fs s) sh)) ++ items_of (it_raw it) (st_fs s) (after (st_root s) (sh_end sh))
  else [].
Definition it_ok (it : iter_state) : Prop := (it_col it < ROW_WIDTH)%nat /\ (it_pos it <= NUM_ROWS * ROW_WIDTH)%nat.

Section store.
Context (cfg : config) (x : bool) (m : kvmap) (s : store) (HI : SInv cfg x m s).
Lemma after_ok e : Forall (leaf_ok cfg x m (st_fs s)) (after (st_root s) e).
Proof.
  destruct HI as (_ & _ & Hl & _). apply Forall_forall. intros sh Hin. rewrite Forall_forall in Hl. apply Hl.
  apply elem_of_list_In in Hin. apply filter_In in Hin as [Hin _]. by apply elem_of_list_In.
Qed.

Lemma iter_next_spec fuel : forall it, it_ok it -> it_sel it <= END_OF_SHARDS -> END_OF_SHARDS < it_sel it + N.of_nat fuel ->
  exists o it', iter_next fuel s it = Ok (o, it') /\ it_ok it' /\ it_sel it' <= END_OF_SHARDS /\ it_raw it' = it_raw it /\
    match o with
    | Some y => it_sel it' < END_OF_SHARDS /\ it_rest s it = y :: it_rest s it'
    | None => it_sel it' = END_OF_SHARDS /\ it_rest s it = [] /\ (it_sel it < END_OF_SHARDS -> it_row it' = 0%nat /\ it_col it' = 0%nat)
    end.
Proof.
  unfold END_OF_SHARDS.
  induction fuel as [|fuel IH]; intros it [Hc Hp] Hsel Hf; [lia|]. cbn [iter_next].
  change END_OF_SHARDS with 65536. unfold it_rest at 1 3. change END_OF_SHARDS with 65536.
  destruct (N.ltb_spec (it_sel it) 65536) as [Hlt|Hge].
  2: { exists None, it. repeat (split; [done || lia|]). lia. }
  pose proof HI as (Hwf & Htr & _ & _).
  destruct (route_ok _ _ _ _ _ (it_sel it) HI Hlt) as [Hl Hs].
  destruct (route_in (st_root s) 0 16 (it_sel it) Htr) as [Hin _]; [change (0 + 2 ^ N.of_nat 16) with 65536; lia|].
  set (sh := route (st_root s) (it_sel it)) in *.
  pose proof (leaves_bounds _ _ _ _ Htr Hin) as Hb. change (0 + 2 ^ N.of_nat 16) with 65536 in Hb.
  assert (SCAN_FUEL = S (NUM_ROWS * ROW_WIDTH)) as HF.
  { apply Nat2N.inj. rewrite Nat2N.inj_succ, Nat2N.inj_mul, row_width_N, num_rows_N. unfold SCAN_FUEL. by rewrite N2Nat.id. }
  destruct (scan_ok cfg x m (st_fs s) sh Hwf Hl (it_raw it) SCAN_FUEL (it_row it) (it_col it) (it_pos it) Hc eq_refl Hp ltac:(lia))
    as (o & r' & c' & E & Ho).
  clear HF. rewrite E. clear E. cbn [rbind]. destruct o as [y|].
  - destruct Ho as (Hc' & Hp' & Ho). exists (Some y), (Iter (sh_start sh) r' c' (it_raw it)).
    split; [done|]. split; [done|]. cbn [it_sel it_raw]. split; [lia|]. split; [done|]. split; [lia|].
    unfold it_rest. cbn [it_sel it_raw]. change END_OF_SHARDS with 65536.
    destruct (N.ltb_spec (sh_start sh) 65536); [|lia].
    rewrite (leaf_unique _ _ _ _ (sh_start sh) Htr Hin) by lia. unfold it_pos at 2. cbn [it_row it_col].
    rewrite Ho. done.
  - destruct Ho as (-> & -> & Ho).
    destruct (IH (Iter (sh_end sh) 0 0 (it_raw it))) as (o & it' & E' & H1 & H2 & H3 & H4).
    + split; cbn; [|lia]. apply Nat2Z.inj_lt. pose proof row_width_N. lia.
    + cbn. lia.
    + cbn. lia.
    + exists o, it'. split; [done|]. split; [done|]. split; [done|]. split; [done|].
      assert (picks (it_raw it) (drop (it_pos it) (flat (st_fs s) sh)) ++ items_of (it_raw it) (st_fs s) (after (st_root s) (sh_end sh))
        = it_rest s (Iter (sh_end sh) 0 0 (it_raw it))) as ->.
      { rewrite Ho. cbn [app]. unfold it_rest. cbn [it_sel it_raw it_pos it_row it_col]. change END_OF_SHARDS with 65536.
        destruct (N.ltb_spec (sh_end sh) 65536) as [He|He].
        - pose proof (after_next _ _ _ _ Htr Hin ltac:(change (0 + 2 ^ N.of_nat 16) with 65536; lia)) as En.
          rewrite <- En at 1.
          destruct (route_in (st_root s) 0 16 (sh_end sh) Htr) as [Hin' _]; [change (0 + 2 ^ N.of_nat 16) with 65536; lia|].
          rewrite (after_cons _ _ _ _ Htr Hin'). cbn [items_of map concat].
          unfold it_pos. cbn [it_row it_col]. rewrite Nat.mul_0_l. cbn [Nat.add drop]. done.
        - rewrite (after_end _ _ _ _ Htr); [done|]. change (0 + 2 ^ N.of_nat 16) with 65536. lia. }
      destruct o as [y|]; [done|]. destruct H4 as (H4 & H5 & H6). split; [done|]. split; [done|]. intros _.
      cbn [it_sel] in H6. destruct (decide (sh_end sh < 65536)) as [He|He]; [by apply H6|].
      revert E'. destruct fuel; cbn [iter_next it_sel]; [done|]. change END_OF_SHARDS with 65536.
      destruct (N.ltb_spec (sh_end sh) 65536); [lia|]. intros [= <-]. done.
Qed.
End store.

(** ** A new iterator has everything to return. *)
Lemma picks_app raw a b : picks raw (a ++ b) = picks raw a ++ picks raw b.
Proof. unfold picks. rewrite entries_app. apply omap_app. Qed.
Lemma items_of_flat raw w l : items_of raw w l = omap (M := list) (iter_pick raw) (concat (map (fun sh => entries (flat w sh)) l)).
Proof.
  unfold items_of. induction l as [|sh l IH]; [done|]. cbn [map concat]. rewrite omap_app, IH. done.
Qed.
Lemma leaves_hold cfg x m w r a0 n : wf w -> tree_ok r a0 n -> Forall (leaf_ok cfg x m w) (leaves r) ->
  holds m (in_span cfg a0 (a0 + 2 ^ N.of_nat n)) (concat (map (fun sh => entries (flat w sh)) (leaves r))).
Proof.
  intros Hwf. revert a0 n; induction r as [sh|b IHb t IHt]; intros a0 n; cbn [tree_ok leaves].
  - intros [<- <-] Hl. cbn. rewrite app_nil_r. apply Forall_cons in Hl as [Hl _]. by eapply flat_holds.
  - destruct n as [|k]; [done|]. intros [Hb Ht] Hl. apply Forall_app in Hl as [Hl1 Hl2].
    rewrite map_app, concat_app. pose proof (pow2_succ k) as Hp.
    eapply holds_ext; [| |refine (holds_union m _ _ _ _ _ (IHb _ _ Hb Hl1) (IHt _ _ Ht Hl2))].
    + intros key. unfold in_span. rewrite Hp. lia.
    + done.
    + intros key. unfold in_span. lia.
Qed.
Lemma iter_new_ok raw : it_ok (iter_new raw).
Proof. split; cbn; [|lia]. pose proof row_width_N. lia. Qed.
Lemma it_rest_new cfg x m s raw : SInv cfg x m s -> exists l,
  it_rest s (iter_new raw) = omap (M := list) (iter_pick raw) l /\ NoDup (fst <$> l) /\ forall k v, (k, v) ∈ l <-> m !! k = Some v.
Proof.
  intros (Hwf & Htr & Hl & Hr). eexists. split; [|].
  - unfold it_rest, iter_new. cbn [it_sel it_raw it_pos it_row it_col]. change (0 <? END_OF_SHARDS) with true. cbn iota.
    unfold it_pos. cbn [it_row it_col]. rewrite Nat.mul_0_l. cbn [Nat.add drop].
    destruct (route_in (st_root s) 0 16 0 Htr) as [Hin Hs]; [change (0 + 2 ^ N.of_nat 16) with 65536; lia|].
    pose proof (after_cons _ _ _ _ Htr Hin) as E. assert (sh_start (route (st_root s) 0) = 0) as E0 by lia. rewrite E0 in E.
    rewrite (after_start _ _ _ Htr) in E. 
    transitivity (items_of raw (st_fs s) (leaves (st_root s))); [by rewrite E|]. apply items_of_flat.
  - destruct (leaves_hold _ _ _ _ _ _ _ Hwf Htr Hl) as [H1 H2]. split; [exact H1|]. intros k v. rewrite H2.
    split; [by intros [? _]|]. intros ?. split; [done|]. apply sel_in.
Qed.
