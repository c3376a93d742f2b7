(** C74: mini-candy is a map. *)
From Verif Require Import Base Mini MiniShard.

Section hash.
Context (h : bytes -> N).
Notation shard_ok := (shard_ok h).
Notation inside := (inside h).

(** ** Sizes *)
Definition sizes (l : list kv) : N := foldr (fun x n => len x.1 + len x.2 + n) 0 l.
Lemma sizes_app a b : sizes (a ++ b) = sizes a + sizes b.
Proof.
  induction a as [|x a IH]; [done|].
  change (len x.1 + len x.2 + sizes (a ++ b) = len x.1 + len x.2 + sizes a + sizes b). lia.
Qed.
Lemma sizes_perm a b : a ≡ₚ b -> sizes a = sizes b.
Proof.
  induction 1 as [|x a b _ IH|x y a|a b c _ IH1 _ IH2]; [done| | |congruence].
  - change (len x.1 + len x.2 + sizes a = len x.1 + len x.2 + sizes b). by rewrite IH.
  - change (len y.1 + len y.2 + (len x.1 + len x.2 + sizes a) = len x.1 + len x.2 + (len y.1 + len y.2 + sizes a)). lia.
Qed.
Lemma sizes_sub (l : list kv) (m : gmap bytes bytes) : NoDup l -> (forall k v, (k, v) ∈ l -> m !! k = Some v) -> sizes l <= sizes (map_to_list m).
Proof.
  intros Hl Hm. assert (H : l ⊆+ map_to_list m).
  { apply NoDup_submseteq; [done|]. intros [k v] H. by apply elem_of_map_to_list, Hm. }
  apply submseteq_Permutation in H as [R E]. rewrite (sizes_perm _ _ E), sizes_app. lia.
Qed.
Lemma sizes_insert (m : gmap bytes bytes) k v : sizes (map_to_list (<[k := v]> m)) <= sizes (map_to_list m) + (len k + len v).
Proof.
  rewrite <- insert_delete_insert, (sizes_perm _ _ (map_to_list_insert (delete k m) k v (lookup_delete _ _))).
  change (len k + len v + sizes (map_to_list (delete k m)) <= sizes (map_to_list m) + (len k + len v)).
  assert (sizes (map_to_list (delete k m)) <= sizes (map_to_list m)); [|lia].
  apply sizes_sub; [apply NoDup_map_to_list|]. intros k' v' H. apply elem_of_map_to_list, lookup_delete_Some in H. tauto.
Qed.
Lemma size_sub (m m' : gmap bytes bytes) : m ⊆ m' -> (size m <= size m')%nat.
Proof.
  intros H. unfold size, map_size. apply submseteq_length, NoDup_submseteq; [apply NoDup_map_to_list|].
  intros [k v]. rewrite !elem_of_map_to_list. intros E. by eapply lookup_weaken.
Qed.
Definition sized (m : gmap bytes bytes) : Prop := forall k v, m !! k = Some v -> len k < 2 ^ 16 /\ len v < 2 ^ 16.

(** ** Splitting *)
Definition same_row (k : bytes) (s e : N) (m : gmap bytes bytes) : gmap bytes bytes :=
  filter (fun x : kv => mini_row h x.1 = mini_row h k /\ s <= mini_sel h x.1 < e) m.
Lemma row_count m sh k : shard_ok m sh -> (size (same_row k (ms_start sh) (ms_end sh) m) <= MINI_WIDTH)%nat.
Proof.
  intros Hsh. destruct (header_row_ok h m sh k Hsh) as (_ & Hlen & l & A & B & C).
  rewrite <- Hlen, (Forall2_length _ _ _ A). etrans; [|apply omap_id_len].
  unfold same_row, size, map_size. apply submseteq_length, NoDup_submseteq; [apply NoDup_map_to_list|].
  intros [k1 v1]. rewrite elem_of_map_to_list, map_filter_lookup_Some, C. done.
Qed.
(** A row that is full without the key cannot be a part of a row with the key. *)
Lemma not_full m mp k v s e s' e' : mp ⊆ m -> mp !! k = None -> m !! k = Some v -> s <= s' -> e' <= e ->
  s' <= mini_sel h k < e' -> (size (same_row k s e m) <= MINI_WIDTH)%nat -> size (same_row k s' e' mp) = MINI_WIDTH -> False.
Proof.
  intros Hsub Hn Hm Hs He Hk Hle Heq.
  assert (H : <[k := v]> (same_row k s' e' mp) ⊆ same_row k s e m).
  { apply map_subseteq_spec. intros k1 v1. destruct (decide (k1 = k)) as [->|Hne].
    - rewrite lookup_insert. intros [= <-]. apply map_filter_lookup_Some. cbn. repeat split; [done|lia|lia].
    - rewrite lookup_insert_ne by done. unfold same_row. rewrite !map_filter_lookup_Some. cbn.
      intros (A & B & C). split; [by eapply lookup_weaken|]. repeat split; [done|lia|lia]. }
  apply size_sub in H. rewrite map_size_insert_None in H; [lia|]. apply map_filter_lookup_None. by left.
Qed.
Lemma split_items_ok m s mid e L : forall mp b t,
  (forall k, s <= mini_sel h k < e -> (size (same_row k s e m) <= MINI_WIDTH)%nat) ->
  NoDup L -> (forall k v, (k, v) ∈ L -> m !! k = Some v /\ s <= mini_sel h k < e /\ mp !! k = None) ->
  mp ⊆ m -> sized m -> shard_ok mp b -> shard_ok mp t ->
  ms_start b = s -> ms_end b = mid -> ms_start t = mid -> ms_end t = e -> s <= mid <= e ->
  MINI_HEADER + (len (ms_data b) + len (ms_data t) + sizes L) < 2 ^ 32 ->
  exists b' t' m', split_items h mid (map Ok L) b t = Ok (b', t') /\ shard_ok m' b' /\ shard_ok m' t' /\
    (forall k v, m' !! k = Some v <-> mp !! k = Some v \/ (k, v) ∈ L) /\
    ms_start b' = s /\ ms_end b' = mid /\ ms_start t' = mid /\ ms_end t' = e /\
    len (ms_data b') + len (ms_data t') = len (ms_data b) + len (ms_data t) + sizes L.
Proof.
  induction L as [|[k v] L IH]; intros mp b t Hcnt Hnd HL Hsub Hsz Hb Ht E1 E2 E3 E4 Hmid Hlen.
  { exists b, t, mp. repeat (split; [done|]). split; [|repeat (split; [done|]); cbn; lia].
    intros k v. split; [by left|]. by intros [|?%not_elem_of_nil]. }
  apply NoDup_cons in Hnd as [Hnew Hnd]. destruct (HL k v) as (Hm & Hk & Hno); [by left|].
  destruct (Hsz k v Hm) as [Hkl Hvl].
  change (sizes ((k, v) :: L)) with (len k + len v + sizes L) in *.
  assert (HL' : forall k1 v1, (k1, v1) ∈ L -> m !! k1 = Some v1 /\ s <= mini_sel h k1 < e /\ <[k := v]> mp !! k1 = None).
  { intros k1 v1 H. destruct (HL k1 v1) as (A & B & C); [by right|]. split; [done|]. split; [done|].
    rewrite lookup_insert_ne; [done|]. intros ->. by assert (v = v1) as -> by congruence. }
  assert (Hsub' : <[k := v]> mp ⊆ m) by (by apply insert_subseteq_l).
  assert (Hor : forall m' : gmap bytes bytes, (forall k0 v0, m' !! k0 = Some v0 <-> <[k := v]> mp !! k0 = Some v0 \/ (k0, v0) ∈ L) ->
    forall k0 v0, m' !! k0 = Some v0 <-> mp !! k0 = Some v0 \/ (k0, v0) ∈ (k, v) :: L).
  { intros m' H k0 v0. rewrite H, elem_of_cons. destruct (decide (k0 = k)) as [->|Hne].
    - rewrite lookup_insert, Hno. split.
      + intros [[= ->]|?]; tauto.
      + intros [?|[[= ->]|?]]; [done|by left|by right].
    - rewrite lookup_insert_ne by done. split; [tauto|]. intros [?|[[= -> ->]|?]]; [tauto|done|tauto]. }
  cbn [map split_items rbind]. destruct (mini_sel h k <? mid) eqn:E.
  - apply N.ltb_lt in E.
    assert (Hin : inside b k) by (unfold MiniShard.inside; lia).
    destruct (shard_set_ok h mp b k v Hb Hin Hkl Hvl) as (b' & ok & R & P); [lia|]. rewrite R. cbn [rbind].
    destruct ok.
    + destruct P as (P1 & P2 & P3 & P4). destruct (IH (<[k := v]> mp) b' t) as (b2 & t2 & m' & Q1 & Q2 & Q3 & Q4 & Q5 & Q6 & Q7 & Q8 & Q9); try done; try congruence.
      2:{ rewrite P4. clear - Hlen. generalize dependent (sizes L). intros; lia. }
      { apply (shard_frame h mp); [|done]. intros k1 Hk1. rewrite lookup_insert_ne; [done|]. intros <-. unfold MiniShard.inside in Hk1. lia. }
      exists b2, t2, m'. repeat (split; [done|]). split; [by apply Hor|]. repeat (split; [done|]). lia.
    + exfalso. destruct P as (_ & _ & P). rewrite E1, E2 in P. apply (not_full m mp k v s e s mid); [done|done|done|lia|lia|lia|by apply (Hcnt k)|exact P].
  - apply N.ltb_ge in E.
    assert (Hin : inside t k) by (unfold MiniShard.inside; lia).
    destruct (shard_set_ok h mp t k v Ht Hin Hkl Hvl) as (t' & ok & R & P); [lia|]. rewrite R. cbn [rbind].
    destruct ok.
    + destruct P as (P1 & P2 & P3 & P4). destruct (IH (<[k := v]> mp) b t') as (b2 & t2 & m' & Q1 & Q2 & Q3 & Q4 & Q5 & Q6 & Q7 & Q8 & Q9); try done; try congruence.
      2:{ rewrite P4. clear - Hlen. generalize dependent (sizes L). intros; lia. }
      { apply (shard_frame h mp); [|done]. intros k1 Hk1. rewrite lookup_insert_ne; [done|]. intros <-. unfold MiniShard.inside in Hk1. lia. }
      exists b2, t2, m'. repeat (split; [done|]). split; [by apply Hor|]. repeat (split; [done|]). lia.
    + exfalso. destruct P as (_ & _ & P). rewrite E3, E4 in P. apply (not_full m mp k v s e mid e); [done|done|done|lia|lia|lia|by apply (Hcnt k)|exact P].
Qed.

(** ** The shards cover the selectors without gap or overlap. *)
Fixpoint tiles (a e : N) (l : mini) : Prop :=
  match l with
  | [] => a = e
  | sh :: l => ms_start sh = a /\ a < ms_end sh /\ tiles (ms_end sh) e l
  end.
Lemma tiles_app (a e : N) (l1 l2 : mini) : tiles a e (l1 ++ l2) <-> exists c, tiles a c l1 /\ tiles c e l2.
Proof.
  revert a. induction l1 as [|sh l1 IH]; intros a; cbn [app tiles].
  - split; [intros H; by exists a|]. by intros (c & -> & H).
  - rewrite IH. split.
    + intros (A & B & c & C & D). by exists c.
    + intros (c & (A & B & C) & D). repeat (split; [done|]). by exists c.
Qed.
Lemma tiles_le (a e : N) (l : mini) : tiles a e l -> a <= e.
Proof. revert a. induction l as [|sh l IH]; intros a; cbn [tiles]; [lia|]. intros (A & B & C). apply IH in C. lia. Qed.
Lemma tiles_in (a e : N) (l : mini) (sh : mshard) : tiles a e l -> sh ∈ l -> a <= ms_start sh /\ ms_start sh < ms_end sh /\ ms_end sh <= e.
Proof.
  revert a. induction l as [|y l IH]; intros a; cbn [tiles]; [by intros _ ?%not_elem_of_nil|].
  intros (A & B & C). pose proof (tiles_le _ _ _ C) as Hle. intros [->|H]%elem_of_cons; [lia|]. specialize (IH _ C H). lia.
Qed.
Lemma shard_of_ok (a e : N) (s : mini) (k : bytes) : tiles a e s -> a <= mini_sel h k < e ->
  exists A sh B, s = A ++ sh :: B /\ shard_of h s k = Some (length A) /\ inside sh k.
Proof.
  revert a. induction s as [|sh s IH]; intros a; cbn [tiles shard_of]; [lia|]. intros (T1 & T2 & T3) Hk.
  destruct (mini_sel h k <? ms_end sh) eqn:E.
  - apply N.ltb_lt in E. exists [], sh, s. split; [done|]. split; [done|]. unfold MiniShard.inside. lia.
  - apply N.ltb_ge in E. destruct (IH _ T3) as (A & x & B & -> & F & G); [lia|].
    exists (sh :: A), x, B. split; [done|]. split; [by rewrite F|done].
Qed.
(** sorting *)
Lemma put_mid x A B : (forall y, y ∈ A -> ms_end y <= ms_end x) -> (forall y, y ∈ B -> ms_end x < ms_end y) ->
  put_by_end x (A ++ B) = A ++ x :: B.
Proof.
  intros HA HB. induction A as [|y A IH]; cbn [app].
  - destruct B as [|y B]; [done|]. cbn [put_by_end]. rewrite (proj2 (N.leb_gt _ _)); [done|]. apply HB. by left.
  - cbn [put_by_end]. rewrite (proj2 (N.leb_le _ _)); [|apply HA; by left]. rewrite IH; [done|].
    intros z Hz. apply HA. by right.
Qed.
Lemma sort_tiles acc a e l : (forall y, y ∈ acc -> ms_end y <= a) -> tiles a e l ->
  foldl (fun acc x => put_by_end x acc) acc l = acc ++ l.
Proof.
  revert acc a. induction l as [|x l IH]; intros acc a Hacc; cbn [tiles foldl]; [by rewrite app_nil_r|].
  intros (A & B & C). rewrite <- (app_nil_r acc) at 1. rewrite put_mid; [|intros y Hy; specialize (Hacc y Hy); lia|by intros y ?%not_elem_of_nil].
  rewrite (IH _ (ms_end x)); [by rewrite <- app_assoc| |done].
  intros y [Hy|Hy]%elem_of_app; [specialize (Hacc y Hy); lia|]. apply elem_of_list_singleton in Hy as ->. lia.
Qed.
Lemma sort_split a c c' e A B b t : tiles a c A -> tiles c' e B -> c <= c' -> c < ms_end b -> ms_end b < ms_end t -> ms_end t = c' ->
  sort_by_end ((A ++ B) ++ [b; t]) = A ++ b :: t :: B.
Proof.
  intros HA HB H1 H2 H3 H4. unfold sort_by_end. rewrite foldl_app, foldl_app.
  rewrite (sort_tiles [] a c A); [|by intros y ?%not_elem_of_nil|done]. cbn [app].
  rewrite (sort_tiles A c' e B); [|intros y Hy; pose proof (tiles_in _ _ _ _ HA Hy); lia|done].
  cbn [foldl]. rewrite put_mid.
  - change (A ++ b :: B) with (A ++ [b] ++ B). rewrite app_assoc, put_mid; [by rewrite <- app_assoc| |].
    + intros y [Hy|Hy]%elem_of_app; [pose proof (tiles_in _ _ _ _ HA Hy); lia|]. apply elem_of_list_singleton in Hy as ->. lia.
    + intros y Hy. pose proof (tiles_in _ _ _ _ HB Hy). lia.
  - intros y Hy. pose proof (tiles_in _ _ _ _ HA Hy). lia.
  - intros y Hy. pose proof (tiles_in _ _ _ _ HB Hy). lia.
Qed.

(** ** The store *)
Definition pow2 (sh : mshard) (n : nat) : Prop := ms_end sh = ms_start sh + 2 ^ N.of_nat n.
Definition shard_fine (m : gmap bytes bytes) (T : N) (sh : mshard) : Prop :=
  shard_ok m sh /\ len (ms_data sh) <= T /\ exists n, (n <= 16)%nat /\ pow2 sh n.
Definition store_ok (m : gmap bytes bytes) (T : N) (s : mini) : Prop :=
  tiles 0 MINI_MAX_SHARD s /\ Forall (shard_fine m T) s /\ sized m /\ sizes (map_to_list m) <= T.

Lemma mini_sel_lt k : h k < 2 ^ 64 -> mini_sel h k < MINI_MAX_SHARD.
Proof. intros H. unfold mini_sel, MINI_MAX_SHARD. apply N.div_lt_upper_bound; [lia|]. change (2 ^ 48 * 65536) with (2 ^ 64). done. Qed.
(** Only the shard of the key changes. *)
Lemma store_update m m' T T' A sh sh' B k :
  tiles 0 MINI_MAX_SHARD (A ++ sh :: B) -> Forall (shard_fine m T) (A ++ sh :: B) -> inside sh k ->
  (forall k', k' <> k -> m' !! k' = m !! k') -> T <= T' ->
  shard_ok m' sh' -> ms_start sh' = ms_start sh -> ms_end sh' = ms_end sh -> len (ms_data sh') <= T' ->
  tiles 0 MINI_MAX_SHARD (A ++ sh' :: B) /\ Forall (shard_fine m' T') (A ++ sh' :: B).
Proof.
  intros Ht Hf Hin Hm HT Hsh' E1 E2 Hl. split.
  - apply tiles_app in Ht as (c & T1 & T2). apply tiles_app. exists c. split; [done|]. cbn [tiles] in *. by rewrite E1, E2.
  - apply tiles_app in Ht as (c & T1 & T2). cbn [tiles] in T2. destruct T2 as (T2 & T3 & T4).
    apply Forall_app in Hf as [F1 F2]. apply Forall_cons in F2 as [F2 F3].
    assert (Hother : forall x, shard_fine m T x -> (ms_end x <= ms_start sh \/ ms_end sh <= ms_start x) -> shard_fine m' T' x).
    { intros x (X1 & X2 & X3) Hd. split; [|split; [lia|done]]. apply (shard_frame h m); [|done].
      intros k' Hk'. apply Hm. intros ->. unfold MiniShard.inside in *. lia. }
    apply Forall_app. split; [|apply Forall_cons; split].
    + apply Forall_forall. intros x Hx. apply Hother; [rewrite Forall_forall in F1; by apply F1|]. pose proof (tiles_in _ _ _ _ T1 Hx). lia.
    + split; [done|]. split; [done|]. destruct F2 as (_ & _ & n & Hn & Hp). exists n. unfold pow2 in *. split; [done|lia].
    + apply Forall_forall. intros x Hx. apply Hother; [rewrite Forall_forall in F3; by apply F3|]. pose proof (tiles_in _ _ _ _ T4 Hx). lia.
Qed.

Lemma store_get_ok m T s k : store_ok m T s -> mini_sel h k < MINI_MAX_SHARD -> store_get h s k = Ok (m !! k).
Proof.
  intros (Ht & Hf & _) Hk. destruct (shard_of_ok _ _ _ k Ht) as (A & sh & B & -> & E & Hin); [lia|].
  unfold store_get. rewrite E. cbn [mbind option_bind]. rewrite list_lookup_middle by done.
  apply shard_get_ok; [|done]. apply Forall_app in Hf as [_ Hf]. by apply Forall_cons in Hf as [(? & _) _].
Qed.
Lemma store_remove_ok m T s k : store_ok m T s -> mini_sel h k < MINI_MAX_SHARD ->
  exists s', store_remove h s k = Ok (s', bool_decide (is_Some (m !! k))) /\ store_ok (delete k m) T s'.
Proof.
  intros (Ht & Hf & Hs & HT) Hk. destruct (shard_of_ok _ _ _ k Ht) as (A & sh & B & -> & E & Hin); [lia|].
  assert (Hsh : shard_fine m T sh) by (apply Forall_app in Hf as [_ Hf]; by apply Forall_cons in Hf as [? _]).
  destruct Hsh as (S1 & S2 & S3). unfold store_remove. rewrite E, list_lookup_middle by done.
  destruct (shard_remove_ok h m sh k S1 Hin) as (sh' & R & P1 & P2 & P3 & P4). rewrite R. cbn [rbind].
  eexists. split; [reflexivity|]. rewrite insert_app_r_alt, Nat.sub_diag by done. cbn [insert list_insert].
  destruct (store_update m (delete k m) T T A sh sh' B k) as [U1 U2]; try done.
  { intros k' Hk'. by rewrite lookup_delete_ne. }
  { by rewrite P4. }
  split; [done|]. split; [done|]. split.
  - intros k' v' H. apply lookup_delete_Some in H as [_ H]. by apply Hs.
  - etrans; [|exact HT]. apply sizes_sub; [apply NoDup_map_to_list|].
    intros k' v' H. apply elem_of_map_to_list, lookup_delete_Some in H. tauto.
Qed.
Lemma store_iter_ok m a e s T : tiles a e s -> Forall (shard_fine m T) s -> exists l, store_iter s = map Ok l /\ NoDup l /\
  forall k v, (k, v) ∈ l <-> m !! k = Some v /\ a <= mini_sel h k < e.
Proof.
  revert a. induction s as [|sh s IH]; intros a; cbn [tiles].
  - intros -> _. exists []. split; [done|]. split; [by apply NoDup_nil|]. intros k v. split; [by intros ?%not_elem_of_nil|lia].
  - intros (T1 & T2 & T3) Hf. apply Forall_cons in Hf as [(F1 & _) F2].
    destruct (IH _ T3 F2) as (l & L1 & L2 & L3). destruct (shard_iter_ok h m sh F1) as (l0 & M1 & M2 & M3).
    pose proof (tiles_le _ _ _ T3). unfold MiniShard.inside in M3.
    exists (l0 ++ l). split; [|split].
    + unfold store_iter in *. cbn [map concat]. by rewrite M1, L1, map_app.
    + apply NoDup_app. split; [done|]. split; [|done]. intros [k v] H1 H2. apply M3 in H1. apply L3 in H2. lia.
    + intros k v. rewrite elem_of_app, M3, L3. split; [intros [[? ?]|[? ?]]; (split; [done|lia])|].
      intros [Hm Hk]. destruct (decide (mini_sel h k < ms_end sh)); [left|right]; (split; [done|lia]).
Qed.

Lemma trunc_other s e sh : ms_start sh <> s \/ ms_end sh <> e -> mini_trunc s e sh = sh.
Proof.
  intros H. unfold mini_trunc. destruct (_ && _) eqn:E; [|done].
  apply andb_true_iff in E as [E1 E2]. apply N.eqb_eq in E1, E2. lia.
Qed.
Lemma store_split_ok m T A sh B n : store_ok m T (A ++ sh :: B) -> MINI_HEADER + T < 2 ^ 32 -> pow2 sh (S n) -> (S n <= 16)%nat ->
  exists b t, store_split h (A ++ sh :: B) (length A) = Ok (A ++ b :: t :: B) /\ store_ok m T (A ++ b :: t :: B) /\
    pow2 b n /\ pow2 t n /\ ms_start b = ms_start sh /\ ms_end b = ms_start t /\ ms_end t = ms_end sh.
Proof.
  intros (Ht & Hf & Hs & HT) Hroom Hp Hn.
  pose proof Ht as Ht0. apply tiles_app in Ht0 as (c & T1 & T2). cbn [tiles] in T2. destruct T2 as (T2 & T3 & T4).
  pose proof Hf as Hf0. apply Forall_app in Hf0 as [F1 F2]. apply Forall_cons in F2 as [(S1 & S2 & S3) F3].
  unfold store_split. rewrite list_lookup_middle by done. cbv zeta.
  assert (Hpos : 0 < 2 ^ N.of_nat n) by (apply N.neq_0_lt_0, N.pow_nonzero; lia).
  assert (Hmid : (ms_start sh + ms_end sh) / 2 = ms_start sh + 2 ^ N.of_nat n).
  { unfold pow2 in Hp. rewrite Hp. replace (N.of_nat (S n)) with (N.succ (N.of_nat n)) by lia. rewrite N.pow_succ_r'.
    symmetry. apply (N.div_unique _ _ _ 0); lia. }
  assert (He : ms_end sh = ms_start sh + 2 ^ N.of_nat n + 2 ^ N.of_nat n).
  { unfold pow2 in Hp. rewrite Hp. replace (N.of_nat (S n)) with (N.succ (N.of_nat n)) by lia. rewrite N.pow_succ_r'. lia. }
  rewrite Hmid. clear Hmid. remember (2 ^ N.of_nat n) as q eqn:Hq. symmetry in Hq.
  assert (Hagain : forall x, x ∈ A ++ sh :: B ->
    mini_trunc (ms_start sh + q) (ms_end sh) (mini_trunc (ms_start sh) (ms_start sh + q) x) = x).
  { intros x Hx.
    assert (HX : ms_end x <= ms_start sh \/ x = sh \/ ms_end sh <= ms_start x).
    { apply elem_of_app in Hx as [Hx|Hx]; [left; pose proof (tiles_in _ _ _ _ T1 Hx); lia|].
      apply elem_of_cons in Hx as [->|Hx]; [by right; left|]. right; right. pose proof (tiles_in _ _ _ _ T4 Hx). lia. }
    assert (Hne : ms_start x < ms_end x).
    { apply elem_of_app in Hx as [Hx|Hx]; [pose proof (tiles_in _ _ _ _ T1 Hx); lia|].
      apply elem_of_cons in Hx as [->|Hx]; [lia|]. pose proof (tiles_in _ _ _ _ T4 Hx). lia. }
    assert (HD : ms_end x <= ms_start sh \/ (ms_start x = ms_start sh /\ ms_end x = ms_end sh) \/ ms_end sh <= ms_start x).
    { destruct HX as [?|[->|?]]; tauto. }
    rewrite (trunc_other _ _ x) by lia. apply trunc_other. lia. }
  rewrite (Hagain sh) by (apply elem_of_app; right; by left).
  destruct (shard_iter_ok h m sh S1) as (L & L1 & L2 & L3). rewrite L1. unfold MiniShard.inside in L3.
  assert (HsL : sizes L <= T). { etrans; [|exact HT]. apply sizes_sub; [done|]. intros k v H. by apply L3 in H as [? _]. }
  destruct (split_items_ok m (ms_start sh) (ms_start sh + q) (ms_end sh) L ∅
    (mini_open (ms_start sh) (ms_start sh + q)) (mini_open (ms_start sh + q) (ms_end sh)))
    as (b & t & m' & Q1 & Q2 & Q3 & Q4 & Q5 & Q6 & Q7 & Q8 & Q9).
  { intros k _. by apply row_count. }
  { done. }
  { intros k v H. apply L3 in H as [H1 H2]. split; [done|]. split; [lia|apply lookup_empty]. }
  { apply map_empty_subseteq. }
  { done. }
  { apply mini_open_ok. intros k v H. by rewrite lookup_empty in H. }
  { apply mini_open_ok. intros k v H. by rewrite lookup_empty in H. }
  { done. } { done. } { done. } { done. } { lia. }
  { unfold mini_open. cbn [ms_data]. rewrite (@len_nil byte). lia. }
  unfold mini_open in Q9. cbn [ms_data] in Q9. rewrite (@len_nil byte) in Q9.
  rewrite Q1. cbn [rbind]. exists b, t.
  assert (Hm' : forall k, ms_start sh <= mini_sel h k < ms_end sh -> m !! k = m' !! k).
  { intros k Hk. apply option_eq. intros v. rewrite Q4, L3, lookup_empty. split; [by right|]. by intros [?|[? _]]. }
  assert (Hb : shard_fine m T b).
  { split; [|split; [lia|]].
    - apply (shard_frame h m'); [|done]. intros k Hk. apply Hm'. unfold MiniShard.inside in Hk. lia.
    - exists n. split; [lia|]. rewrite <- Hq in Q6. unfold pow2. lia. }
  assert (Hbt : shard_fine m T t).
  { split; [|split; [lia|]].
    - apply (shard_frame h m'); [|done]. intros k Hk. apply Hm'. unfold MiniShard.inside in Hk. lia.
    - exists n. split; [lia|]. unfold pow2. lia. }
  split.
  { f_equal. rewrite (map_ext_in _ (fun x => x)), map_id.
    - replace (delete (length A) (A ++ sh :: B)) with (A ++ B).
      2:{ clear. induction A as [|a A IH]; [done|]. cbn [app length]. cbn. f_equal. exact IH. }
      apply (sort_split 0 c (ms_end sh) MINI_MAX_SHARD); [done|done|lia..].
    - intros x Hx. apply Hagain. apply elem_of_list_In in Hx.
      assert (E : delete (length A) (A ++ sh :: B) = A ++ B).
      { clear. induction A as [|a A IH]; [done|]. cbn [app length]. cbn. f_equal. exact IH. }
      rewrite E in Hx. rewrite elem_of_app in *. rewrite elem_of_cons. tauto. }
  split; [|unfold pow2; rewrite Hq; repeat split; lia].
  split; [|split; [|done]].
  - apply tiles_app. exists c. split; [done|]. cbn [tiles]. rewrite Q5, Q6, Q7, Q8. split; [done|]. split; [lia|].
    split; [done|]. split; [lia|done].
  - apply Forall_app. split; [done|]. apply Forall_cons. split; [done|]. by apply Forall_cons.
Qed.

Lemma roomy_row (m : gmap bytes bytes) : mini_roomy h m -> forall k,
  (size (filter (fun x : kv => mini_sel h x.1 = mini_sel h k /\ mini_row h x.1 = mini_row h k) m) <= MINI_WIDTH)%nat.
Proof.
  intros H k. specialize (H (h k / 2 ^ 48) ((h k / 2 ^ 32) mod 64)). change MINI_WIDTH with 512%nat.
  etrans; [|exact H]. apply Nat.eq_le_incl. f_equal. apply map_filter_ext. intros i x _. unfold mini_sel, mini_row. cbn.
  rewrite N2Nat.inj_iff. done.
Qed.
Lemma store_set_ok fuel : forall n m T s k v, store_ok m T s -> mini_sel h k < MINI_MAX_SHARD ->
  len k < 2 ^ 16 -> len v < 2 ^ 16 -> MINI_HEADER + T < 2 ^ 32 -> mini_roomy h (<[k := v]> m) ->
  (forall A sh B, s = A ++ sh :: B -> inside sh k -> pow2 sh n) -> (n <= 16)%nat -> (n < fuel)%nat ->
  exists s', store_set h fuel s k v = Ok (s', true) /\ store_ok (<[k := v]> m) (T + (len k + len v)) s'.
Proof.
  induction fuel as [|fuel IH]; intros n m T s k v Hok Hk Hkl Hvl Hroom Hfew Hpow Hn Hfuel; [lia|].
  destruct Hok as (Ht & Hf & Hs & HT). destruct (shard_of_ok _ _ _ k Ht) as (A & sh & B & -> & E & Hin); [lia|].
  assert (Hsh : shard_fine m T sh) by (apply Forall_app in Hf as [_ Hf]; by apply Forall_cons in Hf as [? _]).
  destruct Hsh as (S1 & S2 & S3). cbn [store_set]. rewrite E, list_lookup_middle by done.
  destruct (shard_set_ok h m sh k v S1 Hin Hkl Hvl) as (sh' & b & R & P); [lia|]. rewrite R. cbn [rbind]. destruct b.
  - destruct P as (P1 & P2 & P3 & P4). eexists. split; [reflexivity|].
    rewrite insert_app_r_alt, Nat.sub_diag by done. cbn [insert list_insert].
    destruct (store_update m (<[k := v]> m) T (T + (len k + len v)) A sh sh' B k) as [U1 U2]; try done.
    { intros k' Hk'. by rewrite lookup_insert_ne. }
    { lia. }
    { rewrite P4. lia. }
    split; [done|]. split; [done|]. split.
    + intros k' v' H. apply lookup_insert_Some in H as [[<- <-]|[_ H]]; [done|by apply Hs].
    + etrans; [apply sizes_insert|]. lia.
  - destruct P as (-> & P1 & P2). pose proof (Hpow A sh B eq_refl Hin) as Hp.
    destruct n as [|n].
    + exfalso. unfold pow2 in Hp. cbn in Hp. unfold MiniShard.inside in Hin.
      assert (H : <[k := v]> (same_row k (ms_start sh) (ms_end sh) m) ⊆
        filter (fun x : kv => mini_sel h x.1 = mini_sel h k /\ mini_row h x.1 = mini_row h k) (<[k := v]> m)).
      { apply map_subseteq_spec. intros k1 v1. rewrite map_filter_lookup_Some. cbn. destruct (decide (k1 = k)) as [->|Hne].
        - rewrite !lookup_insert. intros [= <-]. done.
        - rewrite !lookup_insert_ne by done. unfold same_row. rewrite map_filter_lookup_Some. cbn.
          intros (X1 & X2 & X3). split; [done|]. split; [lia|done]. }
      apply size_sub in H. rewrite map_size_insert_None in H; [|apply map_filter_lookup_None; by left].
      specialize (roomy_row _ Hfew k) as Hrow.
      unfold same_row in H. lia.
    + destruct (store_split_ok m T A sh B n) as (b & t & R1 & R2 & R3 & R4 & R5 & R6 & R7); [done|done|done|lia|].
      rewrite R1. cbn [rbind].
      apply (IH n); try done; [|lia|lia].
      (* the key is now in one of the halves *)
      intros A' x B' Hx Hinx. destruct R2 as (Rt & _).
      assert (HX : x ∈ A ++ b :: t :: B) by (rewrite Hx; apply elem_of_app; right; by left).
      apply tiles_app in Rt as (c & T1 & T2). cbn [tiles] in T2. destruct T2 as (T2 & T3 & T4 & T5 & T6).
      unfold MiniShard.inside in *.
      apply elem_of_app in HX as [HX|HX]; [pose proof (tiles_in _ _ _ _ T1 HX); lia|].
      apply elem_of_cons in HX as [->|HX]; [done|]. apply elem_of_cons in HX as [->|HX]; [done|].
      pose proof (tiles_in _ _ _ _ T6 HX). lia.
Qed.

(** ** Every call *)
Lemma mini_call_ok m T s c : (forall k, h k < 2 ^ 64) -> store_ok m T s -> mini_sized c -> MINI_HEADER + T < 2 ^ 32 ->
  mini_roomy h (mini_content m c) ->
  exists s' r, mini_call h s c = Ok (s', r) /\ mini_answers m c r /\ store_ok (mini_content m c) (T + call_bytes c) s'.
Proof.
  intros Hh Hok Hc HT Hfew. assert (Hsel : forall k, mini_sel h k < MINI_MAX_SHARD) by (intros k; by apply mini_sel_lt).
  destruct c as [k v|k|k|]; cbn [mini_call mini_content mini_answers call_bytes mini_sized] in *.
  - destruct Hc as [Hkl Hvl]. pose proof Hok as (Ht & Hf & _).
    destruct (shard_of_ok _ _ _ k Ht) as (A & sh & B & -> & E & Hin); [specialize (Hsel k); lia|].
    assert (Hsh : shard_fine m T sh) by (apply Forall_app in Hf as [_ Hf]; by apply Forall_cons in Hf as [? _]).
    destruct Hsh as (_ & _ & n & Hn & Hp).
    destruct (store_set_ok MINI_FUEL n m T (A ++ sh :: B) k v) as (s' & R & P); try done.
    { intros A' x B' Hx Hinx. replace x with sh; [done|].
      apply tiles_app in Ht as (c & T1 & T2). cbn [tiles] in T2. destruct T2 as (T2 & T3 & T4).
      assert (HX : x ∈ A ++ sh :: B) by (rewrite Hx; apply elem_of_app; right; by left).
      unfold MiniShard.inside in *.
      apply elem_of_app in HX as [HX|HX]; [pose proof (tiles_in _ _ _ _ T1 HX); lia|].
      apply elem_of_cons in HX as [->|HX]; [done|]. pose proof (tiles_in _ _ _ _ T4 HX). lia. }
    { unfold MINI_FUEL. lia. }
    rewrite R. cbn [rbind]. eexists _, _. split; [reflexivity|]. done.
  - rewrite (store_get_ok m T s k Hok (Hsel k)). cbn [rbind]. eexists _, _. split; [reflexivity|]. split; [done|]. by rewrite N.add_0_r.
  - destruct (store_remove_ok m T s k Hok (Hsel k)) as (s' & R & P). rewrite R. cbn [rbind]. eexists _, _.
    split; [reflexivity|]. split; [done|]. by rewrite N.add_0_r.
  - eexists _, _. split; [reflexivity|]. split; [|by rewrite N.add_0_r].
    destruct Hok as (Ht & Hf & _). destruct (store_iter_ok m _ _ s T Ht Hf) as (l & L1 & L2 & L3).
    exists l. split; [by rewrite L1|]. apply NoDup_Permutation; [done|apply NoDup_map_to_list|].
    intros [k v]. rewrite L3, elem_of_map_to_list. split; [tauto|]. intros H. split; [done|]. specialize (Hsel k). lia.
Qed.
Lemma mini_run_ok cs : forall m T s, (forall k, h k < 2 ^ 64) -> store_ok m T s -> Forall mini_sized cs ->
  MINI_HEADER + (T + total_bytes cs) < 2 ^ 32 ->
  (forall pre post, cs = pre ++ post -> mini_roomy h (foldl mini_content m pre)) ->
  exists s' rs, mini_run h s cs = Ok (s', rs) /\ mini_spec m cs rs.
Proof.
  induction cs as [|c cs IH]; intros m T s Hh Hok Hsz HT Hfew.
  { exists s, []. by split. }
  apply Forall_cons in Hsz as [Hc Hsz]. change (total_bytes (c :: cs)) with (call_bytes c + total_bytes cs) in HT.
  destruct (mini_call_ok m T s c) as (s1 & r & R1 & R2 & R3); try done; [lia|by apply (Hfew [c] cs)|].
  destruct (IH (mini_content m c) (T + call_bytes c) s1) as (s2 & rs & Q1 & Q2); try done; [lia| |].
  { intros pre post ->. by apply (Hfew (c :: pre) post). }
  exists s2, (r :: rs). cbn [mini_run mini_spec]. rewrite R1. cbn [rbind]. rewrite Q1. done.
Qed.
End hash.

(** mini-candy is a map: every sequence of calls on a new store is answered as by a map, [set]
    always returns -- as long as keys and values are below 64 KiB, everything ever written is
    below 4 GiB (less the header), and no more than 512 of the keys that are there at the same
    time share the 22 bits of the hash that choose shard and row.  What goes wrong otherwise:
    ExMini.v. *)
Theorem C74_mini_candy_is_a_map_partial : forall (h : bytes -> N) cs,
  (forall k, h k < 2 ^ 64) ->
  Forall mini_sized cs ->
  MINI_HEADER + total_bytes cs < 2 ^ 32 ->
  (forall pre post, cs = pre ++ post -> mini_roomy h (foldl mini_content ∅ pre)) ->
  exists s rs, mini_run h store_open cs = Ok (s, rs) /\ mini_spec ∅ cs rs.
Proof.
  intros h cs Hh Hsz HT Hfew. apply (mini_run_ok h cs ∅ 0); try done.
  split; [done|]. split; [|split].
  - apply Forall_singleton. split; [|split; [done|]].
    + apply mini_open_ok. intros k v H. by rewrite lookup_empty in H.
    + exists 16%nat. split; [lia|done].
  - intros k v H. by rewrite lookup_empty in H.
  - by rewrite map_to_list_empty.
Qed.
