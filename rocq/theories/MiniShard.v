(** Proofs about mini-candy: one shard (see ThmMini.v for the theorems). *)
From Verif Require Import Base Mini.

Section hash.
Context (h : bytes -> N).

Definition slot_rep (data : bytes) (x : mslot) (o : option kv) : Prop :=
  match o with
  | None => x.1 = 0
  | Some (k, v) => x.1 = mini_sig h k /\ mini_read data x.2 = Ok (k, v)
  end.
Definition row_ok (m : gmap bytes bytes) (s e : N) (r : nat) (data : bytes) (row : list mslot) : Prop :=
  length row = MINI_WIDTH /\ exists l : list (option kv),
    Forall2 (slot_rep data) row l /\ NoDup (omap id l) /\
    forall k v, (k, v) ∈ omap id l <-> m !! k = Some v /\ mini_row h k = r /\ s <= mini_sel h k < e.
Definition shard_ok (m : gmap bytes bytes) (sh : mshard) : Prop :=
  length (ms_rows sh) = MINI_ROWS /\
  forall r row, ms_rows sh !! r = Some row -> row_ok m (ms_start sh) (ms_end sh) r (ms_data sh) row.

Lemma mini_sig_pos k : mini_sig h k <> 0.
Proof. unfold mini_sig. cbv zeta. destruct (_ =? 0) eqn:E; [lia|]. by apply N.eqb_neq in E. Qed.
Lemma mini_row_lt k : (mini_row h k < MINI_ROWS)%nat.
Proof. unfold mini_row, MINI_ROWS. pose proof (N.mod_lt (h k / 2 ^ 32) 64). lia. Qed.

(** ** Reading and writing *)
Lemma read_at_mono data ext off n x : mini_read_at data off n = Ok x -> mini_read_at (data ++ ext) off n = Ok x.
Proof.
  unfold mini_read_at. destruct (n =? 0); [done|].
  destruct ((MINI_HEADER <=? off) && (off + n <=? MINI_HEADER + len data)) eqn:E; [|done].
  intros [= <-]. apply andb_true_iff in E as [E1 E2]. apply N.leb_le in E1, E2.
  rewrite (proj2 (N.leb_le _ _) E1). rewrite len_app.
  rewrite (proj2 (N.leb_le (off + n) (MINI_HEADER + (len data + len ext)))) by lia. cbn [andb].
  f_equal. rewrite drop_app_le by (unfold len in *; lia). rewrite take_app_le; [done|].
  rewrite drop_length. unfold len in *. lia.
Qed.
Lemma read_mono data ext d x : mini_read data d = Ok x -> mini_read (data ++ ext) d = Ok x.
Proof.
  unfold mini_read, rbind. destruct (mini_read_at data (d_off d) (d_klen d)) as [k|] eqn:E1; [|done].
  destruct (mini_read_at data (d_off d + d_klen d) (d_vlen d)) as [v|] eqn:E2; [|done].
  by rewrite (read_at_mono _ ext _ _ _ E1), (read_at_mono _ ext _ _ _ E2).
Qed.
Lemma read_at_mid (a b c : bytes) : mini_read_at (a ++ b ++ c) (MINI_HEADER + len a) (len b) = Ok b.
Proof.
  unfold mini_read_at. destruct (len b =? 0) eqn:E.
  { apply N.eqb_eq in E. destruct b; [done|]. unfold len in E. cbn in E. lia. }
  rewrite (proj2 (N.leb_le MINI_HEADER (MINI_HEADER + len a))) by lia. rewrite !len_app.
  rewrite (proj2 (N.leb_le (MINI_HEADER + len a + len b) (MINI_HEADER + (len a + (len b + len c))))) by lia.
  cbn [andb]. f_equal. replace (N.to_nat (MINI_HEADER + len a - MINI_HEADER)) with (length a) by (unfold len; lia).
  rewrite drop_app. replace (N.to_nat (len b)) with (length b) by (unfold len; lia). by rewrite take_app.
Qed.
Lemma read_write data k v d data' : len k < 2 ^ 16 -> len v < 2 ^ 16 -> MINI_HEADER + len data < 2 ^ 32 ->
  mini_write data k v = (d, data') -> data' = data ++ (k ++ v) /\ mini_read data' d = Ok (k, v).
Proof.
  intros Hk Hv Hd. unfold mini_write. intros [= <- <-]. split; [done|].
  unfold mini_read. cbn [d_off d_klen d_vlen]. rewrite !N.mod_small by lia.
  rewrite read_at_mid. cbn [rbind]. rewrite app_assoc.
  replace (MINI_HEADER + len data + len k) with (MINI_HEADER + len (data ++ k)) by (rewrite len_app; lia).
  pose proof (read_at_mid (data ++ k) v []) as E. rewrite app_nil_r in E. rewrite E. done.
Qed.

(** ** Searching a row *)
Lemma mini_find_spec data key row l : Forall2 (slot_rep data) row l ->
  match mini_find data (mini_sig h key) key row with
  | Ok (Some (i, v)) => l !! i = Some (Some (key, v))
  | Ok None => forall v, (key, v) ∉ omap id l
  | Err _ => False
  end.
Proof.
  induction 1 as [|[sg d] o row l Hx Hl IH]; [intros v; cbn; apply not_elem_of_nil|].
  cbn [mini_find]. cbv zeta.
  assert (Hnext : (forall v, o <> Some (key, v)) ->
    match (dor o <- mini_find data (mini_sig h key) key row; Ok (option_map (fun '(i, v) => (S i, v)) o)) with
    | Ok (Some (i, v)) => (o :: l) !! i = Some (Some (key, v))
    | Ok None => forall v, (key, v) ∉ omap id (o :: l)
    | Err _ => False
    end).
  { intros No. destruct (mini_find data (mini_sig h key) key row) as [[[i v]|]|]; cbn [rbind option_map]; [exact IH| |done].
    intros v. change (omap id (o :: l)) with (match o with Some y => y :: omap id l | None => omap id l end).
    destruct o as [y|]; [|apply IH]. rewrite elem_of_cons. intros [E|H]; [apply (No v); by rewrite E|by apply (IH v)]. }
  destruct (sg =? mini_sig h key) eqn:E.
  - apply N.eqb_eq in E. destruct o as [[k' v']|].
    + destruct Hx as [_ Hr]. cbn in Hr. rewrite Hr. cbn [rbind]. destruct (decide (k' = key)) as [->|Hn]; [done|].
      apply Hnext. congruence.
    + cbn in Hx. exfalso. apply (mini_sig_pos key). lia.
  - apply N.eqb_neq in E. apply Hnext. intros v ->. cbn in Hx. by destruct Hx.
Qed.
Lemma omap_id_cons (o : option kv) l : omap id (o :: l) = match o with Some y => y :: omap id l | None => omap id l end.
Proof. done. Qed.
Lemma omap_id_len (l : list (option kv)) : (length (omap id l) <= length l)%nat.
Proof. induction l as [|[y|] l IH]; rewrite ?omap_id_cons; cbn [length]; [done|lia|lia]. Qed.
Lemma mini_free_spec data row l : Forall2 (slot_rep data) row l ->
  match mini_free row with
  | Some i => l !! i = Some None
  | None => length (omap id l) = length row
  end.
Proof.
  induction 1 as [|[sg d] o row l Hx Hl IH]; [done|]. cbn [mini_free].
  destruct (sg =? 0) eqn:E.
  - apply N.eqb_eq in E. destruct o as [[k v]|]; [|done]. destruct Hx as [Hx _]. cbn in Hx.
    exfalso. apply (mini_sig_pos k). lia.
  - apply N.eqb_neq in E. destruct o as [[k v]|]; [|cbn in Hx; lia].
    destruct (mini_free row) as [i|]; cbn [option_map]; [exact IH|]. rewrite omap_id_cons. cbn [length]. lia.
Qed.

(** ** Changing one slot *)
Definition ol (o : option kv) : list kv := match o with Some y => [y] | None => [] end.
Lemma omap_split (l : list (option kv)) i o : l !! i = Some o -> exists R,
  omap id l ≡ₚ ol o ++ R /\ forall o', omap id (<[i := o']> l) ≡ₚ ol o' ++ R.
Proof.
  revert i. induction l as [|x l IH]; intros i; [done|]. destruct i as [|i]; cbn [lookup list_lookup].
  - intros [= ->]. exists (omap id l). split; [by destruct o|]. intros [y|]; done.
  - intros H. destruct (IH i H) as (R & A & B). exists (ol x ++ R). split.
    + rewrite omap_id_cons. destruct x as [y|]; [|exact A]. cbn [ol app]. rewrite A. by rewrite Permutation_middle.
    + intros o'. cbn [insert list_insert]. rewrite omap_id_cons. specialize (B o'). destruct x as [y|]; [|exact B].
      cbn [ol app]. setoid_rewrite B. by rewrite Permutation_middle.
Qed.
Lemma row_mono m m' s e r data ext row :
  (forall k, mini_row h k = r -> s <= mini_sel h k < e -> m' !! k = m !! k) ->
  row_ok m s e r data row -> row_ok m' s e r (data ++ ext) row.
Proof.
  intros Hm (A & l & B & C & D). split; [done|]. exists l. split; [|split; [done|]].
  - eapply Forall2_impl; [exact B|]. intros x [[k v]|]; [|done]. intros [H1 H2]. split; [done|]. by apply read_mono.
  - intros k v. rewrite D. split; intros (E1 & E2 & E3); (split; [|done]).
    + by rewrite Hm.
    + by rewrite <- Hm.
Qed.
Lemma row_put m s e r data row l i o key v d ext :
  length row = MINI_WIDTH -> Forall2 (slot_rep data) row l -> NoDup (omap id l) ->
  (forall k v, (k, v) ∈ omap id l <-> m !! k = Some v /\ mini_row h k = r /\ s <= mini_sel h k < e) ->
  l !! i = Some o -> (match o with Some y => y.1 = key | None => m !! key = None end) ->
  mini_row h key = r -> s <= mini_sel h key < e -> mini_read (data ++ ext) d = Ok (key, v) ->
  row_ok (<[key := v]> m) s e r (data ++ ext) (<[i := (mini_sig h key, d)]> row).
Proof.
  intros Hlen Hl Hnd Hin Hi Ho Hr Hs Hrd. split; [by rewrite insert_length|].
  exists (<[i := Some (key, v)]> l). destruct (omap_split l i o Hi) as (R & A & B). specialize (B (Some (key, v))).
  assert (Hkey : forall v', (key, v') ∉ R).
  { intros v' H. assert (H1 : (key, v') ∈ omap id l) by (rewrite A; apply elem_of_app; by right).
    destruct o as [[k0 v0]|]; cbn in Ho.
    - subst k0. assert (H2 : (key, v0) ∈ omap id l) by (rewrite A; apply elem_of_app; left; by left).
      apply Hin in H1 as [H1 _]. apply Hin in H2 as [H2 _]. assert (v' = v0) as -> by congruence.
      rewrite A in Hnd. cbn in Hnd. by apply NoDup_cons in Hnd as [Hnd _].
    - apply Hin in H1 as [H1 _]. congruence. }
  split; [|split].
  - apply Forall2_insert; [|done]. eapply Forall2_impl; [exact Hl|].
    intros x [[k1 v1]|]; [|done]. intros [H1 H2]. split; [done|]. by apply read_mono.
  - setoid_rewrite B. cbn. apply NoDup_cons. split; [apply Hkey|]. rewrite A in Hnd. by apply NoDup_app in Hnd as (_ & _ & ?).
  - intros k v1. rewrite B. cbn [ol app]. rewrite elem_of_cons. destruct (decide (k = key)) as [->|Hn].
    + rewrite lookup_insert. split.
      * intros [[= ->]|H]; [done|by apply Hkey in H].
      * intros ([= ->] & _). by left.
    + rewrite lookup_insert_ne by done. rewrite <- Hin, A. rewrite elem_of_app. split.
      * intros [[= -> ->]|H]; [done|by right].
      * intros [H|H]; [|by right]. destruct o as [[k0 v0]|]; cbn in H, Ho.
        -- apply elem_of_list_singleton in H as [= -> ->]. done.
        -- by apply not_elem_of_nil in H.
Qed.
Lemma row_take m s e r data row l i key v :
  length row = MINI_WIDTH -> Forall2 (slot_rep data) row l -> NoDup (omap id l) ->
  (forall k v, (k, v) ∈ omap id l <-> m !! k = Some v /\ mini_row h k = r /\ s <= mini_sel h k < e) ->
  l !! i = Some (Some (key, v)) -> row_ok (delete key m) s e r data (<[i := free_slot]> row).
Proof.
  intros Hlen Hl Hnd Hin Hi. split; [by rewrite insert_length|].
  exists (<[i := None]> l). destruct (omap_split l i _ Hi) as (R & A & B). specialize (B None).
  assert (Hkey : forall v', (key, v') ∉ R).
  { intros v' H. assert (H1 : (key, v') ∈ omap id l) by (rewrite A; apply elem_of_app; by right).
    assert (H2 : (key, v) ∈ omap id l) by (rewrite A; apply elem_of_app; left; by left).
    apply Hin in H1 as [H1 _]. apply Hin in H2 as [H2 _]. assert (v' = v) as -> by congruence.
    rewrite A in Hnd. cbn in Hnd. by apply NoDup_cons in Hnd as [Hnd _]. }
  split; [|split].
  - by apply Forall2_insert.
  - setoid_rewrite B. cbn. rewrite A in Hnd. by apply NoDup_app in Hnd as (_ & _ & ?).
  - intros k v1. rewrite B. cbn [ol app]. destruct (decide (k = key)) as [->|Hn].
    + rewrite lookup_delete. split; [by intros ?%Hkey|by intros (? & _)].
    + rewrite lookup_delete_ne by done. rewrite <- Hin, A. cbn [ol app]. rewrite elem_of_cons. split.
      * intros ?; by right.
      * intros [[= -> ->]|?]; done.
Qed.

(** ** The calls of a shard *)
Definition with_data (sh : mshard) : N := len (ms_data sh).
Definition inside (sh : mshard) (k : bytes) : Prop := ms_start sh <= mini_sel h k < ms_end sh.
Lemma header_row_ok m sh key : shard_ok m sh ->
  ms_rows sh !! mini_row h key = Some (header_row h sh key) /\
  row_ok m (ms_start sh) (ms_end sh) (mini_row h key) (ms_data sh) (header_row h sh key).
Proof.
  intros [A B]. unfold header_row. destruct (ms_rows sh !! mini_row h key) as [row|] eqn:E.
  - split; [done|]. by apply B.
  - apply lookup_ge_None in E. pose proof (mini_row_lt key). unfold MINI_ROWS in *. lia.
Qed.
Lemma shard_get_ok m sh key : shard_ok m sh -> inside sh key -> shard_get h sh key = Ok (m !! key).
Proof.
  intros Hsh Hin. destruct (header_row_ok m sh key Hsh) as (_ & _ & l & A & _ & C).
  unfold shard_get. pose proof (mini_find_spec (ms_data sh) key _ l A) as F.
  destruct (mini_find _ _ _ _) as [[[i v]|]|]; cbn [rbind option_map snd]; [| |done].
  - assert (H : (key, v) ∈ omap id l).
    { apply elem_of_list_omap. exists (Some (key, v)). split; [|done]. by eapply elem_of_list_lookup_2. }
    apply C in H as [-> _]. done.
  - destruct (m !! key) as [v|] eqn:E; [|done]. exfalso. apply (F v). apply C. done.
Qed.
(** Replacing the slot of a key in the rows. *)
Lemma put_slot_ok m m' sh key i x ext : shard_ok m sh -> inside sh key ->
  (forall k, k <> key -> m' !! k = m !! k) ->
  row_ok m' (ms_start sh) (ms_end sh) (mini_row h key) (ms_data sh ++ ext) (<[i := x]> (header_row h sh key)) ->
  shard_ok m' (put_slot h sh key i x (ms_data sh ++ ext)).
Proof.
  intros Hsh Hin Hm Hrow. destruct (header_row_ok m sh key Hsh) as [Hh _]. destruct Hsh as [A B].
  unfold shard_ok, put_slot. cbn [ms_rows ms_start ms_end ms_data]. split; [by rewrite alter_length|].
  intros r row. destruct (decide (r = mini_row h key)) as [->|Hn].
  - rewrite list_lookup_alter, Hh. cbn. intros [= <-]. done.
  - rewrite list_lookup_alter_ne by done. intros H. apply (row_mono m); [|by apply B].
    intros k Hk _. apply Hm. congruence.
Qed.
Lemma shard_set_ok m sh key v : shard_ok m sh -> inside sh key -> len key < 2 ^ 16 -> len v < 2 ^ 16 ->
  MINI_HEADER + len (ms_data sh) < 2 ^ 32 ->
  exists sh' b, shard_set h sh key v = Ok (sh', b) /\
    if (b : bool)
    then shard_ok (<[key := v]> m) sh' /\ ms_start sh' = ms_start sh /\ ms_end sh' = ms_end sh /\
      len (ms_data sh') = len (ms_data sh) + (len key + len v)
    else sh' = sh /\ m !! key = None /\
      size (filter (fun x : kv => mini_row h x.1 = mini_row h key /\ ms_start sh <= mini_sel h x.1 < ms_end sh) m) = MINI_WIDTH.
Proof.
  intros Hsh Hin Hk Hv Hd. destruct (header_row_ok m sh key Hsh) as (Hh & Hlen & l & A & B & C).
  unfold shard_set. pose proof (mini_find_spec (ms_data sh) key _ l A) as F.
  destruct (mini_write (ms_data sh) key v) as [d data'] eqn:W.
  destruct (read_write _ _ _ _ _ Hk Hv Hd W) as [-> Hr].
  destruct (mini_find _ _ _ _) as [[[i v0]|]|]; cbn [rbind]; [| |done].
  - eexists _, true. split; [reflexivity|]. cbn iota. split; [|unfold put_slot; cbn; by rewrite !len_app].
    apply (put_slot_ok m); [done|done|by intros k ?; rewrite lookup_insert_ne|].
    by apply (row_put m _ _ _ _ _ l i (Some (key, v0))).
  - assert (Hno : m !! key = None).
    { destruct (m !! key) as [v1|] eqn:E; [|done]. exfalso. apply (F v1). by apply C. }
    pose proof (mini_free_spec _ _ l A) as G. destruct (mini_free _) as [i|].
    + eexists _, true. split; [reflexivity|]. cbn iota. split; [|unfold put_slot; cbn; by rewrite !len_app].
      apply (put_slot_ok m); [done|done|by intros k ?; rewrite lookup_insert_ne|].
      by apply (row_put m _ _ _ _ _ l i None).
    + exists sh, false. split; [done|]. cbn iota. split; [done|]. split; [done|].
      rewrite <- Hlen, <- G. unfold size, map_size. apply Permutation_length. apply NoDup_Permutation; [apply NoDup_map_to_list|done|].
      intros [k v1]. rewrite elem_of_map_to_list, map_filter_lookup_Some, C. done.
Qed.
Lemma shard_remove_ok m sh key : shard_ok m sh -> inside sh key ->
  exists sh', shard_remove h sh key = Ok (sh', bool_decide (is_Some (m !! key))) /\
    shard_ok (delete key m) sh' /\ ms_start sh' = ms_start sh /\ ms_end sh' = ms_end sh /\ ms_data sh' = ms_data sh.
Proof.
  intros Hsh Hin. destruct (header_row_ok m sh key Hsh) as (Hh & Hlen & l & A & B & C).
  unfold shard_remove. pose proof (mini_find_spec (ms_data sh) key _ l A) as F.
  destruct (mini_find _ _ _ _) as [[[i v0]|]|]; cbn [rbind]; [| |done].
  - assert (H : (key, v0) ∈ omap id l).
    { apply elem_of_list_omap. exists (Some (key, v0)). split; [|done]. by eapply elem_of_list_lookup_2. }
    apply C in H as [E _]. rewrite bool_decide_true by (by rewrite E). eexists. split; [reflexivity|].
    split; [|done]. pose proof (put_slot_ok m (delete key m) sh key i free_slot []) as P. rewrite app_nil_r in P.
    apply P; [done|done|by intros k ?; rewrite lookup_delete_ne|]. by apply (row_take m _ _ _ _ _ l i key v0).
  - assert (Hno : m !! key = None).
    { destruct (m !! key) as [v1|] eqn:E; [|done]. exfalso. apply (F v1). by apply C. }
    rewrite bool_decide_false by (rewrite Hno; apply is_Some_None). exists sh. split; [done|].
    rewrite delete_notin by done. done.
Qed.

(** ** The entries of a shard *)
Lemma filter_slots data row l : Forall2 (slot_rep data) row l ->
  map (fun '(_, d) => mini_read data d) (filter (fun x : mslot => x.1 <> 0) row) = map Ok (omap id l).
Proof.
  induction 1 as [|[sg d] o row l Hx Hl IH]; [done|]. rewrite omap_id_cons. destruct o as [[k v]|].
  - destruct Hx as [E1 E2]. cbn in E1, E2. rewrite filter_cons_True; [|cbn; rewrite E1; apply mini_sig_pos].
    cbn [map]. by rewrite E2, IH.
  - cbn in Hx. rewrite filter_cons_False; [done|]. cbn. lia.
Qed.
(** Disjoint pieces. *)
Lemma NoDup_pieces {A} (cls : A -> nat -> Prop) (ls : list (list A)) (n : nat) :
  (forall x i j, cls x i -> cls x j -> i = j) ->
  (forall i l, ls !! i = Some l -> NoDup l /\ forall x, x ∈ l -> cls x (n + i)%nat) -> NoDup (concat ls).
Proof.
  intros Hf. revert n. induction ls as [|l ls IH]; intros n H; cbn [concat]; [by apply NoDup_nil|].
  apply NoDup_app. destruct (H 0%nat l eq_refl) as [H1 H2]. split; [done|]. split.
  - intros x Hx Hy. apply elem_of_list_In, in_concat in Hy as (l' & Hl' & Hy).
    apply elem_of_list_In in Hl', Hy. apply elem_of_list_lookup in Hl' as [i Hi].
    destruct (H (S i) l' Hi) as [_ H3]. pose proof (Hf x _ _ (H2 x Hx) (H3 x Hy)). lia.
  - apply (IH (S n)). intros i l' Hi. destruct (H (S i) l' Hi) as [H3 H4]. split; [done|].
    intros x Hx. replace (S n + i)%nat with (n + S i)%nat by lia. by apply H4.
Qed.
Lemma shard_iter_ok m sh : shard_ok m sh -> exists l, shard_iter sh = map Ok l /\ NoDup l /\
  forall k v, (k, v) ∈ l <-> m !! k = Some v /\ inside sh k.
Proof.
  intros [A B].
  assert (H : exists ls : list (list kv), length ls = length (ms_rows sh) /\
    concat (map (fun row => map (fun '(_, d) => mini_read (ms_data sh) d) (filter (fun x : mslot => x.1 <> 0) row)) (ms_rows sh)) = map Ok (concat ls) /\
    forall r l, ls !! r = Some l -> NoDup l /\
      forall k v, (k, v) ∈ l <-> m !! k = Some v /\ mini_row h k = r /\ inside sh k).
  { clear A. assert (G : forall n rows, (forall r row, rows !! r = Some row -> row_ok m (ms_start sh) (ms_end sh) (n + r) (ms_data sh) row) ->
      exists ls : list (list kv), length ls = length rows /\
      concat (map (fun row => map (fun '(_, d) => mini_read (ms_data sh) d) (filter (fun x : mslot => x.1 <> 0) row)) rows) = map Ok (concat ls) /\
      forall r l, ls !! r = Some l -> NoDup l /\
        forall k v, (k, v) ∈ l <-> m !! k = Some v /\ mini_row h k = (n + r)%nat /\ inside sh k).
    { intros n rows. revert n. induction rows as [|row rows IH]; intros n H; [exists []; by repeat split|].
      destruct (IH (S n)) as (ls & L1 & L2 & L3).
      { intros r row' Hr. replace (S n + r)%nat with (n + S r)%nat by lia. by apply H. }
      destruct (H 0%nat row eq_refl) as (_ & l & F1 & F2 & F3). exists (omap id l :: ls).
      split; [cbn; by rewrite L1|]. split.
      - cbn [map concat]. rewrite (filter_slots _ _ l F1), L2, map_app. done.
      - intros [|r] l'; cbn [lookup list_lookup].
        + intros [= <-]. split; [done|]. replace (n + 0)%nat with n in * by lia. exact F3.
        + intros Hl'. destruct (L3 r l' Hl') as [G1 G2]. split; [done|].
          replace (n + S r)%nat with (S n + r)%nat by lia. exact G2. }
    destruct (G 0%nat (ms_rows sh)) as (ls & L1 & L2 & L3); [exact B|]. exists ls. by split. }
  destruct H as (ls & L1 & L2 & L3). exists (concat ls). split; [|split].
  - rewrite <- L2. unfold shard_iter. clear. generalize (ms_rows sh). intros rows.
    induction rows as [|row rows IH]; [done|]. cbn [concat map]. rewrite filter_app, map_app. by rewrite IH.
  - apply (NoDup_pieces (fun x i => mini_row h x.1 = i) ls 0); [by intros x i j <- <-|].
    intros i l Hl. destruct (L3 i l Hl) as [G1 G2]. split; [done|]. intros [k v] Hx. by apply G2 in Hx as (_ & ? & _).
  - intros k v. rewrite elem_of_list_In, in_concat. split.
    + intros (l & Hl & Hx). apply elem_of_list_In in Hl, Hx. apply elem_of_list_lookup in Hl as [i Hi].
      apply (L3 i l Hi) in Hx. tauto.
    + intros [Hm Hin]. destruct (lookup_lt_is_Some_2 ls (mini_row h k)) as [l Hl].
      { rewrite L1, A. apply mini_row_lt. }
      exists l. split; apply elem_of_list_In; [by eapply elem_of_list_lookup_2|]. apply (L3 _ l Hl). done.
Qed.
Lemma shard_frame m m' sh : (forall k, inside sh k -> m' !! k = m !! k) -> shard_ok m sh -> shard_ok m' sh.
Proof.
  intros Hm [A B]. split; [done|]. intros r row Hr. rewrite <- (app_nil_r (ms_data sh)).
  apply (row_mono m); [|by apply B]. intros k _ Hk. by apply Hm.
Qed.
Lemma mini_open_ok m s e : (forall k v, m !! k = Some v -> s <= mini_sel h k < e -> False) -> shard_ok m (mini_open s e).
Proof.
  intros Hm. unfold shard_ok, mini_open. cbn [ms_rows ms_start ms_end ms_data].
  split; [apply replicate_length|]. intros r row Hr. apply lookup_replicate in Hr as [-> _].
  split; [apply replicate_length|]. exists (replicate MINI_WIDTH None). split; [|].
  - apply Forall2_replicate. done.
  - assert (E : omap id (replicate MINI_WIDTH (@None kv)) = []).
    { generalize MINI_WIDTH. intros n. induction n as [|n IH]; [done|]. cbn [replicate]. by rewrite omap_id_cons. }
    rewrite E. split; [by apply NoDup_nil|]. intros k v. split; [by intros ?%not_elem_of_nil|].
    intros (H1 & _ & H2). exfalso. by eapply Hm.
Qed.
End hash.
