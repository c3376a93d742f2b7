(** C60: which shards [merge_small_shards] merges; C06: when it returns. *)
From Verif Require Import Base SipHash Hashing HashingProofs Fs Shard Router RouterPure Wpc Spec FileRep RowOps
  Compact Inv ShardOps Split Insert Open Merge Create Store Limits StoreRefine Kv Lists Queues Api Hist KvSpec
  HistInv KeySpace PlainSpec Plain Check MergeShape ThmStore ExStore.

(** The spans of the shards of a store. *)
Definition shards (s : store) : list range := map span_of (leaves (st_root s)).
Lemma shards_len s : len (shards s) = len (leaves (st_root s)).
Proof. unfold shards, len. by rewrite map_length. Qed.

(** A store that was never interrupted holds [m]; [merge_small_shards] merged (and so did not block):
    - it merged nothing, or the shards that are left have room for all keys there are, and for the
      configured number of keys;
    - there are not more shards than before;
    - a shard holding more than [max_fill] keys is still there;
    - a shard that is new holds the keys of two neighbours with at most [max_fill] keys each. *)
Theorem C60_merges_only_what_it_may : forall cfg s m max_fill s' b,
  reachable_clean cfg s -> content cfg s m -> maint_fits cfg s (MMerge max_fill) ->
  store_merge cfg s max_fill = (s', Ok b) ->
  (shards s' = shards s \/
   N.max (N.of_nat (size m)) (c_expected cfg) <= len (shards s') * EXPECTED_CAPACITY) /\
  len (shards s') <= len (shards s) /\
  (forall r, r ∈ shards s -> max_fill < keys_in cfg m r -> r ∈ shards s') /\
  (forall lo hi, (lo, hi) ∈ shards s' -> (lo, hi) ∈ shards s \/
     exists mid, keys_in cfg m (lo, mid) <= max_fill /\ keys_in cfg m (mid, hi) <= max_fill).
Proof.
  intros cfg s m mf s' b Hr Hm [Hf1 Hf2] Hme. apply clean_inv in Hr as (M & HI).
  assert (M = m) as -> by (eapply content_unique; [by eapply SInv_content|done]).
  destruct (Hf1 m Hm) as [Hf3 Hf4].
  assert (wpc (merge_small_shards cfg (st_root s) mf) (fun _ => True)
    (fun a w' => shape_ok cfg m mf (shards s) (map span_of (leaves (fst a)))) (fun _ => True) (st_fs s)) as Hw.
  { apply (merge_small_shape cfg m (st_root s) (st_fs s) mf); auto.
    unfold items_fit. unfold items_ok, cfg_ok in *. lia. }
  apply wpc_sound in Hw as [_ Hw]. unfold store_merge, exec in Hme.
  destruct (run (merge_small_shards cfg (st_root s) mf) (st_fs s)) as [w' [[r' b']|e]]; [|done].
  injection Hme as <- <-. cbn in Hw. destruct Hw as (_ & k & Hco & Hk).
  change (map span_of (leaves r')) with (shards (Store r' w')) in *. split; [|split; [|split]].
  - destruct Hk as [->|Hk]; [left|by right]. by eapply coarser_zero.
  - apply coarser_len in Hco. lia.
  - intros r Hin Hlt. eapply coarser_stays; [exact Hco|done|]. unfold small. lia.
  - intros lo hi Hin. eapply coarser_new in Hin; [|exact Hco]. done.
Qed.

(** C06 where it holds: [merge_small_shards] returns if there are at most two shards, or if
    dropping two shards would leave too little room, or if no two neighbouring shards are both
    filled to at most [max_fill] keys. *)
Theorem C06_merge_returns_partial : forall cfg s m max_fill,
  reachable_clean cfg s -> content cfg s m -> maint_fits cfg s (MMerge max_fill) ->
  len (shards s) <= 2 \/
  (len (shards s) - 2) * EXPECTED_CAPACITY < N.max (N.of_nat (size m)) (c_expected cfg) \/
  (forall lo mid hi, (lo, mid) ∈ shards s -> (mid, hi) ∈ shards s ->
     max_fill < keys_in cfg m (lo, mid) \/ max_fill < keys_in cfg m (mid, hi)) ->
  exists s' b, store_merge cfg s max_fill = (s', Ok b).
Proof.
  intros cfg s m mf Hr Hm [Hf1 Hf2] Hc. apply clean_inv in Hr as (M & HI).
  assert (M = m) as -> by (eapply content_unique; [by eapply SInv_content|done]).
  destruct (Hf1 m Hm) as [Hf3 Hf4].
  assert (wpc (merge_small_shards cfg (st_root s) mf) (fun _ => True) (fun _ _ => True) (fun _ => False) (st_fs s)) as Hw.
  { apply (merge_small_shape cfg m (st_root s) (st_fs s) mf); auto.
    { unfold items_fit. unfold items_ok, cfg_ok in *. lia. }
    intros j l' k Hj Hco Hk Hkj. apply calc_num_enough in Hj as [Hj1 Hj2]. rewrite <- shards_len in Hkj.
    unfold sum_keys in Hj1. unfold EXPECTED_CAPACITY in *.
    destruct Hc as [Hc|[Hc|Hc]]; [lia|nia|].
    eapply coarser_first in Hco as (a & b & c & H1 & H2 & H3 & H4); [|done]. unfold small in *.
    destruct (Hc a b c H1 H2); lia. }
  apply wpc_sound in Hw as [_ Hw]. unfold store_merge, exec.
  destruct (run (merge_small_shards cfg (st_root s) mf) (st_fs s)) as [w' [[r' b']|e]]; [eauto|by destruct Hw].
Qed.

(** Two shards with a key each are merged into one. *)
Example C60_example : exists cfg s m s',
  reachable_clean cfg s /\ content cfg s m /\ maint_fits cfg s (MMerge 1000) /\
  store_merge cfg s 1000 = (s', Ok true) /\ len (shards s) = 2 /\ len (shards s') = 1.
Proof.
  destruct (rewrites_reach 3) as (H & _ & HI); [by vm_cast_no_check (eq_refl true)|by vm_cast_no_check (eq_refl true)|].
  exists ex_cfg2, (after ex_cfg2 (rewrites 3)), (after_map ex_cfg2 (rewrites 3)),
    (fst (store_merge ex_cfg2 (after ex_cfg2 (rewrites 3)) 1000)).
  split; [exact H|]. split; [by eapply SInv_content|].
  split; [eapply maint_b_ok; [exact HI|by vm_cast_no_check (eq_refl true)]|].
  assert ((len (shards (after ex_cfg2 (rewrites 3))) =? 2) = true) as E2 by (by vm_cast_no_check (eq_refl true)).
  apply N.eqb_eq in E2. split; [|split; [exact E2|]]; clear E2 HI H.
  - assert (snd (store_merge ex_cfg2 (after ex_cfg2 (rewrites 3)) 1000) = Ok true) as E by (by vm_cast_no_check (eq_refl (@Ok bool true))).
    destruct (store_merge ex_cfg2 (after ex_cfg2 (rewrites 3)) 1000) as [s' r]. cbn in *. by subst r.
  - apply N.eqb_eq. by vm_cast_no_check (eq_refl true).
Qed.
(** Three shards with several keys each: with [max_fill] 1 the call returns (with a larger one it
    may block, see [C06_merge_returns_refuted]). *)
Definition below (l : list range) (n : range -> N) (mf : N) : bool :=
  forallb (fun a => forallb (fun b => negb (snd a =? fst b) || (mf <? n a) || (mf <? n b)) l) l.
Lemma below_ok l n mf : below l n mf = true ->
  forall lo mid hi, (lo, mid) ∈ l -> (mid, hi) ∈ l -> mf < n (lo, mid) \/ mf < n (mid, hi).
Proof.
  intros H lo mid hi H1 H2. unfold below in H. rewrite forallb_forall in H. apply elem_of_list_In in H1, H2.
  specialize (H _ H1). rewrite forallb_forall in H. specialize (H _ H2). cbn in H. rewrite N.eqb_refl in H. cbn in H.
  apply orb_prop in H as [H|H]; apply N.ltb_lt in H; auto.
Qed.
Definition some_small : list cmd :=
  map (fun i => xset (N.of_nat i) 2 (N.of_nat i)) (seq 0 20) ++ map (fun i => xset 1 400 (N.of_nat i)) (seq 0 4).
Example C06_example : exists cfg s m,
  reachable_clean cfg s /\ content cfg s m /\ maint_fits cfg s (MMerge 1) /\ len (shards s) = 3 /\ size m = 20%nat /\
  (forall lo mid hi, (lo, mid) ∈ shards s -> (mid, hi) ∈ shards s ->
     1 < keys_in cfg m (lo, mid) \/ 1 < keys_in cfg m (mid, hi)).
Proof.
  destruct (after_reach ex_cfg2 some_small) as (H & _ & HI);
    [exact ex_cfg2_ok|by vm_cast_no_check (eq_refl true)|by vm_cast_no_check (eq_refl true)|].
  exists ex_cfg2, (after ex_cfg2 some_small), (after_map ex_cfg2 some_small).
  split; [exact H|]. split; [by eapply SInv_content|].
  split; [eapply maint_b_ok; [exact HI|by vm_cast_no_check (eq_refl true)]|]. clear.
  split; [apply N.eqb_eq; by vm_cast_no_check (eq_refl true)|].
  split; [apply Nat.eqb_eq; by vm_cast_no_check (eq_refl true)|].
  apply below_ok. by vm_cast_no_check (eq_refl true).
Qed.
