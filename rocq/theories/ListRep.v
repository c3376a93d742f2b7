(** Lists over the abstract map: representation and the effect of every list program. *)
From Coq Require Import Sorted.
From Verif Require Import Base Hashing HashingProofs Fs Shard Router RouterPure Wpc Spec FileRep RowOps
  Compact Inv ShardOps Split Insert Open Merge Create Store Limits StoreRefine Kv Lists Queues Api Hist KvSpec
  HistInv KeySpace ListSpec.
Implicit Types (M : kvmap).
Local Arguments u64_bytes : simpl never.
Local Arguments enc_rec : simpl never.

(** ** Encodings *)
Lemma le_N_u64 n : n < U64 -> le_N (u64_bytes n) = n.
Proof. intros H. unfold u64_bytes. apply le_N_le_bytes. exact H. Qed.
Lemma dec_u64_bytes n : n < U64 -> dec_u64 (u64_bytes n) = Ok n.
Proof. intros H. unfold dec_u64. rewrite u64_bytes_len. cbn. by rewrite le_N_u64. Qed.
Lemma enc_rec_len r : length (enc_rec r) = 24%nat.
Proof. unfold enc_rec. by rewrite !app_length, !u64_bytes_len. Qed.
Lemma dec_enc_rec h t n : h < U64 -> t < U64 -> n < U64 -> dec_rec (enc_rec (LRec h t n)) = Ok (LRec h t n).
Proof.
  intros H1 H2 H3. unfold dec_rec. rewrite enc_rec_len. cbn [Nat.eqb]. unfold enc_rec. cbn [l_head l_tail l_num].
  rewrite take_app_alt by (by rewrite u64_bytes_len). rewrite drop_app_alt by (by rewrite u64_bytes_len).
  rewrite take_app_alt by (by rewrite u64_bytes_len).
  replace 16%nat with (length (u64_bytes h ++ u64_bytes t)) by (by rewrite app_length, !u64_bytes_len).
  rewrite app_assoc, drop_app. by rewrite !le_N_u64.
Qed.
Lemma cut8 (v : bytes) i : cut_tail 8 (v ++ u64_bytes i) = Ok (v, u64_bytes i).
Proof. rewrite <- (u64_bytes_len i) at 1. apply cut_tail_app. Qed.
Lemma item_suffix_len ph : length (item_suffix ph) = 9%nat.
Proof. unfold item_suffix. by rewrite app_length, u64_bytes_len. Qed.
Lemma cut9 (ik : bytes) ph : cut_tail 9 (item_key ph ik) = Ok (ik, item_suffix ph).
Proof. unfold item_key. rewrite <- (item_suffix_len ph) at 1. apply cut_tail_app. Qed.
Lemma ins_err_len cfg (k k' v v' : bytes) : length k = length k' -> length v = length v' -> ins_err cfg k v = ins_err cfg k' v'.
Proof. intros H1 H2. unfold ins_err, len. by rewrite H1, H2. Qed.

(** ** kwp for operations that may be rejected *)
Lemma kwp_set2 (cfg : config) (k v : bytes) (C : kvmap -> Prop) (Q : set_status -> kvmap -> Prop) (E : err -> kvmap -> Prop) M :
  k <> [] -> C M ->
  (forall e, ins_err cfg k v = Some e -> E e M) ->
  (ins_err cfg k v = None -> C (<[k := v]> M) /\ forall st, Q st (<[k := v]> M)) ->
  kwp cfg (kset k v) C Q E M.
Proof.
  intros Hne HC H1 H2. destruct (ins_err cfg k v) as [e|] eqn:He.
  - cbn. split; [done|]. split; [done|]. rewrite He. by apply H1.
  - destruct H2 as [H2 H3]; [done|]. by apply kwp_set.
Qed.
Lemma kwp_replace2 (cfg : config) (k v : bytes) (C : kvmap -> Prop) (Q : replace_status -> kvmap -> Prop) (E : err -> kvmap -> Prop) M :
  k <> [] -> C M -> is_Some (M !! k) ->
  (forall e, ins_err cfg k v = Some e -> E e M) ->
  (ins_err cfg k v = None -> C (<[k := v]> M) /\ forall st, Q st (<[k := v]> M)) ->
  kwp cfg (kreplace k v None) C Q E M.
Proof.
  intros Hne HC [o Ho] H1 H2. destruct (ins_err cfg k v) as [e|] eqn:He.
  - cbn. split; [done|]. split; [done|]. rewrite He. by apply H1.
  - destruct H2 as [H2 H3]; [done|]. apply kwp_replace_none; [done|done|done| |congruence]. auto.
Qed.
Lemma kwp_goc2 (cfg : config) (k v : bytes) (C : kvmap -> Prop) (Q : goc_status -> kvmap -> Prop) (E : err -> kvmap -> Prop) M :
  k <> [] -> C M ->
  (forall e, ins_err cfg k v = Some e -> E e M) ->
  (forall o, ins_err cfg k v = None -> M !! k = Some o -> Q (GExisting o) M) ->
  (ins_err cfg k v = None -> M !! k = None -> C (<[k := v]> M) /\ Q (GCreated v) (<[k := v]> M)) ->
  kwp cfg (kgoc k v) C Q E M.
Proof.
  intros Hne HC H1 H2 H3. destruct (ins_err cfg k v) as [e|] eqn:He.
  - cbn. split; [done|]. split; [done|]. rewrite He. by apply H1.
  - apply kwp_goc; auto.
Qed.

(** ** Items with their indices *)
Notation ixs := (list (N * (bytes * bytes))).
Notation ik_of x := (fst (snd x)).
Definition at_idx (its : ixs) (i : N) : option (bytes * bytes) := snd <$> List.find (fun x => fst x =? i) its.

Lemma at_idx_in its i x : NoDup (map fst its) -> (i, x) ∈ its -> at_idx its i = Some x.
Proof.
  unfold at_idx. induction its as [|[j y] its IH]; intros Hnd Hin; [by apply elem_of_nil in Hin|].
  cbn in Hnd. apply NoDup_cons in Hnd as [Hn Hnd]. cbn [List.find fst]. destruct (N.eqb_spec j i) as [->|Hne].
  - apply elem_of_cons in Hin as [E|Hin]; [by simplify_eq|]. exfalso. apply Hn. apply elem_of_list_fmap. exists (i, x). auto.
  - apply IH; [done|]. apply elem_of_cons in Hin as [E|Hin]; [by simplify_eq|done].
Qed.
Lemma at_idx_Some its i x : at_idx its i = Some x -> (i, x) ∈ its.
Proof.
  unfold at_idx. intros H. destruct (List.find _ its) as [[j y]|] eqn:E; [|done]. apply find_some in E as [E1 E2].
  apply N.eqb_eq in E2. cbn in *. simplify_eq. by apply elem_of_list_In.
Qed.
Lemma at_idx_None its i : at_idx its i = None -> forall x, (i, x) ∉ its.
Proof.
  unfold at_idx. intros H x Hin. destruct (List.find _ its) as [y|] eqn:E; [done|].
  apply elem_of_list_In in Hin. eapply find_none in E; [|exact Hin]. cbn in E. by rewrite N.eqb_refl in E.
Qed.
Lemma sorted_nodup its : StronglySorted N.lt (map fst its) -> NoDup (map (fst : N * (bytes * bytes) -> N) its).
Proof.
  intros H. induction H as [|a l Hs IH Hf]; [constructor|]. constructor; [|done]. intros Hin.
  rewrite Forall_forall in Hf. apply Hf in Hin. lia.
Qed.

(** The items met by walking the index range in order. *)
Lemma idx_seq_S h n : map (fun i => h + N.of_nat i) (seq 0 (S n)) = h :: map (fun i => (h + 1) + N.of_nat i) (seq 0 n).
Proof.
  cbn [seq map]. f_equal; [lia|]. rewrite <- seq_shift, map_map. apply map_ext. intros i. lia.
Qed.
Lemma enum_items n : forall h its, StronglySorted N.lt (map fst its) ->
  Forall (fun x : N * (bytes * bytes) => h <= fst x < h + N.of_nat n) its ->
  omap (at_idx its) (map (fun i => h + N.of_nat i) (seq 0 n)) = map snd its.
Proof.
  induction n as [|n IH]; intros h its Hs Hf.
  - destruct its as [|x its]; [done|]. apply Forall_cons in Hf as [Hf _]. lia.
  - rewrite idx_seq_S. assert (forall (l : list N) (its' : ixs), (forall i, i ∈ l -> at_idx its i = at_idx its' i) -> omap (at_idx its) l = omap (at_idx its') l) as Hext.
    { intros l its' He. induction l as [|i l IHl]; [done|]. cbn. rewrite (He i) by left. rewrite IHl; [done|]. intros j Hj. apply He. by right. }
    destruct its as [|[i x] its].
    + cbn. clear. induction (map _ (seq 0 n)); done.
    + cbn [map fst] in Hs. apply StronglySorted_inv in Hs as [Hs Hlt]. apply Forall_cons in Hf as [Hi Hf]. cbn [fst] in Hi.
      assert (Forall (fun y : N * (bytes * bytes) => i < fst y) its) as Hlt' by (exact (proj1 (List.Forall_map fst (N.lt i) its) Hlt)).
      destruct (N.eq_dec i h) as [->|Hne].
      * cbn [omap list_omap]. unfold at_idx at 1. cbn [List.find fst]. rewrite N.eqb_refl. cbn. f_equal.
        rewrite (Hext _ its).
        -- apply IH; [done|]. rewrite Forall_forall in Hf, Hlt' |- *. intros y Hy. specialize (Hf y Hy). specialize (Hlt' y Hy). cbn beta in *. lia.
        -- intros j Hj. apply elem_of_list_fmap in Hj as (m & -> & _). unfold at_idx. cbn [List.find fst]. destruct (N.eqb_spec h (h + 1 + N.of_nat m)); [lia|done].
      * cbn [omap list_omap]. destruct (at_idx ((i, x) :: its) h) as [y|] eqn:E.
        { exfalso. apply at_idx_Some in E. apply elem_of_cons in E as [E|E]; [congruence|]. rewrite Forall_forall in Hlt'. specialize (Hlt' _ E). cbn in Hlt'. lia. }
        apply IH.
        -- cbn. constructor; [done|exact Hlt].
        -- constructor; [cbn; lia|]. rewrite Forall_forall in Hf, Hlt' |- *. intros y Hy. specialize (Hf y Hy). specialize (Hlt' y Hy). cbn beta in *. lia.
Qed.
Lemma enum_order fwd h t its : StronglySorted N.lt (map fst its) -> Forall (fun x : N * (bytes * bytes) => h <= fst x < t) its ->
  omap (at_idx its) (idx_order fwd h t) = direct fwd (map snd its).
Proof.
  intros Hs Hf. assert (omap (at_idx its) (idx_seq h t) = map snd its) as E.
  { apply enum_items; [done|]. eapply Forall_impl; [exact Hf|]. intros x Hx. cbn beta in *. lia. }
  destruct fwd; cbn [idx_order direct]; [done|]. rewrite <- E. clear.
  assert (forall l : list N, omap (at_idx its) (rev l) = rev (omap (at_idx its) l)) as H; [|apply H].
  induction l as [|i l IH]; [done|]. cbn [rev]. rewrite omap_app, IH. cbn. destruct (at_idx its i); cbn; [done|by rewrite app_nil_r].
Qed.
Lemma idx_order_in fwd h t i : i ∈ idx_order fwd h t -> h <= i < t.
Proof.
  assert (i ∈ idx_seq h t -> h <= i < t) as H.
  { intros Hi. apply elem_of_list_fmap in Hi as (m & -> & Hm). apply elem_of_seq in Hm. lia. }
  destruct fwd; cbn [idx_order]; [done|]. intros Hi. apply H. apply elem_of_list_In, in_rev, elem_of_list_In. exact Hi.
Qed.

(** ** Representation *)
Definition li_find (its : ixs) (ik : bytes) : option (N * bytes) :=
  (fun x : N * (bytes * bytes) => (fst x, snd (snd x))) <$> List.find (fun x => bool_decide (ik_of x = ik)) its.
Definition li_update (its : ixs) (ik v : bytes) : ixs :=
  map (fun x => if bool_decide (ik_of x = ik) then (fst x, (ik, v)) else x) its.
Definition li_remove (its : ixs) (ik : bytes) : ixs := List.filter (fun x => negb (bool_decide (ik_of x = ik))) its.

Lemma li_find_get its ik : l_get (map snd its) ik = snd <$> li_find its ik.
Proof.
  unfold l_get, li_find. induction its as [|[i [k v]] its IH]; [done|]. cbn. by case_bool_decide.
Qed.
Lemma li_update_map its ik v : map snd (li_update its ik v) = l_update (map snd its) ik v.
Proof. unfold li_update, l_update. rewrite !map_map. apply map_ext. intros [i [k w]]. cbn. by case_bool_decide. Qed.
Lemma li_update_fst its ik v : map fst (li_update its ik v) = map fst its.
Proof. unfold li_update. rewrite map_map. apply map_ext. intros [i [k w]]. cbn. by case_bool_decide. Qed.
Lemma li_update_ik its ik v : map (fun x => ik_of x) (li_update its ik v) = map (fun x => ik_of x) its.
Proof. unfold li_update. rewrite map_map. apply map_ext. intros [i [k w]]. cbn. case_bool_decide; cbn; congruence. Qed.
Lemma li_remove_map its ik : map snd (li_remove its ik) = l_remove (map snd its) ik.
Proof.
  unfold li_remove, l_remove. induction its as [|[i [k v]] its IH]; [done|]. cbn. case_bool_decide; cbn; [done|by rewrite IH].
Qed.
Lemma li_remove_in its ik x : x ∈ li_remove its ik <-> x ∈ its /\ ik_of x <> ik.
Proof.
  unfold li_remove. rewrite !elem_of_list_In, filter_In, negb_true_iff, bool_decide_eq_false. done.
Qed.
Lemma li_update_in its ik v x : x ∈ li_update its ik v <->
  (x ∈ its /\ ik_of x <> ik) \/ (exists old, (fst x, (ik, old)) ∈ its /\ x = (fst x, (ik, v))).
Proof.
  unfold li_update. rewrite elem_of_list_fmap. split.
  - intros ([i [k w]] & -> & Hin). cbn [fst snd]. case_bool_decide as Hk; cbn [fst snd]; [|left; done].
    right. subst k. eauto.
  - intros [[Hin Hne]|(old & Hin & ->)].
    + exists x. split; [|done]. by case_bool_decide.
    + exists (fst x, (ik, old)). split; [|exact Hin]. cbn [fst snd]. by case_bool_decide.
Qed.
Lemma li_find_Some its ik i v : li_find its ik = Some (i, v) -> (i, (ik, v)) ∈ its.
Proof.
  unfold li_find. intros H. destruct (List.find _ its) as [[j [k w]]|] eqn:E; [|done]. apply find_some in E as [E1 E2].
  apply bool_decide_eq_true in E2. cbn in *. simplify_eq. by apply elem_of_list_In.
Qed.
Lemma li_find_None its ik : li_find its ik = None -> forall i v, (i, (ik, v)) ∉ its.
Proof.
  unfold li_find. intros H i v Hin. destruct (List.find _ its) as [y|] eqn:E; [done|].
  apply elem_of_list_In in Hin. eapply find_none in E; [|exact Hin]. cbn in E. by rewrite bool_decide_eq_true_2 in E.
Qed.
Lemma ixs_same_ik its i j ik v w : NoDup (map (fun x : N * (bytes * bytes) => ik_of x) its) -> (i, (ik, v)) ∈ its -> (j, (ik, w)) ∈ its -> i = j /\ v = w.
Proof.
  induction its as [|x its IH]; intros Hnd H1 H2; [by apply elem_of_nil in H1|].
  cbn in Hnd. apply NoDup_cons in Hnd as [Hn Hnd].
  assert (forall l u, x = (l, (ik, u)) -> forall m z, (m, (ik, z)) ∉ its) as Hx.
  { intros l u -> m z Hin. apply Hn. apply elem_of_list_fmap. by exists (m, (ik, z)). }
  apply elem_of_cons in H1 as [E1|H1]; apply elem_of_cons in H2 as [E2|H2].
  all: try (by simplify_eq); try (exfalso; by eapply Hx); try (by apply IH).
Qed.
Ltac kdiff := let H := fresh in intros H; first [ns_contra H | congruence].
Lemma sorted_snoc (l : list N) t : StronglySorted N.lt l -> Forall (fun i => i < t) l -> StronglySorted N.lt (l ++ [t]).
Proof.
  intros Hs. induction Hs as [|a l Hs IH Hf]; intros Ht; cbn; [repeat constructor|].
  apply Forall_cons in Ht as [Ha Ht]. constructor; [by apply IH|]. apply Forall_app. split; [done|]. by constructor.
Qed.
Lemma sorted_remove its ik : StronglySorted N.lt (map fst its) -> StronglySorted N.lt (map fst (li_remove its ik)).
Proof.
  induction its as [|x its IH]; intros Hs; [done|]. cbn in Hs. apply StronglySorted_inv in Hs as [Hs Hf]. cbn.
  destruct (negb _); [|by apply IH]. cbn. constructor; [by apply IH|]. apply List.Forall_map. apply (proj1 (List.Forall_map fst (N.lt (fst x)) its)) in Hf.
  rewrite Forall_forall in Hf |- *. intros y Hy. apply li_remove_in in Hy as [Hy _]. by apply Hf.
Qed.
Lemma keys_remove its ik : NoDup (map (fun x : N * (bytes * bytes) => ik_of x) its) -> NoDup (map (fun x : N * (bytes * bytes) => ik_of x) (li_remove its ik)).
Proof.
  induction its as [|x its IH]; intros Hs; [done|]. cbn in Hs. apply NoDup_cons in Hs as [Hn Hs]. cbn.
  destruct (negb _); [|by apply IH]. cbn. constructor; [|by apply IH]. intros Hin. apply Hn.
  apply elem_of_list_fmap in Hin as (y & -> & Hy). apply li_remove_in in Hy as [Hy _]. apply elem_of_list_fmap. by exists y.
Qed.
Lemma len_remove its ik i v : NoDup (map (fun x : N * (bytes * bytes) => ik_of x) its) -> li_find its ik = Some (i, v) -> len its = len (li_remove its ik) + 1.
Proof.
  intros Hnd Hf. apply li_find_Some in Hf. unfold len. induction its as [|x its IH]; [by apply elem_of_nil in Hf|].
  cbn in Hnd. apply NoDup_cons in Hnd as [Hn Hnd]. cbn. case_bool_decide as Hk; cbn [negb].
  - assert (li_remove its ik = its) as E; [|unfold li_remove in E; rewrite E; cbn [length]; lia].
    clear IH Hf. assert (forall y, y ∈ its -> ik_of y <> ik) as Hy.
    { intros y Hy E. apply Hn. apply elem_of_list_fmap. exists y. split; [congruence|done]. }
    clear Hn Hnd. induction its as [|y its IH]; [done|]. cbn. case_bool_decide as E; cbn [negb].
    + exfalso. eapply Hy; [left|exact E].
    + f_equal. apply IH. intros z Hz. apply Hy. by right.
  - apply elem_of_cons in Hf as [E|Hf]; [subst x; done|]. specialize (IH Hnd Hf). unfold li_remove in IH. cbn [length]. lia.
Qed.

Section rep.
Context (cfg : config) (lk : bytes).
Local Notation lph := (list_ph cfg lk).
Local Notation ihash ik := (u64_bytes (hashk cfg (item_key lph ik))).

Record core (M : kvmap) (its : ixs) : Prop := Core {
  co_items : forall ik w, M !! item_key lph ik = Some w <-> exists i v, (i, (ik, v)) ∈ its /\ w = v ++ u64_bytes i;
  co_chain : forall i ik v, (i, (ik, v)) ∈ its -> M !! chain_key lph i = Some (ihash ik);
  co_links : forall i b, M !! chain_key lph i = Some b -> exists k, b = u64_bytes (hashk cfg k);
  co_sorted : StronglySorted N.lt (map fst its);
  co_keys : NoDup (map (fun x : N * (bytes * bytes) => ik_of x) its);
  co_bound : Forall (fun x : N * (bytes * bytes) => fst x < U64) its
}.
Lemma core_ext (M M' : kvmap) its : (forall ik, M' !! item_key lph ik = M !! item_key lph ik) ->
  (forall i, M' !! chain_key lph i = M !! chain_key lph i) -> core M its -> core M' its.
Proof.
  intros H1 H2 [A B C D E F]. constructor; try done.
  - intros ik w. rewrite H1. apply A.
  - intros i ik v. rewrite H2. apply B.
  - intros i b. rewrite H2. apply C.
Qed.
Lemma core_get M its ik : core M its -> @eq (option bytes) (M !! item_key lph ik) ((fun x : N * bytes => (snd x ++ u64_bytes (fst x) : bytes)) <$> li_find its ik).
Proof.
  intros HC. destruct (li_find its ik) as [[i v]|] eqn:E; cbn.
  - apply (co_items _ _ HC). apply li_find_Some in E. eauto.
  - destruct (M !! item_key lph ik) as [w|] eqn:Ew; [|done]. apply (co_items _ _ HC) in Ew as (i & v & Hin & _).
    exfalso. by eapply li_find_None.
Qed.
Lemma core_find M its i ik v : core M its -> (i, (ik, v)) ∈ its -> li_find its ik = Some (i, v).
Proof.
  intros HC Hin. destruct (li_find its ik) as [[j w]|] eqn:E.
  - apply li_find_Some in E. destruct (ixs_same_ik its i j ik v w (co_keys _ _ HC) Hin E) as [-> ->]. done.
  - exfalso. by eapply li_find_None.
Qed.
Lemma core_update M its ik i old v : core M its -> li_find its ik = Some (i, old) ->
  core (<[item_key lph ik := v ++ u64_bytes i]> M) (li_update its ik v).
Proof.
  intros HC Hf. pose proof (li_find_Some _ _ _ _ Hf) as Hin. constructor.
  - intros ik' w. destruct (decide (ik' = ik)) as [->|Hne].
    + rewrite lookup_insert. split.
      * intros [= <-]. exists i, v. split; [|done]. apply li_update_in. right. cbn. eauto.
      * intros (j & u & Hj & ->). apply li_update_in in Hj as [[_ Hj]|(o & Hj & E)]; [done|]. cbn in Hj, E.
        destruct (ixs_same_ik its i j ik old o (co_keys _ _ HC) Hin Hj) as [-> _]. by simplify_eq.
    + rewrite lookup_insert_ne by (intros E; by apply item_key_inj in E). rewrite (co_items _ _ HC). split.
      * intros (j & u & Hj & ->). exists j, u. split; [|done]. apply li_update_in. left. done.
      * intros (j & u & Hj & ->). apply li_update_in in Hj as [[Hj _]|(o & Hj & E)]; [eauto|]. cbn in E. by simplify_eq.
  - intros j ik' u Hj. rewrite lookup_insert_ne by kdiff. apply li_update_in in Hj as [[Hj _]|(o & Hj & E)]; [by eapply (co_chain _ _ HC)|].
    cbn in Hj, E. simplify_eq. by eapply (co_chain _ _ HC).
  - intros j b. rewrite lookup_insert_ne by kdiff. apply (co_links _ _ HC).
  - rewrite li_update_fst. apply (co_sorted _ _ HC).
  - rewrite li_update_ik. apply (co_keys _ _ HC).
  - apply (proj1 (List.Forall_map fst (fun i => i < U64) _)). rewrite li_update_fst. apply List.Forall_map. apply (co_bound _ _ HC).
Qed.
(** A link that no item uses. *)
Lemma core_link M its i k : core M its -> i < U64 -> (forall x, (i, x) ∉ its) -> core (<[chain_key lph i := u64_bytes (hashk cfg k)]> M) its.
Proof.
  intros HC Hi Hn. constructor; try apply HC.
  - intros ik w. rewrite lookup_insert_ne by kdiff. apply (co_items _ _ HC).
  - intros j ik v Hj. rewrite lookup_insert_ne; [by eapply (co_chain _ _ HC)|]. intros E.
    apply chain_key_inj in E; [|done|]; [subst j; by eapply Hn|]. pose proof (co_bound _ _ HC) as Hb. rewrite Forall_forall in Hb. by apply Hb in Hj.
  - intros j b. destruct (decide (chain_key lph i = chain_key lph j)) as [<-|Hne].
    + rewrite lookup_insert. intros [= <-]. eauto.
    + rewrite lookup_insert_ne by done. apply (co_links _ _ HC).
Qed.
Lemma core_append M its t ik v : core M its -> li_find its ik = None -> t < U64 -> Forall (fun x : N * (bytes * bytes) => fst x < t) its ->
  core (<[item_key lph ik := v ++ u64_bytes t]> (<[chain_key lph t := ihash ik]> M)) (its ++ [(t, (ik, v))]).
Proof.
  intros HC Hf Ht Hb.
  assert (forall x, (t, x) ∉ its) as Hn.
  { intros x Hx. rewrite Forall_forall in Hb. apply Hb in Hx. cbn in Hx. lia. }
  pose proof (core_link M its t (item_key lph ik) HC Ht Hn) as HC'. constructor.
  - intros ik' w. destruct (decide (ik' = ik)) as [->|Hne].
    + rewrite lookup_insert. split.
      * intros [= <-]. exists t, v. split; [|done]. apply elem_of_app. right. left.
      * intros (j & u & Hj & ->). apply elem_of_app in Hj as [Hj|Hj]; [exfalso; by eapply li_find_None|].
        apply elem_of_list_singleton in Hj. by simplify_eq.
    + rewrite lookup_insert_ne by (intros E; by apply item_key_inj in E). rewrite (co_items _ _ HC'). split.
      * intros (j & u & Hj & ->). exists j, u. split; [|done]. apply elem_of_app. by left.
      * intros (j & u & Hj & ->). apply elem_of_app in Hj as [Hj|Hj]; [eauto|]. apply elem_of_list_singleton in Hj. by simplify_eq.
  - intros j ik' u Hj. rewrite lookup_insert_ne by kdiff. apply elem_of_app in Hj as [Hj|Hj]; [by eapply (co_chain _ _ HC')|].
    apply elem_of_list_singleton in Hj. simplify_eq. by rewrite lookup_insert.
  - intros j b. rewrite lookup_insert_ne by kdiff. apply (co_links _ _ HC').
  - rewrite map_app. apply sorted_snoc; [apply (co_sorted _ _ HC)|]. by apply List.Forall_map.
  - rewrite map_app. apply NoDup_app. split; [apply (co_keys _ _ HC)|]. split; [|apply NoDup_singleton].
    intros k Hk1 Hk2. apply elem_of_list_singleton in Hk2 as ->. apply elem_of_list_fmap in Hk1 as ([j [k u]] & E & Hj). cbn in E. subst k.
    by eapply li_find_None.
  - apply Forall_app. split; [apply (co_bound _ _ HC)|]. by constructor.
Qed.
Lemma core_remove M its ik i v : core M its -> li_find its ik = Some (i, v) ->
  core (delete (item_key lph ik) (delete (chain_key lph i) M)) (li_remove its ik).
Proof.
  intros HC Hf. pose proof (li_find_Some _ _ _ _ Hf) as Hin. pose proof (co_bound _ _ HC) as Hb. rewrite Forall_forall in Hb. constructor.
  - intros ik' w. destruct (decide (ik' = ik)) as [->|Hne].
    + rewrite lookup_delete. split; [done|]. intros (j & u & Hj & ->). apply li_remove_in in Hj as [_ Hj]. done.
    + rewrite lookup_delete_ne by (intros E; by apply item_key_inj in E). rewrite lookup_delete_ne by kdiff.
      rewrite (co_items _ _ HC). split; intros (j & u & Hj & ->); exists j, u; (split; [|done]).
      * by apply li_remove_in.
      * by apply li_remove_in in Hj as [Hj _].
  - intros j ik' u Hj. apply li_remove_in in Hj as [Hj Hne]. cbn in Hne. rewrite lookup_delete_ne by kdiff.
    rewrite lookup_delete_ne; [by eapply (co_chain _ _ HC)|]. intros E. apply chain_key_inj in E; [|by apply Hb in Hin|by apply Hb in Hj].
    subst j. pose proof (at_idx_in its i _ (sorted_nodup _ (co_sorted _ _ HC)) Hin) as E1.
    pose proof (at_idx_in its i _ (sorted_nodup _ (co_sorted _ _ HC)) Hj) as E2. congruence.
  - intros j b. rewrite lookup_delete_ne by kdiff. intros H. apply lookup_delete_Some in H as [_ H]. by eapply (co_links _ _ HC).
  - apply sorted_remove, (co_sorted _ _ HC).
  - apply keys_remove, (co_keys _ _ HC).
  - apply Forall_forall. intros x Hx. apply li_remove_in in Hx as [Hx _]. by apply Hb.
Qed.
Lemma core_empty M : (forall ik, M !! item_key lph ik = None) -> (forall i b, M !! chain_key lph i = Some b -> exists k, b = u64_bytes (hashk cfg k)) -> core M [].
Proof.
  intros H1 H2. constructor; try constructor.
  - rewrite H1. done.
  - intros (i & v & Hin & _). by apply elem_of_nil in Hin.
  - intros i ik v Hin. by apply elem_of_nil in Hin.
  - exact H2.
Qed.

(** The record: [lost] counts the insertions that were rejected or interrupted half-way. *)
Definition rec_ok (M : kvmap) (its : ixs) (lost : N) : Prop :=
  match M !! list_key lk with
  | None => its = [] /\ lost = 0
  | Some b => exists h t, b = enc_rec (LRec h t (len its + lost)) /\ h <= t /\ t < U64 /\
      Forall (fun x : N * (bytes * bytes) => h <= fst x < t) its /\ len its + lost <= t - h
  end.
Definition rep (M : kvmap) (its : ixs) (lost : N) : Prop := core M its /\ rec_ok M its lost.
End rep.
