(** Proofs about the pure parts of [src/router.rs]: consolidation of ranges, pre-splitting,
    building the tree, routing. *)
From Coq Require Import Sorting.Sorted.
From Verif Require Import Base Hashing Fs Shard Router.

(** ** Specification: dyadic spans *)

(** [s, s + 2^n) cut into consecutive pieces by repeated halving. *)
Inductive dyadic : N -> nat -> list range -> Prop :=
| dyadic_one s n : dyadic s n [(s, s + 2 ^ N.of_nat n)]
| dyadic_half s n l1 l2 :
    dyadic s n l1 -> dyadic (s + 2 ^ N.of_nat n) n l2 -> dyadic s (S n) (l1 ++ l2).

(** A tree of shards over [s, s + 2^n) where every vertex halves its span. *)
Fixpoint tree_ok (r : router) (s : N) (n : nat) : Prop :=
  match r with
  | RLeaf sh => sh_start sh = s /\ sh_end sh = s + 2 ^ N.of_nat n
  | RVertex b t =>
    match n with
    | O => False
    | S m => tree_ok b s m /\ tree_ok t (s + 2 ^ N.of_nat m) m
    end
  end.

Definition span_of (sh : shard) : range := (sh_start sh, sh_end sh).

Lemma pow2_succ n : 2 ^ N.of_nat (S n) = 2 ^ N.of_nat n + 2 ^ N.of_nat n.
Proof. rewrite Nat2N.inj_succ, N.pow_succ_r by lia. lia. Qed.
Lemma pow2_pos n : 0 < 2 ^ N.of_nat n.
Proof. apply N.neq_0_lt_0, N.pow_nonzero. lia. Qed.
Lemma pow2_inj a b : 2 ^ N.of_nat a = 2 ^ N.of_nat b -> a = b.
Proof. intros E. apply N.pow_inj_r in E; lia. Qed.

Lemma tree_ok_start r s n : tree_ok r s n -> rstart r = s.
Proof.
  revert s n; induction r as [sh|b IHb t IHt]; intros s n; simpl.
  - by intros [? _].
  - destruct n as [|m]; [done|]. intros [Hb _]. eauto.
Qed.
Lemma tree_ok_end r s n : tree_ok r s n -> rend r = s + 2 ^ N.of_nat n.
Proof.
  revert s n; induction r as [sh|b IHb t IHt]; intros s n; cbn [tree_ok rend].
  - by intros [_ ?].
  - destruct n as [|m]; [done|]. intros [_ Ht]. apply IHt in Ht. rewrite Ht, pow2_succ. lia.
Qed.
Lemma tree_ok_len r s n : tree_ok r s n -> rlen r = 2 ^ N.of_nat n.
Proof.
  intros H. unfold rlen. rewrite (tree_ok_start r s n), (tree_ok_end r s n) by done. lia.
Qed.
Lemma tree_ok_dyadic r s n : tree_ok r s n -> dyadic s n (map span_of (leaves r)).
Proof.
  revert s n; induction r as [sh|b IHb t IHt]; intros s n; cbn [tree_ok leaves map].
  - intros [E1 E2]. unfold span_of. rewrite E1, E2. constructor.
  - destruct n as [|m]; [done|]. intros [Hb Ht]. rewrite map_app. constructor; auto.
Qed.

(** Routing reaches the leaf whose span contains the selector. *)
Lemma route_in r s n sel :
  tree_ok r s n -> s <= sel < s + 2 ^ N.of_nat n ->
  In (route r sel) (leaves r) /\ sh_start (route r sel) <= sel < sh_end (route r sel).
Proof.
  revert s n; induction r as [sh|b IHb t IHt]; intros s n; cbn [tree_ok leaves route].
  - intros [-> ->] ?. simpl. auto.
  - destruct n as [|m]; [done|]. intros [Hb Ht] Hs. rewrite pow2_succ in Hs.
    rewrite (tree_ok_end _ _ _ Hb). rewrite in_app_iff.
    destruct (N.ltb_spec sel (s + 2 ^ N.of_nat m)).
    + destruct (IHb _ _ Hb); [lia|]. auto.
    + destruct (IHt _ _ Ht); [lia|]. auto.
Qed.

Lemma leaves_bounds r s n sh :
  tree_ok r s n -> In sh (leaves r) ->
  s <= sh_start sh /\ sh_start sh < sh_end sh /\ sh_end sh <= s + 2 ^ N.of_nat n.
Proof.
  revert s n; induction r as [sh'|b IHb t IHt]; intros s n; cbn [tree_ok leaves].
  - intros [? ?] [<-|[]]. pose proof (pow2_pos n). lia.
  - destruct n as [|m]; [done|]. intros [Hb Ht] Hin. rewrite pow2_succ.
    apply in_app_iff in Hin as [Hin|Hin].
    + specialize (IHb _ _ Hb Hin). lia.
    + specialize (IHt _ _ Ht Hin). lia.
Qed.

(** The spans of two leaves at different positions are disjoint. *)
Lemma leaf_unique r s n sh sel :
  tree_ok r s n -> In sh (leaves r) -> sh_start sh <= sel < sh_end sh -> route r sel = sh.
Proof.
  revert s n; induction r as [sh'|b IHb t IHt]; intros s n; cbn [tree_ok leaves route].
  - intros _ [<-|[]] _. done.
  - destruct n as [|m]; [done|]. intros [Hb Ht] Hin Hs.
    rewrite (tree_ok_end _ _ _ Hb).
    apply in_app_iff in Hin as [Hin|Hin].
    + pose proof (leaves_bounds _ _ _ _ Hb Hin).
      destruct (N.ltb_spec sel (s + 2 ^ N.of_nat m)); [eauto|lia].
    + pose proof (leaves_bounds _ _ _ _ Ht Hin).
      destruct (N.ltb_spec sel (s + 2 ^ N.of_nat m)); [lia|eauto].
Qed.

(** ** treeify *)

(** A list of trees, all of level at least [j], covering [s, s + 2^n) by halving. *)
Inductive cov (j : nat) : N -> nat -> list router -> Prop :=
| cov_one s n r : (j <= n)%nat -> tree_ok r s n -> cov j s n [r]
| cov_half s n l1 l2 :
    cov j s n l1 -> cov j (s + 2 ^ N.of_nat n) n l2 -> cov j s (S n) (l1 ++ l2).

Lemma cov_level j s n l : cov j s n l -> (j <= n)%nat.
Proof. induction 1; lia. Qed.
Lemma cov_nonempty j s n l : cov j s n l -> l <> [].
Proof. induction 1; [done|]. by destruct l1. Qed.

Lemma cov_self s j l : cov j s j l -> exists r, l = [r] /\ tree_ok r s j.
Proof.
  inversion 1 as [|s' n l1 l2 H1 H2]; subst; [eauto|].
  apply cov_level in H1. lia.
Qed.

Lemma pass_cov j s n l :
  cov j s n l -> (j < n)%nat ->
  forall rest fuel, (length (l ++ rest) <= fuel)%nat ->
  exists l' fuel', treeify_pass fuel (2 ^ N.of_nat j) (l ++ rest)
                   = l' ++ treeify_pass fuel' (2 ^ N.of_nat j) rest
    /\ (length rest <= fuel')%nat /\ cov (S j) s n l' /\ (length l' <= length l)%nat
    /\ concat (map leaves l') = concat (map leaves l).
Proof.
  assert (Hskip : forall r rest fuel, rlen r <> 2 ^ N.of_nat j -> (S (length rest) <= fuel)%nat ->
    exists fuel', treeify_pass fuel (2 ^ N.of_nat j) (r :: rest)
                  = r :: treeify_pass fuel' (2 ^ N.of_nat j) rest /\ (length rest <= fuel')%nat).
  { intros r rest fuel Hr Hf. destruct fuel as [|fuel]; [lia|].
    exists fuel. split; [|lia]. destruct rest as [|y rest].
    - simpl. by destruct fuel.
    - cbn [treeify_pass]. destruct (N.eqb_spec (rlen r) (2 ^ N.of_nat j)); [done|]. done. }
  induction 1 as [s n r Hj Hr|s n l1 l2 H1 IH1 H2 IH2]; intros Hn rest fuel Hf.
  - destruct (Hskip r rest fuel) as (fuel' & E & Hf').
    + rewrite (tree_ok_len _ _ _ Hr). intros E%pow2_inj. lia.
    + simpl in Hf. lia.
    + exists [r], fuel'. simpl. repeat split; auto. by constructor.
  - destruct (decide (j = n)) as [<-|Hne].
    + apply cov_self in H1 as (x & -> & Hx). apply cov_self in H2 as (y & -> & Hy).
      simpl in Hf. destruct fuel as [|fuel]; [lia|].
      destruct (Hskip (RVertex x y) rest fuel) as (fuel' & E & Hf').
      * rewrite (tree_ok_len _ s (S j)) by done. intros E%pow2_inj. lia.
      * lia.
      * exists [RVertex x y], fuel'. cbn [app treeify_pass].
        rewrite (tree_ok_len _ _ _ Hx), (tree_ok_len _ _ _ Hy), N.eqb_refl. cbn [andb].
        rewrite E. cbn [app length concat map leaves]. rewrite !app_nil_r. repeat split; auto.
        constructor; [lia|]. done.
    + pose proof (cov_level _ _ _ _ H1). rewrite <- app_assoc in *.
      destruct (IH1 ltac:(lia) (l2 ++ rest) fuel Hf) as (l1' & f1 & E1 & Hf1 & Hc1 & Hl1 & Hv1).
      destruct (IH2 ltac:(lia) rest f1 Hf1) as (l2' & f2 & E2 & Hf2 & Hc2 & Hl2 & Hv2).
      exists (l1' ++ l2'), f2. rewrite E1, E2, <- app_assoc.
      rewrite !map_app, !concat_app, Hv1, Hv2, !app_length.
      repeat split; auto; [by constructor|lia].
Qed.

Lemma loop_cov fuel j l :
  cov j 0 16 l -> (16 <= j + fuel)%nat ->
  exists r, treeify_loop fuel (2 ^ N.of_nat j) l = Ok [r] /\ tree_ok r 0 16
            /\ leaves r = concat (map leaves l).
Proof.
  revert j l; induction fuel as [|fuel IH]; intros j l Hc Hf.
  - pose proof (cov_level _ _ _ _ Hc). assert (j = 16%nat) as -> by lia.
    apply cov_self in Hc as (r & -> & Hr). exists r. split; [done|].
    split; [done|]. simpl. by rewrite app_nil_r.
  - cbn [treeify_loop]. destruct (N.leb_spec END_OF_SHARDS (2 ^ N.of_nat j)) as [Hu|Hu].
    + assert (j = 16%nat) as ->.
      { pose proof (cov_level _ _ _ _ Hc).
        change END_OF_SHARDS with (2 ^ N.of_nat 16) in Hu.
        apply N.pow_le_mono_r_iff in Hu; lia. }
      apply cov_self in Hc as (r & -> & Hr). exists r. split; [done|].
      split; [done|]. simpl. by rewrite app_nil_r.
    + assert (j < 16)%nat as Hj.
      { change END_OF_SHARDS with (2 ^ N.of_nat 16) in Hu.
        apply N.pow_lt_mono_r_iff in Hu; lia. }
      destruct (pass_cov _ _ _ _ Hc Hj [] (length l)) as (l' & f' & E & _ & Hc' & _ & Hv).
      { rewrite app_nil_r. done. }
      rewrite app_nil_r in E. rewrite E.
      replace (treeify_pass f' (2 ^ N.of_nat j) []) with (@nil router) by by destruct f'.
      rewrite app_nil_r.
      replace (2 ^ N.of_nat j * 2) with (2 ^ N.of_nat (S j)) by (rewrite pow2_succ; lia).
      destruct (IH (S j) l' Hc') as (r & Er & Hr & Hl); [lia|].
      exists r. rewrite Hl, Hv. auto.
Qed.

(** From spans to [cov]. *)
Lemma dyadic_cov s n l shs :
  dyadic s n l -> map span_of shs = l -> cov 0 s n (map RLeaf shs).
Proof.
  intros H. revert shs. induction H as [s n|s n l1 l2 H1 IH1 H2 IH2]; intros shs E.
  - destruct shs as [|sh [|]]; try done. simpl in E. injection E as E1 E2.
    constructor; [lia|]. simpl. auto.
  - apply map_eq_app in E as (a & b & -> & Ea & Eb). rewrite map_app. constructor; auto.
Qed.

Lemma cov_weaken j s n l :
  cov 0 s n l -> Forall (fun r => 2 ^ N.of_nat j <= rlen r) l -> cov j s n l.
Proof.
  induction 1 as [s n r Hj Hr|s n l1 l2 H1 IH1 H2 IH2]; intros Hall.
  - rewrite Forall_singleton in Hall. rewrite (tree_ok_len _ _ _ Hr) in Hall.
    apply N.pow_le_mono_r_iff in Hall; [|lia]. constructor; [lia|done].
  - apply Forall_app in Hall as [? ?]. constructor; auto.
Qed.

Lemma cov_lens s n l r : cov 0 s n l -> In r l -> exists m, (m <= n)%nat /\ rlen r = 2 ^ N.of_nat m.
Proof.
  induction 1 as [s n x Hj Hx|s n l1 l2 H1 IH1 H2 IH2]; intros Hin.
  - destruct Hin as [<-|[]]. exists n. by rewrite (tree_ok_len _ _ _ Hx).
  - apply in_app_iff in Hin as [Hin|Hin].
    + destruct (IH1 Hin) as (m & ? & ?). exists m. split; [lia|done].
    + destruct (IH2 Hin) as (m & ? & ?). exists m. split; [lia|done].
Qed.

Lemma min_unit_spec l u0 :
  let u := fold_left (fun u n => if rlen n <? u then rlen n else u) l u0 in
  u <= u0 /\ Forall (fun r => u <= rlen r) l /\ (u = u0 \/ exists r, In r l /\ rlen r = u).
Proof.
  revert u0; induction l as [|x l IH]; intros u0; simpl.
  - repeat split; auto.
  - destruct (N.ltb_spec (rlen x) u0) as [Hx|Hx].
    + destruct (IH (rlen x)) as (H1 & H2 & H3). repeat split.
      * lia.
      * by constructor.
      * destruct H3 as [->|(r & ? & ?)]; [right; by exists x; auto|right; exists r; auto].
    + destruct (IH u0) as (H1 & H2 & H3). repeat split; auto.
      * constructor; [lia|done].
      * destruct H3 as [->|(r & ? & ?)]; [auto|right; exists r; auto].
Qed.

Lemma starts_sorted_cons x l :
  starts_sorted (x :: l) = true <->
  (forall y, head l = Some y -> rstart x < rstart y) /\ starts_sorted l = true.
Proof.
  destruct l as [|y l]; [simpl; naive_solver|].
  change (starts_sorted (x :: y :: l)) with ((rstart x <? rstart y) && starts_sorted (y :: l)).
  rewrite andb_true_iff, N.ltb_lt. naive_solver.
Qed.
Lemma cov_head j s n l : cov j s n l -> exists r l', l = r :: l' /\ rstart r = s.
Proof.
  induction 1 as [s n x Hj Hx|s n l1 l2 H1 (r & l' & -> & E) H2 IH2].
  - exists x, []. split; [done|]. by eapply tree_ok_start.
  - simpl. eauto.
Qed.
Lemma cov_bounds j s n l r :
  cov j s n l -> In r l -> s <= rstart r < s + 2 ^ N.of_nat n.
Proof.
  induction 1 as [s n x Hj Hx|s n l1 l2 H1 IH1 H2 IH2]; intros Hin.
  - destruct Hin as [<-|[]]. rewrite (tree_ok_start _ _ _ Hx). pose proof (pow2_pos n). lia.
  - rewrite pow2_succ. apply in_app_iff in Hin as [Hin|Hin].
    + specialize (IH1 Hin). lia.
    + specialize (IH2 Hin). lia.
Qed.
Lemma starts_sorted_app l1 l2 :
  starts_sorted l1 = true -> starts_sorted l2 = true ->
  (forall x y, In x l1 -> In y l2 -> rstart x < rstart y) ->
  starts_sorted (l1 ++ l2) = true.
Proof.
  intros H1 H2 H. induction l1 as [|x l1 IH]; [done|].
  apply starts_sorted_cons in H1 as [Ha Hb]. cbn [app]. apply starts_sorted_cons. split.
  - intros y Hy. destruct l1 as [|z l1]; simpl in Hy.
    + destruct l2 as [|w l2]; [done|]. simpl in Hy. injection Hy as <-. apply H; simpl; auto.
    + apply Ha. done.
  - apply IH; [done|]. intros a b Hi Hj. apply H; simpl; auto.
Qed.
Lemma cov_sorted j s n l : cov j s n l -> starts_sorted l = true.
Proof.
  induction 1 as [s n x Hj Hx|s n l1 l2 H1 IH1 H2 IH2]; [done|].
  apply starts_sorted_app; auto. intros x y Hx Hy.
  pose proof (cov_bounds _ _ _ _ _ H1 Hx). pose proof (cov_bounds _ _ _ _ _ H2 Hy). lia.
Qed.

Lemma is_pow2_pow n : is_pow2 (2 ^ N.of_nat n) = true.
Proof.
  unfold is_pow2. rewrite N.log2_pow2 by lia. rewrite N.eqb_refl.
  pose proof (pow2_pos n). destruct (N.eqb_spec (2 ^ N.of_nat n) 0); [lia|done].
Qed.

Lemma treeify_ok shs :
  dyadic 0 16 (map span_of shs) ->
  exists r, treeify shs = Ok r /\ tree_ok r 0 16 /\ leaves r = shs.
Proof.
  intros Hd. pose proof (dyadic_cov _ _ _ _ Hd eq_refl) as Hc.
  unfold treeify. set (nodes := map RLeaf shs) in *.
  pose proof (min_unit_spec nodes END_OF_SHARDS) as (Hu1 & Hu2 & Hu3).
  fold (min_unit nodes) in *.
  assert (exists j, (j <= 16)%nat /\ min_unit nodes = 2 ^ N.of_nat j) as (j & Hj & Ej).
  { destruct Hu3 as [E|(r & Hin & E)].
    - exists 16%nat. auto.
    - destruct (cov_lens _ _ _ _ Hc Hin) as (m & Hm & Em). exists m. split; [done|congruence]. }
  assert (concat (map leaves nodes) = shs) as Hconc.
  { subst nodes. clear. induction shs; simpl; [done|]. congruence. }
  rewrite (cov_sorted _ _ _ _ Hc), Ej, is_pow2_pow. cbn [negb].
  destruct (Nat.eqb_spec (length nodes) 0) as [E0|E0].
  { apply cov_nonempty in Hc. destruct nodes; done. }
  assert ((length nodes =? 1)%nat && negb (2 ^ N.of_nat j =? END_OF_SHARDS) = false) as ->.
  { destruct (Nat.eqb_spec (length nodes) 1) as [E1|E1]; [|done]. simpl.
    destruct nodes as [|x [|]] eqn:En; try done.
    assert (rlen x = END_OF_SHARDS) as Ex.
    { inversion Hc as [s' n' r' Hj' Hr'|s' n' l1 l2 H1 H2 E]; subst.
      - by rewrite (tree_ok_len _ _ _ Hr').
      - apply cov_nonempty in H1. apply cov_nonempty in H2.
        destruct l1 as [|? [|]], l2; try done. }
    rewrite <- Ej. unfold min_unit. simpl. rewrite Ex. done. }
  rewrite Ej in Hu2.
  pose proof (cov_weaken j _ _ _ Hc Hu2) as Hcj.
  destruct (loop_cov 17 j nodes Hcj) as (r & -> & Hr & Hl); [lia|].
  exists r. cbn [rbind]. by rewrite Hl.
Qed.

(** ** consolidate_ranges *)
Definition contained (a b : range) : Prop := fst b <= fst a /\ snd a <= snd b.
Definition range_le (a b : range) : Prop := range_leb a b = true.

Lemma range_le_spec a b : range_le a b <-> fst a < fst b \/ (fst a = fst b /\ snd b <= snd a).
Proof.
  unfold range_le, range_leb. destruct (N.eqb_spec (fst a) (fst b)).
  - rewrite N.leb_le. lia.
  - rewrite N.leb_le. lia.
Qed.
Lemma insert_range_perm x l : insert_range x l ≡ₚ x :: l.
Proof.
  induction l as [|y l IH]; simpl; [done|].
  destruct (range_leb x y); [done|]. rewrite IH. apply Permutation_swap.
Qed.
Lemma sort_ranges_perm l : sort_ranges l ≡ₚ l.
Proof.
  induction l as [|x l IH]; simpl; [done|]. rewrite insert_range_perm. by constructor.
Qed.
Lemma insert_range_sorted x l :
  StronglySorted range_le l -> StronglySorted range_le (insert_range x l).
Proof.
  induction 1 as [|y l Hs IH Hy]; simpl.
  - repeat constructor.
  - destruct (range_leb x y) eqn:E.
    + constructor; [by constructor|]. constructor; [done|].
      eapply Forall_impl; [exact Hy|]. intros z Hz. simpl in Hz.
      apply range_le_spec in E. apply range_le_spec in Hz. apply range_le_spec. lia.
    + constructor; [done|]. rewrite insert_range_perm. constructor; [|done].
      apply range_le_spec. unfold range_leb in E.
      destruct (N.eqb_spec (fst x) (fst y)).
      * apply N.leb_gt in E. lia.
      * apply N.leb_gt in E. lia.
Qed.
Lemma sort_ranges_sorted l : StronglySorted range_le (sort_ranges l).
Proof. induction l; simpl; [constructor|]. by apply insert_range_sorted. Qed.

Definition strict_incr (a b : range) : Prop := fst a < fst b /\ snd a < snd b.

Lemma consolidate_go_spec prev rest kept removed :
  StronglySorted range_le (prev :: rest) ->
  consolidate_go prev rest = (kept, removed) ->
  kept ++ removed ≡ₚ rest /\
  StronglySorted strict_incr (prev :: kept) /\
  Forall (fun x => exists y, In y (prev :: kept) /\ contained x y) removed.
Proof.
  revert prev kept removed; induction rest as [|x rest IH]; intros prev kept removed Hs E; simpl in E.
  - injection E as <- <-. repeat split; auto. repeat constructor.
  - inversion Hs as [|? ? Hs' Hall]; subst. inversion Hs' as [|? ? Hs'' Hall']; subst.
    apply Forall_cons in Hall as [Hpx Hall].
    destruct ((fst prev <=? fst x) && (snd x <=? snd prev)) eqn:Ec.
    + destruct (consolidate_go prev rest) as [k r] eqn:Eg. injection E as <- <-.
      destruct (IH prev k r) as (Hp & Hk & Hr); [by constructor|done|].
      repeat split; auto.
      * rewrite <- Permutation_middle. by constructor.
      * constructor; [|done]. exists prev. split; [simpl; auto|]. unfold contained.
        apply andb_true_iff in Ec as [?%N.leb_le ?%N.leb_le]. lia.
    + destruct (consolidate_go x rest) as [k r] eqn:Eg. injection E as <- <-.
      destruct (IH x k r) as (Hp & Hk & Hr); [done|done|].
      assert (strict_incr prev x) as Hpx'.
      { apply range_le_spec in Hpx. apply andb_false_iff in Ec. unfold strict_incr.
        destruct Ec as [Ec%N.leb_gt|Ec%N.leb_gt]; lia. }
      repeat split.
      * simpl. by constructor.
      * constructor; [done|]. constructor; [done|].
        inversion Hk as [|? ? ? Hk']; subst. eapply Forall_impl; [exact Hk'|].
        intros z Hz. unfold strict_incr in *. simpl in *. lia.
      * eapply Forall_impl; [exact Hr|]. intros z (y & Hy & Hc). exists y. split; [|done].
        simpl in *. tauto.
Qed.

Lemma sorted_strict_incr_inj l a b :
  StronglySorted strict_incr l -> In a l -> In b l -> contained a b -> a = b.
Proof.
  induction 1 as [|x l Hs IH Hx]; [done|]. rewrite Forall_forall in Hx. unfold contained.
  intros [<-|Ha] [<-|Hb] Hc; auto.
  - apply elem_of_list_In, Hx in Hb. unfold strict_incr in Hb. lia.
  - apply elem_of_list_In, Hx in Ha. unfold strict_incr in Ha. lia.
Qed.

Lemma consolidate_spec l kept removed :
  consolidate_ranges l = (kept, removed) ->
  kept ++ removed ≡ₚ l /\
  StronglySorted strict_incr kept /\
  Forall (fun x => exists y, In y kept /\ contained x y) removed.
Proof.
  unfold consolidate_ranges. pose proof (sort_ranges_perm l) as Hp.
  pose proof (sort_ranges_sorted l) as Hs.
  destruct (sort_ranges l) as [|x rest].
  - intros [= <- <-]. repeat split; auto. constructor.
  - destruct (consolidate_go x rest) as [k r] eqn:E. intros [= <- <-].
    destruct (consolidate_go_spec _ _ _ _ Hs E) as (H1 & H2 & H3).
    repeat split; auto. rewrite <- Hp. simpl. by constructor.
Qed.

Lemma consolidate_maximal l kept removed :
  NoDup l -> consolidate_ranges l = (kept, removed) ->
  (forall r, In r kept <-> In r l /\ forall r', In r' l -> contained r r' -> r' = r) /\
  (forall r, In r removed <-> In r l /\ exists r', In r' l /\ r' <> r /\ contained r r').
Proof.
  intros Hnd E. destruct (consolidate_spec _ _ _ E) as (Hp & Hs & Hr).
  assert (Hin : forall r, In r l <-> In r kept \/ In r removed).
  { intros r. rewrite <- !elem_of_list_In, <- Hp, elem_of_app. done. }
  assert (Hdisj : forall r, In r kept -> In r removed -> False).
  { intros r. rewrite <- Hp in Hnd. apply NoDup_app in Hnd as (_ & Hd & _).
    rewrite <- !elem_of_list_In. intros ? ?. by eapply Hd. }
  rewrite Forall_forall in Hr.
  assert (Hmax : forall r, In r kept -> forall r', In r' l -> contained r r' -> r' = r).
  { intros r Hk r' Hl Hc. apply Hin in Hl as [Hl|Hl].
    - symmetry. eapply sorted_strict_incr_inj; eauto.
    - apply elem_of_list_In in Hl. destruct (Hr _ Hl) as (y & Hy & Hc').
      assert (r = y) as <-.
      { eapply sorted_strict_incr_inj; eauto. unfold contained in *. lia. }
      destruct r, r'. unfold contained in *. simpl in *. f_equal; lia. }
  split; intros r; split.
  - intros Hk. split; [apply Hin; auto|]. apply Hmax. done.
  - intros [Hl Hm]. apply Hin in Hl as [Hl|Hl]; [done|].
    pose proof Hl as Hl'. apply elem_of_list_In in Hl. destruct (Hr _ Hl) as (y & Hy & Hc').
    assert (y = r) as ->; [|done]. apply Hm; [apply Hin; auto|done].
  - intros Hl. split; [apply Hin; auto|]. apply elem_of_list_In in Hl as Hl'.
    destruct (Hr _ Hl') as (y & Hy & Hc'). exists y. repeat split; auto.
    + apply Hin; auto.
    + intros ->. eauto.
    + apply Hc'.
    + apply Hc'.
  - intros [Hl (r' & Hl' & Hne & Hc)]. apply Hin in Hl as [Hl|Hl]; [|done].
    exfalso. apply Hne. by eapply Hmax.
Qed.

(** ** Pre-splitting *)
Lemma calc_step_spec n :
  n <= END_OF_SHARDS * EXPECTED_CAPACITY ->
  exists j, (j <= 16)%nat /\ calc_step n = Ok (2 ^ N.of_nat j).
Proof.
  intros Hn. unfold calc_step.
  set (q := if n <=? EXPECTED_CAPACITY then END_OF_SHARDS else _).
  assert (1 <= q <= 65536) as Hq.
  { subst q. destruct (N.leb_spec n EXPECTED_CAPACITY) as [H|H].
    - unfold END_OF_SHARDS. lia.
    - unfold END_OF_SHARDS, EXPECTED_CAPACITY in *. split.
      + apply N.div_le_lower_bound; lia.
      + apply N.div_le_upper_bound; lia. }
  clearbody q. destruct (N.eqb_spec q 0); [lia|].
  exists (N.to_nat (N.log2 q)). rewrite N2Nat.id. split; [|done].
  assert (N.log2 q <= N.log2 65536) by (apply N.log2_le_mono; lia).
  change (N.log2 65536) with 16 in *. lia.
Qed.
Lemma calc_step_panics n : END_OF_SHARDS * EXPECTED_CAPACITY < n -> calc_step n = Err EPanic.
Proof.
  intros Hn. unfold calc_step. unfold END_OF_SHARDS, EXPECTED_CAPACITY in *.
  destruct (N.leb_spec n 29491); [lia|]. by rewrite N.div_small by lia.
Qed.

Lemma initial_spans_seq j c fuel i :
  (i + c = 2 ^ (16 - j))%nat -> (j <= 16)%nat -> (c < fuel)%nat ->
  initial_spans fuel (N.of_nat i * 2 ^ N.of_nat j) (2 ^ N.of_nat j) =
  map (fun x => (N.of_nat x * 2 ^ N.of_nat j, N.of_nat (S x) * 2 ^ N.of_nat j)) (seq i c).
Proof.
  intros Hi Hj. assert (2 ^ N.of_nat (16 - j) * 2 ^ N.of_nat j = END_OF_SHARDS) as HE.
  { rewrite <- N.pow_add_r. replace (N.of_nat (16 - j) + N.of_nat j) with 16 by lia. done. }
  assert (2 ^ N.of_nat (16 - j) = N.of_nat (i + c)) as HP.
  { rewrite Hi. by rewrite Nat2N.inj_pow. }
  pose proof (pow2_pos j) as Hpos.
  clear Hi. rewrite HP in HE. clear HP. revert i fuel HE. induction c as [|c IH]; intros i fuel HE Hf.
  - destruct fuel; [lia|]. cbn [initial_spans seq map]. rewrite <- HE, Nat.add_0_r.
    by rewrite N.ltb_irrefl.
  - destruct fuel as [|fuel]; [lia|]. cbn [initial_spans seq map].
    destruct (N.ltb_spec (N.of_nat i * 2 ^ N.of_nat j) END_OF_SHARDS) as [H|H]; [|nia].
    replace (N.of_nat i * 2 ^ N.of_nat j + 2 ^ N.of_nat j) with (N.of_nat (S i) * 2 ^ N.of_nat j) by lia.
    f_equal. apply IH; [|lia]. rewrite <- HE. f_equal. f_equal. lia.
Qed.

Lemma equal_spans_dyadic j m i :
  dyadic (N.of_nat i * 2 ^ N.of_nat j) (j + m)
    (map (fun x => (N.of_nat x * 2 ^ N.of_nat j, N.of_nat (S x) * 2 ^ N.of_nat j)) (seq i (2 ^ m))).
Proof.
  revert i. induction m as [|m IH]; intros i.
  - cbn [Nat.pow seq map]. rewrite Nat.add_0_r.
    replace (N.of_nat (S i) * 2 ^ N.of_nat j) with (N.of_nat i * 2 ^ N.of_nat j + 2 ^ N.of_nat j) by lia.
    constructor.
  - replace (j + S m)%nat with (S (j + m)) by lia.
    replace (2 ^ S m)%nat with (2 ^ m + 2 ^ m)%nat by (simpl; lia).
    rewrite seq_app, map_app. constructor; [apply IH|].
    replace (N.of_nat i * 2 ^ N.of_nat j + 2 ^ N.of_nat (j + m)) with
      (N.of_nat (i + 2 ^ m) * 2 ^ N.of_nat j); [apply IH|].
    rewrite !Nat2N.inj_add, N.pow_add_r, Nat2N.inj_pow. change (N.of_nat 2) with 2. lia.
Qed.

Lemma initial_spans_ok j :
  (j <= 16)%nat ->
  initial_spans (N.to_nat (END_OF_SHARDS / 2 ^ N.of_nat j) + 1) 0 (2 ^ N.of_nat j) =
  map (fun x => (N.of_nat x * 2 ^ N.of_nat j, N.of_nat (S x) * 2 ^ N.of_nat j))
      (seq 0 (2 ^ (16 - j))).
Proof.
  intros Hj. apply (initial_spans_seq j (2 ^ (16 - j)) _ 0); [lia|done|].
  assert (END_OF_SHARDS / 2 ^ N.of_nat j = N.of_nat (2 ^ (16 - j))) as ->.
  { rewrite Nat2N.inj_pow. change (N.of_nat 2) with 2. symmetry.
    apply (N.div_unique _ _ _ 0); [apply pow2_pos|].
    rewrite <- N.pow_add_r. replace (N.of_nat j + N.of_nat (16 - j)) with 16 by lia. done. }
  lia.
Qed.

Lemma initial_spans_dyadic j :
  (j <= 16)%nat ->
  dyadic 0 16 (initial_spans (N.to_nat (END_OF_SHARDS / 2 ^ N.of_nat j) + 1) 0 (2 ^ N.of_nat j)).
Proof.
  intros Hj. rewrite initial_spans_ok by done.
  pose proof (equal_spans_dyadic j (16 - j) 0) as H.
  replace (j + (16 - j))%nat with 16%nat in H by lia. done.
Qed.
