(** What the steps of the threads leave to an iterator beside them, and what it reads. *)
From Verif Require Import Base Hashing HashingProofs Fs Shard Router RouterPure Store Kv KvSpec Limits Api KeySpace Wpc Spec FileRep RowOps Compact Inv
  ShardOps Insert Split StoreRefine Iter Refine Conc ConcSpec ConcLin ConcLocal ConcFile ConcTree ConcInv ConcStep ConcRow ConcStruct ConcMain ConcIter.
Implicit Types (m : kvmap) (os : list (option own)).

(** ** Spans of the shards *)
Lemma put_span w w' root sel0 sub : skel w root -> skel w' (put_leaf root sel0 sub) -> sel0 < 65536 ->
  forall sel, sel < 65536 -> ~ (sh_start (route root sel0) <= sel < sh_end (route root sel0)) ->
  route (put_leaf root sel0 sub) sel = route root sel.
Proof.
  intros H H' H0 sel Hsel Hout. destruct (skel_route _ _ sel H Hsel) as [R1 R2].
  assert (In (route root sel) (leaves (put_leaf root sel0 sub))) as Hin.
  { apply put_leaf_old; [done|]. intros E. by rewrite E in R2. }
  destruct (skel_leaf _ _ _ H' Hin) as (_ & _ & G). by apply G.
Qed.
Lemma put_span_leaf w w' root sel0 sh' : skel w root -> skel w' (put_leaf root sel0 (RLeaf sh')) -> sel0 < 65536 ->
  same_span (route root sel0) sh' ->
  forall sel, sel < 65536 -> span_of (route (put_leaf root sel0 (RLeaf sh')) sel) = span_of (route root sel).
Proof.
  intros H H' H0 [E1 E2] sel Hsel.
  destruct (decide (sh_start (route root sel0) <= sel < sh_end (route root sel0))) as [Hin|Hout].
  - destruct (skel_route _ _ sel0 H H0) as [R1 _]. destruct (skel_leaf _ _ _ H R1) as (_ & _ & G). rewrite (G sel Hin).
    assert (In sh' (leaves (put_leaf root sel0 (RLeaf sh')))) as Hin' by (apply put_leaf_new; by left).
    destruct (skel_leaf _ _ _ H' Hin') as (_ & _ & G'). rewrite (G' sel) by lia. unfold span_of. congruence.
  - by erewrite put_span.
Qed.

Definition same_spans (r r' : router) : Prop := forall sel, sel < 65536 -> span_of (route r' sel) = span_of (route r sel).
(** A step of the threads leaves the spans of all shards as they are, or it splits one. *)
Definition splits (c c' : cstate) (h : choice) : Prop :=
  exists a o k s e, h = ChRun a /\ c_ths c !! a = Some (TSplit o k s e) /\
    (exists sh, In sh (leaves (c_root c)) /\ span_of sh = (s, e)) /\
    (forall sel, sel < 65536 -> ~ (s <= sel < e) -> route (c_root c') sel = route (c_root c) sel).

Lemma finish_span sh t : outs (same_span sh) (finish_compaction sh t).
Proof. unfold finish_compaction. repeat (apply outs_bind'; intros ?). done. Qed.

Section walk.
  Context (cfg : config) (x : bool).

  Lemma step_spans c A os h c' e A' os' : CInv cfg x c A os -> CInv cfg x c' A' os' -> cstep cfg c h = Some (c', e) ->
    same_spans (c_root c) (c_root c') \/ splits c c' h.
  Proof.
    intros H H' Hs. pose proof (ci_skel _ _ _ _ _ H) as Hsk. pose proof (ci_skel _ _ _ _ _ H') as Hsk'.
    destruct h as [a y|a]; cbn [cstep] in Hs.
    { destruct (c_ths c !! a) as [[]|]; try done. injection Hs as <- <-. by left. }
    unfold thr_step in Hs. destruct (c_ths c !! a) as [T|] eqn:Ha; [|done].
    destruct (ci_thr _ _ _ _ _ H _ _ Ha) as (oa & _ & Tok).
    destruct T as [|p|o k|o k sh p|o k s e0 v wo|o k s e0|s|s sh t r p|]; try done.
    - left. intros sel _. destruct p as [y|er|X o k]; cbn [prog_step] in Hs; [by injection Hs as <- <-..|].
      destruct o; repeat (case_match; try done); by injection Hs as <- <-.
    - left. intros sel _. destruct (row_free _ _ _); [|done]. by injection Hs as <- <-.
    - left. intros sel _. destruct p as [[v [wo|]]|er|X ef kk]; [by injection Hs as <- <-..|].
      destruct (run_eff ef (c_fs c)) as [w1 x1]. by injection Hs as <- <-.
    - left. cbn [tok] in Tok. destruct Tok as (_ & _ & _ & cur & Hcur & Es & Ee).
      destruct (skel_leaf _ _ _ Hsk Hcur) as (B1 & B2 & B3). destruct (files_free _ _); [|done].
      destruct (run _ _) as [w1 [sh'|er]] eqn:Er; [|by injection Hs as <- <-].
      pose proof (outs_run _ _ _ _ _ (begin_span cfg _ wo) Er) as Hsp. injection Hs as <- <-. cbn [c_root] in *.
      exact (put_span_leaf _ _ _ _ _ Hsk Hsk' ltac:(lia) Hsp).
    - cbn zeta in Hs. destruct (_ && _) eqn:Eq; [|left; by injection Hs as <- <-].
      apply andb_true_iff in Eq as [E1 E2]. apply N.eqb_eq in E1, E2.
      destruct (sh_tgt _); [done|]. destruct (node_free _ _); [|done].
      destruct (run _ _) as [w1 [[b t]|er]] eqn:Er; [|left; by injection Hs as <- <-]. injection Hs as <- <-. cbn [c_root] in *.
      right. exists a, o, k, s, e0. split; [done|]. split; [done|].
      destruct (skel_route _ _ (ph_selector (rop_hash cfg o)) Hsk (ph_sel_lt _)) as [R1 _]. split.
      + eexists. split; [exact R1|]. unfold span_of. by rewrite E1, E2.
      + intros sel Hsel Hout. eapply put_span; [exact Hsk|exact Hsk'|apply ph_sel_lt|done|]. by rewrite E1, E2.
    - left. cbn [tok] in Tok. destruct Tok as (_ & _ & cur & Hcur & Es & _).
      destruct (skel_leaf _ _ _ Hsk Hcur) as (B1 & B2 & B3). destruct (sh_tgt _) as [[t fl]|]; [|done].
      destruct (fs_files (c_fs c) !! t) as [ft|]; [|done]. destruct (_ <=? _)%nat.
      + destruct (files_free _ _); [|done]. destruct (run _ _) as [w1 [sh'|er]] eqn:Er; [|by injection Hs as <- <-].
        pose proof (outs_run _ _ _ _ _ (finish_span _ _) Er) as Hsp. injection Hs as <- <-. cbn [c_root] in *.
        exact (put_span_leaf _ _ _ _ _ Hsk Hsk' ltac:(lia) Hsp).
      + destruct (row_free _ _ _); [|done]. by injection Hs as <- <-.
    - left. cbn [tok] in Tok. destruct Tok as (_ & cur & ow & j & srow & ls & ft & _ & Hcur & (S1 & S2 & S3 & S4) & Es & _).
      destruct (skel_leaf _ _ _ Hsk Hcur) as (B1 & B2 & B3). destruct p as [[]|er|X ef kk].
      + injection Hs as <- <-. cbn [c_root] in *. refine (put_span_leaf _ _ _ _ _ Hsk Hsk' ltac:(lia) _).
        rewrite (B3 s) by lia. by split; cbn.
      + by injection Hs as <- <-.
      + destruct (run_eff ef (c_fs c)) as [w1 x1]. by injection Hs as <- <-.
  Qed.

  (** ** What an iterator reads *)
  Lemma row_free_clash ths l b T l' : row_free cfg ths l = true -> ths !! b = Some T -> row_lock cfg T = Some l' -> clash l l' = false.
  Proof.
    unfold row_free. intros H Hb Hl. rewrite forallb_forall in H. specialize (H T). rewrite Hl in H.
    destruct (clash l l'); [|done]. discriminate H. apply elem_of_list_In. by eapply elem_of_list_lookup_2.
  Qed.
  Lemma walk_read c A os sh r : CInv cfg x c A os -> In sh (leaves (c_root c)) -> (r < NUM_ROWS)%nat ->
    row_free cfg (c_ths c) (sh_start sh, r, false) = true ->
    (forall col, (col < ROW_WIDTH)%nat -> shard_read_at (c_fs c) sh r col = Ok (slot_at (c_fs c) sh r col)) /\
    holds (a_map A) (home cfg (sh_start sh) (sh_end sh) r) (entries (row_slots (c_fs c) sh r)).
  Proof.
    intros H Hsh Hr Hfree. pose proof (ci_skel _ _ _ _ _ H) as Hsk. pose proof (ci_leaf _ _ _ _ _ H sh Hsh) as Hleaf.
    assert (exists i f, row_file (c_fs c) sh r = Ok (i, f)) as (i & f & Hrf).
    { destruct Hleaf as (f & L & H1 & H2 & H3 & H4 & H5 & H6 & H7).
      unfold row_file, src_file. rewrite H2. destruct (sh_tgt sh) as [[t b]|]; [|eauto].
      destruct H7 as (_ & ft & Lt & j & T1 & _). rewrite T1. destruct (_ <? _)%nat; eauto. }
    destruct (cleaf_client cfg x (a_map A) (c_fs c) os (busy (c_ths c) (sh_start sh)) sh r i f) as (L & F6 & _ & _ & Hh & _); auto.
    { apply (sk_wf _ _ Hsk). }
    { intros Hb t fl ft Et Hft Hc. destruct (busy_in _ _ Hb) as (b & shb & tb & rb & pb & Hbt).
      pose proof (row_free_clash _ _ _ _ _ Hfree Hbt eq_refl) as Hcl.
      destruct (ci_thr _ _ _ _ _ H _ _ Hbt) as (ob & _ & (_ & cb & owb & j & srow & ls & ftb & _ & B1 & B2 & B3 & B4 & B5 & B6 & B7 & B8 & B9 & B10 & _)).
      assert (cb = sh) as ->. { eapply skel_same; [exact Hsk|done|done|]. destruct B2 as (E1 & _). congruence. }
      destruct B2 as (_ & _ & _ & E4). rewrite Et, B4 in E4. injection E4 as ->.
      rewrite Hft in B9. injection B9 as ->. unfold clash in Hcl. rewrite N.eqb_refl, <- Hc, B10, Nat.eqb_refl in Hcl. done. }
    pose proof (file_rep_row _ _ _ _ F6 Hr) as Hrow.
    assert (forall col, (col < ROW_WIDTH)%nat -> exists o, L r !! col = Some o /\ shard_read_at (c_fs c) sh r col = Ok o) as Hrd.
    { intros col Hc. destruct (lookup_lt_is_Some_2 (L r) col) as [o Ho]; [by rewrite (file_rep_length _ _ _ _ F6 Hr)|].
      exists o. split; [done|]. destruct (Forall2_lookup_r _ _ _ _ _ Hrow Ho) as (sl & Hsl & Hok).
      unfold shard_read_at. rewrite Hrf. cbn [rbind]. rewrite Hsl. destruct o as [[k v]|].
      - destruct Hok as (Hne & Hs & Hph & Hrk & _). destruct (N.eqb_spec (s_sig sl) INVALID_SIG) as [E|_].
        + exfalso. rewrite Hs in E. by apply (hashk_sig cfg k).
        + by rewrite Hrk.
      - cbn [slot_ok] in Hok. rewrite Hok. by rewrite N.eqb_refl. }
    split.
    - intros col Hc. destruct (Hrd col Hc) as (o & _ & E). unfold slot_at. by rewrite E.
    - assert (row_slots (c_fs c) sh r = L r) as ->; [|done].
      apply list_eq. intros col. destruct (decide (col < ROW_WIDTH)%nat) as [Hc|Hc].
      + destruct (Hrd col Hc) as (o & Ho & E). rewrite Ho. unfold row_slots. rewrite list_lookup_fmap, lookup_seq_lt by done.
        cbn. unfold slot_at. by rewrite E.
      + rewrite !lookup_ge_None_2; [done| |]; [rewrite (file_rep_length _ _ _ _ F6 Hr)|rewrite row_slots_length]; lia.
  Qed.

  (** ** Iterators *)
  Definition wok (root : router) (T : walker) : Prop :=
    (it_col (w_it T) < ROW_WIDTH)%nat /\
    match T with WIn it s e => s <= it_sel it < e /\ s < 65536 /\ span_of (route root s) = (s, e) | _ => True end.

  Lemma advance_col it : (it_col it < ROW_WIDTH)%nat -> (it_col (advance it) < ROW_WIDTH)%nat /\ it_sel (advance it) = it_sel it /\ it_raw (advance it) = it_raw it.
  Proof. intros Hc. unfold advance. pose proof row_width_N. destruct (Nat.leb_spec ROW_WIDTH (S (it_col it))); cbn; (split; [lia|done]). Qed.

  Lemma wok_step b h c' e A os A' os' : CInv cfg x (w_c b) A os -> CInv cfg x c' A' os' -> cstep cfg (w_c b) h = Some (c', e) -> kept b h = false ->
    forall i T, w_its b !! i = Some T -> wok (c_root (w_c b)) T -> wok (c_root c') T.
  Proof.
    intros H H' Hs Hk i T Hi [W1 W2]. split; [done|]. destruct T as [it|it|it s e0]; [done..|]. destruct W2 as (W2 & W3 & W4).
    split; [done|]. split; [done|]. destruct (step_spans _ _ _ _ _ _ _ _ H H' Hs) as [Hsp|(a & o & k & s1 & e1 & -> & Ha & (sh & Hsh & Esp) & Hout)].
    - by rewrite Hsp.
    - rewrite Hout; [done|done|]. intros Hin. pose proof (ci_skel _ _ _ _ _ H) as Hsk.
      destruct (skel_leaf _ _ _ Hsk Hsh) as (B1 & B2 & B3). unfold span_of in Esp. injection Esp as E1 E2.
      rewrite (B3 s) in W4 by lia. unfold span_of in W4. injection W4 as E3 E4.
      cbn [kept] in Hk. rewrite Ha in Hk. apply Bool.not_true_iff_false in Hk. apply Hk. apply existsb_exists.
      exists (WIn it s e0). split; [apply elem_of_list_In; by eapply elem_of_list_lookup_2|].
      apply andb_true_iff. split; apply N.eqb_eq; congruence.
  Qed.

  (** A step of an iterator never fails, and what it returns is in the map. *)
  Lemma walk_ok c A os T T' y : CInv cfg x c A os -> wok (c_root c) T -> walk_step cfg c T = Some (T', y) ->
    wok (c_root c) T' /\ it_raw (w_it T') = it_raw (w_it T) /\
    match y with
    | None | Some (Ok None) => True
    | Some (Err _) => False
    | Some (Ok (Some z)) => exists q, iter_pick (it_raw (w_it T)) q = Some z /\ a_map A !! fst q = Some (snd q)
    end.
  Proof.
    intros H [W1 W2] Hs. pose proof (ci_skel _ _ _ _ _ H) as Hsk. destruct T as [it|it|it s e]; cbn [walk_step w_it] in *; [done| |].
    - destruct (N.ltb_spec (it_sel it) END_OF_SHARDS) as [Hlt|]; [|by injection Hs as <- <-]. injection Hs as <- <-. cbn [w_it].
      change END_OF_SHARDS with 65536 in Hlt. destruct (skel_route _ _ _ Hsk Hlt) as [R1 R2].
      destruct (skel_leaf _ _ _ Hsk R1) as (B1 & B2 & B3). split; [|done]. split; [done|]. cbn. split; [done|]. split; [lia|]. by rewrite (B3 (sh_start _)) by lia.
    - destruct W2 as (W2 & W3 & W4). destruct (Nat.ltb_spec (it_row it) NUM_ROWS) as [Hr|].
      2:{ injection Hs as <- <-. cbn. split; [|done]. split; [|done]. cbn. pose proof row_width_N. lia. }
      destruct (row_free _ _ _) eqn:Hfree; [|done]. destruct (skel_route _ _ _ Hsk W3) as [R1 R2]. set (sh := route (c_root c) s) in *.
      unfold span_of in W4. injection W4 as E1 E2. rewrite <- E1 in Hfree.
      destruct (walk_read c A os sh (it_row it) H R1 Hr Hfree) as [Hrd [_ Hh]]. rewrite (Hrd _ W1) in Hs.
      destruct (advance_col it W1) as (A1 & A2 & A3).
      assert (forall it', it' = advance it -> wok (c_root c) (WIn it' s e)) as Hin.
      { intros it' ->. split; [done|]. cbn. rewrite A2. split; [done|]. split; [done|]. unfold span_of. fold sh. by rewrite E1, E2. }
      destruct (slot_at (c_fs c) sh (it_row it) (it_col it)) as [q|] eqn:Eq.
      + destruct (iter_pick (it_raw it) q) as [z|] eqn:Ez; injection Hs as <- <-.
        * cbn. split; [by split|]. split; [done|]. exists q. split; [done|].
          assert ((fst q, snd q) ∈ entries (row_slots (c_fs c) sh (it_row it))) as Hq.
          { apply elem_of_entries. rewrite <- surjective_pairing, <- Eq. unfold row_slots. apply elem_of_list_fmap. eexists. split; [done|]. apply elem_of_seq. lia. }
          apply Hh in Hq as [Hq _]. done.
        * split; [by apply Hin|]. cbn. by rewrite A3.
      + injection Hs as <- <-. split; [by apply Hin|]. cbn. by rewrite A3.
  Qed.
End walk.

(** ** A key that nobody touches *)
Lemma arun_untouched cfg (k : bytes) A es A' : arun cfg A es A' ->
  (forall a y, EvCall a y ∈ es -> ~ call_keys cfg y k) ->
  (forall a p, a_ths A !! a = Some p -> kwrites (fun q => q <> k) anyv p) ->
  a_map A' !! k = a_map A !! k /\ (forall a p, a_ths A' !! a = Some p -> kwrites (fun q => q <> k) anyv p).
Proof.
  induction 1 as [s|s e s1 es s' Hs Hr IH]; intros Hes Hp; [done|].
  assert (a_map s1 !! k = a_map s !! k /\ (forall a p, a_ths s1 !! a = Some p -> kwrites (fun q => q <> k) anyv p)) as [E1 Hp1].
  { destruct Hs as [m P lk a y Ha|m P lk a p m' lk' p' Ha Hk|m P lk a y Ha|m P lk a er Ha]; cbn [a_map a_ths] in *.
    - split; [done|]. intros b p Hb. destruct (decide (b = a)) as [->|Hne]; [|rewrite lookup_insert_ne in Hb by done; by eapply Hp].
      rewrite lookup_insert in Hb. injection Hb as <-. eapply kwrites_mono; [| |apply call_writes]; [|done].
      intros q Hq ->. apply (Hes a y); [|done]. apply elem_of_app. left. by apply elem_of_list_singleton.
    - destruct (kop_step_writes _ _ _ _ _ _ _ _ _ (Hp _ _ Ha) Hk) as [W1 W2]. split; [apply W1; naive_solver|].
      intros b q Hb. destruct (decide (b = a)) as [->|Hne]; [|rewrite lookup_insert_ne in Hb by done; by eapply Hp].
      rewrite lookup_insert in Hb. by injection Hb as <-.
    - split; [done|]. intros b p Hb. apply lookup_delete_Some in Hb as [_ Hb]. by eapply Hp.
    - split; [done|]. intros b p Hb. apply lookup_delete_Some in Hb as [_ Hb]. by eapply Hp. }
  destruct IH as [E2 Hp2]; [|done|].
  { intros a y Hin. apply (Hes a y). apply elem_of_app. by right. }
  split; [congruence|done].
Qed.

(** ** A key the iterator has yet to return *)
(** The shard of the key [K], and the slot number [j] of its row. *)
Definition shard_of (cfg : config) (c : cstate) (K : bytes) : shard := route (c_root c) (ph_selector (hashk cfg K)).
Definition slot_of (cfg : config) (c : cstate) (K : bytes) (j : nat) : res (option kv) :=
  shard_read_at (c_fs c) (shard_of cfg c K) (ph_row (hashk cfg K)) j.
(** The iterator is in the middle of the row of [K]. *)
Definition amid (cfg : config) (c : cstate) (K : bytes) (it : iter_state) : Prop :=
  it_sel it < 65536 /\ route (c_root c) (it_sel it) = shard_of cfg c K /\ it_row it = ph_row (hashk cfg K) /\ it_col it <> 0%nat.
(** If the iterator number [i] is in the middle of the row of [K], the entry of [K] stays in its slot. *)
Definition stays (cfg : config) (K : bytes) (i : nat) (b b' : wstate) : Prop :=
  forall T, w_its b !! i = Some T -> amid cfg (w_c b) K (w_it T) ->
  forall j v, slot_of cfg (w_c b) K j = Ok (Some (K, v)) -> slot_of cfg (w_c b') K j = Ok (Some (K, v)).

Definition awaits (cfg : config) (c : cstate) (K v : bytes) (T : walker) : Prop :=
  let it := w_it T in let sh := route (c_root c) (it_sel it) in
  it_sel it < 65536 /\ sh_start sh = it_sel it /\
  match T with WIn _ s _ => s = it_sel it | _ => True end /\
  (sh_end sh <= ph_selector (hashk cfg K) \/
   (sh_start sh <= ph_selector (hashk cfg K) < sh_end sh /\
    ((it_row it < ph_row (hashk cfg K))%nat \/
     (it_row it = ph_row (hashk cfg K) /\
      (it_col it = 0%nat \/ exists j, (it_col it <= j < ROW_WIDTH)%nat /\ slot_of cfg c K j = Ok (Some (K, v))))))).

Section awaits.
  Context (cfg : config) (x : bool) (K v : bytes).

  Lemma awaits_step b h c' e A os A' os' i T : CInv cfg x (w_c b) A os -> CInv cfg x c' A' os' ->
    cstep cfg (w_c b) h = Some (c', e) -> w_its b !! i = Some T -> stays cfg K i b (W c' (w_its b)) ->
    awaits cfg (w_c b) K v T -> awaits cfg c' K v T.
  Proof.
    intros H H' Hs Hi Hst (W1 & W2 & W3 & W4). set (c := w_c b) in *.
    pose proof (ci_skel _ _ _ _ _ H) as Hsk. pose proof (ci_skel _ _ _ _ _ H') as Hsk'.
    destruct (skel_route _ _ _ Hsk W1) as [R1 R2]. destruct (skel_route _ _ _ Hsk' W1) as [R1' R2'].
    destruct (skel_leaf _ _ _ Hsk R1) as (B1 & B2 & B3).
    assert (sh_start (route (c_root c') (it_sel (w_it T))) = it_sel (w_it T) /\
            sh_end (route (c_root c') (it_sel (w_it T))) <= sh_end (route (c_root c) (it_sel (w_it T)))) as [G1 G2].
    { destruct (step_spans _ _ _ _ _ _ _ _ _ _ H H' Hs) as [Hsp|(a & o & k & s1 & e1 & -> & Ha & (sh & Hsh & Esp) & Hout)].
      - specialize (Hsp _ W1). unfold span_of in Hsp. injection Hsp as -> ->. split; [done|]. lia.
      - destruct (decide (s1 <= it_sel (w_it T) < e1)) as [Hin|Hn]; [|rewrite Hout by done; split; [done|lia]].
        unfold span_of in Esp. injection Esp as <- <-. destruct (skel_leaf _ _ _ Hsk Hsh) as (D1 & D2 & D3).
        rewrite (D3 _ Hin) in *. set (sh' := route (c_root c') (it_sel (w_it T))) in *.
        destruct (skel_leaf _ _ _ Hsk' R1') as (D1' & D2' & D3'). split.
        + destruct (decide (sh_start sh' = it_sel (w_it T))) as [|Hne]; [done|exfalso].
          assert (route (c_root c') (sh_start sh - 1) = sh') as E1 by (apply D3'; lia).
          rewrite Hout in E1 by lia. destruct (skel_route _ _ (sh_start sh - 1) Hsk ltac:(lia)) as [Q1 Q2]. rewrite E1 in Q1.
          destruct (skel_leaf _ _ _ Hsk Q1) as (_ & _ & Q3). pose proof (Q3 (it_sel (w_it T)) ltac:(lia)) as Q4.
          rewrite D3 in Q4 by lia. rewrite <- Q4 in *. lia.
        + destruct (N.le_gt_cases (sh_end sh') (sh_end sh)) as [|Hgt]; [done|exfalso].
          assert (route (c_root c') (sh_end sh) = sh') as E1 by (apply D3'; lia).
          rewrite Hout in E1 by lia. destruct (skel_route _ _ (sh_end sh) Hsk ltac:(lia)) as [Q1 Q2]. rewrite E1 in Q1.
          destruct (skel_leaf _ _ _ Hsk Q1) as (_ & _ & Q3). pose proof (Q3 (it_sel (w_it T)) ltac:(lia)) as Q4.
          rewrite D3 in Q4 by lia. rewrite <- Q4 in *. lia. }
    split; [done|]. split; [done|]. split; [done|]. cbn zeta in *.
    destruct (N.le_gt_cases (sh_end (route (c_root c') (it_sel (w_it T)))) (ph_selector (hashk cfg K))) as [|Hgt]; [by left|].
    right. destruct W4 as [W4|[W4 W5]]; [lia|]. split; [lia|]. destruct W5 as [W5|[W5 W6]]; [by left|right].
    split; [done|]. destruct W6 as [W6|(j & J1 & J2)]; [by left|].
    destruct (decide (it_col (w_it T) = 0%nat)) as [|Hc]; [by left|right]. exists j. split; [done|].
    apply (Hst T Hi); [|done]. split; [done|]. split; [|done]. unfold shard_of. symmetry. by apply B3.
  Qed.

  (** The iterator's own step: it still awaits [K], or it returns it. *)
  Lemma awaits_walk c A os T T' y : CInv cfg x c A os -> wok (c_root c) T -> a_map A !! K = Some v ->
    walk_step cfg c T = Some (T', y) -> awaits cfg c K v T ->
    (exists z, y = Some (Ok (Some z)) /\ iter_pick (it_raw (w_it T)) (K, v) = Some z) \/
    ((forall z, y = Some (Ok z) -> is_Some z) /\ (is_Some (iter_pick (it_raw (w_it T)) (K, v)) -> awaits cfg c K v T')).
  Proof.
    intros H [O1 O2] HK Hs (W1 & W2 & W3 & W4). pose proof (ci_skel _ _ _ _ _ H) as Hsk.
    destruct T as [it|it|it s e]; cbn [walk_step w_it] in *; [done| |].
    - change END_OF_SHARDS with 65536 in Hs. destruct (N.ltb_spec (it_sel it) 65536); [|lia]. injection Hs as <- <-. right. split; [done|]. intros _.
      split; [done|]. split; [done|]. split; [by cbn|done].
    - destruct O2 as (O2 & O3 & O4). subst s. destruct (skel_route _ _ _ Hsk W1) as [R1 R2]. destruct (skel_leaf _ _ _ Hsk R1) as (B1 & B2 & B3).
      set (sh := route (c_root c) (it_sel it)) in *. unfold span_of in O4. injection O4 as _ E2.
      pose proof (ph_row_lt (hashk cfg K)) as Hrk. pose proof (ph_sel_lt (hashk cfg K)) as Hsk2.
      destruct (Nat.ltb_spec (it_row it) NUM_ROWS) as [Hr|Hr].
      2:{ injection Hs as <- <-. right. split; [done|]. intros _. destruct W4 as [W4|[_ W4]]; [|exfalso; lia].
          assert (e < 65536) as He by lia. assert (sh_start (route (c_root c) e) = e) as Es.
          { rewrite <- E2. eapply after_next; [apply (sk_tree _ _ Hsk)|exact R1|]. change (0 + 2 ^ N.of_nat 16) with 65536. lia. }
          split; [done|]. split; [done|]. split; [done|]. cbn [w_it it_sel it_row it_col] in *. rewrite Es.
          destruct (N.le_gt_cases (sh_end (route (c_root c) e)) (ph_selector (hashk cfg K))) as [|Hgt]; [by left|right].
          split; [lia|]. destruct (decide (ph_row (hashk cfg K) = 0%nat)) as [E|]; [right|left; lia]. split; [done|by left]. }
      destruct (row_free _ _ _) eqn:Hfree; [|done]. rewrite <- W2 in Hfree at 1.
      destruct (walk_read cfg x c A os sh (it_row it) H R1 Hr Hfree) as [Hrd Hh]. rewrite (Hrd _ O1) in Hs.
      destruct (advance_col it O1) as (A1 & A2 & A3).
      (* where the iterator goes if it does not return K *)
      assert ((it_row it = ph_row (hashk cfg K) -> sh_start sh <= ph_selector (hashk cfg K) < sh_end sh ->
               exists j, (S (it_col it) <= j < ROW_WIDTH)%nat /\ slot_of cfg c K j = Ok (Some (K, v))) ->
        forall T1, w_it T1 = advance it -> match T1 with WIn _ s1 _ => s1 = it_sel it | _ => True end -> awaits cfg c K v T1) as Hadv.
      { intros Hj T1 E1 Es. unfold awaits. cbn zeta. rewrite E1, A2. fold sh. split; [done|]. split; [done|]. split; [by destruct T1|].
        destruct W4 as [W4|[W4 W5]]; [by left|right]. split; [done|].
        destruct W5 as [W5|[W5 _]].
        - unfold advance. destruct (_ <=? _)%nat; cbn [it_row it_col]; [|left; done].
          destruct (decide (S (it_row it) = ph_row (hashk cfg K))) as [E|]; [right; split; [done|by left]|left; lia].
        - destruct (Hj W5 W4) as (j & J1 & J2). right. unfold advance. destruct (Nat.leb_spec ROW_WIDTH (S (it_col it))); [lia|]. cbn [it_row it_col].
          split; [done|]. right. exists j. done. }
      (* the slot of K, if the iterator is in its row *)
      assert (it_row it = ph_row (hashk cfg K) -> sh_start sh <= ph_selector (hashk cfg K) < sh_end sh ->
              exists j, (it_col it <= j < ROW_WIDTH)%nat /\ slot_of cfg c K j = Ok (Some (K, v))) as Hslot.
      { intros Er Hin. destruct W4 as [W4|[_ W4]]; [lia|]. destruct W4 as [W4|[_ W4]]; [lia|]. destruct W4 as [W4|W4]; [|done].
        assert ((K, v) ∈ entries (row_slots (c_fs c) sh (it_row it))) as Hq.
        { apply Hh. split; [done|]. split; [done|]. by rewrite Er. }
        apply elem_of_entries in Hq. unfold row_slots in Hq. apply elem_of_list_fmap in Hq as (j & Ej & Hj). apply elem_of_seq in Hj.
        exists j. split; [lia|]. unfold slot_of, shard_of. rewrite (B3 _ Hin), <- Er, Hrd by lia. by rewrite <- Ej. }
      assert (forall q, slot_at (c_fs c) sh (it_row it) (it_col it) = q -> q <> Some (K, v) ->
              it_row it = ph_row (hashk cfg K) -> sh_start sh <= ph_selector (hashk cfg K) < sh_end sh ->
              exists j, (S (it_col it) <= j < ROW_WIDTH)%nat /\ slot_of cfg c K j = Ok (Some (K, v))) as Hnot.
      { intros q Eq Hq Er Hin. destruct (Hslot Er Hin) as (j & J1 & J2). exists j. split; [|done].
        destruct (decide (j = it_col it)) as [->|]; [|lia]. exfalso. unfold slot_of, shard_of in J2. rewrite (B3 _ Hin), <- Er, Hrd in J2 by done.
        apply Hq. rewrite <- Eq. by injection J2. }
      destruct (slot_at (c_fs c) sh (it_row it) (it_col it)) as [q|] eqn:Eq.
      + destruct (decide (q = (K, v))) as [->|Hq].
        * destruct (iter_pick (it_raw it) (K, v)) as [z|] eqn:Ez; injection Hs as <- <-; [left; by exists z|].
          right. split; [done|]. intros [? ?]. done.
        * right. assert (Some q <> Some (K, v)) as Hq' by congruence.
          destruct (iter_pick (it_raw it) q) as [z|]; injection Hs as <- <-.
          -- split; [intros ? [= <-]; by eexists|]. intros _. apply Hadv; [exact (Hnot _ eq_refl Hq')| |done]. cbn [w_it]. unfold advance. by destruct (_ <=? _)%nat.
          -- split; [done|]. intros _. apply Hadv; [exact (Hnot _ eq_refl Hq')|done|done].
      + injection Hs as <- <-. right. split; [done|]. intros _. apply Hadv; [exact (Hnot _ eq_refl ltac:(done))|done|done].
  Qed.
End awaits.
