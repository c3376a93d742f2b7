(** The threads of the concurrent machine (Conc.v) never all wait for each other (C54). *)
From Verif Require Import Base Hashing HashingProofs Fs Shard Router RouterPure Wpc Spec FileRep RowOps
  Compact Inv ShardOps Split Insert Open Merge Create Store Limits StoreRefine Kv Lists Queues Api Hist KvSpec
  HistInv KeySpace PlainSpec Plain Check ThmStore Conc ConcSpec ConcLocal ConcFile ConcTree
  ConcInv ConcStep ConcRow ConcStruct ConcMain ConcLin ConcLock ThmConc.
Implicit Types (cfg : config) (s : store) (m : kvmap) (es : list cevent) (c : cstate) (n : nat) (hs : list choice) (x : bool) (lk : gmap N nat) (p : kprog reply).

(** ** Who holds the keyed locks *)
Definition lkinv (A : astate) : Prop :=
  (forall a p, a_ths A !! a = Some p -> exists h, wl h p None /\ forall j, a_lk A !! j = Some a <-> h = Some j) /\
  (forall (j : N) a, a_lk A !! j = Some a -> is_Some (a_ths A !! a)).

Lemma lk_kop cfg a m lk p m' lk' p' h : wl h p None -> (forall j, lk !! j = Some a <-> h = Some j) -> kop_step cfg a m lk p m' lk' p' ->
  (exists h', wl h' p' None /\ forall j, lk' !! j = Some a <-> h' = Some j) /\
  (forall (j : N) b, b <> a -> lk' !! j = Some b <-> lk !! j = Some b).
Proof.
  intros Hw Hh Hs. destruct p as [y|e|X o k]; [done|done|]. destruct o as [key|key v mode|key|ph|i|i]; cbn [kop_step wl] in *.
  - destruct Hs as (-> & -> & ->). split; [|done]. exists h. split; [apply Hw|done].
  - destruct Hs as (-> & Hs). split; [|done]. destruct (ins_err cfg key v) as [e|]; destruct Hs as [-> ->]; exists h; (split; [|done]); [done|apply Hw].
  - destruct Hs as (-> & -> & ->). split; [|done]. exists h. split; [apply Hw|done].
  - destruct Hs as (-> & -> & Hs). split; [|done]. exists h. split; [|done].
    destruct (ph_sig ph =? INVALID_SIG); [by subst p'|]. destruct Hs as (l & _ & ->). apply Hw.
  - destruct Hs as (-> & Hn & -> & ->). destruct Hw as [-> Hw]. split.
    + exists (Some i). split; [done|]. intros j. destruct (decide (j = i)) as [->|Hne].
      * rewrite lookup_insert. done.
      * rewrite lookup_insert_ne by done. rewrite Hh. split; [done|congruence].
    + intros j b Hb. destruct (decide (j = i)) as [->|Hne]; [|by rewrite lookup_insert_ne].
      rewrite lookup_insert, Hn. split; congruence.
  - destruct Hs as (-> & -> & ->). destruct Hw as [-> Hw]. assert (lk !! i = Some a) as Hi by (by apply Hh). split.
    + exists None. split; [done|]. intros j. split; [|done]. intros Hj. apply lookup_delete_Some in Hj as [Hne Hj]. apply Hh in Hj. congruence.
    + intros j b Hb. destruct (decide (j = i)) as [->|Hne]; [|by rewrite lookup_delete_ne].
      rewrite lookup_delete, Hi. split; congruence.
Qed.
Lemma lkinv_step cfg A e A' : astep cfg A e A' -> lkinv A -> lkinv A'.
Proof.
  intros Hs [H1 H2]. destruct Hs as [m P lk a y Ha|m P lk a p m' lk' p' Ha Hk|m P lk a y Ha|m P lk a er Ha]; unfold lkinv in *; cbn [a_map a_ths a_lk] in *.
  - split.
    + intros b q Hb. destruct (decide (b = a)) as [->|Hne]; [|rewrite lookup_insert_ne in Hb by done; by apply H1].
      rewrite lookup_insert in Hb. injection Hb as <-. exists None. split; [apply call_wl|]. intros j. split; [|done].
      intros Hj. apply H2 in Hj. rewrite Ha in Hj. by destruct Hj.
    + intros j b Hb. apply lookup_insert_is_Some'. right. by eapply H2.
  - destruct (H1 _ _ Ha) as (h & Hw & Hh). destruct (lk_kop _ _ _ _ _ _ _ _ _ Hw Hh Hk) as [K1 K2]. split.
    + intros b q Hb. destruct (decide (b = a)) as [->|Hne].
      * rewrite lookup_insert in Hb. by injection Hb as <-.
      * rewrite lookup_insert_ne in Hb by done. destruct (H1 _ _ Hb) as (hb & Hwb & Hhb). exists hb. split; [done|].
        intros j. rewrite (K2 j b Hne). apply Hhb.
    + intros j b Hb. apply lookup_insert_is_Some'. destruct (decide (b = a)) as [->|Hne]; [by left|right].
      apply (K2 j b Hne) in Hb. by eapply H2.
  - destruct (H1 _ _ Ha) as (h & Hw & Hh). cbn [wl] in Hw. subst h. split.
    + intros b q Hb. apply lookup_delete_Some in Hb as [Hne Hb]. by apply H1.
    + intros j b Hb. destruct (decide (b = a)) as [->|Hne]; [by apply Hh in Hb|]. rewrite lookup_delete_ne by done. by eapply H2.
  - split.
    + intros b q Hb. apply lookup_delete_Some in Hb as [Hne Hb]. destruct (H1 _ _ Hb) as (hb & Hwb & Hhb). exists hb. split; [done|].
      intros j. rewrite <- Hhb. unfold unlock_all. rewrite map_filter_lookup_Some. cbn. split; [by intros [? _]|]. intros Hj. split; [done|congruence].
    + intros j b Hb. unfold unlock_all in Hb. apply map_filter_lookup_Some in Hb as [Hb Hne]. cbn in Hne.
      rewrite lookup_delete_ne by congruence. by eapply H2.
Qed.
Lemma lkinv_run cfg A es A' : arun cfg A es A' -> lkinv A -> lkinv A'.
Proof. induction 1 as [A|A e A1 es A' Hs _ IH]; [done|]. intros H. apply IH. by eapply lkinv_step. Qed.

(** ** Somebody can go on *)
Definition goes cfg c : Prop := exists a c' e, thr_step cfg c a = Some (c', e).
Section goes.
  Context (cfg : config) (x : bool) (c : cstate) (A : astate) (os : list (option ConcLocal.own)).
  Context (H : CInv cfg x c A os) (HL : lkinv A).

  (** A thread with the lock of a row waits for nobody. *)
  Lemma locked_goes a T : c_ths c !! a = Some T -> is_Some (row_lock cfg T) -> goes cfg c.
  Proof.
    intros Ha [l Hl]. exists a. unfold thr_step. rewrite Ha.
    destruct T as [|p|o k|o k sh p|o k s1 e1 v wo|o k s1 e1|s1|s1 sh t r p|]; try done.
    - destruct p as [[v [wo|]]|er|X ef kk]; [by do 2 eexists..|]. destruct (run_eff ef _). by do 2 eexists.
    - destruct p as [[]|er|X ef kk]; [by do 2 eexists..|]. destruct (run_eff ef _). by do 2 eexists.
  Qed.
  Context (Hno : forall a T, c_ths c !! a = Some T -> row_lock cfg T = None).
  Lemma all_free ths l : (forall T, In T ths -> row_lock cfg T = None) -> row_free cfg ths l = true.
  Proof. intros Hf. unfold row_free. apply forallb_forall. intros T HT. by rewrite (Hf T HT). Qed.
  Lemma others_no a T : In T (others_of c a) -> row_lock cfg T = None.
  Proof.
    intros HT. unfold others_of in HT. apply elem_of_list_In, elem_of_list_lookup in HT as [b Hb].
    destruct (decide (b < a)%nat).
    - rewrite lookup_delete_lt in Hb by done. by eapply Hno.
    - rewrite lookup_delete_ge in Hb by lia. by eapply Hno.
  Qed.
  Lemma rows_free a l : row_free cfg (others_of c a) l = true.
  Proof. apply all_free, others_no. Qed.
  Lemma files_are_free a (u : N) : files_free (others_of c a) u = true.
  Proof.
    unfold files_free. apply forallb_forall. intros T HT. pose proof (others_no _ _ HT) as E.
    destruct T; cbn in *; done.
  Qed.
  Lemma bg_goes a (u : N) : c_ths c !! a = Some (TBg u) -> goes cfg c.
  Proof.
    intros Ha. exists a. unfold thr_step. rewrite Ha. destruct (ci_thr _ _ _ _ _ H _ _ Ha) as (o & _ & _ & _ & cur & Hcur & Es & Ht).
    destruct (skel_leaf _ _ _ (ci_skel _ _ _ _ _ H) Hcur) as (B1 & _ & B3). rewrite B3 by lia.
    destruct (ci_leaf _ _ _ _ _ H _ Hcur) as (f & L & _ & _ & _ & _ & _ & _ & Hleaf).
    destruct (sh_tgt cur) as [[t fl]|]; [|by destruct Ht]. destruct Hleaf as (_ & ft & Lt & j & -> & _).
    rewrite files_are_free, rows_free. destruct (_ <=? _)%nat; [|by do 2 eexists].
    destruct (run _ _) as [w [sh'|er]]; by do 2 eexists.
  Qed.
  Lemma after_goes a o k (u e : N) v wo : c_ths c !! a = Some (TAfter o k u e v wo) -> goes cfg c.
  Proof.
    intros Ha. exists a. unfold thr_step. rewrite Ha. rewrite files_are_free. destruct (run _ _) as [w [sh'|er]]; by do 2 eexists.
  Qed.
  Lemma split_goes a o k (u e : N) : c_ths c !! a = Some (TSplit o k u e) -> goes cfg c.
  Proof.
    intros Ha. pose proof (ci_skel _ _ _ _ _ H) as Hsk.
    destruct (skel_route _ _ _ Hsk (ph_sel_lt (rop_hash cfg o))) as [R1 R2]. set (sh := route (c_root c) (ph_selector (rop_hash cfg o))) in *.
    destruct ((sh_start sh =? u) && (sh_end sh =? e)) eqn:E.
    2:{ exists a. unfold thr_step. rewrite Ha. fold sh. cbn zeta. rewrite E. by do 2 eexists. }
    destruct (sh_tgt sh) as [[t fl]|] eqn:Et.
    - destruct (ci_all _ _ _ _ _ H sh R1 ltac:(by rewrite Et)) as (b & T & Hb & HT).
      destruct T; cbn in HT; try done; [by eapply bg_goes|]. pose proof (Hno _ _ Hb). done.
    - destruct (node_free (others_of c a) u) eqn:En.
      + exists a. unfold thr_step. rewrite Ha. fold sh. cbn zeta. rewrite E, Et, En. destruct (run _ _) as [w [[b t]|er]]; by do 2 eexists.
      + unfold node_free in En. apply Bool.not_true_iff_false in En.
        assert (exists T, In T (others_of c a) /\ holds_node u T = true) as (T & HT & Hn).
        { clear - En. induction (others_of c a) as [|T l IH]; [by destruct En|]. cbn [forallb] in En.
          destruct (holds_node u T) eqn:E; [exists T; split; [by left|done]|]. destruct (IH En) as (T' & ? & ?). exists T'. split; [by right|done]. }
        pose proof (others_no _ _ HT) as E1. destruct T as [|p|o1 k1|o1 k1 sh1 p|o1 k1 s1 e1 v wo|o1 k1 s1 e1|s1|s1 sh1 t r p|]; cbn in Hn, E1; try done.
        unfold others_of in HT. apply elem_of_list_In, elem_of_list_lookup in HT as [b Hb].
        destruct (decide (b < a)%nat); [rewrite lookup_delete_lt in Hb by done|rewrite lookup_delete_ge in Hb by lia]; by eapply after_goes.
  Qed.
  (** A thread inside a call that is not about to take a keyed lock. *)
  Lemma call_goes a T : c_ths c !! a = Some T -> is_Some (a_ths A !! a) ->
    (forall i k, T <> TProg (KVis (KLock i) k)) -> goes cfg c.
  Proof.
    intros Ha Hin Hl. destruct (ci_thr _ _ _ _ _ H _ _ Ha) as (o & _ & Tok).
    destruct T as [|p|op k|op k sh p|op k s1 e1 v wo|op k s1 e1|s1|s1 sh t r p|]; cbn [tok] in Tok.
    - destruct Tok as [_ E]. rewrite E in Hin. by destruct Hin.
    - exists a. unfold thr_step. rewrite Ha. destruct p as [y|e|X q k]; [by do 2 eexists..|].
      destruct q as [key|key v mode|key|ph|i|i]; cbn [prog_step]; try by do 2 eexists.
      + destruct (ins_err _ _ _); by do 2 eexists.
      + destruct (_ =? _); by do 2 eexists.
      + by destruct (Hl i k).
    - exists a. unfold thr_step. rewrite Ha. rewrite rows_free. by do 2 eexists.
    - pose proof (Hno _ _ Ha). done.
    - by eapply after_goes.
    - by eapply split_goes.
    - by eapply bg_goes.
    - pose proof (Hno _ _ Ha). done.
    - destruct Tok as [_ E]. rewrite E in Hin. by destruct Hin.
  Qed.
  Lemma any_goes a T : c_ths c !! a = Some T -> T <> TIdle -> T <> TDead -> goes cfg c.
  Proof.
    intros Ha H1 H2. destruct (ci_thr _ _ _ _ _ H _ _ Ha) as (o & _ & Tok).
    assert (forall p, T = TProg p -> goes cfg c) as Hp.
    { intros p ->. cbn [tok] in Tok. destruct Tok as (_ & Ep & _). destruct HL as [L1 L2].
      destruct p as [y|e|X q k]; [eapply call_goes; [exact Ha|by rewrite Ep|done]..|].
      destruct q as [key|key v mode|key|ph|i|i]; try (eapply call_goes; [exact Ha|by rewrite Ep|done]).
      rewrite (ci_lk _ _ _ _ _ H) in *. destruct (c_lk c !! i) as [b|] eqn:Ei.
      - destruct (L2 _ _ Ei) as [q Hq]. destruct (L1 _ _ Hq) as (h & Hw & Hh). apply Hh in Ei. subst h.
        destruct (c_ths c !! b) as [T|] eqn:Eb; [|pose proof (ci_idle _ _ _ _ _ H _ Eb); congruence].
        eapply call_goes; [exact Eb|by rewrite Hq|]. intros j kk ->.
        destruct (ci_thr _ _ _ _ _ H _ _ Eb) as (ob & _ & _ & Ep' & _). rewrite Hq in Ep'. injection Ep' as ->. cbn [wl] in Hw. by destruct Hw.
      - exists a. unfold thr_step. rewrite Ha. cbn [prog_step]. rewrite Ei. by do 2 eexists. }
    destruct T as [|p|op k|op k sh p|op k s1 e1 v wo|op k s1 e1|s1|s1 sh t r p|]; try done.
    - by eapply Hp.
    - exists a. unfold thr_step. rewrite Ha. rewrite rows_free. by do 2 eexists.
    - pose proof (Hno _ _ Ha). done.
    - by eapply after_goes.
    - by eapply split_goes.
    - by eapply bg_goes.
    - pose proof (Hno _ _ Ha). done.
  Qed.
End goes.

(** ** C54 on the machine of the store *)
(** Any number of threads make any calls: as long as a thread is inside a call, or a compaction is going
    on, some thread can make a step. *)
Theorem C54_some_thread_goes_on : forall cfg s n hs es c a T,
  live cfg s -> crun cfg calm (conc s n) hs es c ->
  c_ths c !! a = Some T -> T <> TIdle -> T <> TDead ->
  exists b c' e, cstep cfg c (ChRun b) = Some (c', e).
Proof.
  intros cfg s n hs es c a T Hl Hr Ha H1 H2. destruct (live_inv _ _ Hl) as (x & M & HI).
  destruct (conc_run _ _ _ _ _ _ _ _ HI Hr) as (A & os & HC & Har & _).
  assert (lkinv A) as HL.
  { eapply lkinv_run; [exact Har|]. split; cbn [a_ths a_lk]; [intros ? ? E; by rewrite lookup_empty in E|intros ? ? E; by rewrite lookup_empty in E]. }
  destruct (decide (Exists (fun T => is_Some (row_lock cfg T)) (c_ths c))) as [He|Hn].
  - apply Exists_exists in He as (Tb & Hin & Hb). apply elem_of_list_lookup in Hin as [b Hin].
    destruct (locked_goes cfg c b Tb Hin Hb) as (d & c' & e & Hd). by exists d, c', e.
  - destruct (any_goes cfg x c A os HC HL) with (a := a) (T := T) as (d & c' & e & Hd); [|done|done|done|by exists d, c', e].
    intros b Tb Hb. destruct (row_lock cfg Tb) as [l|] eqn:E; [|done]. exfalso. apply Hn. apply Exists_exists. exists Tb.
    split; [by eapply elem_of_list_lookup_2|by rewrite E].
Qed.
