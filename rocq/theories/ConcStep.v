(** Preservation of the invariant by the steps of the machine, and the steps of the abstract
    machine they correspond to. *)
From Verif Require Import Base Hashing HashingProofs Fs Shard Router RouterPure Store Kv KvSpec Limits Api KeySpace Wpc Spec FileRep RowOps Compact Inv
  ShardOps Insert Split StoreRefine Conc ConcSpec ConcLocal ConcFile ConcTree ConcInv.
Implicit Types (m : kvmap) (os : list (option own)).

Lemma set_file_id i f w : fs_files w !! i = Some f -> set_file i f w = w.
Proof. intros H. unfold set_file. rewrite insert_id by done. by destruct w. Qed.

Lemma rspec_other cfg m o m' v k : rspec cfg m o m' v -> hashk cfg k <> rop_hash cfg o -> m' !! k = m !! k.
Proof.
  destruct o as [k0|k0 v0 mode|k0|ph]; cbn [rspec rop_hash].
  - by intros [-> _].
  - intros [-> _] Hne. apply spec_ins_other. by intros ->.
  - intros [-> _] Hne. apply lookup_delete_ne. by intros ->.
  - by intros [-> _].
Qed.

Lemma busy_in ths s : busy ths s = true -> exists b sh t r p, ths !! b = Some (TBgRow s sh t r p).
Proof.
  unfold busy. intros H. apply existsb_exists in H as (T & Hin & HT).
  apply elem_of_list_In, elem_of_list_lookup_1 in Hin as [b Hb]. exists b.
  destruct T; try done. cbn in HT. apply N.eqb_eq in HT as ->. eauto.
Qed.
Lemma busy_insert ths a T T' s : ths !! a = Some T -> in_row s T' = in_row s T -> busy (<[a := T']> ths) s = busy ths s.
Proof.
  unfold busy. revert a. induction ths as [|y ths IH]; intros [|a] Ha Hr; try done.
  - injection Ha as ->. change (<[0%nat := T']> (T :: ths)) with (T' :: ths). cbn [existsb]. by rewrite Hr.
  - change (<[S a := T']> (y :: ths)) with (y :: <[a := T']> ths). cbn [existsb]. rewrite (IH a); auto.
Qed.
Lemma busy_app ths l s : busy (ths ++ l) s = busy ths s || busy l s.
Proof. apply existsb_app. Qed.
Lemma busy_true ths a T s : ths !! a = Some T -> in_row s T = true -> busy ths s = true.
Proof. intros Ha Hr. apply existsb_exists. exists T. split; [|done]. apply elem_of_list_In. by eapply elem_of_list_lookup_2. Qed.

Lemma forallb_others (P : thr -> bool) ths a : forallb P (delete a ths) = true ->
  forall b T, b <> a -> ths !! b = Some T -> P T = true.
Proof.
  intros H b T Hne Hb. rewrite forallb_forall in H. apply H. apply elem_of_list_In.
  apply elem_of_list_lookup. destruct (decide (b < a)%nat) as [Hlt|Hge].
  - exists b. by rewrite lookup_delete_lt.
  - exists (b - 1)%nat. rewrite lookup_delete_ge by lia. by replace (S (b - 1)) with b by lia.
Qed.

Section step.
  Context (cfg : config) (x : bool).

  (** The leaves when the holder of row [r] of leaf [cur] acts. *)
  Lemma leaves_client c A os cur r wr i f a T :
    CInv cfg x c A os -> In cur (leaves (c_root c)) -> row_file (c_fs c) cur r = Ok (i, f) -> (r < NUM_ROWS)%nat ->
    c_ths c !! a = Some T -> row_lock cfg T = Some (sh_start cur, r, wr) \/ row_lock cfg T = None /\
       row_free cfg (others_of c a) (sh_start cur, r, wr) = true ->
    (forall s, in_row s T = false) ->
    exists L, file_rep cfg f L /\ cacct x f L i os /\ regs f i os /\
      holds (a_map A) (home cfg (sh_start cur) (sh_end cur) r) (entries (L r)) /\
      (forall f' l' m' os', fkeep f f' -> file_rep cfg f' (upd_row r l' L) -> cacct x f' (upd_row r l' L) i os' ->
         regs f' i os' -> (forall i', i' <> i -> os_same i' os os') ->
         holds m' (home cfg (sh_start cur) (sh_end cur) r) (entries l') ->
         (forall k, ~ home cfg (sh_start cur) (sh_end cur) r k -> m' !! k = a_map A !! k) ->
         forall sh, In sh (leaves (c_root c)) -> cleaf cfg x m' (set_file i f' (c_fs c)) os' (busy (c_ths c) (sh_start sh)) sh).
  Proof.
    intros H Hcur Hrf Hr HT Hlk Hir. pose proof (ci_skel _ _ _ _ _ H) as Hsk.
    pose proof (ci_leaf _ _ _ _ _ H cur Hcur) as Hleaf.
    destruct (cleaf_client cfg x (a_map A) (c_fs c) os (busy (c_ths c) (sh_start cur)) cur r i f) as (L & L1 & L2 & L3 & L4 & L5); auto.
    { apply (sk_wf _ _ Hsk). }
    { intros Hb t fl ft Et Hft Hc. destruct (busy_in _ _ Hb) as (b & shb & tb & rb & pb & Hbt).
      assert (a <> b) as Hab. { intros ->. rewrite HT in Hbt. injection Hbt as ->. specialize (Hir (sh_start cur)). cbn in Hir. by rewrite N.eqb_refl in Hir. }
      assert (clash (sh_start cur, r, wr) (sh_start cur, rb, true) = false) as Hcl.
      { destruct Hlk as [Hlk|[_ Hlk]].
        - exact (ci_excl _ _ _ _ _ H _ _ _ _ _ _ Hab HT Hbt Hlk eq_refl).
        - unfold row_free, others_of in Hlk. pose proof (forallb_others _ _ _ Hlk _ _ (not_eq_sym Hab) Hbt) as Hx.
          cbn [row_lock] in Hx. by destruct (clash _ _). }
      destruct (ci_thr _ _ _ _ _ H _ _ Hbt) as (ob & _ & (_ & cb & owb & j & srow & ls & ftb & _ & B1 & B2 & B3 & B4 & B5 & B6 & B7 & B8 & B9 & B10 & _)).
      assert (cb = cur) as ->. { eapply skel_same; [exact Hsk|done|done|]. destruct B2 as (E1 & _). congruence. }
      destruct B2 as (_ & _ & _ & E4). rewrite Et, B4 in E4. injection E4 as ->.
      rewrite Hft in B9. injection B9 as ->. unfold clash in Hcl. rewrite N.eqb_refl, <- Hc, B10, Nat.eqb_refl, orb_true_r in Hcl. done. }
    exists L. repeat (split; [done|]). intros f' l' m' os' Hk Hrep Hac Hreg Hos Hh Hm sh Hsh.
    destruct (decide (sh_start sh = sh_start cur)) as [Es|Hns].
    - pose proof (skel_same _ _ _ _ Hsk Hsh Hcur Es) as ->. apply (L5 f' l'); auto. intros k Hk'. apply Hm. intros [_ E]. done.
    - assert (sh <> cur) as Hne by (by intros ->).
      eapply cleaf_other_file; [|exact Hos| |by apply (ci_leaf _ _ _ _ _ H)].
      + intros Hf. apply Hne. destruct (row_file_get _ _ _ _ _ Hrf) as [_ Hf'].
        eapply same_leaf; [exact Hsk|exact Hsh|exact Hcur|by apply (ci_leaf _ _ _ _ _ H)|exact Hleaf|exact Hf|exact Hf'].
      + intros k Hk'. symmetry. apply Hm. intros [Hs _]. pose proof (skel_disjoint _ _ _ _ Hsk Hsh Hcur Hne).
        unfold in_span in Hk'. lia.
  Qed.

  (** A thread moves from [T] to [T'], keeping its locks. *)
  Lemma cinv_thread c A os a T T' w' A' os' :
    CInv cfg x c A os -> c_ths c !! a = Some T ->
    row_lock cfg T' = row_lock cfg T \/ row_lock cfg T' = None ->
    worker T' = worker T -> (forall s, in_row s T' = in_row s T) ->
    skel w' (c_root c) -> length os' = length os ->
    (forall sh, In sh (leaves (c_root c)) -> cleaf cfg x (a_map A') w' os' (busy (c_ths c) (sh_start sh)) sh) ->
    (forall b, b <> a -> os' !! b = os !! b /\ a_ths A' !! b = a_ths A !! b) ->
    (forall b Tb ob, b <> a -> c_ths c !! b = Some Tb -> os !! b = Some ob ->
       tok cfg (c_root c) (c_fs c) (a_ths A !! b) Tb ob -> tok cfg (c_root c) w' (a_ths A !! b) Tb ob) ->
    (exists o', os' !! a = Some o' /\ tok cfg (c_root c) w' (a_ths A' !! a) T' o') ->
    forall lk, a_lk A' = lk ->
    CInv cfg x (CS (c_root c) w' (<[a := T']> (c_ths c)) lk) A' os'.
  Proof.
    intros H Ha Hlk Hw Hir Hsk Hlen Hleaf Hoth Htok Hnew lk Elk.
    pose proof (lookup_lt_Some _ _ _ Ha) as Hlt.
    assert (Hl : forall b Tb, <[a := T']> (c_ths c) !! b = Some Tb -> (b = a /\ Tb = T') \/ (b <> a /\ c_ths c !! b = Some Tb)).
    { intros b Tb Hb. destruct (decide (b = a)) as [->|Hne].
      - rewrite list_lookup_insert in Hb by done. injection Hb as <-. auto.
      - rewrite list_lookup_insert_ne in Hb by done. auto. }
    split; cbn [c_root c_fs c_ths c_lk].
    - done.
    - rewrite insert_length, Hlen. apply (ci_len _ _ _ _ _ H).
    - intros sh Hsh. rewrite (busy_insert _ _ _ _ _ Ha (Hir _)). by apply Hleaf.
    - intros b Tb Hb. destruct (Hl _ _ Hb) as [[-> ->]|[Hne Hb']]; [done|].
      destruct (ci_thr _ _ _ _ _ H _ _ Hb') as (ob & Eb & Tb'). destruct (Hoth b Hne) as [E1 E2].
      exists ob. rewrite E1, E2. split; [done|]. by apply Htok.
    - intros b Hb. assert (b <> a) as Hne. { intros ->. by rewrite list_lookup_insert in Hb. }
      rewrite list_lookup_insert_ne in Hb by done. destruct (Hoth b Hne) as [_ ->]. by apply (ci_idle _ _ _ _ _ H).
    - intros b d Tb Td l l' Hbd Hb Hd Hlb Hld.
      destruct (Hl _ _ Hb) as [[-> ->]|[Hnb Hb']], (Hl _ _ Hd) as [[-> ->]|[Hnd Hd']]; try done.
      + destruct Hlk as [E|E]; rewrite E in Hlb; [|done]. by eapply (ci_excl _ _ _ _ _ H a d).
      + destruct Hlk as [E|E]; rewrite E in Hld; [|done]. by eapply (ci_excl _ _ _ _ _ H b a).
      + by eapply (ci_excl _ _ _ _ _ H b d).
    - intros b d Tb Td s Hb Hd Hwb Hwd.
      destruct (Hl _ _ Hb) as [[-> ->]|[Hnb Hb']], (Hl _ _ Hd) as [[-> ->]|[Hnd Hd']]; try done.
      + rewrite Hw in Hwb. by eapply (ci_bg _ _ _ _ _ H a d).
      + rewrite Hw in Hwd. by eapply (ci_bg _ _ _ _ _ H b a).
      + by eapply (ci_bg _ _ _ _ _ H b d).
    - intros sh Hsh Ht. destruct (ci_all _ _ _ _ _ H sh Hsh Ht) as (b & Tb & Hb & Hwb).
      destruct (decide (b = a)) as [->|Hne].
      + exists a, T'. rewrite list_lookup_insert by done. split; [done|]. rewrite Hw. congruence.
      + exists b, Tb. rewrite list_lookup_insert_ne by done. done.
    - done.
  Qed.

  (** Nothing but the thread itself changes. *)
  Lemma cinv_local c A os a T T' P' lk o o' :
    CInv cfg x c A os -> c_ths c !! a = Some T ->
    row_lock cfg T' = row_lock cfg T \/ row_lock cfg T' = None ->
    worker T' = worker T -> (forall s, in_row s T' = in_row s T) ->
    os !! a = Some o -> (forall ow, o = Some ow -> clean ow) -> (forall ow, o' = Some ow -> clean ow) ->
    (forall b, b <> a -> P' !! b = a_ths A !! b) ->
    tok cfg (c_root c) (c_fs c) (P' !! a) T' o' ->
    CInv cfg x (CS (c_root c) (c_fs c) (<[a := T']> (c_ths c)) lk) (AS (a_map A) P' lk) (<[a := o']> os).
  Proof.
    intros H Ha Hlk Hw Hir Ho Hc Hc' HP Htok.
    eapply (cinv_thread c A os a T T' (c_fs c) (AS (a_map A) P' lk)); auto.
    - apply (ci_skel _ _ _ _ _ H).
    - by rewrite insert_length.
    - intros sh Hsh. cbn [a_map]. eapply cleaf_os; [|by apply (ci_leaf _ _ _ _ _ H)].
      intros i Hi. eapply os_same_clean; [exact Ho|..]; auto.
    - intros b Hb. cbn [a_ths]. split; [by rewrite list_lookup_insert_ne|auto].
    - exists o'. split; [|done]. apply list_lookup_insert. by eapply lookup_lt_Some.
  Qed.
  Lemma os_none c A os a T : CInv cfg x c A os -> c_ths c !! a = Some T -> row_lock cfg T = None ->
    os !! a = Some None /\ tok cfg (c_root c) (c_fs c) (a_ths A !! a) T None.
  Proof.
    intros H Ha Hl. destruct (ci_thr _ _ _ _ _ H _ _ Ha) as (o & Ho & Ht).
    pose proof (tok_none _ _ _ _ _ _ Ht Hl) as ->. done.
  Qed.
  Lemma cinv_simple c A os a T T' P' lk :
    CInv cfg x c A os -> c_ths c !! a = Some T -> row_lock cfg T = None -> row_lock cfg T' = None ->
    worker T = None -> worker T' = None ->
    (forall b, b <> a -> P' !! b = a_ths A !! b) ->
    tok cfg (c_root c) (c_fs c) (P' !! a) T' None ->
    CInv cfg x (CS (c_root c) (c_fs c) (<[a := T']> (c_ths c)) lk) (AS (a_map A) P' lk) os.
  Proof.
    intros H Ha Hl Hl' Hw Hw' HP Htok. destruct (os_none _ _ _ _ _ H Ha Hl) as [Ho Ht].
    rewrite <- (list_insert_id _ _ _ Ho).
    eapply (cinv_local c A os a T T' P' lk None None); auto; try done.
    - congruence.
    - intros s. destruct T, T'; done.
  Qed.


  (** The step is matched by the abstract machine. *)
  Definition good (A : astate) (c' : cstate) (e : option cevent) : Prop :=
    exists A' os', CInv cfg x c' A' os' /\ arun cfg A (option_list e) A'.
  Lemma good0 A c' os' : CInv cfg x c' A os' -> good A c' None.
  Proof. intros H. exists A, os'. split; [done|]. apply arun_nil. Qed.
  Lemma good1 A A' c' os' e : astep cfg (AS (a_map A) (a_ths A) (a_lk A)) e A' -> CInv cfg x c' A' os' -> good A c' e.
  Proof.
    intros Hs H. destruct A as [m P lk]. exists A', os'. split; [done|]. rewrite <- (app_nil_r (option_list e)).
    eapply arun_step; [exact Hs|]. apply arun_nil.
  Qed.
  Lemma astate_eta A : AS (a_map A) (a_ths A) (a_lk A) = A.
  Proof. by destruct A. Qed.
  Lemma cinv_eta c A os a T' lk : lk = c_lk c ->
    CInv cfg x (CS (c_root c) (c_fs c) (<[a := T']> (c_ths c)) lk) A os -> CInv cfg x (set_thr c a T') A os.
  Proof. by intros ->. Qed.

  Lemma step_call c A os a y c' e : CInv cfg x c A os -> cstep cfg c (ChCall a y) = Some (c', e) -> good A c' e.
  Proof.
    intros H. cbn [cstep]. destruct (c_ths c !! a) as [[]|] eqn:Ha; try done. intros [= <- <-].
    destruct (os_none _ _ _ _ _ H Ha eq_refl) as [Ho [_ Hp]].
    eapply good1.
    - apply as_call. exact Hp.
    - apply (cinv_eta c _ _ _ _ (a_lk A)); [apply (ci_lk _ _ _ _ _ H)|]. eapply (cinv_simple c A os a _ _ _ (a_lk A)); try done.
      + intros b Hb. by rewrite lookup_insert_ne.
      + rewrite lookup_insert. split; [done|]. split; [done|]. eapply kwrites_mono; [| |apply call_writes]; done.
  Qed.

  Lemma step_prog c A os a p c' e :
    CInv cfg x c A os -> c_ths c !! a = Some (TProg p) -> prog_step cfg c a p = Some (c', e) -> good A c' e.
  Proof.
    intros H Ha. destruct (os_none _ _ _ _ _ H Ha eq_refl) as [Ho (_ & Hp & Hg)].
    (* an operation of the abstract machine that only changes the program and the locks *)
    assert (Hop : forall p' lk', kop_step cfg a (a_map A) (a_lk A) p (a_map A) lk' p' -> kgood p' ->
       good A (CS (c_root c) (c_fs c) (<[a := TProg p']> (c_ths c)) lk') None).
    { intros p' lk' Hk Hg'. eapply good1.
      - eapply as_op; [exact Hp|exact Hk].
      - eapply cinv_simple; try done.
        + intros b Hb. by rewrite lookup_insert_ne.
        + rewrite lookup_insert. done. }
    (* going on to a raw operation *)
    assert (Hgo : forall o k, (forall a m m' v lk, rspec cfg m o m' v -> kop_step cfg a m lk p m' lk (k v)) -> opk cfg o k ->
       good A (set_thr c a (TOp o k)) None).
    { intros o k Hw Hk. eapply good0. apply (cinv_eta c _ _ _ _ (a_lk A)); [apply (ci_lk _ _ _ _ _ H)|].
      rewrite <- (astate_eta A). eapply cinv_simple; try done. split; [done|]. split; [|done]. exists p. done. }
    destruct p as [y|er|X o k]; cbn [prog_step].
    - intros [= <- <-]. eapply good1.
      + apply as_ret. exact Hp.
      + apply (cinv_eta c _ _ _ _ (a_lk A)); [apply (ci_lk _ _ _ _ _ H)|]. eapply (cinv_simple c A os a _ _ _ (a_lk A)); try done.
        * intros b Hb. by rewrite lookup_delete_ne.
        * rewrite lookup_delete. done.
    - intros [= <- <-]. eapply good1.
      + apply as_fail. exact Hp.
      + rewrite (ci_lk _ _ _ _ _ H). eapply cinv_simple; try done.
        * intros b Hb. by rewrite lookup_delete_ne.
        * rewrite lookup_delete. done.
    - destruct Hg as [Hg1 Hg2]. destruct o as [key|key v mode|key|ph|i|i].
      + intros [= <- <-]. apply Hgo.
        * intros a' m m' v lk [-> ->]. cbn. done.
        * split; [done|]. intros [x0| |]; [apply Hg2|done|done].
      + destruct (ins_err cfg key v) as [er|] eqn:Ei.
        * intros [= <- <-]. unfold set_thr. rewrite <- (ci_lk _ _ _ _ _ H). apply Hop; [|done]. cbn. rewrite Ei. done.
        * intros [= <- <-]. apply Hgo.
          -- intros a' m m' v' lk [-> ->]. cbn. rewrite Ei. done.
          -- split; [split; [done|apply Hg1]|]. intros [|x0|]; [done|apply Hg2|done].
      + intros [= <- <-]. apply Hgo.
        * intros a' m m' v lk [-> ->]. cbn. done.
        * split; [done|]. intros [x0| |]; [apply Hg2|done|done].
      + destruct (N.eqb_spec (ph_sig ph) INVALID_SIG) as [Es|Es].
        * intros [= <- <-]. unfold set_thr. rewrite <- (ci_lk _ _ _ _ _ H). apply Hop; [|done].
          cbn [kop_step]. split; [done|]. split; [done|]. destruct (N.eqb_spec (ph_sig ph) INVALID_SIG); done.
        * intros [= <- <-]. apply Hgo.
          -- intros a' m m' v lk [-> (l & Hl & ->)]. cbn [kop_step]. split; [done|]. split; [done|].
             destruct (N.eqb_spec (ph_sig ph) INVALID_SIG); [done|]. eauto.
          -- split; [done|]. intros [| |x0]; [done|done|apply Hg2].
      + destruct (c_lk c !! i) as [h|] eqn:El; [done|]. intros [= <- <-]. rewrite <- (ci_lk _ _ _ _ _ H) in *.
        apply Hop; [|apply Hg2]. cbn. done.
      + intros [= <- <-]. rewrite <- (ci_lk _ _ _ _ _ H). apply Hop; [|apply Hg2]. cbn. done.
  Qed.

  (** Where a thread goes on when it leaves its section. *)
  Lemma tok_go_on root w pa o k s e v :
    opk cfg o k -> gst cfg pa o k (after_g v) -> tok cfg root w pa (go_on o k s e v) None.
  Proof.
    intros Ho Hg. assert (forall v', v = v' -> after_g v' = Some v' -> go_on o k s e v' = TProg (k v') -> tok cfg root w pa (go_on o k s e v') None) as G.
    { intros v' -> E1 ->. rewrite E1 in Hg. cbn in Hg. split; [done|]. split; [done|]. apply Ho. }
    destruct v as [|st|]; [by apply G| |by apply G]. destruct st; try (by apply G). cbn. auto.
  Qed.
  Lemma go_on_lock o k s e v : row_lock cfg (go_on o k s e v) = None /\ worker (go_on o k s e v) = None /\ forall s', in_row s' (go_on o k s e v) = false.
  Proof. destruct v as [|[]|]; done. Qed.
  Lemma cpost_g v c ow g : cpost (v, c) ow g -> clean ow /\ g = after_g v.
  Proof.
    intros [H1 [[-> H2]|[-> H2]]]; (split; [done|]); cbn in H2.
    - destruct v as [|[]|]; done.
    - by rewrite H2.
  Qed.

  (** ** Routing and locking *)
  Lemma step_op c A os a o k c' e :
    CInv cfg x c A os -> c_ths c !! a = Some (TOp o k) -> thr_step cfg c a = Some (c', e) -> good A c' e.
  Proof.
    intros H Ha. unfold thr_step. rewrite Ha. cbn zeta. set (sel := ph_selector (rop_hash cfg o)).
    set (sh := route (c_root c) sel). destruct (row_free cfg (others_of c a) _) eqn:Hfree; [|done]. intros [= <- <-].
    destruct (os_none _ _ _ _ _ H Ha eq_refl) as [Ho (_ & Hw & Hok)].
    pose proof (ci_skel _ _ _ _ _ H) as Hsk. destruct (skel_route _ _ sel Hsk (ph_sel_lt _)) as [R1 R2]. fold sh in R1, R2.
    assert (exists i f, row_file (c_fs c) sh (rop_row cfg o) = Ok (i, f)) as (i & f & Hrf).
    { destruct (ci_leaf _ _ _ _ _ H sh R1) as (f & L & H1 & H2 & H3 & H4 & H5 & H6 & H7).
      unfold row_file, src_file. rewrite H2. destruct (sh_tgt sh) as [[t b]|]; [|eauto].
      destruct H7 as (_ & ft & Lt & j & T1 & _). rewrite T1. destruct (_ <? _)%nat; eauto. }
    destruct (leaves_client c A os sh (rop_row cfg o) (rop_write o) i f a (TOp o k) H R1 Hrf) as (L & L1 & L2 & L3 & L4 & _); auto.
    { apply ph_row_lt. }
    set (ow := Own i (rop_row cfg o) (rop_write o) (row_of f (rop_row cfg o)) (L (rop_row cfg o)) None 0 0 0).
    assert (tok cfg (c_root c) (c_fs c) (a_ths A !! a) (TRow o k sh (sect cfg sh o)) (Some ow)) as Ht.
    { exists sh, ow, None. split; [done|]. split; [done|]. split; [apply sim_refl|]. split; [exact R2|]. split; [done|]. split; [done|].
      split; [done|]. split; [done|]. split.
      - exists f. split; [done|]. split; [done|]. split; [|done]. apply (file_rep_row _ _ _ _ L1). apply ph_row_lt.
      - apply sect_safe; auto; [apply Hok|done]. }
    apply (good0 _ _ (<[a := Some ow]> os)).
    pose proof (lookup_lt_Some _ _ _ Ha) as Hlt.
    assert (Hl : forall b Tb, <[a := TRow o k sh (sect cfg sh o)]> (c_ths c) !! b = Some Tb -> (b = a /\ Tb = TRow o k sh (sect cfg sh o)) \/ (b <> a /\ c_ths c !! b = Some Tb)).
    { intros b Tb Hb. destruct (decide (b = a)) as [->|Hne].
      - rewrite list_lookup_insert in Hb by done. injection Hb as <-. auto.
      - rewrite list_lookup_insert_ne in Hb by done. auto. }
    assert (Hfr : forall b Tb l, b <> a -> c_ths c !! b = Some Tb -> row_lock cfg Tb = Some l ->
      clash (sh_start sh, ph_row (rop_hash cfg o), rop_write o) l = false).
    { intros b Tb l Hne Hb Hl'. pose proof (forallb_others _ _ _ Hfree _ _ Hne Hb) as Hx. cbn beta in Hx. rewrite Hl' in Hx.
      by destruct (clash _ _). }
    split; cbn [set_thr c_root c_fs c_ths c_lk].
    - done.
    - rewrite !insert_length. apply (ci_len _ _ _ _ _ H).
    - intros sh' Hsh'. rewrite (busy_insert _ _ _ _ _ Ha) by done. eapply cleaf_os; [|by apply (ci_leaf _ _ _ _ _ H)].
      intros i' _. eapply os_same_clean; [exact Ho|done|]. intros ow' [= <-]. right. done.
    - intros b Tb Hb. destruct (Hl _ _ Hb) as [[-> ->]|[Hne Hb']].
      + exists (Some ow). split; [|done]. apply list_lookup_insert. by eapply lookup_lt_Some.
      + rewrite list_lookup_insert_ne by done. by apply (ci_thr _ _ _ _ _ H).
    - intros b Hb. assert (b <> a) as Hne. { intros ->. by rewrite list_lookup_insert in Hb. }
      rewrite list_lookup_insert_ne in Hb by done. by apply (ci_idle _ _ _ _ _ H).
    - intros b d Tb Td l l' Hbd Hb Hd Hlb Hld.
      destruct (Hl _ _ Hb) as [[-> ->]|[Hnb Hb']], (Hl _ _ Hd) as [[-> ->]|[Hnd Hd']]; try done.
      + injection Hlb as <-. by eapply Hfr.
      + injection Hld as <-. assert (forall p q, clash p q = clash q p) as Hsym.
        { intros [[s1 r1] w1] [[s2 r2] w2]. unfold clash. rewrite (N.eqb_sym s2), (Nat.eqb_sym r2), (orb_comm w2). done. }
        rewrite Hsym. by eapply Hfr.
      + by eapply (ci_excl _ _ _ _ _ H b d).
    - intros b d Tb Td s Hb Hd Hwb Hwd.
      destruct (Hl _ _ Hb) as [[-> ->]|[Hnb Hb']], (Hl _ _ Hd) as [[-> ->]|[Hnd Hd']]; try done.
      by eapply (ci_bg _ _ _ _ _ H b d).
    - intros sh' Hsh' Ht'. destruct (ci_all _ _ _ _ _ H sh' Hsh' Ht') as (b & Tb & Hb & Hwb).
      assert (b <> a) as Hne. { intros ->. rewrite Ha in Hb. by injection Hb as <-. }
      exists b, Tb. rewrite list_lookup_insert_ne by done. done.
    - apply (ci_lk _ _ _ _ _ H).
  Qed.
End step.
