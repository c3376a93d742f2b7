(** The invariant of the machine of threads, tied to the abstract machine of ConcSpec.v, and its
    preservation by each kind of step. *)
From Verif Require Import Base Hashing HashingProofs Fs Shard Router RouterPure Store Kv KvSpec Limits Api Wpc Spec FileRep RowOps Compact Inv
  ShardOps Insert Split Conc ConcSpec ConcLocal ConcFile ConcTree.
Implicit Types (m : kvmap) (os : list (option own)).

Definition sim (a b : shard) : Prop :=
  sh_start a = sh_start b /\ sh_end a = sh_end b /\ sh_ino a = sh_ino b /\ fst <$> sh_tgt a = fst <$> sh_tgt b.
Lemma sim_refl a : sim a a.
Proof. done. Qed.
Lemma sim_file a b i : sim a b -> has_file b i -> has_file a i.
Proof. intros (_ & _ & E1 & E2). unfold has_file. by rewrite E1, E2. Qed.
Lemma sim_row_file w a b r : sim a b -> row_file w a r = row_file w b r.
Proof.
  intros (_ & _ & E1 & E2). unfold row_file, src_file. rewrite E1.
  destruct (sh_tgt a) as [[t x]|], (sh_tgt b) as [[t' x']|]; try done. by injection E2 as ->.
Qed.

Definition kgood (p : kprog reply) : Prop := kwrites (fun _ => True) anyv p.
(** The program [pa] of the abstract thread is about to do the raw operation [o] and to go on with [k]. *)
Definition wants (cfg : config) (pa : option (kprog reply)) (o : rop) (k : rval -> kprog reply) : Prop :=
  exists p, pa = Some p /\ forall a m m' v lk, rspec cfg m o m' v -> kop_step cfg a m lk p m' lk (k v).
(** The operation [o] is still to be done, or done with result [v]. *)
Definition gst (cfg : config) (pa : option (kprog reply)) (o : rop) (k : rval -> kprog reply) (g : option rval) : Prop :=
  match g with None => wants cfg pa o k | Some v => pa = Some (k v) end.
Definition after_g (v : rval) : option rval := match v with VIns SSplit => None | _ => Some v end.
Definition opk (cfg : config) (o : rop) (k : rval -> kprog reply) : Prop := rop_ok cfg o /\ forall v, kgood (k v).

Definition tok (cfg : config) (root : router) (w : fs) (pa : option (kprog reply)) (T : thr) (o : option own) : Prop :=
  match T with
  | TIdle | TDead => o = None /\ pa = None
  | TProg p => o = None /\ pa = Some p /\ kgood p
  | TOp op k | TSplit op k _ _ => o = None /\ wants cfg pa op k /\ opk cfg op k
  | TRow op k sh p =>
    exists cur ow g, o = Some ow /\ In cur (leaves root) /\ sim cur sh /\
      sh_start sh <= ph_selector (rop_hash cfg op) < sh_end sh /\
      o_r ow = rop_row cfg op /\ o_w ow = rop_write op /\ opk cfg op k /\ gst cfg pa op k g /\
      cK cfg sh (rop_row cfg op) w ow /\
      lsafe cfg (cK cfg sh (rop_row cfg op)) (gop cfg (sh_start sh) (sh_end sh) op) cpost p ow g
  | TAfter op k s e v _ =>
    o = None /\ opk cfg op k /\ gst cfg pa op k (after_g v) /\
    exists cur, In cur (leaves root) /\ sh_start cur = s /\ sh_end cur = e
  | TBg s => o = None /\ pa = None /\ exists cur, In cur (leaves root) /\ sh_start cur = s /\ is_Some (sh_tgt cur)
  | TBgRow s sh t r p =>
    pa = None /\ exists cur ow j srow ls ft, o = Some ow /\ In cur (leaves root) /\ sim cur sh /\ sh_start sh = s /\
      fst <$> sh_tgt sh = Some t /\ (r < NUM_ROWS)%nat /\ o_ino ow = t /\ o_r ow = r /\ o_w ow = true /\
      fs_files w !! t = Some ft /\ f_cut ft = r /\
      bK cfg (sh_ino sh) r srow ls w ow /\
      (j <= length (entries ls))%nat /\ o_l ow = padded (take j (entries ls)) /\
      lsafe cfg (bK cfg (sh_ino sh) r srow ls) (gbg (entries ls)) (bpost (entries ls)) p ow j
  end.

Definition worker (T : thr) : option N := match T with TBg s | TBgRow s _ _ _ _ => Some s | _ => None end.
Definition in_row (s : N) (T : thr) : bool := match T with TBgRow s' _ _ _ _ => s' =? s | _ => false end.
Definition busy (ths : list thr) (s : N) : bool := existsb (in_row s) ths.

Record CInv (cfg : config) (x : bool) (c : cstate) (A : astate) os : Prop := {
  ci_skel : skel (c_fs c) (c_root c);
  ci_len : length os = length (c_ths c);
  ci_leaf : forall sh, In sh (leaves (c_root c)) ->
    cleaf cfg x (a_map A) (c_fs c) os (busy (c_ths c) (sh_start sh)) sh;
  ci_thr : forall a T, c_ths c !! a = Some T -> exists o, os !! a = Some o /\ tok cfg (c_root c) (c_fs c) (a_ths A !! a) T o;
  ci_idle : forall a, c_ths c !! a = None -> a_ths A !! a = None;
  ci_excl : forall a b T T' l l', a <> b -> c_ths c !! a = Some T -> c_ths c !! b = Some T' ->
    row_lock cfg T = Some l -> row_lock cfg T' = Some l' -> clash l l' = false;
  ci_bg : forall a b T T' s, c_ths c !! a = Some T -> c_ths c !! b = Some T' ->
    worker T = Some s -> worker T' = Some s -> a = b;
  ci_all : forall sh, In sh (leaves (c_root c)) -> is_Some (sh_tgt sh) ->
    exists a T, c_ths c !! a = Some T /\ worker T = Some (sh_start sh);
  ci_lk : a_lk A = c_lk c
}.

(** ** Owners and their locks *)
Lemma tok_owner cfg root w pa T ow : tok cfg root w pa T (Some ow) ->
  exists cur, In cur (leaves root) /\ row_lock cfg T = Some (sh_start cur, o_r ow, o_w ow) /\ has_file cur (o_ino ow)
    /\ (o_r ow < NUM_ROWS)%nat /\ exists f, fs_files w !! o_ino ow = Some f /\ own_ok cfg f ow.
Proof.
  destruct T; cbn [tok]; try (by intros [? _]).
  - intros (cur & ow' & g & [= <-] & Hin & Hs & _ & Hr & Hw & _ & _ & (f & Hrf & Ho) & _). exists cur.
    destruct (row_file_get _ _ _ _ _ Hrf) as [F1 F2].
    split; [done|]. cbn [row_lock]. destruct Hs as (E1 & E2) eqn:Es. rewrite E1, Hr, Hw. split; [done|].
    split; [by eapply sim_file|]. split; [apply ph_row_lt|]. eauto.
  - intros (_ & cur & ow' & j & srow & ls & ft & [= <-] & Hin & Hs & E & Ht & Hlt & E1 & E2 & E3 & Hft & Hc & (_ & ft' & Hft' & Ho) & _). exists cur.
    split; [done|]. cbn [row_lock]. rewrite E2, E3. pose proof Hs as (F1 & F2 & F3 & F4). rewrite F1, E. split; [done|].
    split; [right; congruence|]. split; [done|]. eauto.
Qed.
Lemma tok_none cfg root w pa T o : tok cfg root w pa T o -> row_lock cfg T = None -> o = None.
Proof. destruct T; cbn [tok row_lock]; try done; tauto. Qed.

Section inv.
  Context (cfg : config) (x : bool).

  (** Two owners of the same file have different rows if one of them writes. *)
  Lemma owner_rows c A os a b ow owb :
    CInv cfg x c A os -> a <> b -> os !! a = Some (Some ow) -> os !! b = Some (Some owb) ->
    o_w ow = true -> o_ino owb = o_ino ow -> o_r owb <> o_r ow.
  Proof.
    intros H Hab Ha Hb Hw Hi E.
    assert (exists T, c_ths c !! a = Some T) as [Ta Hta].
    { apply lookup_lt_is_Some. rewrite <- (ci_len _ _ _ _ _ H). by eapply lookup_lt_Some. }
    assert (exists T, c_ths c !! b = Some T) as [Tb Htb].
    { apply lookup_lt_is_Some. rewrite <- (ci_len _ _ _ _ _ H). by eapply lookup_lt_Some. }
    destruct (ci_thr _ _ _ _ _ H _ _ Hta) as (oa & Ea & Toa). rewrite Ha in Ea. injection Ea as <-.
    destruct (ci_thr _ _ _ _ _ H _ _ Htb) as (ob & Eb & Tob). rewrite Hb in Eb. injection Eb as <-.
    destruct (tok_owner _ _ _ _ _ _ Toa) as (ca & A1 & A2 & A3 & _).
    destruct (tok_owner _ _ _ _ _ _ Tob) as (cb & B1 & B2 & B3 & _).
    rewrite Hi in B3.
    assert (ca = cb) as ->.
    { eapply same_leaf; [apply (ci_skel _ _ _ _ _ H)|exact A1|exact B1|by apply (ci_leaf _ _ _ _ _ H)|by apply (ci_leaf _ _ _ _ _ H)|exact A3|exact B3]. }
    pose proof (ci_excl _ _ _ _ _ H _ _ _ _ _ _ Hab Hta Htb A2 B2) as Hc. unfold clash in Hc.
    rewrite N.eqb_refl, E, Nat.eqb_refl, Hw in Hc. done.
  Qed.

  (** Threads that are not affected by a change of file [i] to [f'] in row [r] of leaf [cur]. *)
  Lemma tok_set_file c A os cur i f f' r b Tb ob pa :
    CInv cfg x c A os -> In cur (leaves (c_root c)) -> has_file cur i -> fs_files (c_fs c) !! i = Some f ->
    fkeep f f' -> rowkeep cfg f f' r ->
    c_ths c !! b = Some Tb -> os !! b = Some ob ->
    (forall l', row_lock cfg Tb = Some l' -> clash (sh_start cur, r, true) l' = false) ->
    (forall owb, ob = Some owb -> o_ino owb = i -> o_r owb <> r -> own_ok cfg f owb -> own_ok cfg f' owb) ->
    tok cfg (c_root c) (c_fs c) pa Tb ob -> tok cfg (c_root c) (set_file i f' (c_fs c)) pa Tb ob.
  Proof.
    intros H Hcur Hi Hf Hk Hrk HTb Hob Hlk Hown Ht. pose proof Hk as (K1 & _).
    assert (Hrow : forall owb, ob = Some owb -> o_ino owb = i -> o_r owb <> r).
    { intros owb -> Ei Er. destruct (tok_owner _ _ _ _ _ _ Ht) as (cb & B1 & B2 & B3 & _). rewrite Ei in B3.
      assert (cur = cb) as ->.
      { eapply same_leaf; [apply (ci_skel _ _ _ _ _ H)|exact Hcur|exact B1|by apply (ci_leaf _ _ _ _ _ H)|by apply (ci_leaf _ _ _ _ _ H)|exact Hi|exact B3]. }
      specialize (Hlk _ B2). unfold clash in Hlk. by rewrite N.eqb_refl, Er, Nat.eqb_refl in Hlk. }
    destruct Tb as [|p|o k|o k sh p|o k s e v wo|o k s e|s|s sh t rb p|]; try exact Ht.
    - destruct Ht as (cb & ow & g & Eo & B1 & B2 & B3 & B4 & B5 & B6 & B7 & (fb & Hrf & Hob') & B9).
      exists cb, ow, g. repeat (split; [done|]). split; [|done].
      eexists. split; [by eapply row_file_set|]. destruct (decide (o_ino ow = i)) as [Ei|Ni]; [|done].
      destruct (row_file_get _ _ _ _ _ Hrf) as [G1 _]. rewrite Ei in G1. assert (fb = f) as -> by congruence.
      apply Hown; auto.
    - destruct Ht as (E0 & cb & ow & j & srow & ls & ft & Eo & B1 & B2 & B3 & B4 & B5 & B6 & B7 & B8 & B9 & B10 & ((fsr & S1 & S2 & S3) & ft' & T1 & T2) & B12).
      assert (ft' = ft) as ->. { rewrite B6 in T1. congruence. }
      split; [done|]. exists cb, ow, j, srow, ls. cbn [set_file fs_files].
      exists (if decide (t = i) then f' else ft). do 9 (split; [done|]). split.
      { destruct (decide (t = i)) as [->|Hn]; [by rewrite lookup_insert|by rewrite lookup_insert_ne]. }
      split. { destruct (decide (t = i)) as [->|Hn]; [|done]. rewrite K1. congruence. }
      split; [|done]. split.
      + destruct (decide (sh_ino sh = i)) as [Ei|Hn].
        * cbn [set_file fs_files]. rewrite Ei, lookup_insert. exists f'. split; [done|].
          assert (rb <> r) as Hne.
          { intros ->. assert (cur = cb) as ->.
            { eapply same_leaf; [apply (ci_skel _ _ _ _ _ H)|exact Hcur|exact B1|by apply (ci_leaf _ _ _ _ _ H)|by apply (ci_leaf _ _ _ _ _ H)|exact Hi|].
              eapply sim_file; [exact B2|]. by left. }
            specialize (Hlk _ eq_refl). unfold clash in Hlk. destruct B2 as (E1 & _). rewrite E1, B3, N.eqb_refl, Nat.eqb_refl in Hlk. done. }
          destruct (Hrk _ Hne) as [R1 R2]. assert (fsr = f) as -> by congruence. rewrite R1. split; [done|].
          rewrite <- S2. apply R2. by rewrite S2.
        * exists fsr. cbn [set_file fs_files]. by rewrite lookup_insert_ne.
      + exists (if decide (t = i) then f' else ft). cbn [set_file fs_files]. rewrite B6.
        destruct (decide (t = i)) as [->|Hn].
        * rewrite lookup_insert. split; [done|]. assert (ft = f) as -> by congruence. apply Hown; auto.
        * by rewrite lookup_insert_ne.
  Qed.

  (** A thread whose shard is outside the span [s, e) where directory and files changed. *)
  Lemma tok_outside c A os s e root' w' b Tb ob pa :
    CInv cfg x c A os -> c_ths c !! b = Some Tb -> os !! b = Some ob ->
    outside_same s e (c_fs c) w' ->
    (forall sh, In sh (leaves (c_root c)) -> sh_end sh <= s \/ e <= sh_start sh -> In sh (leaves root')) ->
    (forall sh, In sh (leaves (c_root c)) -> ~ (sh_end sh <= s \/ e <= sh_start sh) ->
       holds_files (sh_start sh) Tb = false /\
       (holds_node (sh_start sh) Tb = true -> exists sh', In sh' (leaves root') /\ span_of sh' = span_of sh) /\
       (worker Tb = Some (sh_start sh) -> exists sh', In sh' (leaves root') /\ sh_start sh' = sh_start sh /\ is_Some (sh_tgt sh'))) ->
    tok cfg (c_root c) (c_fs c) pa Tb ob -> tok cfg root' w' pa Tb ob.
  Proof.
    intros H HTb Hob Hos Hout Hin Ht.
    assert (Hfile : forall sh i, In sh (leaves (c_root c)) -> sh_end sh <= s \/ e <= sh_start sh -> has_file sh i ->
       fs_files w' !! i = fs_files (c_fs c) !! i).
    { intros sh i Hsh Hd Hf. destruct (skel_leaf _ _ _ (ci_skel _ _ _ _ _ H) Hsh) as (L1 & _).
      destruct (cleaf_dir _ _ _ _ _ _ _ _ (ci_leaf _ _ _ _ _ H sh Hsh) Hf) as (nm & D1 & D2).
      destruct (Hos nm) as [_ O2]; [|by apply O2]. by destruct D2 as [->| ->]; cbn. }
    destruct Tb as [|p|o k|o k sh p|o k s' e' v wo|o k s' e'|s'|s' sh t rb p|]; try exact Ht.
    - destruct Ht as (cb & ow & g & Eo & B1 & B2 & B3 & B4 & B5 & B6 & B7 & (fb & Hrf & Hob') & B9).
      destruct (decide (sh_end cb <= s \/ e <= sh_start cb)) as [Hd|Hd].
      2:{ destruct (Hin cb B1 Hd) as [Hx _]. cbn in Hx. destruct B2 as (E1 & _). rewrite E1, N.eqb_refl in Hx. done. }
      exists cb, ow, g. split; [done|]. split; [by apply Hout|]. repeat (split; [done|]). split; [|done].
      exists fb. split; [|done]. rewrite <- Hrf. unfold row_file, src_file.
      assert (forall i, has_file sh i -> fs_files w' !! i = fs_files (c_fs c) !! i) as Hw.
      { intros i Hi. apply (Hfile cb); [done|done|]. by eapply sim_file. }
      rewrite (Hw (sh_ino sh)) by by left. destruct (sh_tgt sh) as [[t fl]|] eqn:Et; [|done].
      rewrite (Hw t) by (right; by rewrite Et). done.
    - destruct Ht as (B1 & B2 & B3 & cb & B4 & B5 & B6). repeat (split; [done|]).
      destruct (decide (sh_end cb <= s \/ e <= sh_start cb)) as [Hd|Hd]; [exists cb; auto|].
      destruct (Hin cb B4 Hd) as (_ & Hx & _). cbn in Hx. destruct Hx as (sh' & X1 & X2); [by apply N.eqb_eq|].
      exists sh'. injection X2 as X2 X3. split; [done|]. split; congruence.
    - destruct Ht as (B1 & B2 & cb & B3 & B4 & B5). repeat (split; [done|]).
      destruct (decide (sh_end cb <= s \/ e <= sh_start cb)) as [Hd|Hd]; [exists cb; auto|].
      destruct (Hin cb B3 Hd) as (_ & _ & Hx). cbn in Hx. destruct Hx as (sh' & X1 & X2 & X3); [by rewrite B4|].
      exists sh'. split; [done|]. split; congruence.
    - destruct Ht as (E0 & cb & ow & j & srow & ls & ft & Eo & B1 & B2 & B3 & B4 & B5 & B6 & B7 & B8 & B9 & B10 & ((fsr & S1 & S2 & S3) & ft' & T1 & T2) & B12).
      destruct (decide (sh_end cb <= s \/ e <= sh_start cb)) as [Hd|Hd].
      2:{ destruct (Hin cb B1 Hd) as [Hx _]. cbn in Hx. destruct B2 as (E1 & _). rewrite E1, B3, N.eqb_refl in Hx. done. }
      assert (forall i, has_file sh i -> fs_files w' !! i = fs_files (c_fs c) !! i) as Hw.
      { intros i Hi. apply (Hfile cb); [done|done|]. by eapply sim_file. }
      split; [done|]. exists cb, ow, j, srow, ls, ft. split; [done|]. split; [by apply Hout|]. do 7 (split; [done|]).
      rewrite (Hw t) by (by right). split; [done|]. split; [done|]. split; [|done]. split.
      + exists fsr. rewrite (Hw (sh_ino sh)) by by left. done.
      + exists ft'. rewrite (Hw (o_ino ow)) by (right; congruence). done.
  Qed.
End inv.
