(** One file under several threads: regions being written, and what one effect of one thread
    preserves for the others. *)
From Verif Require Import Base Hashing HashingProofs Fs Shard Router Limits Wpc Spec FileRep RowOps Compact Inv Conc ConcSpec ConcLocal.

Definition avoid (off n off' n' : N) : Prop := off + n <= off' \/ off' + n' <= off.
Definition slots_avoid (f : file) (off n : N) : Prop :=
  forall r c s, row_of f r !! c = Some s -> s_sig s <> INVALID_SIG ->
    avoid (desc_off (s_desc s)) (desc_klen (s_desc s) + desc_vlen (s_desc s)) off n.

(** The regions being written in file [i]: inside the allocated space, disjoint from all
    entries and from each other. *)
Record regs (f : file) (i : ino) (os : list (option own)) : Prop := Regs {
  rg_in : forall a ow off n bs, os !! a = Some (Some ow) -> o_ino ow = i -> o_pend ow = Some (off, n, bs) ->
    off + n <= f_woff f /\ slots_avoid f off n;
  rg_dis : forall a b ow ow' off n bs off' n' bs', a <> b ->
    os !! a = Some (Some ow) -> o_ino ow = i -> o_pend ow = Some (off, n, bs) ->
    os !! b = Some (Some ow') -> o_ino ow' = i -> o_pend ow' = Some (off', n', bs') ->
    avoid off n off' n'
}.

(** The header fields other threads rely on are unchanged, and nothing shrinks. *)
Definition fkeep (f f' : file) : Prop :=
  f_cut f' = f_cut f /\ f_magic f' = f_magic f /\ f_version f' = f_version f /\
  f_len f <= f_len f' /\ f_woff f <= f_woff f'.
(** The other rows are unchanged and their entries still readable. *)
Definition rowkeep (cfg : config) (f f' : file) (r : nat) : Prop :=
  forall r', r' <> r -> row_of f' r' = row_of f r' /\
    forall l, Forall2 (slot_ok cfg f r') (row_of f r') l -> Forall2 (slot_ok cfg f' r') (row_of f r') l.

Lemma slot_ok_inj cfg f r s o o' : slot_ok cfg f r s o -> slot_ok cfg f r s o' -> o = o'.
Proof.
  destruct o as [[k v]|], o' as [[k' v']|]; cbn; [| | |done].
  - intros (_ & _ & _ & H1 & _) (_ & _ & _ & H2 & _). rewrite H1 in H2. by injection H2 as -> ->.
  - intros (_ & H1 & _) H2. rewrite H1 in H2. by apply hashk_sig in H2.
  - intros H2 (_ & H1 & _). rewrite H1 in H2. by apply hashk_sig in H2.
Qed.
Lemma row_inj cfg f r row l l' : Forall2 (slot_ok cfg f r) row l -> Forall2 (slot_ok cfg f r) row l' -> l = l'.
Proof.
  intros H. revert l'. induction H as [|s o row l Hs H IH]; intros l' H'; inversion H'; subst; [done|].
  f_equal; [by eapply slot_ok_inj|by apply IH].
Qed.
Lemma own_row cfg f L ow : file_rep cfg f L -> (o_r ow < NUM_ROWS)%nat -> own_ok cfg f ow -> L (o_r ow) = o_l ow.
Proof.
  intros Hf Hr (H1 & H2 & _). pose proof (file_rep_row _ _ _ _ Hf Hr) as H. rewrite H1 in H. by eapply row_inj.
Qed.

Lemma read_bytes_keep d d' off n :
  (forall o, off <= o < off + N.of_nat n -> d' !! o = d !! o) -> read_bytes d' off n = read_bytes d off n.
Proof.
  revert off. induction n as [|n IH]; intros off H; [done|]. cbn [read_bytes].
  rewrite H by lia. f_equal. apply IH. intros o Ho. apply H. lia.
Qed.
Lemma read_kv_keep f f' d k v :
  read_kv f d = Ok (k, v) -> f_len f <= f_len f' ->
  (forall o, desc_off d <= o < desc_off d + (desc_klen d + desc_vlen d) -> f_data f' !! o = f_data f !! o) ->
  read_kv f' d = Ok (k, v).
Proof.
  unfold read_kv. intros H Hl Hd. destruct (16384 <=? desc_klen d); [done|].
  destruct (N.ltb_spec (f_len f) (HEADER_SIZE + desc_off d + (desc_klen d + desc_vlen d))); [done|].
  destruct (N.ltb_spec (f_len f') (HEADER_SIZE + desc_off d + (desc_klen d + desc_vlen d))); [lia|].
  rewrite (read_bytes_keep (f_data f) (f_data f')); [done|]. intros o Ho. apply Hd. lia.
Qed.

(** The bytes of valid slots and the size bounds are kept: so is the meaning of every slot. *)
Definition dkeep (f f' : file) : Prop :=
  f_len f <= f_len f' /\ f_woff f <= f_woff f' /\
  forall r c s o, row_of f r !! c = Some s -> s_sig s <> INVALID_SIG ->
    desc_off (s_desc s) <= o < desc_off (s_desc s) + (desc_klen (s_desc s) + desc_vlen (s_desc s)) ->
    f_data f' !! o = f_data f !! o.
Lemma slot_keep cfg f f' r c s o :
  dkeep f f' -> row_of f r !! c = Some s -> slot_ok cfg f r s o -> slot_ok cfg f' r s o.
Proof.
  intros (H1 & H2 & H3) Hs. destruct o as [[k v]|]; [|done]. cbn. intros (A1 & A2 & A3 & A4 & A5).
  repeat split; auto; [|lia]. eapply read_kv_keep; [exact A4|done|].
  intros o Ho. eapply H3; [exact Hs| |done]. rewrite A2. apply hashk_sig.
Qed.
Lemma row_keep cfg f f' r l :
  dkeep f f' -> Forall2 (slot_ok cfg f r) (row_of f r) l -> Forall2 (slot_ok cfg f' r) (row_of f r) l.
Proof.
  intros Hd H. apply Forall2_lookup. intros c. rewrite Forall2_lookup in H. specialize (H c).
  inversion H as [s o Hs E1 E2|]; subst; constructor. eapply slot_keep; eauto.
Qed.
Lemma dkeep_same f f' : f_len f' = f_len f -> f_woff f' = f_woff f -> f_data f' = f_data f -> dkeep f f'.
Proof. intros E1 E2 E3. split; [lia|]. split; [lia|]. intros. by rewrite E3. Qed.

Lemma file_rep_keep cfg f f' L : dkeep f f' -> f_rows f' = f_rows f -> file_rep cfg f L -> file_rep cfg f' L.
Proof.
  intros Hd Hr [H1 H2]. assert (forall r, row_of f' r = row_of f r) as E by (intros; unfold row_of; by rewrite Hr).
  split; [by rewrite Hr|]. intros r Hlt. destruct (H2 r Hlt) as [A1 A2]. rewrite E. split; [done|]. by apply row_keep.
Qed.

(** What a full region reads as. *)
Lemma full_read cfg f ow off k v :
  own_ok cfg f ow -> full (o_pend ow) off k v ->
  let d := pack_desc (len k) (len v) off in
  read_kv f d = Ok (k, v) /\ desc_off d = off /\ desc_klen d = len k /\ desc_vlen d = len v.
Proof.
  intros (_ & _ & Hp) (E & Ho & Hk & Hv & Hne) d. rewrite E in Hp. destruct Hp as (_ & Hr & Hlen).
  destruct (pack_desc_fields (len k) (len v) off) as (D1 & D2 & D3); [lia|lia|]. fold d in D1, D2, D3.
  split; [|done]. unfold read_kv. rewrite D1, D2, D3.
  destruct (N.leb_spec 16384 (len k)); [lia|].
  destruct (N.ltb_spec (f_len f) (HEADER_SIZE + off + (len k + len v))) as [Hlt|Hge].
  { exfalso. rewrite len_app in Hlen. assert (k ++ v <> []) as Hne' by by destruct k. specialize (Hlen Hne'). lia. }
  replace (N.to_nat (len k + len v)) with (length (k ++ v)) by (rewrite app_length; unfold len; lia).
  rewrite Hr. replace (N.to_nat (len k)) with (length k) by (unfold len; lia).
  by rewrite take_app, drop_app.
Qed.

(** ** Totals over the owners *)
Definition part (g : own -> N) (i : ino) (o : option own) : N :=
  match o with Some ow => if decide (o_ino ow = i) then g ow else 0 | None => 0 end.
Fixpoint tot (g : own -> N) (i : ino) (os : list (option own)) : N :=
  match os with [] => 0 | o :: os => part g i o + tot g i os end.
Lemma tot_insert g i os a o o' : os !! a = Some o -> tot g i (<[a := o']> os) + part g i o = tot g i os + part g i o'.
Proof.
  revert a. induction os as [|x os IH]; intros [|a] H; try done.
  - injection H as ->. change (<[0%nat := o']> (o :: os)) with (o' :: os). cbn [tot]. lia.
  - specialize (IH a H). change (<[S a := o']> (x :: os)) with (x :: <[a := o']> os). cbn [tot]. lia.
Qed.
Lemma tot_app g i os os' : tot g i (os ++ os') = tot g i os + tot g i os'.
Proof. induction os as [|x os IH]; cbn [app tot]; [lia|]. rewrite IH. lia. Qed.
Lemma tot_0 g i os : (forall a ow, os !! a = Some (Some ow) -> o_ino ow <> i) -> tot g i os = 0.
Proof.
  induction os as [|x os IH]; intros H; [done|]. cbn [tot]. rewrite IH by (intros a; apply (H (S a))).
  destruct x as [ow|]; [|done]. cbn. rewrite decide_False by (apply (H 0%nat); done). done.
Qed.

(** Byte and entry accounting with the parts still owed by the threads. *)
Definition cacct (x : bool) (f : file) (L : rows_t) (i : ino) (os : list (option own)) : Prop :=
  live L + f_wasted f + tot o_debt i os <= f_woff f /\
  (x = true -> live L + f_wasted f + tot o_debt i os = f_woff f /\
               f_ins f + tot o_ci i os = f_rem f + tot o_cr i os + count L).
Lemma cacct_false x f L i os : cacct x f L i os -> acct false f L.
Proof. intros [H _]. split; [lia|done]. Qed.
Lemma cacct_none x f L i os : (forall a ow, os !! a = Some (Some ow) -> o_ino ow <> i) -> cacct x f L i os <-> acct x f L.
Proof.
  intros H. unfold cacct, acct. rewrite !(tot_0 _ i os H). split.
  - intros [H1 H2]. split; [lia|]. intros Hx. specialize (H2 Hx). lia.
  - intros [H1 H2]. split; [lia|]. intros Hx. specialize (H2 Hx). lia.
Qed.
Lemma cacct_other x f L i os os' :
  (forall g, tot g i os' = tot g i os) -> cacct x f L i os -> cacct x f L i os'.
Proof. intros H. unfold cacct. by rewrite !H. Qed.

(** ** One effect of one owner *)
Record fstep (cfg : config) (x : bool) (f : file) (L : rows_t) (i : ino) (os : list (option own)) (a : nat) (ow : own)
    (f' : file) (ow' : own) : Prop := FStep {
  st_keep : fkeep f f';
  st_dkeep : dkeep f f';
  st_rep : file_rep cfg f' (upd_row (o_r ow) (o_l ow') L);
  st_rows : rowkeep cfg f f' (o_r ow);
  st_own : own_ok cfg f' ow';
  st_regs : regs f' i (<[a := Some ow']> os);
  st_others : forall b owb, b <> a -> os !! b = Some (Some owb) -> o_ino owb = i -> o_r owb <> o_r ow ->
     own_ok cfg f owb -> own_ok cfg f' owb;
  st_acct : cacct x f L i os -> cacct x f' (upd_row (o_r ow) (o_l ow') L) i (<[a := Some ow']> os);
  st_same : o_ino ow' = i /\ o_r ow' = o_r ow /\ o_w ow' = true
}.

Lemma rowkeep_slot cfg f f' r c g :
  f_rows f' = set_slot (f_rows f) r c g -> dkeep f f' -> rowkeep cfg f f' r.
Proof.
  intros Hr Hd r' Hne. assert (row_of f' r' = row_of f r') as E.
  { rewrite (row_of_set_slot f f' r c g r' Hr). by rewrite decide_False. }
  split; [done|]. intros l Hl. by apply row_keep.
Qed.
Lemma rowkeep_same cfg f f' r : f_rows f' = f_rows f -> dkeep f f' -> rowkeep cfg f f' r.
Proof.
  intros Hr Hd r' Hne. split; [unfold row_of; by rewrite Hr|]. intros l Hl. by apply row_keep.
Qed.

Definition pkeep (f f' : file) (owb : own) : Prop :=
  match o_pend owb with
  | None => True
  | Some (off, n, bs) => forall o, off <= o < off + n -> f_data f' !! o = f_data f !! o
  end.
Lemma own_keep cfg f f' r owb :
  f_len f <= f_len f' -> rowkeep cfg f f' r -> o_r owb <> r -> pkeep f f' owb -> own_ok cfg f owb -> own_ok cfg f' owb.
Proof.
  intros Hlen Hk Hr Hp (H1 & H2 & H3). destruct (Hk _ Hr) as [E1 E2]. split; [congruence|]. split.
  - rewrite <- H1 in *. by apply E2.
  - unfold pkeep in Hp. destruct (o_pend owb) as [[[off n] bs]|]; [|done]. destruct H3 as (A1 & A2 & A3).
    split; [done|]. split.
    + rewrite <- A2 at 2. apply read_bytes_keep. intros o Ho. apply Hp. unfold len in A1. lia.
    + intros Hb. specialize (A3 Hb). lia.
Qed.

Lemma regs_same f f' i os a ow ow' :
  regs f i os -> f_rows f' = f_rows f -> f_woff f <= f_woff f' ->
  os !! a = Some (Some ow) -> o_ino ow = i -> o_ino ow' = i ->
  (match o_pend ow', o_pend ow with
   | None, _ => True
   | Some (off, n, _), Some (off', n', _) => off = off' /\ n = n'
   | Some _, None => False
   end) ->
  regs f' i (<[a := Some ow']> os).
Proof.
  intros [R1 R2] Hr Hw Ha Hi Hi' Hp.
  assert (Hs : forall off n, slots_avoid f off n -> slots_avoid f' off n).
  { intros off n H r c s. unfold row_of. rewrite Hr. apply H. }
  assert (Hx : forall b owb off n bs, <[a := Some ow']> os !! b = Some (Some owb) -> o_pend owb = Some (off, n, bs) ->
    exists owb0 bs0, os !! b = Some (Some owb0) /\ o_pend owb0 = Some (off, n, bs0) /\ (o_ino owb = i -> o_ino owb0 = i)).
  { intros b owb off n bs Hb Hpb. destruct (decide (b = a)) as [->|Hne].
    - rewrite list_lookup_insert in Hb by (by eapply lookup_lt_Some). injection Hb as <-. rewrite Hpb in Hp.
      destruct (o_pend ow) as [[[off' n'] bs']|] eqn:E; [|done]. destruct Hp as [-> ->]. exists ow, bs'. auto.
    - rewrite list_lookup_insert_ne in Hb by done. eauto. }
  split.
  - intros b owb off n bs Hb Hib Hpb. destruct (Hx _ _ _ _ _ Hb Hpb) as (ow0 & bs0 & A1 & A2 & A3).
    destruct (R1 _ _ _ _ _ A1 (A3 Hib) A2) as [B1 B2]. split; [lia|auto].
  - intros b c owb owc off n bs off' n' bs' Hbc Hb Hib Hpb Hc Hic Hpc.
    destruct (Hx _ _ _ _ _ Hb Hpb) as (ow0 & bs0 & A1 & A2 & A3).
    destruct (Hx _ _ _ _ _ Hc Hpc) as (ow1 & bs1 & B1 & B2 & B3).
    eapply (R2 b c); [done|exact A1|by apply A3|exact A2|exact B1|by apply B3|exact B2].
Qed.

Lemma regs_slot f f' i os a ow ow' r c g s :
  regs f i os -> f_rows f' = set_slot (f_rows f) r c g -> f_woff f' = f_woff f ->
  os !! a = Some (Some ow) -> o_ino ow = i -> o_ino ow' = i ->
  row_of f r !! c = Some s ->
  (s_sig (g s) = INVALID_SIG /\ o_pend ow' = o_pend ow) \/
  (o_pend ow' = None /\ exists bs, o_pend ow = Some (desc_off (s_desc (g s)), desc_klen (s_desc (g s)) + desc_vlen (s_desc (g s)), bs)) ->
  regs f' i (<[a := Some ow']> os).
Proof.
  intros [R1 R2] Hr Hw Ha Hi Hi' Hs Hcase.
  assert (Hx : forall b owb off n bs, <[a := Some ow']> os !! b = Some (Some owb) -> o_pend owb = Some (off, n, bs) ->
    exists owb0, os !! b = Some (Some owb0) /\ o_pend owb0 = Some (off, n, bs) /\ (o_ino owb = i -> o_ino owb0 = i)
      /\ (b = a -> s_sig (g s) = INVALID_SIG)).
  { intros b owb off n bs Hb Hpb. destruct (decide (b = a)) as [->|Hne].
    - rewrite list_lookup_insert in Hb by (by eapply lookup_lt_Some). injection Hb as <-.
      destruct Hcase as [[H1 H2]|[H1 H2]]; [|congruence]. exists ow. rewrite <- H2. auto.
    - rewrite list_lookup_insert_ne in Hb by done. exists owb. split; [done|]. split; [done|]. split; [done|]. done. }
  split.
  - intros b owb off n bs Hb Hib Hpb. destruct (Hx _ _ _ _ _ Hb Hpb) as (ow0 & A1 & A2 & A3 & A4).
    destruct (R1 _ _ _ _ _ A1 (A3 Hib) A2) as [B1 B2]. split; [lia|].
    intros r' c' s' Hs' Hsig. rewrite (row_of_set_slot f f' r c g r' Hr) in Hs'.
    destruct (decide (r' = r)) as [->|Hne]; [|by eapply B2].
    destruct (decide (c' = c)) as [->|Hnc].
    + rewrite list_lookup_alter, Hs in Hs'. cbn in Hs'. injection Hs' as <-.
      destruct Hcase as [[H1 H2]|[H1 (bs' & H2)]]; [done|].
      destruct (decide (b = a)) as [->|Hba]; [by destruct (Hsig (A4 eq_refl))|].
      eapply (R2 a b); [done|exact Ha|exact Hi|exact H2|exact A1|by apply A3|exact A2].
    + rewrite list_lookup_alter_ne in Hs' by done. by eapply B2.
  - intros b d owb owc off n bs off' n' bs' Hbc Hb Hib Hpb Hc Hic Hpc.
    destruct (Hx _ _ _ _ _ Hb Hpb) as (ow0 & A1 & A2 & A3 & _).
    destruct (Hx _ _ _ _ _ Hc Hpc) as (ow1 & B1 & B2 & B3 & _).
    eapply (R2 b d); [done|exact A1|by apply A3|exact A2|exact B1|by apply B3|exact B2].
Qed.

Lemma pkeep_same f f' owb : f_data f' = f_data f -> pkeep f f' owb.
Proof. intros E. unfold pkeep. destruct (o_pend owb) as [[[off n] bs]|]; [|done]. intros. by rewrite E. Qed.

(** Changing one slot of the owned row. *)
Lemma slot_step cfg x f L i os a ow u ow' c g o o' :
  file_rep cfg f L -> (o_r ow < NUM_ROWS)%nat -> own_ok cfg f ow -> o_ino ow = i -> os !! a = Some (Some ow) ->
  regs f i os ->
  let f' := apply_fupd u f in
  f_rows f' = set_slot (f_rows f) (o_r ow) c g ->
  f_len f' = f_len f -> f_woff f' = f_woff f -> f_data f' = f_data f -> f_cut f' = f_cut f ->
  f_magic f' = f_magic f -> f_version f' = f_version f ->
  f_wasted f' = f_wasted f -> f_ins f' = f_ins f -> f_rem f' = f_rem f ->
  o_l ow !! c = Some o -> o_l ow' = <[c := o']> (o_l ow) ->
  o_row ow' = alter g c (o_row ow) ->
  (forall s, o_row ow !! c = Some s -> slot_ok cfg f (o_r ow) s o -> slot_ok cfg f' (o_r ow) (g s) o' /\
     ((s_sig (g s) = INVALID_SIG /\ o_pend ow' = o_pend ow) \/
      (o_pend ow' = None /\ exists bs, o_pend ow = Some (desc_off (s_desc (g s)), desc_klen (s_desc (g s)) + desc_vlen (s_desc (g s)), bs)))) ->
  bytes_of (option_list o) + o_debt ow = bytes_of (option_list o') + o_debt ow' ->
  o_ci ow' + o_cr ow + len (option_list o) = o_ci ow + o_cr ow' + len (option_list o') ->
  o_ino ow' = i -> o_r ow' = o_r ow -> o_w ow' = true ->
  fstep cfg x f L i os a ow f' ow'.
Proof.
  intros Hf Hr Hown Hi Ha Hreg f' E1 E2 E3 E4 E5 E6 E7 E8 E9 E10 Ho Hl' Hrow' Hslot Hbytes Hcount Hi' Hr' Hw'.
  pose proof (own_row _ _ _ _ Hf Hr Hown) as HL. pose proof Hown as (O1 & O2 & O3).
  destruct (Forall2_lookup_r _ _ _ _ _ O2 Ho) as (s & Hs & Hok).
  destruct (Hslot s Hs Hok) as [Hok' Hcase]. rewrite <- O1 in Hs.
  assert (dkeep f f') as Hd by by apply dkeep_same.
  assert (file_rep cfg f' (upd_row (o_r ow) (o_l ow') L)) as Hf'.
  { rewrite Hl', <- HL. eapply file_rep_slot; [done|done|exact E1|by apply ext_same|exact Hs|exact Hok']. }
  assert (row_of f' (o_r ow) = o_row ow') as Hrow.
  { rewrite (row_of_set_slot f f' (o_r ow) c g _ E1), decide_True by done. by rewrite Hrow', O1. }
  split.
  - split; [done|]. split; [done|]. split; [done|]. lia.
  - done.
  - done.
  - by eapply rowkeep_slot.
  - split; [by rewrite Hr'|]. split.
    + pose proof (file_rep_row _ _ _ _ Hf' Hr) as H. rewrite upd_row_eq, Hrow in H. by rewrite Hr'.
    + destruct Hcase as [[_ ->]|[-> _]]; [|done]. unfold len in *. rewrite E4, E2. exact O3.
  - eapply regs_slot; eauto.
  - intros b owb Hb Hob Hib Hrb Hownb. eapply own_keep; [|by eapply rowkeep_slot|exact Hrb|by apply pkeep_same|done]. lia.
  - intros [A1 A2]. unfold cacct.
    assert (o_l ow !! c = Some o) as HLo by done. rewrite <- HL in HLo.
    pose proof (live_insert L (o_r ow) c o o' Hr HLo) as Hlv.
    pose proof (count_insert L (o_r ow) c o o' Hr HLo) as Hct.
    rewrite Hl', <- HL. 
    pose proof (tot_insert o_debt i os a _ (Some ow') Ha) as T1.
    pose proof (tot_insert o_ci i os a _ (Some ow') Ha) as T2.
    pose proof (tot_insert o_cr i os a _ (Some ow') Ha) as T3.
    cbn [part] in T1, T2, T3. rewrite !decide_True in T1, T2, T3 by done.
    rewrite E3, E8, E9, E10. split; [lia|]. intros Hx. destruct (A2 Hx) as [A3 A4]. lia.
  - done.
Qed.

(** Changing counters only, or writing a byte of the region. *)
Lemma plain_step cfg x f L i os a ow u ow' :
  file_rep cfg f L -> (o_r ow < NUM_ROWS)%nat -> own_ok cfg f ow -> o_ino ow = i -> os !! a = Some (Some ow) ->
  regs f i os ->
  let f' := apply_fupd u f in
  f_rows f' = f_rows f -> dkeep f f' -> f_woff f' = f_woff f -> f_cut f' = f_cut f ->
  f_magic f' = f_magic f -> f_version f' = f_version f ->
  o_l ow' = o_l ow -> o_row ow' = o_row ow ->
  (match o_pend ow', o_pend ow with
   | None, _ => True
   | Some (off, n, _), Some (off', n', _) => off = off' /\ n = n'
   | Some _, None => False
   end) ->
  (match o_pend ow' with
   | None => True
   | Some (off, n, bs) =>
     len bs <= n /\ read_bytes (f_data f') off (length bs) = bs /\
     (bs <> [] -> HEADER_SIZE + off + len bs <= f_len f')
   end) ->
  (forall b owb, b <> a -> os !! b = Some (Some owb) -> o_ino owb = i -> pkeep f f' owb) ->
  f_wasted f' + o_debt ow' = f_wasted f + o_debt ow ->
  f_ins f' + o_ci ow' + (f_rem f + o_cr ow) = f_ins f + o_ci ow + (f_rem f' + o_cr ow') ->
  o_ino ow' = i -> o_r ow' = o_r ow -> o_w ow' = true ->
  fstep cfg x f L i os a ow f' ow'.
Proof.
  intros Hf Hr Hown Hi Ha Hreg f' E1 Hd E3 E5 E6 E7 Hl' Hrow' Hp Hp2 Hpk Hbytes Hcount Hi' Hr' Hw'.
  pose proof (own_row _ _ _ _ Hf Hr Hown) as HL. pose proof Hown as (O1 & O2 & O3).
  pose proof Hd as (D1 & D2 & D3).
  assert (forall r', upd_row (o_r ow) (o_l ow') L r' = L r') as HLL.
  { intros r'. rewrite Hl', <- HL. destruct (decide (r' = o_r ow)) as [->|]; [by rewrite upd_row_eq|by rewrite upd_row_ne]. }
  assert (file_rep cfg f' L) as Hf0 by by eapply file_rep_keep.
  assert (file_rep cfg f' (upd_row (o_r ow) (o_l ow') L)) as Hf'.
  { eapply file_rep_pointwise; [|exact Hf0]. intros. by rewrite HLL. }
  assert (row_of f' (o_r ow) = o_row ow') as Hrow by (unfold row_of in *; rewrite E1; congruence).
  split.
  - split; [done|]. split; [done|]. split; [done|]. lia.
  - done.
  - done.
  - by eapply rowkeep_same.
  - split; [by rewrite Hr'|]. split; [|done].
    pose proof (file_rep_row _ _ _ _ Hf' Hr) as H. rewrite upd_row_eq, Hrow in H. by rewrite Hr'.
  - eapply regs_same; eauto.
  - intros b owb Hb Hob Hib Hrb Hownb. eapply own_keep; [done|by eapply rowkeep_same|exact Hrb| |done]. by eapply Hpk.
  - intros [A1 A2]. unfold cacct.
    rewrite (live_ext _ L) by (intros; by rewrite HLL). rewrite (count_ext _ L) by (intros; by rewrite HLL).
    pose proof (tot_insert o_debt i os a _ (Some ow') Ha) as T1.
    pose proof (tot_insert o_ci i os a _ (Some ow') Ha) as T2.
    pose proof (tot_insert o_cr i os a _ (Some ow') Ha) as T3.
    cbn [part] in T1, T2, T3. rewrite !decide_True in T1, T2, T3 by done.
    rewrite E3. split; [lia|]. intros Hx. destruct (A2 Hx) as [A3 A4]. lia.
  - done.
Qed.

Lemma ustep_fstep cfg x f L i os a ow u ow' :
  file_rep cfg f L -> (o_r ow < NUM_ROWS)%nat -> own_ok cfg f ow -> o_ino ow = i -> os !! a = Some (Some ow) ->
  regs f i os -> ustep cfg i (o_r ow) ow u ow' ->
  fstep cfg x f L i os a ow (apply_fupd u f) ow'.
Proof.
  intros Hf Hr Hown Hi Ha Hreg Hu. pose proof Hown as (O1 & O2 & O3).
  remember (o_r ow) as r eqn:Er.
  destruct Hu as [row l off n bs d ci cr b Hn|row l p d ci cr c ds Hc|row l p d ci cr c k old v off Hc Hp Hd
    |row l p d ci cr c s k v off Hc Hs Hds Hp Hd Hrow|row l p d ci cr c k old Hc|row l p d ci cr|row l p d ci cr|row l p d ci cr n];
    cbn [o_r o_ino o_w o_row o_l o_pend o_debt o_ci o_cr] in *.
  - (* a byte *)
    destruct O3 as (P1 & P2 & P3).
    destruct (rg_in _ _ _ Hreg _ _ _ _ _ Ha eq_refl eq_refl) as [G1 G2].
    assert (f_rows (apply_fupd (UPut (off + len bs) b) f) = f_rows f /\ f_woff (apply_fupd (UPut (off + len bs) b) f) = f_woff f /\
      f_wasted (apply_fupd (UPut (off + len bs) b) f) = f_wasted f /\ f_ins (apply_fupd (UPut (off + len bs) b) f) = f_ins f /\
      f_rem (apply_fupd (UPut (off + len bs) b) f) = f_rem f /\ f_cut (apply_fupd (UPut (off + len bs) b) f) = f_cut f /\
      f_magic (apply_fupd (UPut (off + len bs) b) f) = f_magic f /\ f_version (apply_fupd (UPut (off + len bs) b) f) = f_version f /\
      f_len (apply_fupd (UPut (off + len bs) b) f) = N.max (f_len f) (HEADER_SIZE + (off + len bs) + 1) /\
      f_data (apply_fupd (UPut (off + len bs) b) f) = <[off + len bs := b]> (f_data f)) as (A1&A2&A3&A4&A5&A6&A7&A8&A9&A10).
    { by destruct f. }
    apply plain_step; cbn [o_r o_ino o_w o_row o_l o_pend o_debt o_ci o_cr]; auto.
    + split; [rewrite A9; lia|]. split; [lia|]. intros r' c' s' o Hs' Hsig Ho. rewrite A10.
      apply lookup_insert_ne. intros <-. destruct (G2 _ _ _ Hs' Hsig); lia.
    + rewrite A9, A10. split; [rewrite len_app, len_cons, len_nil; lia|]. split.
      * rewrite app_length. cbn [length]. rewrite Nat.add_1_r.
        assert (forall dd (bs : bytes) off, read_bytes dd off (S (length bs)) = read_bytes dd off (length bs) ++ [default x00 (dd !! (off + len bs))]) as Happ.
        { clear. intros dd bs. induction bs as [|b bs IH]; intros off.
          - cbn [read_bytes length app]. by rewrite len_nil, N.add_0_r.
          - cbn [length]. change (read_bytes dd off (S (S (length bs)))) with (default x00 (dd !! off) :: read_bytes dd (off + 1) (S (length bs))).
            rewrite IH, len_cons. replace (off + 1 + len bs) with (off + (1 + len bs)) by lia. done. }
        rewrite Happ, lookup_insert. cbn [default]. f_equal. etrans; [|exact P2].
        apply read_bytes_keep. intros o Ho. apply lookup_insert_ne. unfold len. lia.
      * intros _. rewrite len_app, len_cons, len_nil. lia.
    + intros b' owb Hb Hob Hib. unfold pkeep. destruct (o_pend owb) as [[[off' n'] bs']|] eqn:Ep; [|done].
      intros o Ho. rewrite A10. apply lookup_insert_ne. intros <-.
      destruct (rg_dis _ _ _ Hreg a b' _ _ _ _ _ _ _ _ (not_eq_sym Hb) Ha eq_refl eq_refl Hob Hib Ep) as [H|H]; lia.
    + rewrite A3. done.
    + rewrite A4, A5. lia.
  - (* descriptor of a free slot *)
    apply (slot_step cfg x f L i os a _ _ _ c (fun s => Slot (s_sig s) ds) None None); cbn [o_r o_ino o_w o_row o_l o_pend o_debt o_ci o_cr];
      try done; try (by destruct f); try (by rewrite <- Er); try lia.
    + by rewrite list_insert_id.
    + intros s Hs Hok. cbn in Hok |- *. split; [done|]. left. done.
  - (* descriptor of a live slot *)
    destruct (full_read cfg f _ off k v Hown Hp) as (F1 & F2 & F3 & F4).
    destruct (rg_in _ _ _ Hreg _ _ _ _ _ Ha eq_refl (proj1 Hp)) as [G1 G2].
    apply (slot_step cfg x f L i os a _ _ _ c (fun s => Slot (s_sig s) (pack_desc (len k) (len v) off)) (Some (k, old)) (Some (k, v)));
      cbn [o_r o_ino o_w o_row o_l o_pend o_debt o_ci o_cr]; try done; try (by destruct f); try (by rewrite <- Er); try lia.
    + intros s Hs Hok. split.
      * destruct Hok as (B1 & B2 & B3 & B4 & B5). cbn [slot_ok s_sig s_desc]. repeat split; auto.
        -- eapply read_kv_keep; [exact F1|by destruct f|]. intros. by destruct f.
        -- rewrite F2. by destruct f.
      * right. cbn [s_desc]. rewrite F2, F3, F4. split; [done|]. eexists. apply Hp.
    + rewrite !bytes_some. lia.
  - (* signature of a new entry *)
    destruct (full_read cfg f _ off k v Hown Hp) as (F1 & F2 & F3 & F4).
    destruct (rg_in _ _ _ Hreg _ _ _ _ _ Ha eq_refl (proj1 Hp)) as [G1 G2].
    destruct Hp as (Hp1 & Hp2 & Hp3 & Hp4 & Hp5).
    apply (slot_step cfg x f L i os a _ _ _ c (fun s => Slot (ph_sig (hashk cfg k)) (s_desc s)) None (Some (k, v)));
      cbn [o_r o_ino o_w o_row o_l o_pend o_debt o_ci o_cr]; try done; try (by destruct f); try (by rewrite <- Er); try lia.
    + intros s' Hs' Hok. assert (s' = s) as -> by congruence. cbn [slot_ok s_sig s_desc]. rewrite Hds, F2, F3, F4. split.
      * repeat split; auto.
        -- eapply read_kv_keep; [exact F1|by destruct f|]. intros. by destruct f.
        -- by destruct f.
      * right. split; [done|]. eexists. exact Hp1.
    + rewrite bytes_some. change (bytes_of (option_list None)) with 0. lia.
    + change (len (option_list (@None kv))) with 0. change (len (option_list (Some (k, v)))) with 1. lia.
  - (* removal *)
    apply (slot_step cfg x f L i os a _ _ _ c (fun s => Slot INVALID_SIG (s_desc s)) (Some (k, old)) None);
      cbn [o_r o_ino o_w o_row o_l o_pend o_debt o_ci o_cr]; try done; try (by destruct f); try (by rewrite <- Er); try lia.
    + intros s' Hs' Hok. split; [done|]. left. done.
    + rewrite bytes_some. change (bytes_of (option_list None)) with 0. lia.
    + change (len (option_list (@None kv))) with 0. change (len (option_list (Some (k, old)))) with 1. lia.
  - apply plain_step; cbn [o_r o_ino o_w o_row o_l o_pend o_debt o_ci o_cr]; try done; try (by destruct f); try (by rewrite <- Er); try (destruct f; cbn; lia).
    all: try (apply dkeep_same; by destruct f).
    all: try (by destruct p as [[[? ?] ?]|]).
    all: try (destruct p as [[[? ?] ?]|]; [|done]; by destruct f).
    all: intros; apply pkeep_same; by destruct f.
  - apply plain_step; cbn [o_r o_ino o_w o_row o_l o_pend o_debt o_ci o_cr]; try done; try (by destruct f); try (by rewrite <- Er); try (destruct f; cbn; lia).
    all: try (apply dkeep_same; by destruct f).
    all: try (by destruct p as [[[? ?] ?]|]).
    all: try (destruct p as [[[? ?] ?]|]; [|done]; by destruct f).
    all: intros; apply pkeep_same; by destruct f.
  - apply plain_step; cbn [o_r o_ino o_w o_row o_l o_pend o_debt o_ci o_cr]; try done; try (by destruct f); try (by rewrite <- Er); try (destruct f; cbn; lia).
    all: try (apply dkeep_same; by destruct f).
    all: try (by destruct p as [[[? ?] ?]|]).
    all: try (destruct p as [[[? ?] ?]|]; [|done]; by destruct f).
    all: intros; apply pkeep_same; by destruct f.
Qed.

(** Allocation. *)
Lemma alloc_fstep cfg x f L i os a ow n :
  file_rep cfg f L -> (o_r ow < NUM_ROWS)%nat -> own_ok cfg f ow -> o_ino ow = i -> os !! a = Some (Some ow) ->
  regs f i os -> o_w ow = true -> o_pend ow = None ->
  fstep cfg x f L i os a ow (alloc_file n f)
    (Own i (o_r ow) true (o_row ow) (o_l ow) (Some (f_woff f, n, [])) (o_debt ow + n) (o_ci ow) (o_cr ow)).
Proof.
  intros Hf Hr Hown Hi Ha Hreg Hw Hpn. pose proof Hown as (O1 & O2 & O3).
  pose proof (own_row _ _ _ _ Hf Hr Hown) as HL.
  set (ow' := Own _ _ _ _ _ _ _ _ _). set (f' := alloc_file n f).
  assert (f_rows f' = f_rows f /\ f_woff f' = f_woff f + n /\ f_wasted f' = f_wasted f
     /\ f_ins f' = f_ins f /\ f_rem f' = f_rem f /\ f_cut f' = f_cut f /\ f_magic f' = f_magic f
     /\ f_version f' = f_version f /\ f_len f' = f_len f /\ f_data f' = f_data f)
    as (A1&A2&A3&A4&A5&A6&A7&A8&A9&A10).
  { subst f'. by destruct f. }
  assert (dkeep f f') as Hd.
  { split; [lia|]. split; [lia|]. intros. by rewrite A10. }
  assert (forall r', upd_row (o_r ow) (o_l ow') L r' = L r') as HLL.
  { intros r'. cbn [ow' o_l]. rewrite <- HL. destruct (decide (r' = o_r ow)) as [->|]; [by rewrite upd_row_eq|by rewrite upd_row_ne]. }
  assert (file_rep cfg f' L) as Hf0 by by eapply file_rep_keep.
  assert (file_rep cfg f' (upd_row (o_r ow) (o_l ow') L)) as Hf'.
  { eapply file_rep_pointwise; [|exact Hf0]. intros. by rewrite HLL. }
  assert (Hrow : forall r, row_of f' r = row_of f r) by (intros; unfold row_of; by rewrite A1).
  (* entries lie below the allocated space *)
  assert (Hslots : slots_avoid f' (f_woff f) n).
  { intros r c s Hs Hsig. rewrite Hrow in Hs. left.
    destruct (decide (r < NUM_ROWS)%nat) as [Hlt|Hge].
    - pose proof (file_rep_row _ _ _ _ Hf Hlt) as H2. destruct (Forall2_lookup_l _ _ _ _ _ H2 Hs) as ([[k v]|] & _ & Hok).
      + destruct Hok as (_ & _ & _ & B4 & B5). pose proof (read_kv_sizes _ _ _ _ B4) as [<- <-]. lia.
      + cbn in Hok. congruence.
    - unfold row_of in Hs. destruct Hf as [Hl _]. rewrite (lookup_ge_None_2 (f_rows f) r) in Hs by lia. done. }
  split.
  - split; [done|]. split; [done|]. split; [done|]. lia.
  - done.
  - done.
  - by eapply rowkeep_same.
  - split; [cbn; by rewrite Hrow|]. split; [|cbn [o_pend ow']; rewrite len_nil; split; [lia|split; done]].
    pose proof (file_rep_row _ _ _ _ Hf' Hr) as H. rewrite upd_row_eq, Hrow, O1 in H. exact H.
  - destruct Hreg as [R1 R2].
    assert (Hin : forall b owb off m bs, b <> a -> <[a := Some ow']> os !! b = Some (Some owb) -> o_ino owb = i ->
       o_pend owb = Some (off, m, bs) -> os !! b = Some (Some owb) /\ off + m <= f_woff f /\ slots_avoid f off m).
    { intros b owb off m bs Hb Hob Hib Hpb. rewrite list_lookup_insert_ne in Hob by done. split; [done|]. by eapply R1. }
    split.
    + intros b owb off m bs Hb Hib Hpb. destruct (decide (b = a)) as [->|Hne].
      * rewrite list_lookup_insert in Hb by (by eapply lookup_lt_Some). injection Hb as <-. cbn in Hpb.
        injection Hpb as <- <- <-. split; [lia|done].
      * destruct (Hin _ _ _ _ _ Hne Hb Hib Hpb) as (_ & H1 & H2). split; [lia|].
        intros r c s. rewrite Hrow. apply H2.
    + intros b c owb owc off m bs off' m' bs' Hbc Hb Hib Hpb Hc Hic Hpc.
      destruct (decide (b = a)) as [->|Hba].
      * rewrite list_lookup_insert in Hb by (by eapply lookup_lt_Some). injection Hb as <-. cbn in Hpb.
        injection Hpb as <- <- <-. destruct (Hin _ _ _ _ _ (not_eq_sym Hbc) Hc Hic Hpc) as (_ & H1 & _). right. lia.
      * destruct (decide (c = a)) as [->|Hca].
        -- rewrite list_lookup_insert in Hc by (by eapply lookup_lt_Some). injection Hc as <-. cbn in Hpc.
           injection Hpc as <- <- <-. destruct (Hin _ _ _ _ _ Hba Hb Hib Hpb) as (_ & H1 & _). left. lia.
        -- destruct (Hin _ _ _ _ _ Hba Hb Hib Hpb) as (H1 & _). destruct (Hin _ _ _ _ _ Hca Hc Hic Hpc) as (H2 & _).
           by eapply (R2 b c).
  - intros b owb Hb Hob Hib Hrb Hownb. eapply (own_keep cfg f f'); [lia|by eapply rowkeep_same|exact Hrb|by apply pkeep_same|done].
  - intros [B1 B2]. unfold cacct.
    rewrite (live_ext _ L) by (intros; by rewrite HLL). rewrite (count_ext _ L) by (intros; by rewrite HLL).
    pose proof (tot_insert o_debt i os a _ (Some ow') Ha) as T1.
    pose proof (tot_insert o_ci i os a _ (Some ow') Ha) as T2.
    pose proof (tot_insert o_cr i os a _ (Some ow') Ha) as T3.
    cbn [part] in T1, T2, T3. rewrite !decide_True in T1, T2, T3 by done. cbn [ow' o_debt o_ci o_cr] in T1, T2, T3.
    rewrite A2, A3, A4, A5. split; [lia|]. intros Hx. destruct (B2 Hx) as [B3 B4]. lia.
  - done.
Qed.
