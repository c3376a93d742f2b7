(** [get_or_create] and [replace] with an expected value are atomic (C35). *)
From Verif Require Import Base Hashing HashingProofs Fs Shard Router RouterPure Wpc Spec FileRep RowOps
  Compact Inv ShardOps Split Insert Open Merge Create Store Limits StoreRefine Kv Lists Queues Api Hist KvSpec
  HistInv KeySpace PlainSpec Plain Check ThmStore Conc ConcSpec ConcLocal ConcFile ConcTree
  ConcInv ConcStep ConcRow ConcStruct ConcMain ConcLin ThmConc.
Implicit Types (cfg : config) (s : store) (m : umap) (es : list cevent) (c : cstate) (n : nat) (hs : list choice).

Lemma view_exists (M : kvmap) : exists m, view M m.
Proof.
  induction M as [|i v M Hi (m & IH)] using map_ind.
  - exists ∅. intros k. by rewrite !lookup_empty.
  - destruct (decide (i = user_key (take (length i - 1) i))) as [E|Hn].
    + rewrite E. eexists. by apply view_insert.
    + exists m. intros k. rewrite lookup_insert_ne; [apply IH|]. intros ->. apply Hn. unfold user_key. f_equal.
      rewrite app_length. cbn [length]. replace (length k + 1 - 1)%nat with (length k) by lia. by rewrite take_app.
Qed.

(** ** A contest *)
(** Some calls ([mine]) race for something that is [open] and can be [won] once. *)
Section contest.
  Context (cfg : config) (G : call -> Prop) (mine : call -> bool) (won : res reply -> bool) (opn : umap -> bool)
          (okres : umap -> res reply -> Prop).
  Context (Hmine : forall m cl r m', G cl -> mine cl = true -> plain_call cfg m cl r m' ->
             okres m' r /\ if won r then opn m = true /\ opn m' = false else opn m' = opn m).
  Context (Hother : forall m cl r m', G cl -> mine cl = false -> plain_call cfg m cl r m' -> opn m' = opn m).
  Context (Hstab : forall m cl r m' r', G cl -> plain_call cfg m cl r m' -> okres m r' -> okres m' r').

  Definition wins (l : list (call * res reply)) : nat := length (List.filter (fun x => mine (fst x) && won (snd x)) l).
  Definition agree (m : umap) (P : gmap nat phase) (Q : gmap nat call) (W : gset nat) : Prop :=
    (forall a, match P !! a with
     | None => Q !! a = None
     | Some (PCalled cl) => Q !! a = Some cl
     | Some (PDone r) => exists cl, Q !! a = Some cl /\ (mine cl = true -> okres m r)
     end) /\
    (forall a cl, Q !! a = Some cl -> G cl) /\
    (forall a, a ∈ W <-> exists cl r, Q !! a = Some cl /\ mine cl = true /\ P !! a = Some (PDone r) /\ won r = true).

  Lemma contest m P es m' P' : lrun (plain_call cfg) m P es m' P' -> forall (Q : gmap nat call) (W : gset nat),
    agree m P Q W -> (forall a cl, EvCall a cl ∈ es -> G cl) ->
    exists W' : gset nat, agree m' P' (pending Q es) W' /\
      (wins (returned Q es) + size W' = size W + (if opn m && negb (opn m') then 1 else 0))%nat /\
      (opn m' = true -> opn m = true) /\
      (forall cl r, (cl, r) ∈ returned Q es -> mine cl = true -> okres m' r) /\
      (forall r, okres m r -> okres m' r).
  Proof.
    induction 1 as [m P|m P a cl es m' P' Ha Hr IH|m P a cl r m1 es m' P' Ha Hs Hr IH|m P a r es m' P' Ha Hr IH]; intros Q W HA HG.
    - exists W. split; [done|]. cbn [returned]. split; [|split; [done|split; [|done]]].
      + cbn. destruct (opn m); cbn; lia.
      + intros cl r Hin. by apply elem_of_nil in Hin.
    - destruct HA as (A1 & A2 & A3). cbn [returned pending].
      assert (Hq : Q !! a = None) by (specialize (A1 a); by rewrite Ha in A1).
      destruct (IH (<[a := cl]> Q) W) as (W' & I1 & I2).
      + split; [|split].
        * intros b. destruct (decide (b = a)) as [->|Hne]; [by rewrite !lookup_insert|rewrite !lookup_insert_ne by done; apply A1].
        * intros b cl' Hb. apply lookup_insert_Some in Hb as [[_ <-]|[_ Hb]]; [|by eapply A2]. apply (HG a). apply elem_of_cons. by left.
        * intros b. rewrite A3. destruct (decide (b = a)) as [->|Hne]; [|by rewrite !lookup_insert_ne].
          rewrite !lookup_insert, Hq. split; [intros (? & ? & ? & _); done|intros (? & ? & _ & _ & ? & _); done].
      + intros b cl' Hin. apply (HG b). apply elem_of_cons. by right.
      + exists W'. done.
    - destruct HA as (A1 & A2 & A3).
      pose proof (A1 a) as Hq. rewrite Ha in Hq. pose proof (A2 _ _ Hq) as HGc.
      assert (Hb1 : forall b cl' r', b <> a -> P !! b = Some (PDone r') -> Q !! b = Some cl' -> mine cl' = true -> okres m1 r').
      { intros b cl' r' Hne Hb Hqb Hmb. specialize (A1 b). rewrite Hb in A1. destruct A1 as (cl2 & E2 & A1). eapply Hstab; [exact HGc|exact Hs|]. apply A1. congruence. }
      set (W1 := if mine cl && won r then {[a]} ∪ W else W).
      destruct (IH Q W1) as (W' & I1 & I2 & I3 & I4 & I5).
      + split; [|split; [done|]].
        * intros b. destruct (decide (b = a)) as [->|Hne].
          -- rewrite lookup_insert. exists cl. split; [done|]. intros Hm. by apply (Hmine _ _ _ _ HGc Hm Hs).
          -- rewrite lookup_insert_ne by done. specialize (A1 b). destruct (P !! b) as [[clb|rb]|] eqn:Eb; [exact A1| |exact A1].
             destruct A1 as (cl2 & E2 & A1). exists cl2. split; [done|]. intros Hm2. exact (Hb1 b cl2 _ Hne Eb E2 Hm2).
        * intros b. unfold W1. destruct (decide (b = a)) as [->|Hne].
          -- rewrite lookup_insert, Hq. destruct (mine cl && won r) eqn:Em.
             ++ apply andb_true_iff in Em as [E1 E2]. split; [intros _; by exists cl, r|]. intros _. apply elem_of_union_l. by apply elem_of_singleton.
             ++ rewrite A3. split; [intros (? & ? & _ & _ & Hx & _); congruence|]. intros (cl2 & r2 & E1 & E2 & E3 & E4).
                assert (cl2 = cl) as -> by congruence. assert (r2 = r) as -> by congruence. by rewrite E2, E4 in Em.
          -- rewrite lookup_insert_ne by done. rewrite <- A3. destruct (mine cl && won r); [|reflexivity]. rewrite elem_of_union, elem_of_singleton. tauto.
      + done.
      + exists W'. split; [done|].
        assert (a ∉ W) as Hnw by (rewrite A3; intros (? & ? & _ & _ & Hx & _); congruence).
        assert (Hsz : size W1 = (size W + if mine cl && won r then 1 else 0)%nat).
        { unfold W1. destruct (mine cl && won r); [|lia]. rewrite size_union by (by apply disjoint_singleton_l). rewrite size_singleton. lia. }
        assert (Hop : if mine cl && won r then opn m = true /\ opn m1 = false else opn m1 = opn m).
        { destruct (mine cl) eqn:Em; cbn [andb]; [|by eapply Hother]. by apply (Hmine _ _ _ _ HGc Em Hs). }
        split; [|split; [|split; [done|]]].
        * rewrite I2, Hsz. destruct (mine cl && won r).
          -- destruct Hop as [-> Hop]. rewrite Hop in *. destruct (opn m'); [by specialize (I3 eq_refl)|]. cbn. lia.
          -- rewrite Hop. lia.
        * intros E. specialize (I3 E). destruct (mine cl && won r); [by apply Hop|congruence].
        * intros r' Hr'. apply I5. by eapply Hstab.
    - destruct HA as (A1 & A2 & A3). pose proof (A1 a) as Hq. rewrite Ha in Hq. destruct Hq as (cl & Hq & Hok).
      cbn [returned pending]. rewrite Hq. destruct (IH (delete a Q) (W ∖ {[a]})) as (W' & I1 & I2 & I3 & I4 & I5).
      + split; [|split].
        * intros b. destruct (decide (b = a)) as [->|Hne]; [by rewrite !lookup_delete|rewrite !lookup_delete_ne by done; apply A1].
        * intros b cl' Hb. apply lookup_delete_Some in Hb as [_ Hb]. by eapply A2.
        * intros b. destruct (decide (b = a)) as [->|Hne].
          -- rewrite !lookup_delete. split; [|intros (? & ? & ? & _); done]. intros [_ Hx]%elem_of_difference. destruct Hx. by apply elem_of_singleton.
          -- rewrite !lookup_delete_ne by done. rewrite <- A3. rewrite elem_of_difference, elem_of_singleton. tauto.
      + intros b cl' Hin. apply (HG b). apply elem_of_cons. by right.
      + exists W'. split; [done|]. split; [|split; [done|split; [|done]]].
        * assert (Hsz : size W = (size (W ∖ {[a]}) + if mine cl && won r then 1 else 0)%nat).
          { destruct (mine cl && won r) eqn:Em.
            - apply andb_true_iff in Em as [E1 E2]. assert (a ∈ W) by (apply A3; by exists cl, r).
              rewrite size_difference by (by apply singleton_subseteq_l). rewrite size_singleton. assert (size W <> 0)%nat; [|lia].
              intros E. apply size_empty_iff in E. apply (E a) in H. by apply not_elem_of_empty in H.
            - assert (a ∉ W) as Hnw; [|rewrite difference_disjoint_L by (by apply disjoint_singleton_r); lia]. rewrite A3. intros (cl2 & r2 & E1 & E2 & E3 & E4).
              assert (cl2 = cl) as -> by congruence. assert (r2 = r) as -> by congruence. by rewrite E2, E4 in Em. }
          unfold wins in *. cbn [List.filter fst snd]. destruct (mine cl && won r); cbn [length]; lia.
        * intros cl' r' Hin Hm'. apply elem_of_cons in Hin as [[= -> ->]|Hin]; [|by eapply I4]. apply I5. by apply Hok.
  Qed.
End contest.

Lemma plain_call_other cfg m cl r m' k : plain_call cfg m cl r m' -> (forall o, cl = CPlain o -> op_key o <> k) -> m' !! k = m !! k.
Proof.
  unfold plain_call. destruct cl as [o|tid o|lk lc|qk qc|b bc]; cbn [plain_step]; try (by intros ->).
  intros [-> _] Hk. specialize (Hk o eq_refl).
  destruct o as [k'|k'|k'|k' v|k' v ex|k' v]; cbn [op_key] in Hk; cbn [spec_op fst]; [done|done|by apply lookup_delete_ne| | |].
  - destruct (rejected cfg k' v); [done|]. by apply lookup_insert_ne.
  - destruct (rejected cfg k' v); [done|]. destruct (m !! k') as [cur|]; [|done]. destruct (expected_ok ex cur); [|done]. by apply lookup_insert_ne.
  - destruct (rejected cfg k' v); [done|]. destruct (m !! k') as [cur|]; [done|]. by apply lookup_insert_ne.
Qed.
Lemma on_key_dec (cl : call) (k : bytes) : (exists o, cl = CPlain o /\ op_key o = k) \/ (forall o, cl = CPlain o -> op_key o <> k).
Proof.
  destruct cl as [o|tid o|lk lc|qk qc|b bc]; try (right; done). destruct (decide (op_key o = k)) as [E|Hn]; [left; eauto|right].
  intros o' [= <-]. done.
Qed.
Definition reads_only (o : op) : Prop := match o with OGet _ | OContains _ => True | _ => False end.
Lemma plain_call_reads cfg m o r m' : plain_call cfg m (CPlain o) r m' -> reads_only o -> m' = m.
Proof. intros [-> _]. by destruct o. Qed.

Lemma contest_run cfg (G : call -> Prop) (mine : call -> bool) (won : res reply -> bool) (opn : umap -> bool) (okres : umap -> res reply -> Prop) s n hs es c m :
  (forall m cl r m', G cl -> mine cl = true -> plain_call cfg m cl r m' ->
     okres m' r /\ if won r then opn m = true /\ opn m' = false else opn m' = opn m) ->
  (forall m cl r m', G cl -> mine cl = false -> plain_call cfg m cl r m' -> opn m' = opn m) ->
  (forall m cl r m' r', G cl -> plain_call cfg m cl r m' -> okres m r' -> okres m' r') ->
  live cfg s -> (forall k, get cfg s k = Ok (m !! k)) ->
  crun cfg calm (conc s n) hs es c -> (forall a cl, EvCall a cl ∈ es -> G cl) ->
  exists m', (wins mine won (returned ∅ es) <= if opn m && negb (opn m') then 1 else 0)%nat /\
    (pending ∅ es = ∅ -> wins mine won (returned ∅ es) = if opn m && negb (opn m') then 1 else 0)%nat /\
    (forall cl r, (cl, r) ∈ returned ∅ es -> mine cl = true -> okres m' r).
Proof.
  intros H1 H2 H3 Hl Hg Hr HG. destruct (C34_linearizable cfg s n hs es c m Hl Hg Hr) as (m' & P & HL & _).
  destruct (contest cfg G mine won opn okres H1 H2 H3 _ _ _ _ _ HL ∅ ∅) as (W & (A1 & A2 & A3) & I2 & _ & I4 & _); [|done|].
  { split; [|split].
    - intros a. by rewrite !lookup_empty.
    - intros a cl Ha. by rewrite lookup_empty in Ha.
    - intros a. rewrite !lookup_empty. split; [intros Hx; by apply not_elem_of_empty in Hx|intros (? & ? & ? & _); done]. }
  change (size (∅ : gset nat)) with 0%nat in I2.
  exists m'. split; [lia|]. split; [|done]. intros Hp. assert (W = ∅) as ->; [|change (size (∅ : gset nat)) with 0%nat in I2; lia].
  apply set_eq. intros a. rewrite A3, Hp. split; [intros (? & ? & Hx & _); by rewrite lookup_empty in Hx|intros Hx; by apply not_elem_of_empty in Hx].
Qed.
Lemma live_map cfg s : live cfg s -> exists m, forall k, get cfg s k = Ok (m !! k).
Proof.
  intros Hl. destruct (live_inv _ _ Hl) as (x & M & HI). destruct (view_exists M) as [m Hm]. exists m.
  intros k. unfold get. by rewrite (get_raw_ok _ _ _ _ _ HI), Hm.
Qed.

(** ** C35 *)
Definition is_goc (k : bytes) (cl : call) : bool :=
  match cl with CPlain (OGetOrCreate k' _) => bool_decide (k' = k) | _ => false end.
Definition created_new (r : res reply) : bool :=
  match r with Ok (YOut (RGetOrCreate (GCreated _))) => true | _ => false end.
(** How many of the calls selected by [f] returned with a result selected by [g]. *)
Definition how_many (f : call -> bool) (g : res reply -> bool) (l : list (call * res reply)) : nat :=
  length (List.filter (fun y => f (fst y) && g (snd y)) l).

(** Any number of threads call [get_or_create] on a key that was absent (and read it, and make
    any calls on other keys): at most one is told that it created the value, all are given the
    same value, which is that of the creator; and if all calls have returned and one of them did
    not fail, then exactly one created it. *)
Theorem C35_get_or_create_is_atomic : forall cfg s n hs es c k,
  live cfg s -> get cfg s k = Ok None -> crun cfg calm (conc s n) hs es c ->
  (forall a o, EvCall a (CPlain o) ∈ es -> op_key o = k -> reads_only o \/ exists v, o = OGetOrCreate k v) ->
  (how_many (is_goc k) created_new (returned ∅ es) <= 1)%nat /\
  (exists v0, forall v r, (CPlain (OGetOrCreate k v), r) ∈ returned ∅ es ->
     r = Ok (YOut (RGetOrCreate (GCreated v0))) \/ r = Ok (YOut (RGetOrCreate (GExisting v0))) \/ exists e, r = Err e) /\
  (pending ∅ es = ∅ -> (exists v y, (CPlain (OGetOrCreate k v), Ok y) ∈ returned ∅ es) ->
     how_many (is_goc k) created_new (returned ∅ es) = 1%nat).
Proof.
  intros cfg s n hs es c k Hl Hk Hr HG. destruct (live_map _ _ Hl) as [m Hm].
  assert (m !! k = None) as Hmk by (rewrite Hm in Hk; by injection Hk).
  set (G := fun cl => forall o, cl = CPlain o -> op_key o = k -> reads_only o \/ exists v, o = OGetOrCreate k v).
  set (opn := fun m : umap => bool_decide (m !! k = None)).
  set (okres := fun (m : umap) (r : res reply) => match r with
    | Err _ => True | Ok (YOut (RGetOrCreate (GCreated v))) | Ok (YOut (RGetOrCreate (GExisting v))) => m !! k = Some v | Ok _ => False end).
  assert (Hcase : forall m cl r m', G cl -> plain_call cfg m cl r m' -> m' !! k = m !! k \/
    exists v, cl = CPlain (OGetOrCreate k v) /\ m !! k = None /\ m' !! k = Some v).
  { intros m0 cl r m1 HGc Hc. destruct (on_key_dec cl k) as [(o & -> & Ho)|Hn].
    - destruct (HGc o eq_refl Ho) as [Hro|[v ->]]; [left; by rewrite (plain_call_reads _ _ _ _ _ Hc Hro)|].
      destruct Hc as [-> _]. cbn. destruct (rejected cfg k v); [by left|]. destruct (m0 !! k) eqn:E; [by left; cbn|].
      right. exists v. cbn. by rewrite lookup_insert.
    - left. by eapply plain_call_other. }
  destruct (contest_run cfg G (is_goc k) created_new opn okres s n hs es c m) as (m' & W1 & W2 & W3); try done.
  - intros m0 cl r m1 _ Hi Hc. destruct cl as [o|tid o|lk lc|qk qc|b bc]; try done.
    destruct o as [k'|k'|k'|k' v|k' v ex|k' v]; try done. cbn [is_goc] in Hi. apply bool_decide_eq_true in Hi as ->.
    destruct Hc as [-> ->]. cbn [spec_op fst snd]. unfold opn, okres. destruct (rejected cfg k v); [done|].
    destruct (m0 !! k) as [cur|] eqn:E; cbn [fst snd created_new].
    + by rewrite E.
    + by rewrite lookup_insert.
  - intros m0 cl r m1 HGc Hi Hc. unfold opn. destruct (Hcase _ _ _ _ HGc Hc) as [->|(v & -> & _)]; [done|].
    cbn [is_goc] in Hi. by rewrite bool_decide_true in Hi.
  - intros m0 cl r m1 r' HGc Hc Ho. destruct (Hcase _ _ _ _ HGc Hc) as [E|(v & _ & E & _)].
    + destruct r' as [[[]| | | | | | | | | | |]|]; cbn in *; try done. destruct s0; by rewrite E.
    + destruct r' as [[[]| | | | | | | | | | |]|]; cbn in *; try done. destruct s0; by rewrite E in Ho.
  - intros a cl Hin o -> Ho. by eapply HG.
  - assert (Hval : forall v y, (CPlain (OGetOrCreate k v), Ok y) ∈ returned ∅ es ->
      exists v0, m' !! k = Some v0 /\ (y = YOut (RGetOrCreate (GCreated v0)) \/ y = YOut (RGetOrCreate (GExisting v0)))).
    { intros v y Hin. specialize (W3 _ _ Hin). cbn [is_goc] in W3. rewrite bool_decide_true in W3 by done. specialize (W3 eq_refl).
      destruct y as [[]| | | | | | | | | | |]; try done. destruct s0; cbn in W3; eauto. }
    split; [|split].
    + change (how_many (is_goc k) created_new) with (wins (is_goc k) created_new). destruct (opn m && negb (opn m')); lia.
    + assert (exists v1, forall v0, m' !! k = Some v0 -> v0 = v1) as [v1 Hv1].
      { destruct (m' !! k) as [v1|]; [exists v1; congruence|by exists []]. }
      exists v1. intros v r Hin. destruct r as [y|er]; [|eauto].
      destruct (Hval v y Hin) as (v0 & E & Hy). rewrite (Hv1 v0 E) in Hy. destruct Hy as [->| ->]; auto.
    + intros Hp (v & y & Hin). change (how_many (is_goc k) created_new) with (wins (is_goc k) created_new). rewrite (W2 Hp).
      destruct (Hval v y Hin) as (v0 & E & _). unfold opn. by rewrite E, Hmk.
Qed.

Definition is_replace (k : bytes) (cl : call) : bool :=
  match cl with CPlain (OReplace k' _ _) => bool_decide (k' = k) | _ => false end.
Definition replaced (r : res reply) : bool :=
  match r with Ok (YOut (RReplace (RPrevValue _))) => true | _ => false end.

(** Any number of threads call [replace] with the same expected value [e] on a key that holds
    it, each with a new value other than [e] (and read the key, and make any calls on other
    keys): at most one succeeds, and it returns [e]; if all calls have returned and one of them
    did not fail, then exactly one succeeded. *)
Theorem C35_replace_is_atomic : forall cfg s n hs es c k e,
  live cfg s -> get cfg s k = Ok (Some e) -> crun cfg calm (conc s n) hs es c ->
  (forall a o, EvCall a (CPlain o) ∈ es -> op_key o = k -> reads_only o \/ exists v, v <> e /\ o = OReplace k v (Some e)) ->
  (how_many (is_replace k) replaced (returned ∅ es) <= 1)%nat /\
  (forall v old, (CPlain (OReplace k v (Some e)), Ok (YOut (RReplace (RPrevValue old)))) ∈ returned ∅ es -> old = e) /\
  (pending ∅ es = ∅ -> (exists v y, (CPlain (OReplace k v (Some e)), Ok y) ∈ returned ∅ es) ->
     how_many (is_replace k) replaced (returned ∅ es) = 1%nat).
Proof.
  intros cfg s n hs es c k e Hl Hk Hr HG. destruct (live_map _ _ Hl) as [m Hm].
  assert (m !! k = Some e) as Hmk by (rewrite Hm in Hk; by injection Hk).
  set (G := fun cl => forall o, cl = CPlain o -> op_key o = k -> reads_only o \/ exists v, v <> e /\ o = OReplace k v (Some e)).
  set (opn := fun m : umap => bool_decide (m !! k = Some e)).
  set (okres := fun (m : umap) (r : res reply) => match r with
    | Err _ => True
    | Ok y => m !! k <> Some e /\ match y with YOut (RReplace (RPrevValue old)) => old = e | _ => True end end).
  assert (Hcase : forall m cl r m', G cl -> plain_call cfg m cl r m' -> m' !! k = m !! k \/
    exists v, v <> e /\ cl = CPlain (OReplace k v (Some e)) /\ m !! k = Some e /\ m' !! k = Some v).
  { intros m0 cl r m1 HGc Hc. destruct (on_key_dec cl k) as [(o & -> & Ho)|Hn].
    - destruct (HGc o eq_refl Ho) as [Hro|(v & Hv & ->)]; [left; by rewrite (plain_call_reads _ _ _ _ _ Hc Hro)|].
      destruct Hc as [-> _]. cbn. destruct (rejected cfg k v); [by left|]. destruct (m0 !! k) as [cur|] eqn:E; [|by left; cbn].
      cbn. case_bool_decide as Ee; [|by left]. subst cur. right. exists v. cbn. by rewrite lookup_insert.
    - left. by eapply plain_call_other. }
  destruct (contest_run cfg G (is_replace k) replaced opn okres s n hs es c m) as (m' & W1 & W2 & W3); try done.
  - intros m0 cl r m1 HGc Hi Hc. destruct cl as [o|tid o|lk lc|qk qc|b bc]; try done.
    destruct o as [k'|k'|k'|k' v|k' v ex|k' v]; try done. cbn [is_replace] in Hi. apply bool_decide_eq_true in Hi as ->.
    destruct (HGc _ eq_refl eq_refl) as [[]|(v1 & Hv & Ev)]. assert (v1 = v) as -> by congruence. assert (ex = Some e) as -> by congruence. clear Ev.
    destruct Hc as [-> ->]. cbn [spec_op fst snd]. unfold opn, okres. destruct (rejected cfg k v); [done|].
    destruct (m0 !! k) as [cur|] eqn:E; cbn [fst snd replaced]; [|by rewrite E].
    cbn [expected_ok]. case_bool_decide as Ee; cbn [fst snd replaced].
    + subst cur. rewrite lookup_insert. split; [split; [congruence|done]|]. split; [by apply bool_decide_true|apply bool_decide_false; congruence].
    + rewrite E. split; [split; [congruence|done]|done].
  - intros m0 cl r m1 HGc Hi Hc. unfold opn. destruct (Hcase _ _ _ _ HGc Hc) as [->|(v & _ & -> & _)]; [done|].
    cbn [is_replace] in Hi. by rewrite bool_decide_true in Hi.
  - intros m0 cl r m1 r' HGc Hc Ho. destruct (Hcase _ _ _ _ HGc Hc) as [E|(v & Hv & _ & E & E')].
    + unfold okres in *. by rewrite E.
    + unfold okres in *. destruct r'; [|done]. by destruct Ho as [Ho _].
  - intros a cl Hin o -> Ho. by eapply HG.
  - assert (Hval : forall v y, (CPlain (OReplace k v (Some e)), Ok y) ∈ returned ∅ es -> okres m' (Ok y)).
    { intros v y Hin. specialize (W3 _ _ Hin). cbn [is_replace] in W3. rewrite bool_decide_true in W3 by done. by specialize (W3 eq_refl). }
    split; [|split].
    + change (how_many (is_replace k) replaced) with (wins (is_replace k) replaced). destruct (opn m && negb (opn m')); lia.
    + intros v old Hin. by destruct (Hval _ _ Hin) as [_ H].
    + intros Hp (v & y & Hin). change (how_many (is_replace k) replaced) with (wins (is_replace k) replaced). rewrite (W2 Hp).
      destruct (Hval v y Hin) as [E _]. unfold opn. rewrite Hmk, bool_decide_true, bool_decide_false by done. done.
Qed.
