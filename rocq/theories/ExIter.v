(** Concrete iterations: the hypotheses of ThmIter.v and IterMod.v are met; counterexamples. *)
From Verif Require Import Base SipHash Hashing HashingProofs Fs Shard Router RouterPure Wpc Spec FileRep RowOps
  Compact Inv ShardOps Split Insert Open Merge Create Store Limits StoreRefine Kv Lists Queues Api Hist KvSpec
  HistInv KeySpace PlainSpec Plain Check ThmStore Iter ThmIter Refine IterMod ExStore.
Implicit Types (cfg : config) (s : store) (it : iter_state) (M : kvmap).

(** The event does not name key [k]. *)
Definition not_on (k : bytes) (e : event) : Prop := match e with ECall (CPlain o) _ => op_key o <> k | _ => True end.
(** Key [k] is left alone and has the value [v] all the time. *)
Definition untouched cfg (k v : bytes) (s : store) (it : iter_state) (e : event) (s1 : store) : Prop :=
  modifies e /\ not_on k e /\ get cfg s1 k = Ok (Some v).

(** ** Running sessions *)
Inductive icmd := JNext | JCmd (c : cmd).
Definition modifies_b (e : event) : bool :=
  match e with ECall _ _ => true | EMaint (MMerge _) => false | EMaint _ => true | _ => false end.
Definition not_on_b (k : bytes) (e : event) : bool := match e with ECall (CPlain o) _ => negb (bool_decide (op_key o = k)) | _ => true end.
Definition untouched_b (k v : bytes) (M1 : kvmap) (it : iter_state) (e : event) : bool :=
  modifies_b e && not_on_b k e && bool_decide (M1 !! user_key k = Some v).
Fixpoint irun (gb : kvmap -> iter_state -> event -> bool) cfg s M it (l : list icmd) : option (list istep * store * kvmap * iter_state) :=
  match l with
  | [] => Some ([], s, M, it)
  | JNext :: l =>
    match next s it with
    | Ok (Some y, it1) =>
      match irun gb cfg s M it1 l with Some (o, s', M', it') => Some (INext y :: o, s', M', it') | None => None end
    | _ => None
    end
  | JCmd c :: l =>
    match cmd_step cfg s M c with
    | Some (e, _, s1, M1) =>
      if gb M1 it e then
        match irun gb cfg s1 M1 it l with Some (o, s', M', it') => Some (IEvent e :: o, s', M', it') | None => None end
      else None
    | None => None
    end
  end.
Definition jcmd_ok (j : icmd) : bool := match j with JCmd (XReopen _) => false | _ => true end.
Lemma irun_ok gb (G : store -> iter_state -> event -> store -> Prop) cfg :
  (forall x1 M1 s it e s1, SInv cfg x1 M1 s1 -> gb M1 it e = true -> G s it e s1) ->
  forall l x M s it o s' M' it', forallb jcmd_ok l = true -> SInv cfg x M s -> irun gb cfg s M it l = Some (o, s', M', it') ->
  session G cfg s it o s' it' /\ exists x', SInv cfg x' M' s'.
Proof.
  intros HG. induction l as [|[|c] l IH]; intros x M s it o s' M' it' Hl HI Hr; cbn [irun forallb] in *.
  - injection Hr as <- <- <- <-. split; [constructor|eauto].
  - destruct (next s it) as [[[y|] it1]|] eqn:En; try done.
    destruct (irun gb cfg s M it1 l) as [[[[o1 s1] M1] it2]|] eqn:E; [|done]. injection Hr as <- <- <- <-.
    destruct (IH _ _ _ _ _ _ _ _ Hl HI E) as [H1 H2]. split; [|done]. by econstructor.
  - apply andb_true_iff in Hl as [Hc Hl].
    destruct (cmd_step cfg s M c) as [[[[e cfg1] s1] M1]|] eqn:Ec; [|done].
    destruct (gb M1 it e) eqn:Eg; [|done].
    destruct (irun gb cfg s1 M1 it l) as [[[[o1 s2] M2] it2]|] eqn:E; [|done]. injection Hr as <- <- <- <-.
    assert (same_hash cfg c) as Hh by by destruct c.
    destruct (cmd_step_ok _ _ _ _ _ _ _ _ x HI Hh Ec) as (H1 & H2 & _ & H4 & x1 & H5 & _).
    assert (cfg1 = cfg) as ->.
    { clear - Ec Hc. destruct c as [c|m| |cfg3]; cbn [cmd_step jcmd_ok] in Ec, Hc; [| | |done].
      - destruct (krun_b _ _ _ _) as [[[? ?] ?]|]; by simplify_eq.
      - destruct (maint_b _ _ _); [|done]. destruct (exec _ _) as [? [?|?]]; by simplify_eq.
      - destruct (_ <=? _); [|done]. destruct (store_clear _ _) as [? [?|?]]; by simplify_eq. }
    destruct (IH _ _ _ _ _ _ _ _ Hl H5 E) as [H6 H7]. split; [|done]. econstructor; [done|done|by eapply HG|done].
Qed.
Lemma untouched_b_ok cfg k v x1 M1 s it e s1 : SInv cfg x1 M1 s1 -> untouched_b k v M1 it e = true -> untouched cfg k v s it e s1.
Proof.
  intros HI H. apply andb_true_iff in H as [H H3]. apply andb_true_iff in H as [H1 H2]. apply bool_decide_eq_true in H3.
  split; [destruct e as [c r|[]| | |]; done|]. split.
  - destruct e as [[o|tid o|lk' c|qk c|b c] r|mt| | |]; try done. cbn [not_on_b not_on] in *. apply negb_true_iff, bool_decide_eq_false in H2. done.
  - unfold get. by rewrite (get_raw_ok _ _ _ _ _ HI), H3.
Qed.
Definition is_step (k v : bytes) (y : istep) : bool := match y with INext (k', v') => bool_decide (k' = k) && bool_decide (v' = v) | _ => false end.
Lemma not_in_steps (k v : bytes) (l : list istep) : existsb (is_step k v) l = false -> INext (k, v) ∉ l.
Proof.
  intros H Hin. assert (existsb (is_step k v) l = true) as E; [|congruence]. apply existsb_exists. exists (INext (k, v)).
  split; [by apply elem_of_list_In|]. cbn. by rewrite !bool_decide_eq_true_2.
Qed.
(** A key is missed: what has to be checked by computation. *)
Lemma missed_by (before : list cmd) (l : list icmd) (k v : bytes) :
  forallb no_reopen before = true -> runs ex_cfg before = true -> forallb jcmd_ok l = true ->
  bool_decide (after_map ex_cfg before !! user_key k = Some v) = true ->
  match irun (untouched_b k v) ex_cfg (after ex_cfg before) (after_map ex_cfg before) (iter_new false) l with
  | Some (o, s', _, it') => negb (existsb (is_step k v) o) && match next s' it' with Ok (None, _) => true | _ => false end
  | None => false
  end = true ->
  exists s o s' it' it'', reachable_clean ex_cfg s /\ get ex_cfg s k = Ok (Some v) /\
    session (untouched ex_cfg k v) ex_cfg s (iter_new false) o s' it' /\ next s' it' = Ok (None, it'') /\ INext (k, v) ∉ o.
Proof.
  intros Hb1 Hb2 Hl Hk Hrun. destruct (after_reach ex_cfg before ex_cfg_ok Hb1 Hb2) as (Hr & _ & HI).
  apply bool_decide_eq_true in Hk.
  destruct (irun (untouched_b k v) ex_cfg (after ex_cfg before) (after_map ex_cfg before) (iter_new false) l) as [[[[o s'] M'] it']|] eqn:E; [|done].
  apply andb_true_iff in Hrun as [H1 H2]. destruct (next s' it') as [[[y|] it'']|] eqn:En; try done.
  destruct (irun_ok (untouched_b k v) (untouched ex_cfg k v) ex_cfg) with (l := l) (x := true) (M := after_map ex_cfg before) (s := after ex_cfg before)
    (it := iter_new false) (o := o) (s' := s') (M' := M') (it' := it') as [H3 _]; [|done|done|done|].
  { intros x1 M1 s1 it1 e s2 G1 G2. by eapply untouched_b_ok. }
  exists (after ex_cfg before), o, s', it', it''. split; [done|]. split; [unfold get; by rewrite (get_raw_ok _ _ _ _ _ HI), Hk|].
  split; [done|]. split; [done|]. apply not_in_steps. by apply negb_true_iff in H1.
Qed.

(** ** C17 is false *)
(** Inserting one other key between two calls of [next()] splits the shard; a key that was not touched is never
    returned. *)
Definition it_before : list cmd := [xset 105 96 1; xset 113 96 2; xset 114 96 3; xset 43 250 4; xset 43 250 5].
Theorem C17_insert_hides_a_key_refuted : exists s o s' it' it'', reachable_clean ex_cfg s /\ get ex_cfg s (xkey 113) = Ok (Some (xval 96 2)) /\
  session (untouched ex_cfg (xkey 113) (xval 96 2)) ex_cfg s (iter_new false) o s' it' /\ next s' it' = Ok (None, it'') /\
  INext (xkey 113, xval 96 2) ∉ o.
Proof.
  apply (missed_by it_before [JNext; JCmd (xset 108 200 5); JNext; JNext; JNext]);
    by vm_cast_no_check (eq_refl true).
Qed.

(** So does a background compaction between two calls of [next()], after another key was removed and one inserted. *)
Definition it_before2 : list cmd := [xset 105 310 1; xset 113 96 2; xset 114 96 3].
Theorem C17_compaction_hides_a_key_refuted : exists s o s' it' it'', reachable_clean ex_cfg s /\ get ex_cfg s (xkey 114) = Ok (Some (xval 96 3)) /\
  session (untouched ex_cfg (xkey 114) (xval 96 3)) ex_cfg s (iter_new false) o s' it' /\ next s' it' = Ok (None, it'') /\
  INext (xkey 114, xval 96 3) ∉ o.
Proof.
  apply (missed_by it_before2 [JNext; JNext; JCmd (xrem 105); JCmd (xset 2 96 5); JCmd (XMaint (MBgRow 0)); JCmd (XMaint (MBgRow 0))]);
    by vm_cast_no_check (eq_refl true).
Qed.

(** ** Non-vacuity *)
(** In the first session above, another key (in row 2) meets the hypotheses of the positive theorem. *)
Definition rows_b (k v : bytes) (M1 : kvmap) (it : iter_state) (e : event) : bool :=
  modifies_b e && bool_decide (M1 !! user_key k = Some v) && negb ((it_row it =? row_of_key ex_cfg k)%nat && negb (it_col it =? 0)%nat).
Lemma session_by (before : list cmd) (l : list icmd) (k v : bytes) (P : list istep -> store -> bool) :
  forallb no_reopen before = true -> runs ex_cfg before = true -> forallb jcmd_ok l = true ->
  bool_decide (after_map ex_cfg before !! user_key k = Some v) = true -> (length (leaves (st_root (after ex_cfg before))) =? 1)%nat = true ->
  match irun (rows_b k v) ex_cfg (after ex_cfg before) (after_map ex_cfg before) (iter_new false) l with
  | Some (o, s', _, it') => P o s' && match next s' it' with Ok (None, _) => true | _ => false end
  | None => false
  end = true ->
  exists s o s' it' it'', reachable ex_cfg s /\ get ex_cfg s k = Ok (Some v) /\
    session (fun s it e s1 => modifies e /\ get ex_cfg s1 k = Ok (Some v) /\ ~ inside_row ex_cfg k it)
      ex_cfg s (iter_new false) o s' it' /\ next s' it' = Ok (None, it'') /\ P o s' = true /\ length (leaves (st_root s)) = 1%nat.
Proof.
  intros Hb1 Hb2 Hl Hk H1s Hrun. destruct (after_reach ex_cfg before ex_cfg_ok Hb1 Hb2) as (_ & Hr & HI).
  apply bool_decide_eq_true in Hk.
  destruct (irun (rows_b k v) ex_cfg (after ex_cfg before) (after_map ex_cfg before) (iter_new false) l) as [[[[o s'] M'] it']|] eqn:E; [|done].
  apply andb_true_iff in Hrun as [H1 H2]. destruct (next s' it') as [[[y|] it'']|] eqn:En; try done.
  destruct (irun_ok (rows_b k v) (fun s it e s1 => modifies e /\ get ex_cfg s1 k = Ok (Some v) /\ ~ inside_row ex_cfg k it) ex_cfg)
    with (l := l) (x := true) (M := after_map ex_cfg before) (s := after ex_cfg before)
    (it := iter_new false) (o := o) (s' := s') (M' := M') (it' := it') as [H4 _]; [|done|done|done|].
  { intros x1 M1 s1 it1 e s2 G1 G2. unfold rows_b in G2. apply andb_true_iff in G2 as [G2 G4]. apply andb_true_iff in G2 as [G2 G3].
    apply bool_decide_eq_true in G3. split; [destruct e as [c r|[]| | |]; done|].
    split; [unfold get; by rewrite (get_raw_ok _ _ _ _ _ G1), G3|]. intros [R1 R2]. rewrite R1, Nat.eqb_refl in G4. cbn [andb] in G4.
    destruct (Nat.eqb_spec (it_col it1) 0); done. }
  exists (after ex_cfg before), o, s', it', it''. split; [done|]. split; [unfold get; by rewrite (get_raw_ok _ _ _ _ _ HI), Hk|].
  split; [done|]. split; [done|]. split; [done|]. by apply Nat.eqb_eq.
Qed.
Example C17_example : exists s o s' it' it'', reachable ex_cfg s /\ get ex_cfg s (xkey 43) = Ok (Some (xval 250 5)) /\
  session (fun s it e s1 => modifies e /\ get ex_cfg s1 (xkey 43) = Ok (Some (xval 250 5)) /\ ~ inside_row ex_cfg (xkey 43) it)
    ex_cfg s (iter_new false) o s' it' /\ next s' it' = Ok (None, it'') /\ length o = 5%nat /\ (length (leaves (st_root s)) < length (leaves (st_root s')))%nat.
Proof.
  destruct (session_by it_before [JNext; JCmd (xset 108 200 5); JNext; JNext; JNext] (xkey 43) (xval 250 5)
    (fun n s' => (length n =? 5)%nat && (1 <? length (leaves (st_root s')))%nat)) as (s & o & s' & it' & it'' & H1 & H2 & H3 & H4 & H5 & H6);
    [by vm_cast_no_check (eq_refl true)..|].
  exists s, o, s', it', it''. split; [done|]. split; [done|]. split; [done|]. split; [done|]. apply andb_true_iff in H5 as [H5 H7].
  apply Nat.eqb_eq in H5. apply Nat.ltb_lt in H7. split; [done|]. lia.
Qed.

(** A store with plain keys, a list and a typed key, in two shards: [iter()] and [iter_raw()]. *)
Definition mixed : list cmd := fill 6 ++ [xset 1 96 3; xset 2 96 4; XCall (CList [x61] (LSet [x62] [x63])); XCall (CTyped 7 (OSet [x61] [x62])); xset 20 150 1; xrem 3].
Fixpoint collect (fuel : nat) (s : store) (it : iter_state) : option (list kv * iter_state) :=
  match fuel with
  | O => Some ([], it)
  | S n => match next s it with
           | Ok (Some y, it1) => match collect n s it1 with Some (l, it2) => Some (y :: l, it2) | None => None end
           | _ => None end
  end.
Lemma collect_ok n : forall s it l it', collect n s it = Some (l, it') -> yields s it l it' /\ length l = n.
Proof.
  induction n as [|n IH]; intros s it l it' H; cbn [collect] in H.
  - injection H as <- <-. split; [constructor|done].
  - destruct (next s it) as [[[y|] it1]|] eqn:En; try done. destruct (collect n s it1) as [[l1 it2]|] eqn:E; [|done].
    injection H as <- <-. apply IH in E as [H1 H2]. split; [by econstructor|]. cbn. by rewrite H2.
Qed.
Lemma collect_by (before : list cmd) : forallb no_reopen before = true -> runs ex_cfg before = true ->
  (1 <? length (leaves (st_root (after ex_cfg before))))%nat = true ->
  exists s, reachable ex_cfg s /\ s = after ex_cfg before /\ (1 < length (leaves (st_root s)))%nat.
Proof.
  intros H1 H2 H3. destruct (after_reach ex_cfg before ex_cfg_ok H1 H2) as (_ & Hr & _). exists (after ex_cfg before).
  split; [done|]. split; [done|]. by apply Nat.ltb_lt.
Qed.
Lemma collect_all s raw n : match collect n s (iter_new raw) with
    | Some (_, it) => match next s it with Ok (None, _) => true | _ => false end | None => false end = true ->
    exists l it it', yields s (iter_new raw) l it /\ length l = n /\ next s it = Ok (None, it').
Proof.
  intros H. destruct (collect n s (iter_new raw)) as [[l it]|] eqn:E; [|done].
  apply collect_ok in E as [E1 E2]. destruct (next s it) as [[[y|] it']|] eqn:En; try done. exists l, it, it'. done.
Qed.
Lemma collect_some s raw n : match collect n s (iter_new raw) with Some (_, it) => negb (cookie it =? 0) | None => false end = true ->
  exists l it, yields s (iter_new raw) l it /\ length l = n /\ cookie it <> 0.
Proof.
  intros H. destruct (collect n s (iter_new raw)) as [[l it]|] eqn:E; [|done]. apply collect_ok in E as [E1 E2].
  exists l, it. split; [done|]. split; [done|]. by apply negb_true_iff, N.eqb_neq in H.
Qed.
Example C15_C16_example : exists s, reachable ex_cfg s /\ (1 < length (leaves (st_root s)))%nat /\
  (exists l it it', yields s (iter_new false) l it /\ length l = 6%nat /\ next s it = Ok (None, it')) /\
  (exists l it it', yields s (iter_new true) l it /\ length l = 10%nat /\ next s it = Ok (None, it')) /\
  (exists l it, yields s (iter_new false) l it /\ length l = 4%nat /\ cookie it <> 0).
Proof.
  destruct (collect_by mixed) as (s & Hr & E & Hl); [by vm_cast_no_check (eq_refl true)..|].
  exists s. split; [done|]. split; [done|]. subst s. clear Hr Hl.
  split; [apply collect_all; by vm_cast_no_check (eq_refl true)|]. split; [apply collect_all; by vm_cast_no_check (eq_refl true)|].
  apply collect_some; by vm_cast_no_check (eq_refl true).
Qed.
(** A cookie that was not obtained from an iterator makes [next()] panic, even on an empty store. *)
Theorem C47_any_cookie_refuted : exists cfg s c, reachable_clean cfg s /\ c < 2 ^ 64 /\ next s (from_cookie c false) = Err EPanic.
Proof.
  destruct (after_reach ex_cfg [] ex_cfg_ok) as (Hr & _ & _); [by vm_cast_no_check (eq_refl true)|by vm_cast_no_check (eq_refl true)|].
  exists ex_cfg, (after ex_cfg []), 512. split; [done|]. split; [done|].
  by vm_cast_no_check (eq_refl (@Err (option kv * iter_state) EPanic)).
Qed.
