(** Concrete runs of iterators beside threads: the hypotheses of ThmConcIter.v are met; a key that is
    missed. *)
From Verif Require Import Base SipHash Hashing HashingProofs Fs Shard Router RouterPure Wpc Spec FileRep RowOps
  Compact Inv ShardOps Split Insert Open Merge Create Store Limits StoreRefine Kv Lists Queues Api Hist KvSpec
  HistInv KeySpace PlainSpec Plain Check ThmStore Iter ThmIter ExStore Conc ConcSpec ConcLocal ConcFile ConcTree
  ConcInv ConcStep ConcRow ConcStruct ConcMain ConcLin ThmConc ThmAtomic ExConc ConcIter ConcWalk ConcSlots ThmConcIter.
Implicit Types (cfg : config) (s : store) (es : list wevent) (c : cstate) (n : nat) (chs : list wchoice) (b : wstate) (its : list walker).

(** ** Running a schedule *)
(** Choices that are not possible are skipped. *)
Fixpoint wrunx (g : wstate -> wstate -> bool) (cfg : config) (b : wstate) (chs : list wchoice) : option (list wevent * wstate) :=
  match chs with
  | [] => Some ([], b)
  | h :: chs =>
    match wstep cfg b h with
    | Some (b1, e) =>
      if g b b1 then
        match wrunx g cfg b1 chs with
        | Some (es, b') => Some (option_list e ++ es, b')
        | None => None
        end
      else None
    | None => wrunx g cfg b chs
    end
  end.
Lemma wrunx_ok g (G : wstate -> wstate -> Prop) cfg chs : (forall b1 b2, g b1 b2 = true -> G b1 b2) ->
  forall b es b', wrunx g cfg b chs = Some (es, b') -> exists chs', wrun cfg G b chs' es b'.
Proof.
  intros HG. induction chs as [|h chs IH]; intros b es b'; cbn [wrunx].
  - intros [= <- <-]. exists []. constructor.
  - destruct (wstep cfg b h) as [[b1 e]|] eqn:Es; [|apply IH]. destruct (g b b1) eqn:Eg; [|done].
    destruct (wrunx g cfg b1 chs) as [[es1 b2]|] eqn:Er; [|done]. intros [= <- <-].
    destruct (IH _ _ _ Er) as [chs' H]. exists (h :: chs'). econstructor; [exact Es|by apply HG|exact H].
Qed.
Lemma wrunx_some g (G : wstate -> wstate -> Prop) cfg b chs (P : list wevent -> wstate -> bool) :
  (forall b1 b2, g b1 b2 = true -> G b1 b2) ->
  match wrunx g cfg b chs with Some (es, b') => P es b' | None => false end = true ->
  exists chs' es b', wrun cfg G b chs' es b' /\ P es b' = true.
Proof.
  intros HG H. destruct (wrunx g cfg b chs) as [[es b']|] eqn:E; [|done]. destruct (wrunx_ok _ _ _ _ HG _ _ _ E) as [chs' Hr].
  by exists chs', es, b'.
Qed.

Definition row_keptb (cfg : config) (K : bytes) (c c' : cstate) : bool :=
  let h := hashk cfg K in
  let sh := route (c_root c) (ph_selector h) in let sh' := route (c_root c') (ph_selector h) in
  (sh_start sh' =? sh_start sh) && (sh_end sh' =? sh_end sh) &&
  match row_file (c_fs c) sh (ph_row h), row_file (c_fs c') sh' (ph_row h) with
  | Ok (i, _), Ok (i', _) => bool_decide (i = i')
  | _, _ => false
  end.
(** [r] is the row of the key. *)
Definition unmovedb (cfg : config) (K : bytes) (r : nat) (i : nat) (b b' : wstate) : bool :=
  match w_its b !! i with
  | None => true
  | Some T =>
    if (it_row (w_it T) =? r)%nat then if (it_col (w_it T) =? 0)%nat then true else row_keptb cfg K (w_c b) (w_c b') else true
  end.
Lemma unmovedb_ok cfg K r i b b' : ph_row (hashk cfg K) = r -> unmovedb cfg K r i b b' = true -> unmoved cfg K i b b'.
Proof.
  intros <- H T HT (_ & _ & Hr & Hc). unfold unmovedb in H. rewrite HT, Hr, Nat.eqb_refl in H.
  destruct (Nat.eqb_spec (it_col (w_it T)) 0) as [|_]; [done|]. unfold row_keptb in H. cbv zeta in H.
  apply andb_true_iff in H as [H H3]. apply andb_true_iff in H as [H1 H2]. apply N.eqb_eq in H1, H2.
  unfold row_kept, shard_of, span_of. split; [by f_equal|].
  destruct (row_file (c_fs (w_c b)) _ _) as [[i1 f]|]; [|done]. destruct (row_file (c_fs (w_c b')) _ _) as [[i2 f']|]; [|done].
  apply bool_decide_eq_true in H3 as <-. by exists i1, f, f'.
Qed.
Definition calm_unmoved (cfg : config) (K : bytes) (r : nat) (i : nat) (b b' : wstate) : bool :=
  if calmb (w_c b) then unmovedb cfg K r i b b' else false.
Lemma calm_unmoved_ok cfg K r i : ph_row (hashk cfg K) = r ->
  forall b b', calm_unmoved cfg K r i b b' = true -> calm_step b b' /\ unmoved cfg K i b b'.
Proof.
  intros Hr b b' H. unfold calm_unmoved in H. destruct (calmb (w_c b)) eqn:E; [|done]. split; [by apply calmb_ok|by eapply unmovedb_ok].
Qed.

Definition wthr (hs : list choice) : list wchoice := map WThr hs.
(** The iterator number [i] makes up to [n] steps, within [k] calls. *)
Definition walks (i k n : nat) : list wchoice := concat (replicate k (WCall i :: replicate n (WRun i))).

Definition xrow (i : N) : nat := ph_row (hashk ex_cfg (user_key (xkey i))).


Definition not_touching (k : bytes) (e : wevent) : bool :=
  match e with
  | WE (EvCall _ (CPlain o)) => negb (bool_decide (op_key o = k))
  | _ => true
  end.
Lemma not_touching_ok k es : forallb (not_touching k) es = true -> forall a cl, WE (EvCall a cl) ∈ es -> ~ touches k cl.
Proof.
  rewrite forallb_forall. intros H a cl Hin (o & -> & Ho). apply elem_of_list_In in Hin. specialize (H _ Hin). cbn [not_touching] in H.
  by rewrite bool_decide_true in H.
Qed.
Definition yields (i : nat) (raw : bool) (y : option kv) (e : wevent) : bool :=
  match e with WYield i' raw' (Ok y') => (i' =? i)%nat && Bool.eqb raw' raw && bool_decide (y' = y) | _ => false end.
Lemma yields_iff i raw y es : existsb (yields i raw y) es = true <-> WYield i raw (Ok y) ∈ es.
Proof.
  rewrite existsb_exists. split.
  - intros (e & Hin & He). destruct e as [e|i1|i1 raw1 [y1|]]; try done. cbn [yields] in He.
    apply andb_true_iff in He as [He H3]. apply andb_true_iff in He as [H1 H2].
    apply Nat.eqb_eq in H1 as ->. apply eqb_prop in H2 as ->. apply bool_decide_eq_true in H3 as ->. by apply elem_of_list_In.
  - intros Hin. exists (WYield i raw (Ok y)). split; [by apply elem_of_list_In|]. cbn [yields].
    by rewrite Nat.eqb_refl, eqb_reflx, bool_decide_true.
Qed.
Definition dead (T : thr) : bool := match T with TDead => true | _ => false end.
Definition both : list walker := [WOut (iter_new false); WOut (iter_new true)].
Lemma both_start : starts both.
Proof.
  intros [|[|i]] T H; cbn in H; [| |done]; injection H as <-; eexists; (split; [reflexivity|]); unfold iter_new; cbn [it_col]; apply Nat.ltb_lt; by vm_compute.
Qed.

(** ** Two iterators and two clients *)
(** Compactions and splits happen between the steps of the iterators. *)
Definition mixed : list wchoice :=
  walks 0 4 4000 ++ wthr (xcall 0 (OSet (xkey 5) (xval 90 4)) :: xcall 1 (OSet (xkey 0) (xval 90 4)) :: turns 2 30) ++
  walks 1 3 3000 ++ wthr (turns 2 60) ++ walks 0 1 200 ++ wthr (turns 3 200) ++
  walks 0 2 200 ++ wthr (turns 3 3000) ++ walks 1 3 300 ++
  wthr (xcall 0 (OSet (xkey 90) (xval 90 4)) :: xcall 1 (OSet (xkey 91) (xval 90 4)) :: turns 4 200) ++ walks 0 3 300 ++
  wthr (xcall 0 (ORemove (xkey 3)) :: turns 4 200 ++ xcall 0 (OSet (xkey 92) (xval 90 4)) :: xcall 1 (OSet (xkey 93) (xval 90 4)) :: turns 4 800) ++
  walks 0 20 3000 ++ wthr (xcall 0 (OSet (xkey 94) (xval 90 4)) :: xcall 1 (OSet (xkey 95) (xval 90 4)) :: turns 5 800) ++
  walks 0 2 60000 ++ walks 1 5 6000 ++ wthr (xcall 0 (OSet (xkey 96) (xval 90 4)) :: xcall 1 (OSet (xkey 98) (xval 90 4)) :: turns 6 2000) ++ walks 1 20 60000.

(** Key 4 is not touched, and both iterators reach the end. *)
Example ex_iterate : exists chs es b, live ex_cfg s1 /\ get ex_cfg s1 (xkey 4) = Ok (Some (xval 96 4)) /\ starts both /\
  wrun ex_cfg (fun b1 b2 => calm_step b1 b2 /\ unmoved ex_cfg (user_key (xkey 4)) 0 b1 b2) (W (conc s1 2) both) chs es b /\
  (forall a cl, WE (EvCall a cl) ∈ es -> ~ touches (xkey 4) cl) /\ WYield 0 false (Ok None) ∈ es /\
  (* what the iterators saw: an old and a new value of key 0, and an entry that did not exist at first *)
  WYield 0 false (Ok (Some (xkey 0, xval 96 0))) ∈ es /\ WYield 1 true (Ok (Some (user_key (xkey 0), xval 90 4))) ∈ es /\
  WYield 0 false (Ok (Some (xkey 92, xval 90 4))) ∈ es /\ WYield 1 true (Ok None) ∈ es /\
  length (leaves (c_root (w_c b))) = 2%nat /\ TDead ∈ c_ths (w_c b).
Proof.
  destruct (wrunx_some (calm_unmoved ex_cfg (user_key (xkey 4)) 28 0)
    (fun b1 b2 => calm_step b1 b2 /\ unmoved ex_cfg (user_key (xkey 4)) 0 b1 b2) ex_cfg (W (conc s1 2) both) mixed
    (fun es b => forallb (not_touching (xkey 4)) es && existsb (yields 0 false None) es &&
      existsb (yields 0 false (Some (xkey 0, xval 96 0))) es && existsb (yields 1 true (Some (user_key (xkey 0), xval 90 4))) es &&
      existsb (yields 0 false (Some (xkey 92, xval 90 4))) es && existsb (yields 1 true None) es &&
      (length (leaves (c_root (w_c b))) =? 2)%nat && existsb dead (c_ths (w_c b)))) as (chs & es & b & Hr & HP).
  { apply calm_unmoved_ok. by vm_cast_no_check (eq_refl 28%nat). }
  { by vm_cast_no_check (eq_refl true). }
  repeat (apply andb_true_iff in HP as [HP ?]).
  exists chs, es, b. split; [apply s1_live|]. split; [by vm_cast_no_check (eq_refl (Ok (Some (xval 96 4))))|].
  split; [apply both_start|]. split; [exact Hr|]. split; [by apply not_touching_ok|].
  do 5 (split; [by apply yields_iff|]). split; [by apply Nat.eqb_eq|].
  match goal with H : existsb _ (c_ths (w_c b)) = true |- _ => apply existsb_exists in H as (T & Hin & HT) end. destruct T; try done. by apply elem_of_list_In.
Qed.

(** ** Completeness does not hold without the condition on compactions *)
(** Keys 5 and 97 are in one row.  After the iterator has returned key 5, another thread removes it, and
    the shard is compacted: key 97 moves to the slot that the iterator has passed. *)
Definition before_hiding : list cmd := fill 6 ++ [xset 97 96 3; xset 2 96 4].
Definition hide : list wchoice :=
  walks 0 6 40000 ++ wthr (xcall 0 (ORemove (xkey 5)) :: turns 2 10 ++
    xcall 0 (OSet (xkey 3) (xval 90 4)) :: xcall 1 (OSet (xkey 4) (xval 90 4)) :: turns 4 400 ++
    xcall 0 (OSet (xkey 0) (xval 90 4)) :: xcall 1 (OSet (xkey 1) (xval 90 4)) :: turns 4 800 ++ turns 4 2000) ++ walks 0 1 60000.
Theorem C66_compaction_hides_a_key_refuted : exists s chs es b k v,
  live ex_cfg s /\ get ex_cfg s k = Ok (Some v) /\
  wrun ex_cfg calm_step (W (conc s 2) [WOut (iter_new false)]) chs es b /\
  (forall a cl, WE (EvCall a cl) ∈ es -> ~ touches k cl) /\
  WYield 0 false (Ok None) ∈ es /\ WYield 0 false (Ok (Some (k, v))) ∉ es.
Proof.
  assert (live ex_cfg (after ex_cfg before_hiding)) as Hl.
  { apply reachable_live. apply after_reach; [apply ex_cfg_ok|by vm_compute|by vm_cast_no_check (eq_refl true)]. }
  destruct (wrunx_some (fun b1 _ => calmb (w_c b1)) calm_step ex_cfg (W (conc (after ex_cfg before_hiding) 2) [WOut (iter_new false)]) hide
    (fun es b => forallb (not_touching (xkey 97)) es && existsb (yields 0 false None) es &&
      negb (existsb (yields 0 false (Some (xkey 97, xval 96 3))) es))) as (chs & es & b & Hr & HP).
  { intros b1 b2 H. by apply calmb_ok. }
  { by vm_cast_no_check (eq_refl true). }
  repeat (apply andb_true_iff in HP as [HP ?]).
  exists (after ex_cfg before_hiding), chs, es, b, (xkey 97), (xval 96 3). split; [exact Hl|].
  split; [by vm_cast_no_check (eq_refl (Ok (Some (xval 96 3))))|]. split; [exact Hr|]. split; [by apply not_touching_ok|].
  split; [by apply yields_iff|]. intros Hin. apply yields_iff in Hin. by rewrite Hin in *.
Qed.
