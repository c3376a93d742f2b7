(** Concrete concurrent runs: the hypotheses of the theorems about concurrency are met by runs
    with several client threads, a compaction and a split. *)
From Verif Require Import Base SipHash Hashing HashingProofs Fs Shard Router RouterPure Wpc Spec FileRep RowOps
  Compact Inv ShardOps Split Insert Open Merge Create Store Limits StoreRefine Kv Lists Queues Api Hist KvSpec
  HistInv KeySpace PlainSpec Plain Check ThmStore ExStore Conc ConcSpec ThmConc ThmAtomic.

(** ** Running a schedule *)
Definition calmb (c : cstate) : bool :=
  forallb (fun sh => match fs_files (c_fs c) !! sh_ino sh with
    | None => true
    | Some f =>
      match sh_tgt sh with
      | None => f_woff f + 81920 <? 2 ^ 32
      | Some (t, _) => match fs_files (c_fs c) !! t with None => true | Some ft => f_woff f + f_woff ft + 81920 <? 2 ^ 32 end
      end
    end) (leaves (c_root c)) &&
  forallb (fun T => match T with TSplit _ _ s e => s + 1 <? e | _ => true end) (c_ths c).
Lemma calmb_ok c : calmb c = true -> calm c.
Proof.
  unfold calmb. rewrite andb_true_iff, !forallb_forall. intros [H1 H2]. split.
  - intros sh f Hsh Hf. specialize (H1 sh Hsh). rewrite Hf in H1. destruct (sh_tgt sh) as [[t first]|].
    + intros ft Hft. rewrite Hft in H1. by apply N.ltb_lt.
    + by apply N.ltb_lt.
  - intros a o k s e Ha. apply elem_of_list_lookup_2, elem_of_list_In in Ha. specialize (H2 _ Ha). by apply N.ltb_lt.
Qed.
(** Choices that are not possible are skipped. *)
Fixpoint crunx (cfg : config) (c : cstate) (hs : list choice) : option (list choice * list cevent * cstate) :=
  if calmb c then
    match hs with
    | [] => Some ([], [], c)
    | h :: hs =>
      match cstep cfg c h with
      | Some (c1, e) =>
        match crunx cfg c1 hs with
        | Some (hs', es, c') => Some (h :: hs', option_list e ++ es, c')
        | None => None
        end
      | None => crunx cfg c hs
      end
    end
  else None.
Lemma crunx_ok cfg hs : forall c hs' es c', crunx cfg c hs = Some (hs', es, c') -> crun cfg calm c hs' es c'.
Proof.
  induction hs as [|h hs IH]; intros c hs' es c'; cbn [crunx]; destruct (calmb c) eqn:E; try done; apply calmb_ok in E.
  - intros [= <- <- <-]. by apply crun_nil.
  - destruct (cstep cfg c h) as [[c1 e]|] eqn:Es; [|apply IH]. destruct (crunx cfg c1 hs) as [[[hs1 es1] c2]|] eqn:Er; [|done].
    intros [= <- <- <-]. eapply crun_step; [done|exact Es|by apply IH].
Qed.
Definition at_restb (c : cstate) : bool :=
  forallb (fun T => match T with TIdle | TDead | TBg _ => true | _ => false end) (c_ths c).
Lemma at_restb_ok c : at_restb c = true -> at_rest c.
Proof.
  unfold at_restb. rewrite forallb_forall. intros H a T Ha. apply elem_of_list_lookup_2, elem_of_list_In in Ha. specialize (H _ Ha).
  destruct T; eauto; done.
Qed.
Lemma crunx_some cfg c hs (P : list cevent -> cstate -> bool) :
  match crunx cfg c hs with Some (_, es, c') => P es c' | None => false end = true ->
  exists hs' es c', crun cfg calm c hs' es c' /\ P es c' = true.
Proof.
  intros H. destruct (crunx cfg c hs) as [[[hs' es] c']|] eqn:E; [|done]. exists hs', es, c'. split; [|done]. by eapply crunx_ok.
Qed.

Definition xcall (a : nat) (o : op) : choice := ChCall a (CPlain o).
(** Thread [a] makes up to [n] steps; threads 0..k-1 in turn, [n] times. *)
Definition steps (a n : nat) : list choice := replicate n (ChRun a).
Definition turns (k n : nat) : list choice := concat (replicate n (map ChRun (seq 0 k))).


(** ** Three clients, a compaction, two splits *)
Definition s1 : store := after ex_cfg (fill 6 ++ [xset 1 96 3; xset 2 96 4]).
Lemma s1_live : live ex_cfg s1.
Proof.
  apply reachable_live. unfold s1. apply after_reach; [apply ex_cfg_ok|by vm_compute|by vm_cast_no_check (eq_refl true)].
Qed.
(** Two threads race to create key 50; then they write and read on, so that the shard is
    compacted in the background. *)
Definition race : list choice :=
  xcall 0 (OGetOrCreate (xkey 50) (xval 4 1)) :: xcall 1 (OGetOrCreate (xkey 50) (xval 5 2)) :: turns 3 40 ++
  xcall 0 (OSet (xkey 3) (xval 90 4)) :: xcall 1 (OSet (xkey 4) (xval 90 4)) :: xcall 2 (OGet (xkey 4)) :: turns 4 370 ++
  xcall 0 (OSet (xkey 60) (xval 90 4)) :: xcall 1 (OSet (xkey 61) (xval 90 4)) :: turns 4 110.
Definition two_sets (k : nat) (i : N) : list choice :=
  xcall 0 (OSet (xkey i) (xval 90 4)) :: xcall 1 (OSet (xkey (i + 1)) (xval 90 4)) :: turns k 200.
Definition long_run : list choice :=
  race ++ concat (map (two_sets 4) [90; 92; 94; 96; 98]) ++ turns 4 2000 ++ concat (map (two_sets 6) [100; 102]) ++ turns 6 3000.

Definition goc_only (k : bytes) (e : cevent) : bool :=
  match e with
  | EvCall _ (CPlain o) =>
    if bool_decide (op_key o = k) then match o with OGet _ | OContains _ | OGetOrCreate _ _ => true | _ => false end else true
  | _ => true
  end.
Lemma goc_only_ok k es : forallb (goc_only k) es = true ->
  forall a o, EvCall a (CPlain o) ∈ es -> op_key o = k -> reads_only o \/ exists v, o = OGetOrCreate k v.
Proof.
  rewrite forallb_forall. intros H a o Hin Ho. apply elem_of_list_In in Hin. specialize (H _ Hin). cbn [goc_only] in H.
  rewrite bool_decide_true in H by done. destruct o as [k'|k'|k'|k' v|k' v ex|k' v]; try done; [by left|by left|]. right. exists v. by rewrite <- Ho.
Qed.
Definition is_ok (r : res reply) : bool := match r with Ok _ => true | _ => false end.
Lemma returned_goc k l : existsb (fun y => is_goc k (fst y) && is_ok (snd y)) l = true -> exists v y, (CPlain (OGetOrCreate k v), Ok y) ∈ l.
Proof.
  rewrite existsb_exists. intros ((cl & r) & Hin & H). apply andb_true_iff in H as [H1 H2]. cbn [fst snd] in *.
  destruct cl as [o|tid o|lk lc|qk qc|b bc]; try done. destruct o as [k'|k'|k'|k' v|k' v ex|k' v]; try done.
  cbn [is_goc] in H1. apply bool_decide_eq_true in H1 as ->. destruct r as [y|]; [|done]. exists v, y. by apply elem_of_list_In.
Qed.

(** The run meets the hypotheses of C34 and of C35 for get_or_create. *)
Example ex_run : exists hs es c, live ex_cfg s1 /\ get ex_cfg s1 (xkey 50) = Ok None /\
  crun ex_cfg calm (conc s1 3) hs es c /\ at_rest c /\
  (forall a o, EvCall a (CPlain o) ∈ es -> op_key o = xkey 50 -> reads_only o \/ exists v, o = OGetOrCreate (xkey 50) v) /\
  pending ∅ es = ∅ /\ (exists v y, (CPlain (OGetOrCreate (xkey 50) v), Ok y) ∈ returned ∅ es) /\
  how_many (is_goc (xkey 50)) is_ok (returned ∅ es) = 2%nat /\
  length (leaves (c_root c)) = 3%nat /\ TDead ∈ c_ths c.
Proof.
  destruct (crunx_some ex_cfg (conc s1 3) long_run (fun es c => at_restb c && forallb (goc_only (xkey 50)) es &&
     bool_decide (pending ∅ es = ∅) && existsb (fun y => is_goc (xkey 50) (fst y) && is_ok (snd y)) (returned ∅ es) &&
     (how_many (is_goc (xkey 50)) is_ok (returned ∅ es) =? 2)%nat && (length (leaves (c_root c)) =? 3)%nat &&
     existsb (fun T => match T with TDead => true | _ => false end) (c_ths c))) as (hs & es & c & Hr & HP).
  { by vm_cast_no_check (eq_refl true). }
  repeat (apply andb_true_iff in HP as [HP ?]).
  exists hs, es, c. split; [apply s1_live|]. split; [by vm_cast_no_check (eq_refl (Ok (@None bytes)))|]. split; [exact Hr|].
  split; [by apply at_restb_ok|]. split; [by apply goc_only_ok|]. split; [by eapply bool_decide_eq_true|]. split; [by apply returned_goc|].
  split; [by apply Nat.eqb_eq|]. split; [by apply Nat.eqb_eq|].
  match goal with H : existsb _ (c_ths c) = true |- _ => apply existsb_exists in H as (T & Hin & HT) end. destruct T; try done. by apply elem_of_list_In.
Qed.

(** ** A crash while the compaction copies a row and two clients are inside operations *)
Definition crashing : list choice := race ++ xcall 0 (OSet (xkey 3) (xval 50 7)) :: xcall 1 (OSet (xkey 5) (xval 90 4)) :: turns 4 5.
Example ex_crash : exists hs es c w s', live ex_cfg s1 /\ crun ex_cfg calm (conc s1 3) hs es c /\ cdies ex_cfg c w /\ recovers ex_cfg w s' /\
  existsb (fun T => match T with TBgRow _ _ _ _ _ => true | _ => false end) (c_ths c) = true /\
  length (List.filter (fun T => match T with TRow _ _ _ _ => true | _ => false end) (c_ths c)) = 2%nat.
Proof.
  destruct (crunx_some ex_cfg (conc s1 3) crashing (fun es c => disk_room_b (c_fs c) &&
     match store_open ex_cfg (c_fs c) with (_, Ok _) => true | _ => false end &&
     existsb (fun T => match T with TBgRow _ _ _ _ _ => true | _ => false end) (c_ths c) &&
     (length (List.filter (fun T => match T with TRow _ _ _ _ => true | _ => false end) (c_ths c)) =? 2)%nat)) as (hs & es & c & Hr & HP).
  { by vm_cast_no_check (eq_refl true). }
  repeat (apply andb_true_iff in HP as [HP ?]).
  destruct (store_open ex_cfg (c_fs c)) as [w' [s'|]] eqn:Eo; [|done].
  exists hs, es, c, (c_fs c), s'. split; [apply s1_live|]. split; [exact Hr|]. split; [apply cd_now|].
  split; [eapply rec_done; [by apply disk_room_b_ok|exact Eo]|]. split; [done|]. by apply Nat.eqb_eq.
Qed.

(** ** Two threads replace the same value *)
Definition rep_only (k e : bytes) (x : cevent) : bool :=
  match x with
  | EvCall _ (CPlain o) =>
    if bool_decide (op_key o = k) then
      match o with OGet _ | OContains _ => true | OReplace _ v (Some e') => bool_decide (e' = e) && negb (bool_decide (v = e)) | _ => false end
    else true
  | _ => true
  end.
Lemma rep_only_ok k e es : forallb (rep_only k e) es = true ->
  forall a o, EvCall a (CPlain o) ∈ es -> op_key o = k -> reads_only o \/ exists v, v <> e /\ o = OReplace k v (Some e).
Proof.
  rewrite forallb_forall. intros H a o Hin Ho. apply elem_of_list_In in Hin. specialize (H _ Hin). cbn [rep_only] in H.
  rewrite bool_decide_true in H by done. destruct o as [k'|k'|k'|k' v|k' v ex|k' v]; try done; [by left|by left|]. right. exists v.
  destruct ex as [e'|]; [|done]. apply andb_true_iff in H as [H1 H2]. apply bool_decide_eq_true in H1 as ->.
  split; [|by rewrite <- Ho]. intros E. by rewrite bool_decide_true in H2.
Qed.
Definition duel : list choice :=
  xcall 0 (OReplace (xkey 5) (xval 4 9) (Some (xval 96 5))) :: xcall 1 (OReplace (xkey 5) (xval 7 8) (Some (xval 96 5))) ::
  xcall 2 (OGet (xkey 5)) :: turns 3 300.
Example ex_duel : exists hs es c, get ex_cfg s1 (xkey 5) = Ok (Some (xval 96 5)) /\ crun ex_cfg calm (conc s1 3) hs es c /\
  (forall a o, EvCall a (CPlain o) ∈ es -> op_key o = xkey 5 -> reads_only o \/ exists v, v <> xval 96 5 /\ o = OReplace (xkey 5) v (Some (xval 96 5))) /\
  pending ∅ es = ∅ /\ how_many (is_replace (xkey 5)) is_ok (returned ∅ es) = 2%nat.
Proof.
  destruct (crunx_some ex_cfg (conc s1 3) duel (fun es c => forallb (rep_only (xkey 5) (xval 96 5)) es &&
     bool_decide (pending ∅ es = ∅) && (how_many (is_replace (xkey 5)) is_ok (returned ∅ es) =? 2)%nat)) as (hs & es & c & Hr & HP).
  { by vm_cast_no_check (eq_refl true). }
  repeat (apply andb_true_iff in HP as [HP ?]).
  exists hs, es, c. split; [by vm_cast_no_check (eq_refl (Ok (Some (xval 96 5))))|]. split; [exact Hr|].
  split; [by apply rep_only_ok|]. split; [by eapply bool_decide_eq_true|by apply Nat.eqb_eq].
Qed.
