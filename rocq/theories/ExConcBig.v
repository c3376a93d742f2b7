(** Concrete concurrent runs on big values: the hypotheses of C64 are met; counterexamples. *)
From Verif Require Import Base SipHash Hashing HashingProofs Fs Shard Router RouterPure Wpc Spec FileRep RowOps
  Compact Inv ShardOps Split Insert Open Merge Create Store Limits StoreRefine Kv Lists Queues Api Hist KvSpec
  HistInv KeySpace PlainSpec Plain Check ThmStore ListSpec ListRep ListProg ListHist ThmList
  QueueSpec QueueRep QueueProg QueueHist ThmQueue Script ExStore ExList ExQueue Conc ConcSpec ThmConc ThmAtomic
  ExConc ConcLock ConcList ThmConcList ExConcList ConcSeen ConcSess ConcListAll ThmConcListAll ConcQueue ThmConcQueue
  BigCrash ExBigCrash ConcBig ThmConcBig.

Definition big_takes_b (cfg : config) (k v : bytes) : bool :=
  none_b (ins_err cfg (queue_key k) (replicate 24 x00)) && none_b (ins_err cfg (k ++ replicate 9 x00) v).
Lemma big_takes_b_ok (cfg : config) (k v : bytes) : big_takes_b cfg k v = true -> big_takes cfg k v.
Proof.
  intros H. apply andb_true_iff in H as [H1 H2]. apply none_b_ok in H1, H2. intros w _ Hw. split; [done|]. by eapply ins_err_mono.
Qed.
Definition big_anyb (cfg : config) (k : bytes) (e : cevent) : bool :=
  match e with
  | EvCall _ (CBig k' (BSet v)) => big_takes_b cfg k v
  | EvCall _ (CQueue qk _) => negb (bool_decide (qk = k))
  | _ => true
  end.
Lemma big_anyb_ok (cfg : config) (k : bytes) es : forallb (big_anyb cfg k) es = true -> forall a cl, EvCall a cl ∈ es -> big_any cfg k cl.
Proof.
  rewrite forallb_forall. intros H a cl Hin. apply elem_of_list_In in Hin. specialize (H _ Hin). cbn [big_anyb] in H.
  destruct cl as [o|tid o|lk' c|qk' c|b c]; try done; unfold big_any.
  - by eapply negb_ne.
  - destruct c; try done. intros _. by apply big_takes_b_ok.
Qed.

(** After a crash that left nothing: three threads set, get and remove. *)
Definition ex_b2 : list gcmd := [xb qa (BSet [x31]); GCrash (CBig qa (BSet [x32])) 6; xq qb (QPush false [x33])].
Definition big_run : list choice :=
  ChCall 0 (CBig qa (BSet [x41])) :: ChCall 1 (CBig qa (BSet [x42])) :: ChCall 2 (CBig qa BGet) :: turns 3 300 ++
  ChCall 0 (CBig qa BRemove) :: ChCall 1 (CBig qa BGet) :: ChCall 2 (CQueue qb (QPop true)) :: turns 3 300 ++
  ChCall 0 (CBig qa (BSet [x43; x44])) :: ChCall 1 (CBig qa BRemove) :: ChCall 2 (CBig qa (BSet [])) :: turns 3 400.
Example C64_example : exists cfg0 s0 (es0 : list event) cfg s hs es c,
  created cfg0 s0 /\ hist (big_guard_crash qa) cfg0 s0 es0 cfg s /\ weight (big_w qa) es < 2 ^ 61 /\
  crun cfg calm (conc s 3) hs es c /\ at_rest c /\ (forall a cl, EvCall a cl ∈ es -> big_any cfg qa cl) /\ length es = 18%nat.
Proof.
  destruct (gscript0_ok (big_gb_crash qa) (big_guard_crash qa) ex_cfg ex_b2 (big_gb_crash_ok qa) ex_cfg_ok) as (H1 & H2 & x & H3).
  { by repeat constructor. }
  { by vm_cast_no_check (eq_refl true). }
  rewrite gcfg_same in H2, H3 by no_reopens.
  destruct (crunx_some ex_cfg (conc (gstore (big_gb_crash qa) ex_cfg ex_b2) 3) big_run
    (fun es c => at_restb c && forallb (big_anyb ex_cfg qa) es && (length es =? 18)%nat && (weight (big_w qa) es <? 2 ^ 61))) as (hs & es & c & Hr & HP).
  { by vm_cast_no_check (eq_refl true). }
  repeat (apply andb_true_iff in HP as [HP ?]).
  eexists ex_cfg, _, _, ex_cfg, _, hs, es, c. split; [exact H1|]. split; [exact H2|].
  split; [by apply N.ltb_lt|]. split; [exact Hr|]. split; [by apply at_restb_ok|]. split; [by apply big_anyb_ok|by apply Nat.eqb_eq].
Qed.

(** ** Counterexamples *)
(** The specification of C31 for one call. *)
Definition big_call (cfg : config) (k : bytes) (m : option bytes) (c : call) (r : res reply) (m' : option bytes) : Prop :=
  big_step k cfg m (ECall c r) cfg m'.
(** If the calls take effect one at a time, get_big returns only values given to set_big. *)
Definition from_set (S : bytes -> Prop) (c : call) : Prop := match c with CBig _ (BSet v) => S v | CBig _ _ => True | _ => False end.
Definition is_set (S : bytes -> Prop) (r : res reply) : Prop := forall v, r = Ok (YOpt (Some v)) -> S v.
Lemma lrun_sets cfg k (S : bytes -> Prop) (m : option bytes) (P : gmap nat phase) es m' P' : lrun (big_call cfg k) m P es m' P' ->
  (forall v, m = Some v -> S v) -> (forall a c, P !! a = Some (PCalled c) -> from_set S c /\ exists bc, c = CBig k bc) -> (forall a r, P !! a = Some (PDone r) -> is_set S r) ->
  (forall a c, EvCall a c ∈ es -> from_set S c /\ exists bc, c = CBig k bc) -> forall a r, EvRet a r ∈ es -> is_set S r.
Proof.
  induction 1 as [m P|m P a c es m' P' Ha _ IH|m P a c r m1 es m' P' Ha Hs _ IH|m P a r es m' P' Ha _ IH]; intros Hm H1 H2 H3 b rr Hin.
  - by apply elem_of_nil in Hin.
  - apply elem_of_cons in Hin as [Hin|Hin]; [done|]. eapply IH; [done| | | |exact Hin].
    + intros a' c' E. destruct (decide (a' = a)) as [->|Hne].
      * rewrite lookup_insert in E. injection E as <-. apply (H3 a). by left.
      * rewrite lookup_insert_ne in E by done. by eapply H1.
    + intros a' c' E. destruct (decide (a' = a)) as [->|Hne]; [by rewrite lookup_insert in E|]. rewrite lookup_insert_ne in E by done. by eapply H2.
    + intros a' c' E. apply (H3 a'). by right.
  - destruct (H1 _ _ Ha) as [K1 [bc ->]]. unfold big_call in Hs. cbn [big_step] in Hs. rewrite bool_decide_eq_true_2 in Hs by done. destruct Hs as (y & -> & Hs).
    assert ((forall v, m1 = Some v -> S v) /\ is_set S (Ok y)) as [K2 K3].
    { destruct bc as [v| |]; cbn [big_spec from_set] in *; destruct Hs as [-> ->].
      - split; [by intros v' [= <-]|by intros v' [=]].
      - split; [done|]. intros v' [= E]. by apply Hm.
      - split; [done|by intros v' [=]]. }
    eapply IH; [done| | |done|exact Hin].
    + intros a' c' E. destruct (decide (a' = a)) as [->|Hne]; [by rewrite lookup_insert in E|]. rewrite lookup_insert_ne in E by done. by eapply H1.
    + intros a' c' E. destruct (decide (a' = a)) as [->|Hne]; [rewrite lookup_insert in E; by injection E as <-|]. rewrite lookup_insert_ne in E by done. by eapply H2.
  - apply elem_of_cons in Hin as [Hin|Hin]; [injection Hin as -> ->; by eapply H2|]. eapply IH; [done| | | |exact Hin].
    + intros a' c' E. apply lookup_delete_Some in E as [_ E]. by eapply H1.
    + intros a' c' E. apply lookup_delete_Some in E as [_ E]. by eapply H2.
    + intros a' c' E. apply (H3 a'). by right.
Qed.

(** [big_run_of cfg l m es]: after the history of the script [l] get_big returns [m]; then two threads make
    the calls [es], to the end. *)
Definition big_run_of (k : bytes) (m : option bytes) (es : list cevent) : Prop :=
  exists cfg0 s0 (es0 : list event) cfg s hs c,
    created cfg0 s0 /\ hist (big_guard_crash k) cfg0 s0 es0 cfg s /\ reply_to cfg s (CBig k BGet) = Ok (YOpt m) /\
    crun cfg calm (conc s 2) hs es c /\ at_rest c /\ (forall a cl, EvCall a cl ∈ es -> big_any cfg k cl).
Lemma big_run_by (cfg : config) (k : bytes) (l : list gcmd) (m : option bytes) (hs : list choice) (es : list cevent) : cfg_ok cfg -> (forall c, GCmd (XReopen c) ∉ l) ->
  gruns (big_gb_crash k) cfg l = true ->
  snd (krun cfg (call_prog cfg (CBig k BGet)) (gstore (big_gb_crash k) cfg l)) = Ok (YOpt m) ->
  match crunx cfg (conc (gstore (big_gb_crash k) cfg l) 2) hs with Some (_, es', c') => Some (es', at_restb c') | None => None end = Some (es, true) ->
  forallb (big_anyb cfg k) es = true -> big_run_of k m es.
Proof.
  intros Hc Hl Hg Hm Hx Hok.
  destruct (gscript0_ok (big_gb_crash k) (big_guard_crash k) cfg l (big_gb_crash_ok k) Hc) as (H1 & H2 & x & H3); [|done|].
  { apply Forall_forall. intros [[]|] Hin; try done. by destruct (Hl _ Hin). }
  rewrite gcfg_same in H2, H3 by done. destruct (crunx_es _ _ _ _ Hx) as (hs' & c' & Hr & Hrest).
  eexists cfg, _, _, cfg, _, hs', c'. split; [exact H1|]. split; [exact H2|]. split; [exact Hm|]. split; [exact Hr|]. split; [exact Hrest|]. by apply big_anyb_ok.
Qed.
Definition two_sets : list cevent :=
  [EvCall 0 (CBig qa (BSet [x31])); EvCall 1 (CBig qa (BSet [x32])); EvRet 1 (Ok (YBool false)); EvRet 0 (Ok (YBool false));
   EvCall 0 (CBig qa BGet); EvRet 0 (Ok (YOpt (Some [x32; x31])))].
Definition two_sets_run : list choice :=
  ChCall 0 (CBig qa (BSet [x31])) :: steps 0 6 ++ ChCall 1 (CBig qa (BSet [x32])) :: steps 1 500 ++ steps 0 500 ++ ChCall 0 (CBig qa BGet) :: steps 0 500.
(** Two overlapping calls of set_big: both remove the old value, then both append theirs. The values are joined. *)
Theorem C64_set_big_is_atomic_refuted : big_run_of qa None two_sets /\
  forall cfg (m' : option bytes) P', ~ lrun (big_call cfg qa) None ∅ two_sets m' P'.
Proof.
  split.
  - apply (big_run_by ex_cfg qa [] None two_sets_run two_sets); [exact ex_cfg_ok|no_reopens|by vm_cast_no_check (eq_refl true)| | |by vm_cast_no_check (eq_refl true)].
    + by vm_cast_no_check (eq_refl (@Ok reply (YOpt None))).
    + by vm_cast_no_check (eq_refl (Some (two_sets, true))).
  - intros cfg m' P' H.
    assert (is_set (fun v => v = [x31] \/ v = [x32]) (Ok (YOpt (Some [x32; x31])))) as Hs.
    { eapply (lrun_sets cfg qa _ _ _ _ _ _ H); [done|by intros a c E; rewrite lookup_empty in E|by intros a c E; rewrite lookup_empty in E| |].
      - intros a c Hin. unfold two_sets in Hin. rewrite !elem_of_cons, elem_of_nil in Hin.
        destruct Hin as [E|[E|[E|[E|[E|[E|[]]]]]]]; try discriminate E; injection E as -> ->; (split; [cbn [from_set]; auto|eauto]).
      - unfold two_sets. do 5 right. by left. }
    destruct (Hs _ eq_refl) as [E|E]; discriminate E.
Qed.

(** get_big reads the pieces one after the other; if the value is removed in between it returns the first piece only. *)
Definition first_piece : bytes := replicate (N.to_nat 65280) x41.
Definition torn : list cevent :=
  [EvCall 0 (CBig qa BGet); EvCall 1 (CBig qa BRemove); EvRet 1 (Ok (YBool true)); EvRet 0 (Ok (YOpt (Some first_piece)))].
Definition torn_run : list choice := ChCall 0 (CBig qa BGet) :: steps 0 10 ++ ChCall 1 (CBig qa BRemove) :: steps 1 500 ++ steps 0 500.
Theorem C64_get_big_is_atomic_refuted : big_run_of qa (Some long_value) torn /\
  forall cfg (m' : option bytes) P', ~ lrun (big_call cfg qa) (Some long_value) ∅ torn m' P'.
Proof.
  split.
  - apply (big_run_by big_cfg qa [xb qa (BSet long_value)] (Some long_value) torn_run torn); [exact big_cfg_ok|no_reopens|by vm_cast_no_check (eq_refl true)| | |by vm_cast_no_check (eq_refl true)].
    + by vm_cast_no_check (eq_refl (@Ok reply (YOpt (Some long_value)))).
    + by vm_cast_no_check (eq_refl (Some (torn, true))).
  - assert (first_piece <> long_value) as Hne.
    { intros E. assert (length first_piece = length long_value) as El by (by rewrite E). unfold first_piece, long_value in El.
      rewrite app_length, !replicate_length in El. cbn [length] in El. lia. }
    unfold torn. generalize dependent first_piece. generalize long_value. intros v p Hne cfg m' P' H.
    assert (is_set (fun w => w = v) (Ok (YOpt (Some p)))) as Hs.
    { eapply (lrun_sets cfg qa _ _ _ _ _ _ H); [by intros w [= <-]|by intros a c E; rewrite lookup_empty in E|by intros a c E; rewrite lookup_empty in E| |].
      - intros a c Hin. rewrite !elem_of_cons, elem_of_nil in Hin.
        destruct Hin as [E|[E|[E|[E|[]]]]]; try discriminate E; injection E as -> ->; (split; [done|eauto]).
      - do 3 right. by left. }
    by apply Hne, Hs.
Qed.
