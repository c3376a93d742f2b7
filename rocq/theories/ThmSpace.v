(** The key spaces are disjoint (C18). *)
From Verif Require Import Base SipHash Hashing HashingProofs Fs Shard Router RouterPure Wpc Spec FileRep RowOps
  Compact Inv ShardOps Split Insert Open Merge Create Store Limits StoreRefine Kv Lists Queues Api Hist KvSpec
  HistInv KeySpace PlainSpec Plain ListSpec ListRep ListProg ListHist ThmStore ThmList QueueSpec QueueRep QueueProg QueueHist ThmQueue
  Check Script ExStore ExList ExQueue.
Implicit Types (M : kvmap) (cfg : config) (s : store).

(** ** Specification *)
(** The plain keys; the typed keys with one type id; one queue, with the big value of that key;
    one list. *)
Inductive space := PlainSpace | TypedSpace (tid : N) | QueueSpace (qk : bytes) | ListSpace (lk : bytes).
(** The calls that use the space. *)
Definition uses (sp : space) (c : call) : Prop :=
  match sp, c with
  | PlainSpace, CPlain _ => True
  | TypedSpace tid, CTyped tid' _ => tid' = tid
  | QueueSpace qk, CQueue qk' _ => qk' = qk
  | QueueSpace qk, CBig qk' _ => qk' = qk
  | ListSpace lk, CList lk' _ => lk' = lk
  | _, _ => False
  end.
(** The event is no call that uses the space (completed, failed or cut off by a crash), nor
    [clear]. Type ids are 32-bit numbers. *)
Definition call_outside (sp : space) (c : call) : Prop :=
  ~ uses sp c /\ match c with CTyped tid _ => tid < 2 ^ 32 | _ => True end.
Definition outside (sp : space) (e : event) : Prop :=
  match e with EClear => False | ECall c _ | ECrash (ACall c) => call_outside sp c | _ => True end.

(** ** Proofs *)
(** Programs that read and write only keys satisfying [P], by key. *)
Fixpoint konly {A} (P : bytes -> Prop) (p : kprog A) : Prop :=
  match p with
  | KRet _ | KFail _ => True
  | KVis o k =>
    match o with
    | KIns key _ _ => key <> [] /\ P key
    | KRem key | KGet key => P key
    | KByHash _ => False
    | KLock _ | KUnlock _ => True
    end /\ forall x, konly P (k x)
  end.
Lemma konly_bind {A B} P (p : kprog A) (f : A -> kprog B) : konly P p -> (forall a, konly P (f a)) -> konly P (kbind p f).
Proof.
  intros Hp Hf. induction p as [a|e|X o k IH]; cbn [kbind konly] in *; [done|done|].
  destruct Hp as [H1 H2]. split; [done|]. intros x. by apply IH.
Qed.
Lemma konly_mono {A} (P P' : bytes -> Prop) (p : kprog A) : (forall k, P k -> P' k) -> konly P p -> konly P' p.
Proof.
  intros HP. induction p as [a|e|X o k IH]; cbn [konly]; [done|done|].
  intros [H1 H2]. split; [|auto]. destruct o; auto. destruct H1; auto.
Qed.
Lemma konly_lift {A} P (r : res A) : konly P (klift r).
Proof. by destruct r. Qed.
Lemma konly_set (P : bytes -> Prop) k v : k <> [] -> P k -> konly P (kset k v).
Proof. intros H1 H2. split; [done|]. intros x. apply konly_lift. Qed.
Lemma konly_goc (P : bytes -> Prop) k v : k <> [] -> P k -> konly P (kgoc k v).
Proof. intros H1 H2. split; [done|]. intros x. apply konly_lift. Qed.
Lemma konly_replace (P : bytes -> Prop) k v ex : k <> [] -> P k -> konly P (kreplace k v ex).
Proof. intros H1 H2. split; [done|]. intros x. apply konly_lift. Qed.
Lemma konly_locked {A} cfg ph P (p : kprog A) : konly P p -> konly P (klocked cfg ph p).
Proof. intros H. unfold klocked. apply konly_bind; [by split|]. intros u. apply konly_bind; [done|]. intros a. apply konly_bind; [by split|done]. Qed.
Lemma konly_rem (P : bytes -> Prop) k : P k -> konly P (kop1 (KRem k)).
Proof. done. Qed.
Lemma konly_get (P : bytes -> Prop) k : P k -> konly P (kop1 (KGet k)).
Proof. done. Qed.
Ltac ko1 :=
  match goal with
  | |- konly _ (kbind _ _) => apply konly_bind; [|intros]
  | |- konly _ (klift _) => apply konly_lift
  | |- konly _ (kset _ _) => apply konly_set; [by auto with kne|by auto with kne]
  | |- konly _ (kgoc _ _) => apply konly_goc; [by auto with kne|by auto with kne]
  | |- konly _ (kreplace _ _ _) => apply konly_replace; [by auto with kne|by auto with kne]
  | |- konly _ (klocked _ _ _) => apply konly_locked
  | |- konly _ (kop1 (KRem _)) => apply konly_rem; by auto with kne
  | |- konly _ (kop1 (KGet _)) => apply konly_get; by auto with kne
  | |- konly _ (KRet _) => exact I
  | |- konly _ (KFail _) => exact I
  | |- konly _ (if ?b then _ else _) => destruct b
  | |- konly _ (match ?x with _ => _ end) => destruct x
  end.
Ltac ko := repeat ko1.

Lemma pop_loop_only qk h n : forall q, konly (queue_keys qk) (pop_loop qk h n q).
Proof. induction n as [|n IH]; intros q; cbn [pop_loop]; [done|]. ko. apply IH. Qed.
Lemma rem_items_only qk l : konly (queue_keys qk) (rem_items qk l).
Proof. induction l as [|i l IH]; cbn [rem_items]; [done|]. ko. apply IH. Qed.
Lemma extend_items_only qk l : forall t n, konly (queue_keys qk) (extend_items qk l t n).
Proof. induction l as [|i l IH]; intros t n; cbn [extend_items]; [done|]. ko. apply IH. Qed.
Lemma iter_qitems_only qk l : konly (queue_keys qk) (iter_qitems qk l).
Proof. induction l as [|i l IH]; cbn [iter_qitems]; [done|]. ko; apply IH. Qed.
Lemma peek_qitems_only qk l : konly (queue_keys qk) (peek_qitems qk l).
Proof. induction l as [|i l IH]; cbn [peek_qitems]; [done|]. ko. apply IH. Qed.
Lemma fetch_only cfg qk : konly (queue_keys qk) (fetch_queue cfg qk).
Proof. unfold fetch_queue. ko. Qed.
Lemma discard_only cfg qk : konly (queue_keys qk) (discard_queue cfg qk).
Proof. unfold discard_queue. ko. apply rem_items_only. Qed.
Lemma extend_only cfg qk l : konly (queue_keys qk) (extend_queue cfg qk l).
Proof. unfold extend_queue. ko. apply extend_items_only. Qed.
Lemma iter_queue_only cfg f qk : konly (queue_keys qk) (iter_queue cfg f qk).
Proof. unfold iter_queue. apply konly_bind; [apply fetch_only|]. intros [q|]; [apply iter_qitems_only|done]. Qed.
Lemma queue_only cfg qk c : konly (queue_keys qk) (queue_prog cfg qk c).
Proof.
  destruct c as [h v|vs|h|i| |f|f| |]; cbn [queue_prog]; unfold kmap; (apply konly_bind; [|done]).
  - unfold push_to_queue. ko.
  - apply extend_only.
  - unfold pop_queue. ko. apply pop_loop_only.
  - unfold remove_from_queue. ko.
  - apply discard_only.
  - apply iter_queue_only.
  - unfold peek_queue. apply konly_bind; [apply fetch_only|]. intros [q|]; [apply peek_qitems_only|done].
  - unfold queue_len. apply konly_bind; [apply fetch_only|done].
  - unfold queue_range. apply konly_bind; [apply fetch_only|done].
Qed.
Lemma big_only cfg k c : konly (queue_keys k) (big_prog cfg k c).
Proof.
  destruct c as [v| |]; cbn [big_prog]; unfold kmap; (apply konly_bind; [|done]).
  - unfold set_big. apply konly_bind; [apply discard_only|]. intros b. apply konly_bind; [apply extend_only|done].
  - unfold get_big. apply konly_bind; [apply iter_queue_only|done].
  - apply discard_only.
Qed.
Lemma plain_only (o : op) : konly (fun k => exists k', k = user_key k') (plain_prog o).
Proof.
  assert (forall k, exists k', user_key k = user_key k') as He by eauto.
  destruct o; cbn [plain_prog]; ko; try (apply He); split; try done; try apply user_key_ne; try apply He;
    split; try apply user_key_ne; try apply He; intros; try apply konly_lift.
Qed.
Lemma typed_only tid (o : op) : konly (fun k => exists k', k = typed_key tid k') (typed_prog tid o).
Proof.
  assert (forall k, exists k', typed_key tid k = typed_key tid k') as He by eauto.
  destruct o; cbn [typed_prog]; ko; try (apply He); split; try done; try apply typed_key_ne; try apply He;
    split; try apply typed_key_ne; try apply He; intros; try apply konly_lift.
Qed.

(** The raw keys of a space. *)
Definition space_keys (cfg : config) (sp : space) (k : bytes) : Prop :=
  match sp with
  | PlainSpace => exists k', k = user_key k'
  | TypedSpace tid => exists k', k = typed_key tid k'
  | QueueSpace qk => queue_keys qk k
  | ListSpace lk => list_keys cfg lk k
  end.
Lemma space_only cfg sp c : uses sp c -> (forall lk, sp <> ListSpace lk) -> konly (space_keys cfg sp) (call_prog cfg c).
Proof.
  intros Hu Hl. destruct sp as [|tid|qk|lk], c as [o|tid' o|lk' c|qk' c|b c]; cbn [uses] in Hu; try done.
  - cbn [call_prog]. unfold kmap. apply konly_bind; [apply plain_only|done].
  - subst tid'. cbn [call_prog]. unfold kmap. apply konly_bind; [apply typed_only|done].
  - subst qk'. apply queue_only.
  - subst b. apply big_only.
  - by destruct (Hl lk).
Qed.
Definition far (cfg : config) (sp : space) (c : call) : Prop :=
  call_outside sp c /\
  match sp, c with
  | TypedSpace tid, _ => tid < 2 ^ 32
  | ListSpace lk, CList lk' _ => list_ph cfg lk' <> list_ph cfg lk
  | _, _ => True
  end.
Lemma far_keys cfg sp c k : far cfg sp c -> space_keys cfg sp k -> ~ call_keys cfg c k.
Proof.
  intros [[Hu Ht] Hf] Hs Hk. destruct sp as [|tid|qk|lk]; cbn [space_keys] in Hs.
  - destruct Hs as [k' ->]. apply call_keys_user in Hk as (o & -> & _). by apply Hu.
  - destruct Hs as [k' ->]. apply call_keys_typed in Hk as (t' & o & -> & He).
    apply typed_key_inj in He as [-> _]; [by apply Hu|done|done].
  - destruct (call_keys_queue _ _ _ _ Hs Hk) as [[c' ->]|[c' ->]]; by apply Hu.
  - destruct (call_keys_list _ _ _ _ Hs Hk) as (lk' & c' & -> & He). by apply Hf.
Qed.

(** Lifting: outside the space its raw keys keep their values. *)
Definition keeps (sp : space) (cfg : config) (M0 : kvmap) (M : kvmap) : Prop := forall k, space_keys cfg sp k -> M !! k = M0 !! k.
Definition sp_guard (sp : space) (cfg : config) (s : store) (e : event) : Prop :=
  fits cfg s e /\ e <> EClear /\ match e with ECall c _ | ECrash (ACall c) => far cfg sp c | _ => True end.
Lemma space_keys_cfg sp cfg cfg' k : c_hash cfg' = c_hash cfg -> space_keys cfg' sp k -> space_keys cfg sp k.
Proof.
  intros Hh. destruct sp as [|tid|qk|lk]; cbn; try done. unfold list_keys, list_ph.
  rewrite (hashk_cfg cfg cfg') by done. done.
Qed.
Definition stays (cfg : config) (a : kvmap) (e : event) (cfg' : config) (a' : kvmap) : Prop := a' = a.
Lemma keeps_frame cfg sp c M0 M M' : far cfg sp c -> keeps sp cfg M0 M -> same_outside (call_keys cfg c) M M' -> keeps sp cfg M0 M'.
Proof. intros Hf Hk Hs k Hsk. rewrite (Hs k); [by apply Hk|]. by eapply far_keys. Qed.
Lemma space_lifts sp : lifts (fun cfg (M : kvmap) (M0 : kvmap) => keeps sp cfg M0 M) stays (sp_guard sp).
Proof.
  constructor.
  - intros cfg cfg' M M0 Hh Hk k Hs. apply Hk. by eapply space_keys_cfg.
  - intros cfg s e HG. apply HG.
  - intros cfg s x M M0 c r HI Hk (_ & _ & Hf). exists (fun _ => True).
    eapply kwp_mono; [| | |apply (kwp_frame cfg (call_keys cfg c) (call_prog cfg c) anyv M (call_writes cfg c) M); by intros ?].
    + done.
    + intros y M' _ H. exists M0. split; [done|]. by eapply keeps_frame.
    + intros y M' _ H. exists M0. split; [done|]. by eapply keeps_frame.
  - intros cfg s x M M0 c HI Hk (_ & _ & Hf).
    eapply kwp_mono; [| | |apply (kwp_frame cfg (call_keys cfg c) (call_prog cfg c) anyv M (call_writes cfg c) M); by intros ?]; [|done|done].
    intros M' H. exists M0. split; [done|]. by eapply keeps_frame.
  - intros cfg s x M M0 e HI Hk _ He. by exists M0.
  - intros cfg s x M M0 HI Hk (_ & Hc & _). done.
Qed.
(** A program that uses only the keys in [P] sees nothing else. *)
Lemma konly_same {A} cfg (P : bytes -> Prop) (p : kprog A) : konly P p -> forall x1 x2 M1 M2 s1 s2,
  SInv cfg x1 M1 s1 -> SInv cfg x2 M2 s2 -> kfits cfg p s1 -> kfits cfg p s2 ->
  (forall k, P k -> M2 !! k = M1 !! k) -> snd (krun cfg p s1) = snd (krun cfg p s2).
Proof.
  induction p as [a|e|X o k IH]; intros Hp x1 x2 M1 M2 s1 s2 H1 H2 F1 F2 HM; [done|done|].
  cbn [konly kfits krun] in *. destruct Hp as [Ho Hk], F1 as [F1 G1], F2 as [F2 G2].
  assert (kop_ne o) as Hne by (destruct o; try done; apply Ho).
  destruct (run_kop_ok cfg x1 M1 s1 o H1 Hne F1) as (M1' & I1 & P1 & _).
  destruct (run_kop_ok cfg x2 M2 s2 o H2 Hne F2) as (M2' & I2 & P2 & _).
  destruct (run_kop cfg o s1) as [s1' r1], (run_kop cfg o s2) as [s2' r2]. cbn [fst snd] in *.
  assert (r1 = r2 /\ (forall k, P k -> M2' !! k = M1' !! k)) as [-> HM'].
  { destruct o as [key|key v mode|key|ph|i|i]; cbn [kop_post] in P1, P2.
    - destruct P1 as [-> ->], P2 as [-> ->]. by rewrite HM.
    - destruct Ho as [_ Ho]. destruct (ins_err cfg key v) as [e|]; destruct P1 as [-> ->], P2 as [-> ->]; [by split|].
      unfold spec_ins. rewrite (HM key Ho).
      destruct (M1 !! key) as [old|], mode as [|[ex|]|]; cbn; (split; [by repeat case_bool_decide|intros k' Hk']);
        try (destruct (decide (key = k')) as [<-|]; [by rewrite !lookup_insert|rewrite !lookup_insert_ne by done; by apply HM]); try (by apply HM).
      case_bool_decide; cbn; [|by apply HM].
      destruct (decide (key = k')) as [<-|]; [by rewrite !lookup_insert|rewrite !lookup_insert_ne by done; by apply HM].
    - destruct P1 as [-> ->], P2 as [-> ->]. rewrite HM by done. split; [done|]. intros k' Hk'.
      destruct (decide (key = k')) as [<-|]; [by rewrite !lookup_delete|rewrite !lookup_delete_ne by done; by apply HM].
    - done.
    - destruct P1 as [-> ->], P2 as [-> ->]. done.
    - destruct P1 as [-> ->], P2 as [-> ->]. done. }
  destruct r2 as [y|e]; [|done]. by apply (IH y (Hk y) x1 x2 M1' M2'); [..|apply HM'].
Qed.

(** ** C18 *)
(** Whatever happens outside the plain keys (or the typed keys of one type, or one queue with the
    big value of its key) - calls of any kind with any bytes as keys, crashes in them, maintenance,
    reopening -, every call that uses that space returns afterwards what it would have returned
    before.  The store is any store reached by any history, crashes included. *)
Theorem C18_spaces_are_disjoint : forall sp cfg s es s' c,
  (forall lk, sp <> ListSpace lk) -> (forall tid, sp = TypedSpace tid -> tid < 2 ^ 32) ->
  reachable cfg s -> hist fits cfg s es cfg s' -> Forall (outside sp) es ->
  uses sp c -> kfits cfg (call_prog cfg c) s -> kfits cfg (call_prog cfg c) s' ->
  reply_to cfg s' c = reply_to cfg s c.
Proof.
  intros sp cfg s es s' c Hl Ht Hr Hh Ho Hu F1 F2.
  destruct (reach_inv _ _ Hr) as (x & M & HI).
  assert (forall cfg', hist fits cfg s es cfg' s' -> hist (sp_guard sp) cfg s es cfg' s') as Hg.
  { clear - Ho Hl Ht. intros cfg' Hh. induction Hh as [|cfg s e cfg1 s1 es cfg' s' HG Hs Hh IH]; [constructor|].
    apply Forall_cons in Ho as [Ho1 Ho2]. econstructor; [|exact Hs|by apply IH].
    split; [done|]. split; [by intros ->|].
    assert (forall c, call_outside sp c -> far cfg sp c) as Hfar.
    { intros c Hc. split; [done|]. destruct sp as [|tid|qk|lk]; [done|by apply Ht|done|by destruct (Hl lk)]. }
    destruct e as [c r|mt| | |[|c|mt]]; try done; by apply Hfar. }
  pose proof (Hg cfg Hh) as Hh'. clear Hg.
  destruct (hist_lift _ _ _ (space_lifts sp) cfg s es cfg s' x M M Hh' HI) as (x' & M' & a' & Htr & HI' & Hk & _).
  { by intros k _. }
  assert (a' = M) as ->. { clear - Htr. induction Htr as [|cfg a e cfg1 a1 es cfg' a' Hc HT Htr IH]; [done|]. rewrite IH. exact HT. }
  symmetry. unfold reply_to. eapply (konly_same cfg (space_keys cfg sp)); [by apply space_only|exact HI|exact HI'|done|done|exact Hk].
Qed.

(** The same for a list, seen through the calls that read it; the other lists have other hashes. *)
Theorem C18_list_space_is_disjoint : forall lk cfg s es cfg1 s1 es' cfg' s',
  created cfg s -> hist (list_guard lk) cfg s es cfg1 s1 ->
  hist (list_guard lk) cfg1 s1 es' cfg' s' -> Forall (outside (ListSpace lk)) es' ->
  exists l, shows_list cfg1 s1 lk l /\ shows_list cfg' s' lk l.
Proof.
  intros lk cfg s es cfg1 s1 es' cfg' s' H1 H2 H3 H4. eapply C24_lists_are_independent; [done|done|done|].
  eapply Forall_impl; [exact H4|]. intros e He.
  destruct e as [[o|t o|lk' c|qk c|b c] r|mt| | |[|[o|t o|lk' c|qk c|b c]|mt]]; cbn in *; try done; intros ->; by apply He.
Qed.

(** ** Example *)
Definition sp_before : list gcmd := map call_of [CPlain (OSet [x61] [x31]); CQueue [x61] (QPush false [x32]); CTyped 7 (OSet [x61] [x33]); CList [x61] (LSet [x61] [x34])].
Definition sp_between : list gcmd :=
  map call_of [CTyped 7 (ORemove [x61]); CTyped 8 (OSet [x61] [x35]); CList [x61] (LPop true); CBig [x62] (BSet [x36]); CQueue [x61; x62] (QPush true [x37])] ++
  [GCrash (CPlain (OSet [x61] [x39])) 0].
Definition sp_s : store := gstore no_guard ex_cfg sp_before.
Definition sp_es : list event := match gscript no_guard ex_cfg sp_s (gmap_after no_guard ex_cfg sp_before) sp_between with Some (es, _, _, _) => es | None => [] end.
Definition sp_end : store := match gscript no_guard ex_cfg sp_s (gmap_after no_guard ex_cfg sp_before) sp_between with Some (_, _, s, _) => s | None => sp_s end.
Definition sp_M : kvmap := match gscript no_guard ex_cfg sp_s (gmap_after no_guard ex_cfg sp_before) sp_between with Some (_, _, _, M) => M | None => ∅ end.
Definition sp_call : call := CQueue [x61] (QPop true).
Definition sp_es_expected : list event :=
  [ECall (CTyped 7 (ORemove [x61])) (Ok (YOut (RRemove (Some [x33])))); ECall (CTyped 8 (OSet [x61] [x35])) (Ok (YOut (RSet CreatedNew)));
   ECall (CList [x61] (LPop true)) (Ok (YItem (Some ([x61], [x34])))); ECall (CBig [x62] (BSet [x36])) (Ok (YBool false));
   ECall (CQueue [x61; x62] (QPush true [x37])) (Ok (YNum i0)); ECrash (ACall (CPlain (OSet [x61] [x39])))].
Lemma gscript_cfg gb cfg l : forall s M es cfg' s' M', (forall c, GCmd (XReopen c) ∉ l) ->
  gscript gb cfg s M l = Some (es, cfg', s', M') -> cfg' = cfg.
Proof.
  induction l as [|g l IH]; intros s M es cfg' s' M' Hl; cbn [gscript]; [by intros [= _ -> _ _]|].
  destruct (gstep cfg s M g) as [[[[e cfg1] s1] M1]|] eqn:E; [|done]. destruct (gb cfg M e); [|done].
  assert (cfg1 = cfg) as ->.
  { destruct g as [[c|m| |cfg3]|c i]; cbn [gstep cmd_step] in E.
    - destruct (krun_b _ _ _ _) as [[[? ?] ?]|]; by simplify_eq.
    - destruct (maint_b _ _ _); [|done]. destruct (exec _ _) as [? [?|?]]; by simplify_eq.
    - destruct (_ <=? _); [|done]. destruct (store_clear _ _) as [? [?|?]]; by simplify_eq.
    - exfalso. eapply Hl. left.
    - destruct (krun_b _ _ _ _) as [[[? ?] ?]|]; [|done]. destruct (kprefix _ _ _ _ _). destruct (disk_room_b _); [|done].
      destruct (store_open _ _) as [? [?|?]]; by simplify_eq. }
  assert (forall c, GCmd (XReopen c) ∉ l) as Hl' by (intros c Hc; apply (Hl c); by right).
  destruct (gscript gb cfg s1 M1 l) as [[[[es1 c] s2] M2]|] eqn:E2; [|done]. intros [= _ <- _ _]. by eapply IH.
Qed.
Lemma sp_reach : reachable ex_cfg sp_s /\ exists x, SInv ex_cfg x (gmap_after no_guard ex_cfg sp_before) sp_s.
Proof.
  destruct (gscript0_ok no_guard fits ex_cfg sp_before ltac:(by intros) ex_cfg_ok) as (H1 & H2 & H3).
  { by repeat constructor. } { by vm_cast_no_check (eq_refl true). }
  rewrite (gcfg_same no_guard ex_cfg sp_before) in H2, H3 by no_reopens.
  split; [|exact H3]. exists ex_cfg, (new_store ex_cfg), (gevents no_guard ex_cfg sp_before). split; [exact H1|exact H2].
Qed.
Lemma sp_es_is : sp_es = sp_es_expected.
Proof. by vm_cast_no_check (eq_refl sp_es_expected). Qed.
Lemma sp_hist : hist fits ex_cfg sp_s sp_es_expected ex_cfg sp_end /\ exists x, SInv ex_cfg x sp_M sp_end.
Proof.
  destruct sp_reach as [_ [x HI]]. rewrite <- sp_es_is.
  assert (match gscript no_guard ex_cfg sp_s (gmap_after no_guard ex_cfg sp_before) sp_between with Some _ => true | None => false end = true) as Hs
    by by vm_cast_no_check (eq_refl true).
  unfold sp_es, sp_end, sp_M.
  destruct (gscript no_guard ex_cfg sp_s (gmap_after no_guard ex_cfg sp_before) sp_between) as [[[[es cfg'] s'] M']|] eqn:E; [|done].
  assert (cfg' = ex_cfg) as -> by (eapply gscript_cfg; [|exact E]; no_reopens).
  destruct (gscript_ok no_guard fits ltac:(by intros) sp_between ex_cfg sp_s _ es ex_cfg s' M' x HI ltac:(by repeat constructor) E) as (H1 & _ & H2). auto.
Qed.
Example C18_example : reachable ex_cfg sp_s /\ hist fits ex_cfg sp_s sp_es_expected ex_cfg sp_end /\
  Forall (outside (QueueSpace [x61])) sp_es_expected /\ uses (QueueSpace [x61]) sp_call /\
  kfits ex_cfg (call_prog ex_cfg sp_call) sp_s /\ kfits ex_cfg (call_prog ex_cfg sp_call) sp_end /\
  reply_to ex_cfg sp_s sp_call = Ok (YElem (Some (i0, [x32]))).
Proof.
  destruct sp_reach as [H1 [x H2]], sp_hist as [H3 [x' H4]].
  split; [exact H1|]. split; [exact H3|]. split; [by repeat (constructor; [by (split; [cbn; intros H; discriminate H || exact H|cbn; lia])|])|]. split; [done|].
  split; [eapply kfits_by; [exact H2|by vm_cast_no_check (eq_refl true)]|].
  split; [eapply kfits_by; [exact H4|by vm_cast_no_check (eq_refl true)]|].
  by vm_cast_no_check (eq_refl (@Ok reply (YElem (Some (i0, [x32]))))).
Qed.

(** ** Counterexamples *)
(** Queues and big values are one space: a queue's elements are read as a big value, and setting the
    big value destroys the queue. *)
Theorem C18_queues_and_big_values_refuted : happens
  [ECall (CQueue [x61] (QPush false [x31])) (Ok (YNum i0)); ECall (CBig [x61] BGet) (Ok (YOpt (Some [x31])));
   ECall (CBig [x61] (BSet [x32])) (Ok (YBool true)); ECall (CQueue [x61] (QIter true)) (Ok (YElems [(i0, [x32])]))].
Proof. happens_with (map call_of [CQueue [x61] (QPush false [x31]); CBig [x61] BGet; CBig [x61] (BSet [x32]); CQueue [x61] (QIter true)]). Qed.
