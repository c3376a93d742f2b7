(** What get_big returns while other threads write (C64): pieces of values that were given to set_big. *)
From Verif Require Import Base Hashing HashingProofs Fs Shard Router RouterPure Wpc Spec FileRep RowOps
  Compact Inv ShardOps Split Insert Open Merge Create Store Limits StoreRefine Kv Lists Queues Api Hist KvSpec
  HistInv KeySpace ListSpec ListRep ListProg ListHist ThmList QueueSpec QueueRep QueueProg QueueHist ThmQueue
  Conc ConcSpec BigCrash.
Implicit Types (M : kvmap) (v w p : bytes) (W : bytes -> Prop).

(** ** Specification *)
(** [p] is one of the pieces of 65280 bytes (the last one may be shorter) of [v]. *)
Definition piece_of (p v : bytes) : Prop :=
  exists j : nat, p = take (N.to_nat MAX_VALUE_SIZE) (drop (j * N.to_nat MAX_VALUE_SIZE) v) /\ p <> [].
(** [v] was given to set_big for the key [k]: in the history [es0], also if the process died in the call,
    or by a concurrent call in [es]. *)
Definition given_big (k : bytes) (es0 : list event) (es : list cevent) (v : bytes) : Prop :=
  (exists r, ECall (CBig k (BSet v)) r ∈ es0) \/ ECrash (ACall (CBig k (BSet v))) ∈ es0 \/ (exists a, EvCall a (CBig k (BSet v)) ∈ es).

Lemma chunks_piece p : forall fuel v, p ∈ chunks fuel MAXN v -> piece_of p v.
Proof.
  induction fuel as [|fuel IH]; intros v; cbn [chunks]; [intros H; by apply elem_of_nil in H|].
  destruct v as [|x v]; [intros H; by apply elem_of_nil in H|]. intros H. apply elem_of_cons in H as [->|H].
  - exists 0%nat. split; [done|]. pose proof MAXN_pos as HP. destruct MAXN as [|m]; [lia|discriminate].
  - destruct (IH _ H) as (j & H1 & H2). exists (S j). split; [|done]. rewrite H1, drop_drop. f_equal.
Qed.

(** ** Programs that put only pieces [W] under the item keys of [k], and return [Q] if they read only such pieces there *)
Fixpoint kputs {A} (k : bytes) W (Q : A -> Prop) (p : kprog A) : Prop :=
  match p with
  | KRet a => Q a
  | KFail _ => True
  | @KVis _ X o f =>
    match o with
    | KIns key v _ => forall i, key = qitem_key k i -> W v
    | _ => True
    end /\
    forall x : X,
      (match o in kop X return X -> Prop with
       | KGet key => fun x => forall i v, key = qitem_key k i -> x = Some v -> W v
       | _ => fun _ => True
       end) x -> kputs k W Q (f x)
  end.

Section puts.
  Context (k : bytes) (W : bytes -> Prop).
  Lemma kputs_bind {A B} (Q : B -> Prop) (p : kprog A) (f : A -> kprog B) : kputs k W (fun a => kputs k W Q (f a)) p -> kputs k W Q (kbind p f).
  Proof.
    induction p as [a|e|X o g IH]; cbn [kbind kputs]; [done|done|]. intros [H1 H2]. split; [done|]. intros x Hx. by apply IH, H2.
  Qed.
  Lemma kputs_mono {A} (Q Q' : A -> Prop) (p : kprog A) : (forall a, Q a -> Q' a) -> kputs k W Q p -> kputs k W Q' p.
  Proof. intros HQ. induction p as [a|e|X o g IH]; cbn [kputs]; [auto|done|]. intros [H1 H2]. split; [done|]. intros x Hx. by apply IH, H2. Qed.
  Lemma kputs_seq {A B} (Q : B -> Prop) (p : kprog A) (f : A -> kprog B) : kputs k W anyv p -> (forall a, kputs k W Q (f a)) -> kputs k W Q (kbind p f).
  Proof. intros H1 H2. apply kputs_bind. eapply kputs_mono; [|exact H1]. auto. Qed.
  Lemma kputs_lift {A} (Q : A -> Prop) (r : res A) : (forall a, r = Ok a -> Q a) -> kputs k W Q (klift r).
  Proof. destruct r; cbn; auto. Qed.
  (** Programs that do not write there. *)
  Lemma kputs_writes {A} (P : bytes -> Prop) (p : kprog A) : (forall i, ~ P (qitem_key k i)) -> kwrites P anyv p -> kputs k W anyv p.
  Proof.
    intros HP. induction p as [a|e|X o g IH]; cbn [kwrites kputs]; [done|done|]. intros [H1 H2]. split; [|intros x _; by apply IH].
    destruct o; try done. intros i ->. by destruct (HP i), H1.
  Qed.
  Lemma kputs_locked {A} cfg ph (Q : A -> Prop) (p : kprog A) : kputs k W Q p -> kputs k W Q (klocked cfg ph p).
  Proof.
    intros H. unfold klocked. cbn [kop1 kbind kputs]. split; [done|]. intros _ _. apply kputs_bind. eapply kputs_mono; [|exact H]. intros a Ha.
    cbn. auto.
  Qed.
  (** Items and the record. *)
  Definition pieces_in (M : kvmap) : Prop := forall i v, M !! qitem_key k i = Some v -> W v.

  Lemma extend_items_puts vs : forall t n, Forall W vs -> kputs k W anyv (extend_items k vs t n).
  Proof.
    induction vs as [|v vs IH]; intros t n Hv; cbn [extend_items]; [done|]. apply Forall_cons in Hv as [Hv Hvs].
    apply kputs_seq.
    { cbn. split; [by intros i _|]. intros x _. by apply kputs_lift. }
    intros _. apply kputs_seq; [by apply kputs_lift|]. intros t'. apply kputs_seq; [by apply kputs_lift|]. intros n'. by apply IH.
  Qed.
  Lemma kputs_set_rec v : kputs k W anyv (kset (queue_key k) v).
  Proof. cbn. split; [intros i E; exfalso; revert E; kdiff|]. intros x _. by apply kputs_lift. Qed.
  Lemma kputs_goc_rec v : kputs k W anyv (kgoc (queue_key k) v).
  Proof. cbn. split; [intros i E; exfalso; revert E; kdiff|]. intros x _. by apply kputs_lift. Qed.
  Lemma extend_queue_puts cfg vs : Forall W vs -> kputs k W anyv (extend_queue cfg k vs).
  Proof.
    intros Hv. unfold extend_queue. apply kputs_locked. apply kputs_seq; [apply kputs_goc_rec|]. intros st.
    apply kputs_seq; [by apply kputs_lift|]. intros q. apply kputs_seq; [by apply extend_items_puts|]. intros [t n].
    apply kputs_seq; [apply kputs_set_rec|]. done.
  Qed.
  Lemma rem_items_puts l : kputs k W anyv (rem_items k l).
  Proof. induction l as [|i l IH]; cbn [rem_items]; [done|]. apply kputs_seq; [by cbn|]. intros _. exact IH. Qed.
  Lemma discard_queue_puts cfg : kputs k W anyv (discard_queue cfg k).
  Proof.
    unfold discard_queue. apply kputs_locked. apply kputs_seq; [by cbn|]. intros [b|]; [|exact Logic.I].
    apply kputs_seq; [by apply kputs_lift|]. intros q. apply kputs_seq; [apply rem_items_puts|]. intros _.
    apply kputs_seq; [by cbn|]. done.
  Qed.
  Lemma iter_qitems_puts l : kputs k W (fun ys => Forall W (map snd ys)) (iter_qitems k l).
  Proof.
    induction l as [|i l IH]; cbn [iter_qitems]; [cbn; constructor|]. cbn [kop1 kbind kputs]. split; [done|]. intros x Hx.
    destruct x as [v|]; [|exact IH]. apply kputs_bind. eapply kputs_mono; [|exact IH]. intros ys Hys. cbn [kputs map snd]. constructor; [|done]. by eapply Hx.
  Qed.
  Lemma get_big_puts cfg : (forall p, W p -> p <> []) -> kputs k W (fun o => exists ps, Forall W ps /\ o = big_put (concat ps)) (get_big cfg k).
  Proof.
    intros HW. unfold get_big, iter_queue. apply kputs_bind. apply kputs_bind.
    assert (kputs k W anyv (fetch_queue cfg k)) as Hf.
    { apply (kputs_writes (fun _ => False)); [auto|]. apply fetch_queue_writes. }
    eapply kputs_mono; [|exact Hf]. intros q _.
    assert (forall ys : elems, Forall W (map snd ys) -> exists ps, Forall W ps /\ match ys with [] => None | _ => Some (concat (map snd ys)) end = big_put (concat ps)) as Hend.
    { intros ys Hys. exists (map snd ys). split; [done|]. destruct ys as [|[i p] ys]; [done|]. cbn [map snd concat] in *. apply Forall_cons in Hys as [Hp _].
      apply HW in Hp. by destruct p. }
    destruct q as [q|]; [|cbn [kputs]; apply (Hend []); constructor].
    eapply kputs_mono; [|apply iter_qitems_puts]. intros ys Hys. cbn [kputs]. by apply Hend.
  Qed.

  (** ** One raw operation *)
  Lemma spec_ins_pieces M key v mode : pieces_in M -> (forall i, key = qitem_key k i -> W v) -> pieces_in (fst (spec_ins M key v mode)).
  Proof.
    intros HM Hv. assert (pieces_in (<[key := v]> M)) as H1.
    { intros i w. rewrite lookup_insert_Some. intros [[-> ->]|[_ H]]; [by eapply Hv|by eapply HM]. }
    unfold spec_ins. destruct (M !! key) as [o|], mode as [|[ex|]|]; cbn; try done. by case_bool_decide.
  Qed.
  Lemma kop_step_puts cfg a M lk (Q : reply -> Prop) (p : kprog reply) M' lk' (p' : kprog reply) : kop_step cfg a M lk p M' lk' p' ->
    pieces_in M -> kputs k W Q p -> pieces_in M' /\ kputs k W Q p'.
  Proof.
    intros Hs HM Hp. destruct p as [y|e|X o f]; [done|done|]. cbn [kputs] in Hp. destruct Hp as [H1 H2].
    destruct o as [key|key v mode|key|ph|i|i]; cbn [kop_step] in Hs.
    - destruct Hs as (-> & _ & ->). split; [done|]. apply H2. intros i v -> Hv. by eapply HM.
    - destruct Hs as (_ & Hs). destruct (ins_err cfg key v) as [e|].
      + by destruct Hs as [-> ->].
      + destruct Hs as [-> ->]. split; [by apply spec_ins_pieces|by apply H2].
    - destruct Hs as (-> & _ & ->). split; [|by apply H2]. intros i v Hv. apply lookup_delete_Some in Hv as [_ Hv]. by eapply HM.
    - destruct Hs as (-> & _ & Hs). split; [done|]. destruct (ph_sig ph =? INVALID_SIG); [by subst|]. destruct Hs as (l & _ & ->). by apply H2.
    - destruct Hs as (-> & _ & _ & ->). split; [done|]. by apply H2.
    - destruct Hs as (-> & _ & ->). split; [done|]. by apply H2.
  Qed.
  (** The same for a program that runs alone. *)
  Lemma kwp_puts {A} (cfg : config) (P : bytes -> Prop) (p : kprog A) (Q : A -> Prop) : kwrites P anyv p -> kputs k W Q p -> forall M, pieces_in M ->
    kwp cfg p pieces_in (fun a M' => Q a /\ pieces_in M') (fun _ => pieces_in) M.
  Proof.
    induction p as [a|e|X o f IH]; intros Hp Hw M HM; cbn [kwp kwrites kputs] in *; [done|done|].
    destruct Hp as [H1 H2], Hw as [H3 H4]. split; [done|]. destruct o as [key|key v mode|key|ph|i|i].
    - apply IH; [done| |done]. apply H4. intros i v -> Hv. by eapply HM.
    - destruct H1 as [Hne _]. split; [done|]. destruct (ins_err cfg key v); [done|]. apply IH; [done|by apply H4|by apply spec_ins_pieces].
    - apply IH; [done|by apply H4|]. intros i v Hv. apply lookup_delete_Some in Hv as [_ Hv]. by eapply HM.
    - destruct (ph_sig ph =? INVALID_SIG); [done|]. intros l _. apply IH; [done|by apply H4|done].
    - apply IH; [done|by apply H4|done].
    - apply IH; [done|by apply H4|done].
  Qed.
End puts.

(** ** Calls *)
Definition call_shows (k : bytes) W (c : call) (y : reply) : Prop :=
  c = CBig k BGet -> exists ps, Forall W ps /\ y = YOpt (big_put (concat ps)).
Lemma call_puts k W cfg c : (forall qc, c <> CQueue k qc) -> (forall p, W p -> p <> []) ->
  (forall v, c = CBig k (BSet v) -> forall p, piece_of p v -> W p) -> kputs k W (call_shows k W c) (call_prog cfg c).
Proof.
  intros Hq HW Hc. assert ((exists bc, c = CBig k bc) \/ forall bc, c <> CBig k bc) as [[bc ->]|Hn].
  { destruct c as [o|tid o|lk' lc|qk' qc|b bc]; try (right; done). destruct (decide (b = k)) as [->|]; [left; eauto|right; congruence]. }
  - cbn [call_prog]. destruct bc as [v| |]; cbn [big_prog]; unfold kmap; apply kputs_bind.
    + eapply kputs_mono; [|]; [intros a H; cbn [kputs]; intros [=]|]. unfold set_big. apply kputs_seq; [apply discard_queue_puts|]. intros b.
      apply (kputs_seq _ _ anyv); [|done]. apply extend_queue_puts. apply Forall_forall. intros p Hp. eapply Hc; [done|]. by eapply chunks_piece.
    + eapply kputs_mono; [|by apply get_big_puts]. intros o (ps & H1 & ->). cbn [kputs]. intros _. by exists ps.
    + eapply kputs_mono; [|apply discard_queue_puts]. intros a _. cbn [kputs]. by intros [=].
  - assert (kputs k W anyv (call_prog cfg c)) as H.
    { apply (kputs_writes k W (call_keys cfg c)); [|apply call_writes]. intros i Hi.
      destruct (call_keys_queue cfg c k _ (or_intror (ex_intro _ i eq_refl)) Hi) as [[c' ->]|[c' ->]]; [by destruct (Hq c')|by destruct (Hn c')]. }
    eapply kputs_mono; [|exact H]. intros y _ ->. by destruct (Hn BGet).
Qed.

(** ** Along a history *)
Definition sets_big (k : bytes) (e : event) v : Prop := (exists r, e = ECall (CBig k (BSet v)) r) \/ e = ECrash (ACall (CBig k (BSet v))).
Definition pieces_of (V : bytes -> Prop) (p : bytes) : Prop := exists v, V v /\ piece_of p v.
Definition given_inv (k : bytes) (_ : config) M (V : bytes -> Prop) : Prop := pieces_in k (pieces_of V) M.
Definition given_step (k : bytes) (_ : config) (V : bytes -> Prop) (e : event) (_ : config) (V' : bytes -> Prop) : Prop :=
  forall v, V' v <-> V v \/ sets_big k e v.
Lemma pieces_of_ne V p : pieces_of V p -> p <> [].
Proof. by intros (v & _ & j & _ & H). Qed.
Lemma pieces_in_mono k (W W' : bytes -> Prop) M : (forall p, W p -> W' p) -> pieces_in k W M -> pieces_in k W' M.
Proof. intros H HM i v Hv. by eapply H, HM. Qed.
Lemma given_lifts k : lifts (given_inv k) (given_step k) (big_guard_crash k).
Proof.
  assert (Hcall : forall cfg c (V V' : bytes -> Prop) M, given_inv k cfg M V -> (forall qc, c <> CQueue k qc) -> (forall v, V v -> V' v) -> (forall v, c = CBig k (BSet v) -> V' v) ->
    kwp cfg (call_prog cfg c) (pieces_in k (pieces_of V')) (fun y M' => call_shows k (pieces_of V') c y /\ pieces_in k (pieces_of V') M') (fun _ => pieces_in k (pieces_of V')) M).
  { intros cfg c V V' M HI Hq HV HV'. eapply kwp_puts; [apply call_writes| |].
    - apply call_puts; [done|apply pieces_of_ne|]. intros v Hv p Hp. exists v. split; [by apply HV'|done].
    - eapply pieces_in_mono; [|exact HI]. intros p (v & H1 & H2). exists v. split; [by apply HV|done]. }
  assert (Hno : forall cfg s c r, big_guard_crash k cfg s (ECall c r) -> forall qc, c <> CQueue k qc) by (intros cfg s c r [_ Hg] qc ->; done).
  assert (Hno2 : forall cfg s c, big_guard_crash k cfg s (ECrash (ACall c)) -> forall qc, c <> CQueue k qc) by (intros cfg s c [_ Hg] qc ->; done).
  constructor.
  - intros cfg cfg' M a Hh H. exact H.
  - intros cfg s e [H _]. exact H.
  - intros cfg s x M V c r HI HR HG. set (V' := fun v => V v \/ c = CBig k (BSet v)).
    assert (Hst : forall r', given_step k cfg V (ECall c r') cfg V').
    { intros r' v. unfold V', sets_big. split; [intros [H|H]; [by left|right; left; exists r'; by rewrite H]|].
      intros [H|[[r2 H]|H]]; [by left|right; by injection H|done]. }
    eexists. eapply kwp_mono; [| | |eapply (Hcall cfg c V V' M HR); [by eapply Hno| |]].
    + intros M' H. exact H.
    + intros y M' _ [_ H]. exists V'. split; [apply Hst|exact H].
    + intros e M' _ H. exists V'. split; [apply Hst|exact H].
    + intros v H. by left.
    + intros v H. by right.
  - intros cfg s x M V c HI HR HG. set (V' := fun v => V v \/ c = CBig k (BSet v)).
    eapply kwp_mono; [| | |eapply (Hcall cfg c V V' M HR); [by eapply Hno2| |]]; [|done|done| |].
    + intros M' H. exists V'. split; [|exact H]. intros cfg' _ v. unfold V', sets_big. split; [intros [E|E]; [by left|right; right; by rewrite E]|].
      intros [E|[[r2 E]|E]]; [by left|done|right; by injection E].
    + intros v H. by left.
    + intros v H. by right.
  - intros cfg s x M V e HI HV _ He. exists V. split; [|exact HV]. intros cfg' _ v. split; [by left|]. intros [H|[[r H]|H]]; [done| |]; by subst e.
  - intros cfg s x M V HI HV _. exists V. split.
    + intros v. split; [by left|]. intros [H|[[r H]|H]]; done.
    + intros i v Hv. by rewrite lookup_empty in Hv.
Qed.
Lemma given_trace k cfg (V : bytes -> Prop) es cfg' V' : trace (given_step k) cfg V es cfg' V' ->
  forall v, V' v -> V v \/ exists e, e ∈ es /\ sets_big k e v.
Proof.
  induction 1 as [|cfg V e cfg1 V1 es cfg' V' _ HT _ IH]; intros v Hv; [by left|].
  destruct (IH v Hv) as [H|(e' & H1 & H2)].
  - apply HT in H as [H|H]; [by left|]. right. exists e. split; [by left|done].
  - right. exists e'. split; [by right|done].
Qed.

(** ** Along a concurrent run *)
Lemma arun_prefix cfg A es A' : arun cfg A es A' -> forall es1 e es2, es = es1 ++ e :: es2 -> exists A1, arun cfg A (es1 ++ [e]) A1.
Proof.
  induction 1 as [s|s o s1 es s' Hs Hr IH]; intros es1 e es2 E; [by destruct es1|]. destruct o as [e0|]; cbn [option_list app] in E.
  - destruct es1 as [|e1 es1]; cbn [app] in E; injection E as -> ->.
    + exists s1. change ([] ++ [e]) with (option_list (Some e) ++ []). eapply arun_step; [exact Hs|constructor].
    + destruct (IH es1 e es2 eq_refl) as [A1 H]. exists A1. change ((e1 :: es1) ++ [e]) with (option_list (Some e1) ++ es1 ++ [e]). by eapply arun_step.
  - destruct (IH es1 e es2 E) as [A1 H]. exists A1. change (es1 ++ [e]) with (option_list None ++ es1 ++ [e]). by eapply arun_step.
Qed.
Definition th_puts (k : bytes) W (P : gmap nat (kprog reply)) (Q : gmap nat call) : Prop :=
  forall a (p : kprog reply), P !! a = Some p -> exists c, Q !! a = Some c /\ kputs k W (call_shows k W c) p.
Lemma arun_puts cfg k W A es A' : arun cfg A es A' -> (forall p, W p -> p <> []) ->
  (forall a c, EvCall a c ∈ es -> (forall qc, c <> CQueue k qc) /\ forall v, c = CBig k (BSet v) -> forall p, piece_of p v -> W p) ->
  forall Q, pieces_in k W (a_map A) -> th_puts k W (a_ths A) Q ->
  forall es1 a y es2, es = es1 ++ EvRet a (Ok y) :: es2 -> exists c, pending Q es1 !! a = Some c /\ call_shows k W c y.
Proof.
  intros Hr HW. induction Hr as [s|s o s1 es s' Hs Hr IH]; intros Hc Q HM HP es1 a y es2 E; [by destruct es1|].
  assert (Hc1 : forall a c, EvCall a c ∈ es -> (forall qc, c <> CQueue k qc) /\ forall v, c = CBig k (BSet v) -> forall p, piece_of p v -> W p).
  { intros b c H. apply (Hc b). apply elem_of_app. by right. }
  specialize (IH Hc1). destruct Hs as [M P lk b c Hb|M P lk b p M' lk' p' Hb Hk|M P lk b z Hb|M P lk b e Hb]; cbn [a_map a_ths option_list app] in *.
  - destruct es1 as [|e1 es1]; cbn [app] in E; [done|]. injection E as <- E. cbn [pending]. eapply IH; [exact HM| |exact E].
    intros d p Hd. destruct (decide (d = b)) as [->|Hne].
    + rewrite lookup_insert in Hd. injection Hd as <-. exists c. rewrite lookup_insert. split; [done|]. destruct (Hc b c) as [C1 C2]; [by left|]. by apply call_puts.
    + rewrite lookup_insert_ne in Hd by done. rewrite lookup_insert_ne by done. by apply HP.
  - destruct (HP _ _ Hb) as (c & Q1 & Q2). destruct (kop_step_puts k W _ _ _ _ _ _ _ _ _ Hk HM Q2) as [HM' Q3].
    eapply IH; [exact HM'| |exact E]. intros d q Hd. destruct (decide (d = b)) as [->|Hne].
    + rewrite lookup_insert in Hd. injection Hd as <-. by exists c.
    + rewrite lookup_insert_ne in Hd by done. by apply HP.
  - destruct (HP _ _ Hb) as (c & Q1 & Q2). cbn [kputs] in Q2. destruct es1 as [|e1 es1]; cbn [app] in E.
    + injection E as -> -> _. cbn [pending]. by exists c.
    + injection E as <- E. cbn [pending]. eapply IH; [exact HM| |exact E]. intros d q Hd. apply lookup_delete_Some in Hd as [Hne Hd]. rewrite lookup_delete_ne by done. by apply HP.
  - destruct es1 as [|e1 es1]; cbn [app] in E; [done|]. injection E as <- E. cbn [pending]. eapply IH; [exact HM| |exact E].
    intros d q Hd. apply lookup_delete_Some in Hd as [Hne Hd]. rewrite lookup_delete_ne by done. by apply HP.
Qed.
