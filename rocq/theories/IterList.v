(** Iterating over a list while it is being changed. *)
From Coq Require Import Sorted.
From Verif Require Import Base Hashing HashingProofs Fs Shard Router RouterPure Wpc Spec FileRep RowOps
  Compact Inv ShardOps Split Insert Open Merge Create Store Limits StoreRefine Kv Lists Queues Api Hist KvSpec
  HistInv KeySpace ListSpec ListRep ListProg ListHist ThmList CollIter IterQueue.
Implicit Types (M : kvmap) (cfg : config) (s : store) (its : ixs) (fwd : bool) (lost : N) (lk ik : bytes) (it : citer).

(** The call [c], which returned [r], may have taken out or moved the item with the key [ik]. *)
Definition call_moves (ik : bytes) (c : lcall) (r : res reply) : Prop :=
  match c with
  | LSetPromoting k _ | LRemove k => k = ik
  | LPop _ => exists v, r = Ok (YItem (Some (ik, v)))
  | LCompact _ _ => r <> Ok (YBool false)
  | LDiscard => True
  | _ => False
  end.
Definition moves (lk ik : bytes) (e : event) : Prop :=
  match e with
  | ECall (CList lk' c) r => lk' = lk /\ call_moves ik c r
  | EClear | ECrash _ => True
  | _ => False
  end.

(** ** Where the items are *)
Section where_.
  Context (cfg : config) (lk : bytes).
  Local Notation lph := (list_ph cfg lk).
  Local Notation T := (fun _ : kvmap => True).
  Local Notation TE := (fun (_ : err) (_ : kvmap) => True).
  (** The item [ik] has the index [i]. *)
  Definition placed (ik : bytes) (i : N) (M : kvmap) : Prop := exists v : bytes, M !! item_key lph ik = Some (v ++ u64_bytes i).
  Definition places (P : bytes -> Prop) (its : ixs) (M : kvmap) : Prop := forall i ik v, (i, (ik, v)) ∈ its -> P ik -> placed ik i M.
  Lemma core_placed M its i ik v : core cfg lk M its -> (i, (ik, v)) ∈ its -> placed ik i M.
  Proof. intros HC Hin. exists v. apply (co_items _ _ _ _ HC). eauto. Qed.
  Lemma placed_core M its i ik : core cfg lk M its -> placed ik i M -> i < U64 -> exists v, (i, (ik, v)) ∈ its.
  Proof.
    intros HC [v Hv] Hi. apply (co_items _ _ _ _ HC) in Hv as (j & w & Hin & E). apply app_inj_2 in E as [-> E]; [|by rewrite !u64_bytes_len].
    apply u64_bytes_inj in E; [|done|]; [subst j; by exists w|]. pose proof (co_bound _ _ _ _ HC) as Hb. rewrite Forall_forall in Hb. by apply Hb in Hin.
  Qed.
  Lemma placed_ins M k w ik i : k <> item_key lph ik -> placed ik i M -> placed ik i (<[k := w]> M).
  Proof. intros Hne [v Hv]. exists v. by rewrite lookup_insert_ne. Qed.
  Lemma kwp_lift_T {A : Type} (r : res A) (Q : A -> kvmap -> Prop) (E : err -> kvmap -> Prop) M : (forall a, r = Ok a -> Q a M) -> (forall e, E e M) -> kwp cfg (klift r) T Q E M.
  Proof. intros H HE. destruct r as [a|e]; (split; [done|]); [by apply H|apply HE]. Qed.
  Lemma kwp_set_T (k v : bytes) (Q : set_status -> kvmap -> Prop) (E : err -> kvmap -> Prop) M : k <> [] -> (forall st, Q st (<[k := v]> M)) -> (forall e, E e M) -> kwp cfg (kset k v) T Q E M.
  Proof. intros Hk H HE. apply kwp_set2; auto. Qed.
  Lemma item_ne (k k' : bytes) : k <> k' -> item_key lph k <> item_key lph k'.
  Proof. intros Hne E. apply Hne. unfold item_key in E. by apply app_inj_2 in E as [E _]. Qed.
  (** An insertion moves no item. *)
  Lemma insert_places ik v mode its M : core cfg lk M its ->
    kwp cfg (insert_to_list cfg lk ik v mode) T (fun _ => places (fun _ => True) its) (fun _ => places (fun _ => True) its) M.
  Proof.
    intros HC. set (PL := places (fun _ => True) its). assert (PL M) as HP by (intros i k w Hin _; by eapply core_placed).
    assert (Hother : forall (k w : bytes) (M : kvmap), (forall k', k <> item_key lph k') -> PL M -> PL (<[k := w]> M)).
    { intros k w M1 Hne H i k' w' Hin Hk. apply placed_ins; [done|]. by eapply H. }
    unfold insert_to_list. cbv zeta. apply kwp_locked, kwp_bind, kwp_get; [done|].
    rewrite (core_get cfg lk M its ik HC). destruct (li_find its ik) as [[i old]|] eqn:Ef; cbn [fmap option_fmap option_map fst snd].
    - apply kwp_bind. eapply kwp_lift_ok; [apply cut8|done|]. cbv beta iota.
      assert (kwp cfg (dok _ <- kreplace (item_key lph ik) (v ++ u64_bytes i) None; KRet (IReplaced old)) T (fun _ => PL) (fun _ => PL) M) as Hrep.
      { apply kwp_bind, kwp_replace2; [auto with kne|done| |done|].
        - rewrite (core_get cfg lk M its ik HC), Ef. by eexists.
        - intros _. split; [done|]. intros _. apply kwp_ret; [done|]. intros j k w Hin _.
          destruct (decide (k = ik)) as [->|Hne]; [|apply placed_ins; [apply item_ne; congruence|by eapply core_placed]].
          pose proof (core_find cfg lk M its j ik w HC Hin) as E. rewrite Ef in E. injection E as <- <-. exists v. apply lookup_insert. }
      destruct mode as [|[ex|]|]; try exact Hrep; [case_bool_decide; [exact Hrep|]|]; by apply kwp_ret.
    - set (q := kbind (kgoc (list_key lk) _) _).
      assert (kwp cfg q T (fun _ => PL) (fun _ => PL) M) as Hins; [|destruct mode; [exact Hins|by apply kwp_ret|exact Hins]]. unfold q.
      assert (Hend : forall M1 t, PL M1 -> kwp cfg (dok _ <- kset (chain_key lph t) (u64_bytes (hashk cfg (item_key lph ik)));
        dok _ <- kset (item_key lph ik) (v ++ u64_bytes t); KRet (ICreated v)) T (fun _ => PL) (fun _ => PL) M1).
      { intros M1 t H1. assert (forall w, PL (<[chain_key lph t := w]> M1)) as H2 by (intros w; apply Hother; [intros ?; kdiff|done]).
        apply kwp_bind, kwp_set_T; [auto with kne| |done]. intros _. apply kwp_bind, kwp_set_T; [auto with kne| |intros _; apply H2]. intros _. apply kwp_ret; [done|].
        intros j k w Hin _. apply placed_ins.
        - apply item_ne. intros <-. eapply li_find_None; [exact Ef|exact Hin].
        - by apply (H2 _ j k w). }
      apply kwp_bind, kwp_goc2; [auto with kne|done|done| |].
      + intros b _ _. apply kwp_bind, kwp_lift_T; [|done]. intros r _. cbv zeta. apply kwp_bind, kwp_lift_T; [|done]. intros t' _. apply kwp_bind, kwp_lift_T; [|done]. intros n' _.
        apply kwp_bind, kwp_set_T; [auto with kne| |done]. intros _. apply Hend, Hother; [intros ?; kdiff|done].
      + intros _ _. split; [done|]. apply Hend, Hother; [intros ?; kdiff|done].
  Qed.
  Lemma removed_places (P : bytes -> Prop) its ik M lost : rep cfg lk M (li_remove its ik) lost -> (P ik -> False) -> places P its M.
  Proof.
    intros [HC _] Hn i k w Hin Hk. eapply core_placed; [exact HC|]. apply li_remove_in. split; [exact Hin|]. intros E. apply Hn. cbn in E. by rewrite <- E.
  Qed.
  Lemma compact_places few ml M : kwp cfg (compact_list cfg few ml lk) T (fun y M' => y = false -> M' = M) TE M.
  Proof.
    unfold compact_list. cbv zeta. apply kwp_locked, kwp_bind, kwp_get; [done|]. destruct (M !! list_key lk) as [lb|]; [|by apply kwp_ret].
    apply kwp_bind, kwp_lift_T; [|done]. intros r _. apply kwp_bind, kwp_lift_T; [|done]. intros sp _. destruct (sp <? ml); [by apply kwp_ret|].
    apply kwp_bind, kwp_lift_T; [|done]. intros ho _. destruct (few sp ho); [by apply kwp_ret|].
    apply kwp_bind. eapply kwp_mono; [| | |eapply (kwp_frame cfg (list_keys cfg lk) _ anyv M (compact_items_writes cfg lk _ _ _) M)]; [done| |done|done].
    intros new M1 _ _. apply kwp_bind. destruct (l_tail r =? new).
    - apply kwp_bind, kwp_rem; [done|done|]. apply kwp_ret; [done|]. by apply kwp_ret.
    - apply kwp_bind, kwp_set_T; [auto with kne| |done]. intros _. apply kwp_ret; [done|]. by apply kwp_ret.
  Qed.
  Lemma list_places M its lost c : rep cfg lk M its lost -> (list_reads c = false -> entries_ok cfg M /\ index_room (list_key lk) M) ->
    kwp cfg (list_prog cfg lk c) T (fun y => places (fun ik => ~ call_moves ik c (Ok y)) its)
      (fun e => places (fun ik => ~ call_moves ik c (Err e)) its) M.
  Proof.
    intros HR Hroom. pose proof (rep_core _ _ _ _ _ HR) as HC.
    assert (HP : forall P : bytes -> Prop, places P its M) by (intros P i k w Hin _; by eapply core_placed).
    destruct (list_reads c) eqn:Erd.
    { pose proof (list_reads_writes cfg lk c Erd) as Hw. cbn [call_prog] in Hw.
      eapply kwp_mono; [| | |eapply (kwp_frame cfg (fun _ => False) _ anyv M Hw M)]; [done| | |done];
        (intros a M' _ Hs; intros i k w Hin _; destruct (core_placed M its i k w HC Hin) as [v Hv]; exists v; rewrite Hs; [exact Hv|tauto]). }
    destruct (Hroom eq_refl) as [Hent Hidx].
    assert (c = LDiscard \/ c <> LDiscard) as [->|Hnd] by (destruct c; by (left + right)).
    { eapply kwp_mono; [| | |exact (kwp_frame cfg (list_keys cfg lk) _ anyv M (list_prog_writes cfg lk LDiscard) M ltac:(done))]; [done| |];
        (intros a M' _ _ i k w Hin Hk; exfalso; apply Hk; exact Logic.I). }
    assert (Hins : forall (P : bytes -> Prop) M', places (fun _ => True) its M' -> places P its M') by (intros P M' H i k w Hin _; by eapply H).
    destruct c as [ik v|ik v|ik v ex|ik v|ik|ik|few ml|fwd|fwd|fwd| |]; try done; cbn [list_prog]; apply kwp_map.
    - unfold set_in_list. apply kwp_bind, kwp_ret; [done|]. apply kwp_bind.
      eapply kwp_mono; [| | |exact (insert_places ik v MSet its M HC)]; [done| |]; [|intros e M' _ H; by apply Hins].
      intros st M' _ H. destruct st; (split; [done|]); by apply Hins.
    - unfold set_in_list. apply kwp_bind, kwp_bind. eapply kwp_mono; [| | |exact (kwp_remove cfg lk M its lost ik HR Hent)]; [done| |done].
      intros y M1 _ (HR1 & _ & Hidx1). apply kwp_ret; [done|]. apply kwp_bind.
      assert (forall (P : bytes -> Prop) M', places (fun _ => True) (li_remove its ik) M' -> places (fun k => ~ (ik = k) /\ P k) its M') as Hrem.
      { intros P M' H i k w Hin [Hk _]. apply (H i k w); [|done]. apply li_remove_in. split; [done|]. cbn. congruence. }
      eapply kwp_mono; [| | |exact (insert_places ik v MSet (li_remove its ik) M1 (rep_core _ _ _ _ _ HR1))]; [done| |].
      + intros st M' _ H. destruct st; (split; [done|]); intros i k w Hin Hk; (apply (Hrem (fun _ => True) M' H i k w Hin); split; [exact Hk|done]).
      + intros e M' _ H i k w Hin Hk. apply (Hrem (fun _ => True) M' H i k w Hin). split; [exact Hk|done].
    - unfold replace_in_list. apply kwp_bind.
      eapply kwp_mono; [| | |exact (insert_places ik v (MReplace ex) its M HC)]; [done| |]; [|intros e M' _ H; by apply Hins].
      intros st M' _ H. destruct st; (split; [done|]); by apply Hins.
    - unfold get_or_create_in_list. apply kwp_bind.
      eapply kwp_mono; [| | |exact (insert_places ik v MGetOrCreate its M HC)]; [done| |]; [|intros e M' _ H; by apply Hins].
      intros st M' _ H. destruct st; (split; [done|]); by apply Hins.
    - eapply kwp_mono; [| | |exact (kwp_remove cfg lk M its lost ik HR Hent)]; [done| |done].
      intros y M' _ (HR1 & _ & _). eapply (removed_places _ its ik); [exact HR1|]. intros H. by apply H.
    - eapply kwp_mono; [| | |exact (compact_places few ml M)]; [done| |].
      + intros y M' _ Hy i k w Hin Hk. destruct y; [exfalso; apply Hk; cbn; congruence|]. rewrite Hy by done. by eapply core_placed.
      + intros e M' _ _ i k w Hin Hk. exfalso. by apply Hk.
    - eapply kwp_mono with (C := fun _ => True) (E := fun _ _ => False); [done|intros a M' _ HQ; exact HQ|done|].
      unfold pop_list. apply kwp_bind, (kwp_range cfg lk M its lost); [done|done| |].
      + intros -> ->. apply kwp_ret; [done|]. intros i k w Hin. by apply elem_of_nil in Hin.
      + intros h t Ht Hf. cbv beta iota. eapply kwp_mono; [| | |apply (kwp_pop cfg lk M its lost HR Hent (idx_order fwd h t))]; [done| |done|].
        * intros y M' _ [_ Hy]. destruct y as [[k0 w0]|]; [|subst M'; apply HP]. eapply (removed_places _ its k0); [exact Hy|].
          intros H. apply H. cbn. by exists w0.
        * intros j Hj. apply idx_order_in in Hj. lia.
  Qed.
End where_.

Definition stays (lk : bytes) (e : event) (its its' : ixs) : Prop :=
  forall i ik v, (i, (ik, v)) ∈ its -> ~ moves lk ik e -> exists v', (i, (ik, v')) ∈ its'.
Definition ix_step (lk : bytes) (cfg : config) (a : ixs * N) (e : event) (cfg' : config) (a' : ixs * N) : Prop :=
  list_step_lost lk cfg (map snd (fst a), snd a) e cfg' (map snd (fst a'), snd a') /\ stays lk e (fst a) (fst a').
Definition ix_inv (lk : bytes) cfg M (a : ixs * N) : Prop := rep cfg lk M (fst a) (snd a).
Lemma stays_same lk e its : stays lk e its its.
Proof. intros i ik v Hin _. eauto. Qed.
Lemma ix_lifts lk : lifts (ix_inv lk) (ix_step lk) (list_guard_lost lk).
Proof.
  constructor.
  - intros cfg cfg' M [its lost] Hh HR. by eapply rep_cfg.
  - intros cfg s e [H _]. exact H.
  - intros cfg s x M [its lost] c r HI HR [Hf Hg]. exists (fun _ => True). unfold ix_inv in HR. cbn [fst snd] in *.
    assert (off_list cfg lk c \/ exists lc, c = CList lk lc /\ (list_reads lc = false -> list_room cfg s lk)) as Hcase.
    { destruct c as [o|tid o|lk' c|qk c|b c]; try (left; done). cbn in Hg. case_bool_decide as E; [subst lk'; right; eauto|by left]. }
    destruct Hcase as [Hoff|(lc & -> & Hroom)].
    + assert (Hst : forall r', ix_step lk cfg (its, lost) (ECall c r') cfg (its, lost)).
      { intros r'. split; [|apply stays_same]. destruct c as [o|tid o|lk' c|qk c|b c]; try done. cbn. case_bool_decide as E; [subst lk'; by destruct Hoff|done]. }
      eapply kwp_mono; [| | |by apply (off_list_kwp cfg lk c M its lost)]; [done| |];
        (intros y M' _ H; exists (its, lost); split; [apply Hst|]; exact H).
    + cbn [call_prog]. assert (list_reads lc = false -> entries_ok cfg M /\ index_room (list_key lk) M) as Hroom'.
      { intros Hr. apply (room_ok cfg x M s lk HI). by apply Hroom. }
      assert (Hst : forall (r : res reply) M' its' lost', rep cfg lk M' its' lost' -> places cfg lk (fun ik => ~ call_moves ik lc r) its M' ->
        stays lk (ECall (CList lk lc) r) its its').
      { intros r' M' its' lost' HR' HP i ik v Hin Hm. eapply placed_core; [by eapply rep_core| |].
        - apply (HP i ik v Hin). intros Hc. apply Hm. by split.
        - pose proof (co_bound _ _ _ _ (rep_core _ _ _ _ _ HR)) as Hb. rewrite Forall_forall in Hb. by apply Hb in Hin. }
      eapply kwp_mono; [| | |exact (kwp_and _ _ _ _ _ _ _ _ _ (list_kwp cfg lk M its lost lc HR Hroom') (list_places cfg lk M its lost lc HR Hroom'))]; [done| |].
      * intros y M' _ ((its' & lost' & H1 & H2 & H3) & H4). exists (its', lost'). split; [|exact H1]. split; [|by eapply Hst].
        cbn [list_step_lost fst snd]. rewrite bool_decide_true by done. done.
      * intros y M' _ ((its' & lost' & H1 & H2 & H3 & H5) & H4). exists (its', lost'). split; [|exact H1]. split; [|by eapply Hst].
        cbn [list_step_lost fst snd]. rewrite bool_decide_true by done. done.
  - intros cfg s x M [its lost] c HI HR [Hf Hg]. unfold ix_inv in HR. cbn [fst snd] in *.
    assert (off_list cfg lk c \/ exists lc, c = CList lk lc /\ (list_reads lc = false -> list_room cfg s lk) /\ adds_or_reads lc = true) as Hcase.
    { destruct c as [o|tid o|lk' c|qk c|b c]; try (left; done). cbn in Hg. case_bool_decide as E; [subst lk'; right; eauto|by left]. }
    assert (Hmv : forall its', stays lk (ECrash (ACall c)) its its') by (intros its' i ik v _ Hm; exfalso; by apply Hm).
    destruct Hcase as [Hoff|(lc & -> & Hroom & Had)].
    + eapply kwp_mono; [| | |by apply (off_list_kwp cfg lk c M its lost)]; [|done|done].
      intros M' H. exists (its, lost). split; [|exact H]. intros cfg' _. split; [|apply Hmv].
      destruct c as [o|tid o|lk' c|qk c|b c]; try done. cbn. case_bool_decide as E; [subst lk'; by destruct Hoff|done].
    + cbn [call_prog]. eapply kwp_mono; [| | |apply (list_kwp cfg lk M its lost lc HR)]; [|done|done|].
      * intros M' Hc. destruct (Hc Had) as (its' & lost' & H1 & H2 & H3). exists (its', lost').
        split; [|exact H1]. intros cfg' _. split; [|apply Hmv]. cbn [list_step_lost fst snd]. rewrite bool_decide_true by done. done.
      * intros Hr. apply (room_ok cfg x M s lk HI). by apply Hroom.
  - intros cfg s x M a e HI HV _ He. exists a. split; [|done]. intros cfg' _. split; [|apply stays_same]. destruct a as [its lost]. destruct e as [c r|mt| | |[|c|mt]]; done.
  - intros cfg s x M a HI HV _. exists ([], 0). split; [|apply rep_nil]. split; [done|]. intros i ik v _ Hm. exfalso. by apply Hm.
Qed.

(** ** [next] *)
Section next.
  Context (cfg : config) (lk : bytes).
  Lemma kwp_lscan M its (C : kvmap -> Prop) (E : err -> kvmap -> Prop) : core cfg lk M its -> C M ->
    forall js, (forall j, j ∈ js -> j < U64) ->
    kwp cfg (list_scan (list_ph cfg lk) js) C (fun a M' => M' = M /\ scanned (at_idx its) js (fst a) (snd a)) E M.
  Proof.
    intros HC HCM. induction js as [|j js IH]; intros Hj; cbn [list_scan].
    { apply kwp_ret; [done|]. split; [done|]. by exists []. }
    assert (forall i, i ∈ js -> i < U64) as Hj' by (intros i Hi; apply Hj; by right).
    apply kwp_bind, (kwp_at_index cfg lk M its); [done|apply Hj; left|done|]. unfold at_item.
    destruct (at_idx its j) as [[ik v]|] eqn:Ea; cbn [fmap option_fmap option_map fst snd].
    - apply kwp_bind, kwp_trunc; [done|]. apply kwp_ret; [done|]. split; [done|]. exists []. split; [constructor|]. exists j. split; [done|exact Ea].
    - eapply kwp_mono; [| | |exact (IH Hj')]; [done| |done]. intros [js' y] M' _ [-> (sk & H1 & H2)]. split; [done|].
      exists (j :: sk). split; [constructor; done|]. cbn [fst snd] in *.
      destruct y as [x|]; [|by destruct H2 as [-> ->]]. destruct H2 as (i & -> & H2). by exists i.
  Qed.
  Lemma kwp_lnext fwd M its lost it (C : kvmap -> Prop) (E : err -> kvmap -> Prop) : rep cfg lk M its lost -> it_ok fwd it -> C M ->
    kwp cfg (list_next cfg lk fwd it) C (fun a M' => M' = M /\ exists rng,
      match rng with Some (h, t) => t < U64 /\ Forall (fun x : N * (bytes * bytes) => h <= fst x < t) its | None => its = [] end /\
      nexted (at_idx its) fwd rng it (fst a) (snd a)) E M.
  Proof.
    intros HR Hit HCM. pose proof (rep_core _ _ _ _ _ HR) as HC. unfold list_next. apply kwp_bind.
    assert (exists rng, match rng with Some (h, t) => t < U64 /\ Forall (fun x : N * (bytes * bytes) => h <= fst x < t) its | None => its = [] end) as [rng Hrng].
    { destruct (rec_case _ _ _ _ _ HR) as [(_ & E1 & _)|(h & t & _ & _ & H2 & H3 & _)]; [by exists None|by exists (Some (h, t))]. }
    destruct it as [js|].
    - apply kwp_ret; [done|]. apply kwp_bind. destruct Hit as [_ Hb]. rewrite Forall_forall in Hb.
      eapply kwp_mono; [| | |apply (kwp_lscan M its C E HC HCM js Hb)]; [done| |done].
      intros [js' y] M' _ [-> H]. apply kwp_ret; [done|]. split; [done|]. exists rng. split; [done|]. by exists js'.
    - apply kwp_bind, (kwp_range cfg lk M its lost); [done|done| |].
      + intros E1 E2. apply kwp_ret; [done|]. apply kwp_ret; [done|]. split; [done|]. by exists None.
      + intros h t Ht Hf. apply kwp_ret; [done|]. apply kwp_bind.
        eapply kwp_mono; [| | |apply (kwp_lscan M its C E HC HCM (idx_order fwd h t))]; [done| |done|].
        * intros [js' y] M' _ [-> H]. apply kwp_ret; [done|]. split; [done|]. exists (Some (h, t)). split; [done|]. by exists js'.
        * intros j Hj. apply idx_order_in in Hj. lia.
  Qed.
  Lemma list_scan_writes P l : kwrites P anyv (list_scan (list_ph cfg lk) l).
  Proof.
    induction l as [|i l IH]; cbn [list_scan]; [done|]. apply kwrites_seq; [eapply kwrites_mono; [| |apply get_at_index_writes]; done|].
    intros [[[ph k] v]|]; [|exact IH]. unfold trunc_item. kw.
  Qed.
  Lemma list_next_writes P fwd it : kwrites P anyv (list_next cfg lk fwd it).
  Proof.
    unfold list_next. apply kwrites_seq.
    - destruct it as [js|]; [done|]. apply kwrites_seq; [apply list_range_writes|]. done.
    - intros [js|]; [|done]. apply kwrites_seq; [apply list_scan_writes|]. by intros [].
  Qed.
  Lemma lnext_run x M s fwd its lost it : SInv cfg x M s -> rep cfg lk M its lost -> it_ok fwd it ->
    exists s' it' y rng, krun cfg (list_next cfg lk fwd it) s = (s', Ok (it', y)) /\ SInv cfg x M s' /\
      match rng with Some (h, t) => t < U64 /\ Forall (fun x : N * (bytes * bytes) => h <= fst x < t) its | None => its = [] end /\
      nexted (at_idx its) fwd rng it it' y.
  Proof.
    intros HI HR Hit.
    destruct (kwp_krun cfg x _ _ _ _ M s HI (reads_fits cfg _ (list_next_writes _ fwd it) s)
      (kwp_lnext fwd M its lost it (fun _ => True) (fun _ _ => False) HR Hit Logic.I)) as (M' & HI' & H).
    destruct (krun cfg (list_next cfg lk fwd it) s) as [s' [[it' y]|e]]; [|done]. cbn in *. destruct H as [-> (rng & H)]. by exists s', it', y, rng.
  Qed.
End next.

(** ** The items of a set [P] of keys that are not moved *)
Definition pick (P : bytes -> bool) its (j : N) : option bytes :=
  match at_idx its j with Some (ik, _) => if P ik then Some ik else None | None => None end.
Lemma pick_filter P its js : omap (pick P its) js = List.filter P (map fst (omap (at_idx its) js)).
Proof.
  induction js as [|j js IH]; [done|]. cbn [omap list_omap]. unfold pick at 1. destruct (at_idx its j) as [[ik v]|]; [|exact IH].
  cbn [map List.filter fst]. destruct (P ik); [by f_equal|exact IH].
Qed.
Lemma pick_stays cfg cfg' lk M M' its its' (P : bytes -> bool) : core cfg lk M its -> core cfg' lk M' its' ->
  (forall ik, P ik = true -> exists i v, (i, (ik, v)) ∈ its) ->
  (forall i ik v, (i, (ik, v)) ∈ its -> P ik = true -> exists v', (i, (ik, v')) ∈ its') ->
  forall j, pick P its' j = pick P its j.
Proof.
  intros HC HC' Hall Hst j. unfold pick.
  pose proof (sorted_nodup _ (co_sorted _ _ _ _ HC)) as Hnd. pose proof (sorted_nodup _ (co_sorted _ _ _ _ HC')) as Hnd'.
  assert (Hto : forall ik v, at_idx its j = Some (ik, v) -> P ik = true -> exists v', at_idx its' j = Some (ik, v')).
  { intros ik v Hj HP. apply at_idx_Some in Hj. destruct (Hst _ _ _ Hj HP) as [v' Hin]. exists v'. by apply at_idx_in. }
  destruct (at_idx its j) as [[ik v]|] eqn:E1.
  - destruct (P ik) eqn:HP; [by destruct (Hto ik v eq_refl HP) as [v' ->]; rewrite HP|].
    destruct (at_idx its' j) as [[ik' v']|] eqn:E2; [|done]. destruct (P ik') eqn:HP'; [|done]. exfalso.
    destruct (Hall ik' HP') as (i & w & Hin). destruct (Hst _ _ _ Hin HP') as [w' Hin']. apply at_idx_Some in E2.
    destruct (ixs_same_ik _ _ _ _ _ _ (co_keys _ _ _ _ HC') E2 Hin') as [<- _].
    rewrite (at_idx_in its j _ Hnd Hin) in E1. injection E1 as -> ->. congruence.
  - destruct (at_idx its' j) as [[ik' v']|] eqn:E2; [|done]. destruct (P ik') eqn:HP'; [|done]. exfalso.
    destruct (Hall ik' HP') as (i & w & Hin). destruct (Hst _ _ _ Hin HP') as [w' Hin']. apply at_idx_Some in E2.
    destruct (ixs_same_ik _ _ _ _ _ _ (co_keys _ _ _ _ HC') E2 Hin') as [<- _].
    rewrite (at_idx_in its j _ Hnd Hin) in E1. done.
Qed.
Lemma trace_stays lk (P : bytes -> bool) : forall cfg a es cfg' a', trace (ix_step lk) cfg a es cfg' a' ->
  (forall e ik, e ∈ es -> P ik = true -> ~ moves lk ik e) ->
  forall i ik v, (i, (ik, v)) ∈ fst a -> P ik = true -> exists v', (i, (ik, v')) ∈ fst a'.
Proof.
  induction 1 as [cfg a|cfg a e cfg1 a1 es cfg' a' _ [_ Hst] _ IH]; intros Hm i ik v Hin HP; [eauto|].
  destruct (Hst i ik v Hin) as [v1 H1]; [apply Hm; [left|done]|]. eapply IH; [|exact H1|done]. intros e' ik' He. apply Hm. by right.
Qed.

Definition ended {A : Type} (l : list (round A)) : Prop := exists r, r ∈ l /\ r_item r = None.
Section list.
  Context (lk : bytes) (fwd : bool).
  Notation iter := (iteration (list_guard_lost lk) (fun cfg => list_next cfg lk fwd)).
  Definition picks (P : bytes -> bool) (out all : list bytes) (e : Prop) : Prop :=
    (exists rest, all = List.filter P out ++ rest) /\ (e -> List.filter P out = all).
  Lemma list_iteration cfg s it l cfg' s' it' : iter cfg s it l cfg' s' it' ->
    forall x M its lost, SInv cfg x M s -> rep cfg lk M its lost -> it_ok fwd it ->
    (exists x' M' its' lost', SInv cfg' x' M' s' /\ rep cfg' lk M' its' lost' /\ it_ok fwd it') /\
    (forall r z, r ∈ l -> r_item r = Some z -> exists its : items, shows_items (r_cfg r) (r_store r) lk its /\ z ∈ its) /\
    (forall js, it = Some js -> len (returned l) <= len js /\
       forall P : bytes -> bool, (forall ik, P ik = true -> exists i v, (i, (ik, v)) ∈ its) ->
         (forall r e ik, r ∈ l -> e ∈ r_events r -> P ik = true -> ~ moves lk ik e) ->
         picks P (map fst (returned l)) (omap (pick P its) js) (ended l)).
  Proof.
    induction 1 as [cfg s it|cfg s it es cfg1 s1 s2 it1 y l cfg' s' it' Hh Hn Hi IH]; intros x M its lost HI HR Hit.
    { split; [by exists x, M, its, lost|]. split; [intros r z Hr; by apply elem_of_nil in Hr|]. intros js _. split; [unfold returned, len; cbn; lia|].
      intros P _ _. split; [by eexists|]. intros (r & Hr & _). by apply elem_of_nil in Hr. }
    destruct (hist_lift _ _ _ (ix_lifts lk) cfg s es cfg1 s1 x M (its, lost) Hh HI HR) as (x1 & M1 & [its1 lost1] & Htr & HI1 & HR1 & _).
    unfold ix_inv in HR1. cbn [fst snd] in HR1.
    destruct (lnext_run cfg1 lk x1 M1 s1 fwd its1 lost1 it HI1 HR1 Hit) as (s2' & it1' & y' & rng & Hn' & HI2 & Hrng & Hx).
    rewrite Hn in Hn'. injection Hn' as <- <- <-.
    assert (it_ok fwd it1) as Hit1.
    { eapply nexted_ok; [exact Hx| |done]. destruct rng as [[h t]|]; [|done]. by destruct Hrng. }
    destruct (IH x1 M1 its1 lost1 HI2 HR1 Hit1) as (J1 & J2 & J3).
    pose proof (rep_shows _ _ _ _ _ _ _ HI1 HR1) as Hsh.
    split; [exact J1|]. split.
    - intros r z Hr Hz. apply elem_of_cons in Hr as [->|Hr]; [|by eapply J2]. cbn [r_item r_cfg r_store] in *. subst y.
      exists (map snd its1). split; [done|].
      assert (exists i, at_idx its1 i = Some z) as [i Hi1].
      { destruct it as [js|]; cbn [nexted] in Hx; [|destruct rng as [[h t]|]; [|by destruct Hx]];
          destruct Hx as (js' & _ & (sk & _ & i & _ & Hi1)); by exists i. }
      apply at_idx_Some in Hi1. apply elem_of_list_fmap. by exists (i, z).
    - intros js ->. cbn [nexted] in Hx. destruct Hx as (js' & -> & (sk & Hsk & Hx)). destruct (J3 js' eq_refl) as [J4 J5].
      unfold returned in *. cbn [omap list_omap r_item]. split.
      { destruct y as [z|].
        - destruct Hx as (i & -> & _). unfold len in *. rewrite app_length. cbn [length]. lia.
        - destruct Hx as [-> ->]. unfold len in *. cbn [length] in J4. lia. }
      intros P Hall Hm.
      assert (Hst : forall i ik v, (i, (ik, v)) ∈ its -> P ik = true -> exists v', (i, (ik, v')) ∈ its1).
      { intros i ik v. apply (trace_stays lk P _ _ _ _ _ Htr). intros e ik' He. apply (Hm (Round es cfg1 s1 y (Some js'))); [left|done]. }
      assert (Hpick : forall j, pick P its1 j = pick P its j) by (eapply pick_stays; [by eapply rep_core|by eapply rep_core|done|done]).
      assert (forall j, j ∈ sk -> pick P its j = None) as Hskp.
      { intros j Hj. rewrite <- Hpick. unfold pick. rewrite Forall_forall in Hsk. by rewrite (Hsk j Hj). }
      assert (omap (pick P its) sk = []) as Eskp.
      { clear -Hskp. induction sk as [|j sk IH]; [done|]. cbn. rewrite Hskp by left. apply IH. intros j' Hj'. apply Hskp. by right. }
      destruct y as [z|].
      + destruct Hx as (i & -> & Hz).
        destruct (J5 P) as [[rest K1] K2].
        { intros ik HP. destruct (Hall ik HP) as (j & v & Hin). destruct (Hst _ _ _ Hin HP) as [v' ?]. eauto. }
        { intros r e ik Hr. apply Hm. by right. }
        assert (omap (pick P its) js' = omap (pick P its1) js') as E1 by (clear -Hpick; induction js' as [|j js' IH]; [done|]; cbn; by rewrite Hpick, IH).
        rewrite omap_app, Eskp. cbn [app omap list_omap map]. destruct z as [k w]. cbn [fst]. rewrite <- Hpick. unfold pick at 1. rewrite Hz.
        unfold picks. cbn [List.filter]. rewrite E1.
        assert ((ended (Round es cfg1 s1 (Some (k, w)) (Some js') :: l) -> ended l)) as Hend.
        { intros (r & Hr & Hrn). apply elem_of_cons in Hr as [->|Hr]; [done|]. by exists r. }
        destruct (P k); cbn [omap list_omap app].
        * split; [exists rest; cbn; by rewrite K1|]. intros He. f_equal. unfold ended in *. by apply K2, Hend.
        * split; [by exists rest|]. intros He. by apply K2, Hend.
      + destruct Hx as [-> ->]. rewrite Eskp. destruct (J5 P) as [[rest K1] _].
        { intros ik HP. destruct (Hall ik HP) as (j & v & Hin). destruct (Hst _ _ _ Hin HP) as [v' ?]. eauto. }
        { intros r e ik Hr. apply Hm. by right. }
        cbn [omap list_omap] in K1. symmetry in K1. apply app_nil in K1 as [K1 _]. unfold picks. rewrite K1. split; [by exists []|done].
  Qed.
End list.

Lemma shows_items_eq cfg s lk (l l' : items) : shows_items cfg s lk l -> shows_items cfg s lk l' -> l = l'.
Proof.
  intros H1 H2. pose proof (H1 (LIter true) (YItems l) eq_refl ltac:(done) ltac:(by split)) as E1.
  pose proof (H2 (LIter true) (YItems l') eq_refl ltac:(done) ltac:(by split)) as E2. rewrite E2 in E1. by injection E1.
Qed.

(** ** C61 *)
(** An iterator over the list [lk] is created and its [next] is called while the list is being
    changed in any way in between. Then
    - [next] never fails;
    - what it returns is in the list at that moment;
    - take any set [P] of items that are in the list at the first call and that nothing takes out or
      moves afterwards: they come in the order of the list (or the reverse), none is left out and none comes
      twice; when the iteration has ended, all have come. *)
Theorem C61_iterating_over_a_changing_list_partial : forall lk fwd cfg0 s0 es cfg s r0 l cfg' s' it,
  created cfg0 s0 -> hist (list_guard_lost lk) cfg0 s0 es cfg s ->
  iteration (list_guard_lost lk) (fun cfg => list_next cfg lk fwd) cfg s None (r0 :: l) cfg' s' it ->
  (exists it' y, snd (krun cfg' (list_next cfg' lk fwd it) s') = Ok (it', y)) /\
  (forall r x, r ∈ r0 :: l -> r_item r = Some x -> exists its : items, shows_items (r_cfg r) (r_store r) lk its /\ x ∈ its) /\
  (forall (its : items) (P : bytes -> bool), shows_items (r_cfg r0) (r_store r0) lk its ->
     (forall ik, P ik = true -> ik ∈ map fst its) ->
     (forall r e ik, r ∈ l -> e ∈ r_events r -> P ik = true -> ~ moves lk ik e) ->
     (exists rest, List.filter P (map fst (direct fwd its)) = List.filter P (map fst (returned (r0 :: l))) ++ rest) /\
     ((exists r, r ∈ r0 :: l /\ r_item r = None) ->
      List.filter P (map fst (returned (r0 :: l))) = List.filter P (map fst (direct fwd its)))).
Proof.
  intros lk fwd cfg0 s0 es cfg s r0 l cfg' s' it Hc Hh Hi.
  destruct (hist_lift _ _ _ (ix_lifts lk) cfg0 s0 es cfg s true ∅ ([], 0) Hh (created_ok _ _ Hc)) as (x & M & [its lost] & _ & HI & HR & _); [apply rep_nil|].
  unfold ix_inv in HR. cbn [fst snd] in HR.
  destruct (list_iteration lk fwd _ _ _ _ _ _ _ Hi x M its lost HI HR Logic.I) as ((x1 & M1 & its1 & lost1 & HI1 & HR1 & Hit) & J2 & _).
  split; [|split; [done|]].
  { destruct (lnext_run cfg' lk x1 M1 s' fwd its1 lost1 it HI1 HR1 Hit) as (s2 & it2 & y & rng & E & _). exists it2, y. by rewrite E. }
  clear x1 M1 its1 lost1 HI1 HR1 Hit J2.
  inversion Hi as [|? ? ? es1 cfg1 s1 s2 it1 y l' ? ? ? Hh1 Hn Hi1]; subst. cbn [r_cfg r_store].
  destruct (hist_lift _ _ _ (ix_lifts lk) cfg s es1 cfg1 s1 x M (its, lost) Hh1 HI HR) as (x1 & M1 & [its1 lost1] & _ & HI1 & HR1 & _).
  unfold ix_inv in HR1. cbn [fst snd] in HR1.
  destruct (lnext_run cfg1 lk x1 M1 s1 fwd its1 lost1 None HI1 HR1 Logic.I) as (s2' & it1' & y' & rng & Hn' & HI2 & Hrng & Hx).
  rewrite Hn in Hn'. injection Hn' as <- <- <-.
  intros its2 P Hsh Hall Hm.
  assert (its2 = map snd its1) as -> by (eapply shows_items_eq; [exact Hsh|by eapply rep_shows]).
  assert (Hall1 : forall ik, P ik = true -> exists i v, (i, (ik, v)) ∈ its1).
  { intros ik HP. apply Hall in HP. apply elem_of_list_fmap in HP as ([k v] & -> & HP). apply elem_of_list_fmap in HP as ([i [k' v']] & [= -> ->] & HP). eauto. }
  pose proof (rep_core _ _ _ _ _ HR1) as HC1.
  destruct rng as [[h t]|]; cbn [nexted] in Hx.
  - destruct Hrng as [Ht Hf]. destruct Hx as (js' & -> & (sk & Hsk & Hx)).
    assert (it_ok fwd (Some js')) as Hit1.
    { assert (nexted (at_idx its1) fwd (Some (h, t)) None (Some js') y) as Hx'.
      { exists js'. split; [done|]. by exists sk. }
      eapply nexted_ok; [exact Hx'|done|done]. }
    destruct (list_iteration lk fwd _ _ _ _ _ _ _ Hi1 x1 M1 its1 lost1 HI2 HR1 Hit1) as (_ & _ & J). destruct (J js' eq_refl) as [_ J3].
    destruct (J3 P Hall1 Hm) as [[rest K1] K2].
    assert (List.filter P (map fst (direct fwd (map snd its1))) = omap (pick P its1) (idx_order fwd h t)) as ->.
    { rewrite pick_filter. by rewrite (enum_order fwd h t its1 (co_sorted _ _ _ _ HC1) Hf). }
    assert (omap (pick P its1) sk = []) as Esk.
    { clear -Hsk. induction sk as [|j sk IH]; [done|]. apply Forall_cons in Hsk as [H1 H2]. cbn. unfold pick at 1. rewrite H1. by apply IH. }
    unfold returned in *. cbn [omap list_omap r_item]. destruct y as [z|].
    + destruct Hx as (i & -> & Hz). rewrite omap_app, Esk. destruct z as [k w].
      assert (pick P its1 i = if P k then Some k else None) as Ep by (unfold pick; by rewrite Hz).
      cbn [app omap list_omap map]. rewrite Ep. cbn [fst List.filter].
      assert (Hend : (exists r, r ∈ Round es1 cfg1 s1 (Some (k, w)) (Some js') :: l /\ r_item r = None) -> ended l).
      { intros (r & Hr & Hrn). apply elem_of_cons in Hr as [->|Hr]; [done|]. by exists r. }
      destruct (P k); cbn [omap list_omap app].
      * split; [exists rest; cbn; by rewrite K1|]. intros He. f_equal. by apply K2, Hend.
      * split; [by exists rest|]. intros He. by apply K2, Hend.
    + destruct Hx as [-> ->]. rewrite Esk. cbn [omap list_omap] in K1. symmetry in K1. apply app_nil in K1 as [K1 _]. rewrite K1. split; [by exists []|done].
  - subst its1. assert (forall l : list bytes, List.filter P l = []) as Hnil.
    { induction l0 as [|k l0 IH]; [done|]. cbn. destruct (P k) eqn:E; [|done]. apply Hall1 in E as (? & ? & E). by apply elem_of_nil in E. }
    rewrite !Hnil. split; [by exists []|done].
Qed.
(** Whatever happens later, the upper bound that [size_hint] gives is one. *)
Theorem C62_list_size_hint_upper_bound_partial : forall lk fwd cfg0 s0 es cfg s l1 cfg1 s1 it1 l2 cfg2 s2 it2 n,
  created cfg0 s0 -> hist (list_guard_lost lk) cfg0 s0 es cfg s ->
  iteration (list_guard_lost lk) (fun cfg => list_next cfg lk fwd) cfg s None l1 cfg1 s1 it1 ->
  iteration (list_guard_lost lk) (fun cfg => list_next cfg lk fwd) cfg1 s1 it1 l2 cfg2 s2 it2 ->
  snd (size_hint it1) = Some n -> len (returned l2) <= n.
Proof.
  intros lk fwd cfg0 s0 es cfg s l1 cfg1 s1 it1 l2 cfg2 s2 it2 n Hc Hh H1 H2 Hn.
  destruct (hist_lift _ _ _ (ix_lifts lk) cfg0 s0 es cfg s true ∅ ([], 0) Hh (created_ok _ _ Hc)) as (x & M & [its lost] & _ & HI & HR & _); [apply rep_nil|].
  unfold ix_inv in HR. cbn [fst snd] in HR.
  destruct (list_iteration lk fwd _ _ _ _ _ _ _ H1 x M its lost HI HR Logic.I) as ((x1 & M1 & its1 & lost1 & HI1 & HR1 & Hit) & _).
  destruct (list_iteration lk fwd _ _ _ _ _ _ _ H2 x1 M1 its1 lost1 HI1 HR1 Hit) as (_ & _ & J).
  destruct it1 as [js|]; cbn [size_hint snd] in Hn; [|done]. injection Hn as <-. by apply J.
Qed.
