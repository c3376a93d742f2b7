(** All list calls, used by many threads: also those that look at the list outside its lock. *)
From Verif Require Import Base Hashing HashingProofs Fs Shard Router RouterPure Wpc Spec FileRep RowOps
  Compact Inv ShardOps Split Insert Open Merge Create Store Limits StoreRefine Kv Lists Queues Api Hist KvSpec
  HistInv KeySpace ListSpec ListRep ListProg ListHist ThmList Conc ConcSpec ConcLin ConcLock ConcList ConcSeen ConcSess.
Implicit Types (M : kvmap) (its : ixs) (l : items) (lc : lcall) (ik v : bytes).
Local Arguments u64_bytes : simpl never.
Local Arguments enc_rec : simpl never.

(** ** Specification *)
(** [ik] had the value [v] in one of the states [seen]. *)
Definition seen_in (seen : list items) (ik v : bytes) : Prop := exists l, l ∈ seen /\ l_get l ik = Some v.
(** What a call that takes effect on the list [l] may return and leave, having [seen] the states
    since it was made; [rd]: the list is never discarded as a whole. *)
Definition lseen (rd : bool) (seen : list items) (l : items) (c : lcall) (y : reply) (l' : items) : Prop :=
  match c with
  | LSetPromoting ik v => (exists l0, l0 ∈ seen /\ l_get l0 ik = None) /\ list_spec l (LSet ik v) y l'
  | LGet ik => l' = l /\ exists o, y = YOpt o /\ (o = l_get l ik \/ (rd = false /\ o = None))
  | LPop _ => (y = YItem None /\ l' = l) \/
      exists ik v, y = YItem (Some (ik, v)) /\ l_get l ik <> None /\ l' = l_remove l ik /\ seen_in seen ik v
  | LPeek _ => l' = l /\ exists o, y = YItem o /\ forall ik v, o = Some (ik, v) -> seen_in seen ik v
  | LIter _ => l' = l /\ exists xs, y = YItems xs /\ forall ik v, (ik, v) ∈ xs -> seen_in seen ik v
  | LLen => l' = l /\ exists n, y = YNum n /\ n <= len l + 1 /\ len l <= n + 1
  | _ => list_spec l c y l'
  end.
Definition list_seen (lk : bytes) (rd : bool) (seen : list items) (l : items) (c : call) (r : res reply) (l' : items) : Prop :=
  match c with
  | CList lk' lc => if bool_decide (lk' = lk) then exists y, r = Ok y /\ lseen rd seen l lc y l' else l' = l
  | _ => l' = l
  end.
(** set_in_list_promoting first removes the item. *)
Definition list_mid (lk : bytes) (l : items) (c : call) (l' : items) : Prop :=
  exists ik v, c = CList lk (LSetPromoting ik v) /\ l' = l_remove l ik.
(** The calls: any on the list (without discard_list if [rd]), anything else on other keys. *)
Definition list_any (cfg : config) (lk : bytes) (rd : bool) (c : call) : Prop :=
  match c with
  | CList lk' c => if bool_decide (lk' = lk) then lcall_accepts cfg lk c /\ (rd = true -> c <> LDiscard) else list_ph cfg lk' <> list_ph cfg lk
  | _ => True
  end.

Lemma seen_mono (H H' : list items) ik v : H ⊆ H' -> seen_in H ik v -> seen_in H' ik v.
Proof. intros Hs (l & H1 & H2). exists l. split; [by apply Hs|done]. Qed.
Lemma lseen_mono rd (H H' : list items) l c y l' : H ⊆ H' -> lseen rd H l c y l' -> lseen rd H' l c y l'.
Proof.
  intros Hs. destruct c as [ik v|ik v|ik v ex|ik v|ik|ik|few ml|fwd|fwd|fwd| |]; cbn [lseen]; try done.
  - intros [(l0 & H1 & H2) H3]. split; [|done]. exists l0. split; [by apply Hs|done].
  - intros [-> (xs & -> & Hx)]. split; [done|]. exists xs. split; [done|]. intros ik v Hin. eapply seen_mono; [done|by apply Hx].
  - intros [-> (o & -> & Hx)]. split; [done|]. exists o. split; [done|]. intros ik v Hin. eapply seen_mono; [done|by apply Hx].
  - intros [Hn|(ik & v & -> & H1 & -> & H2)]; [by left|]. right. exists ik, v. split; [done|]. split; [done|]. split; [done|]. by eapply seen_mono.
Qed.
Lemma list_seen_mono lk rd (H H' : list items) l c r l' : H ⊆ H' -> list_seen lk rd H l c r l' -> list_seen lk rd H' l c r l'.
Proof.
  intros Hs. destruct c as [o|tid o|lk' lc|qk qc|b bc]; cbn [list_seen]; try done. case_bool_decide; [|done].
  intros (y & -> & Hy). exists y. split; [done|]. by eapply lseen_mono.
Qed.

(** ** Inversions *)
Lemma kwp_bind_inv {A B} (cfg : config) (p : kprog A) (f : A -> kprog B) (C : kvmap -> Prop) (Q : B -> kvmap -> Prop) (E : err -> kvmap -> Prop) : forall M,
  kwp cfg (kbind p f) C Q E M -> kwp cfg p C (fun a M' => kwp cfg (f a) C Q E M') E M.
Proof.
  induction p as [a|e|X o k IH]; intros M; cbn [kbind].
  - intros H. split; [by eapply kwp_C|done].
  - done.
  - cbn [kwp]. intros [HC H]. split; [done|]. destruct o as [key|key v mode|key|ph|j|j]; try (by apply IH).
    + destruct H as [H1 H2]. split; [done|]. destruct (ins_err cfg key v); [done|by apply IH].
    + destruct (_ =? _); [done|]. intros ls Hls. by apply IH, H.
Qed.
Lemma kwp_locked_inv {A} (cfg : config) (ph : phash) (p : kprog A) (C : kvmap -> Prop) (Q : A -> kvmap -> Prop) (E : err -> kvmap -> Prop) M :
  kwp cfg (klocked cfg ph p) C Q E M -> kwp cfg p C Q E M.
Proof.
  intros [_ H]. apply kwp_bind_inv in H as [_ H]. cbv beta in H. apply kwp_bind_inv in H. eapply kwp_mono; [| | |exact H]; [done| |done]. intros a M' _ (_ & _ & H'). exact H'.
Qed.

Section parts.
  Context (cfg : config) (lk : bytes).
  Local Notation lph := (list_ph cfg lk).
  Local Notation K := (list_keys cfg lk).
  Local Notation F := (fun k : bytes => ends_with k (item_suffix lph)).
  Local Notation T := (fun _ : kvmap => True).
  Local Notation TE := (fun (_ : err) (_ : kvmap) => True).

  (** A program that holds the list's lock throughout. *)
  Definition section {A} (IK : bytes -> Prop) (p : kprog A) : Prop :=
    exists q, p = klocked cfg lph q /\ klocal K F anyv q /\ pw IK q.
  Lemma insert_section ik v mode : section (item_keys cfg lk) (insert_to_list cfg lk ik v mode).
  Proof. unfold insert_to_list. cbv zeta. eexists. split; [reflexivity|]. split; [kl|pws]. Qed.
  Lemma remove_section ik : section (item_keys cfg lk) (remove_from_list cfg lk ik).
  Proof. unfold remove_from_list. cbv zeta. eexists. split; [reflexivity|]. split; [kl|]. pws; calms. all: try (by eexists (Ok _)). Qed.
  Lemma compact_section few ml : section (fun _ => False) (compact_list cfg few ml lk).
  Proof.
    unfold compact_list. cbv zeta. eexists. split; [reflexivity|]. split.
    - kl. apply klocal_seq; [apply compact_items_local|]. kl.
    - apply calmp_pw. calms. apply calmp_bind; [apply compact_items_calm|]. calms.
  Qed.
  Lemma calmp_local_bind {A B} (IK : bytes -> Prop) (Q : A -> Prop) (p : kprog A) (f : A -> kprog B) : klocal K F Q p -> calmp IK p -> (forall a, Q a -> calmp IK (f a)) -> calmp IK (kbind p f).
  Proof.
    intros Hl Hc Hf. induction p as [a|e|X o k IH]; cbn [kbind klocal calmp] in *; [by apply Hf|done|].
    destruct o as [key|key v mode|key|ph|j|j]; try done.
    - intros x. apply IH; [apply Hl|done].
    - destruct Hc as [Hc1 Hc2]. split; [done|]. intros x. apply IH; [apply Hl|done].
    - destruct Hc as [Hc1 Hc2]. split; [done|]. intros x. apply IH; [apply Hl|done].
    - intros x. apply IH; [apply Hl|done].
  Qed.
  Lemma discard_items_calm2 js : calmp (fun k => k = list_key lk) (discard_items lph js).
  Proof.
    induction js as [|j js IH]; cbn [discard_items]; [done|].
    eapply calmp_local_bind; [apply at_index_local|apply at_index_calm|]. intros [[[ph k] v]|]; [|intros _; exact IH]. cbn [item_of]. intros [ik ->].
    apply calmp_bind; [split; [kdiff|exact (fun _ => Logic.I)]|]. intros _. apply calmp_bind; [split; [kdiff|exact (fun _ => Logic.I)]|]. intros _. exact IH.
  Qed.
  Lemma discard_section : section (fun k => k = list_key lk) (discard_list cfg lk).
  Proof.
    unfold discard_list. eexists. split; [reflexivity|]. split.
    - kl. apply klocal_seq; [apply discard_items_local|]. kl.
    - pws. apply pw_bind; [apply discard_items_calm2|]. intros _. right. intros x. by eexists (Ok _).
  Qed.
  Lemma range_section : section (fun _ => False) (list_range cfg lk).
  Proof. unfold list_range. eexists. split; [reflexivity|]. split; [kl|]. apply calmp_pw. calms. Qed.

  (** What can be seen at any time. *)
  Definition items_ok (rd : bool) (M : kvmap) (l : items) : Prop := forall ik,
    match (M !! item_key lph ik : option bytes) with
    | Some ev => exists (v : bytes) j, ev = (v ++ u64_bytes j : bytes) /\ l_get l ik = Some v
    | None => rd = true -> l_get l ik = None
    end.
  Definition chain_ok (M : kvmap) : Prop := forall j b, (M !! chain_key lph j : option bytes) = Some b -> exists k, b = u64_bytes (hashk cfg k).
  Definition near (M : kvmap) (l : items) : Prop :=
    match (M !! list_key lk : option bytes) with
    | Some b => exists h t n, b = enc_rec (LRec h t n) /\ h < U64 /\ t < U64 /\ n < U64 /\ n <= len l + 1 /\ len l <= n + 1
    | None => len l <= 1
    end.
  Definition nearC (l : items) (M : kvmap) : Prop := chain_ok M /\ near M l.
  Definition sV (rd : bool) (M : kvmap) (l : items) : Prop := items_ok rd M l /\ chain_ok M /\ near M l.

  Lemma items_ok_agree rd M M' l : agree (item_keys cfg lk) M M' -> items_ok rd M l -> items_ok rd M' l.
  Proof. intros Ha Hv ik. rewrite (Ha (item_key lph ik)) by (by exists ik). apply Hv. Qed.
  Lemma items_ok_off rd k (v : bytes) M l : (forall ik, k <> item_key lph ik) -> items_ok rd M l -> items_ok rd (<[k := v]> M) l.
  Proof. intros Hk Hv ik. rewrite lookup_insert_ne by apply Hk. by apply Hv. Qed.
  Lemma items_ok_del rd k M l : (forall ik, k <> item_key lph ik) -> items_ok rd M l -> items_ok rd (delete k M) l.
  Proof. intros Hk Hv ik. rewrite lookup_delete_ne by apply Hk. by apply Hv. Qed.
  Lemma items_ok_gone k M l : items_ok false M l -> items_ok false (delete k M) l.
  Proof.
    intros Hv ik. destruct (decide (k = item_key lph ik)) as [->|Hk]; [by rewrite lookup_delete|]. rewrite lookup_delete_ne by done. apply Hv.
  Qed.
  Lemma items_ok_weak rd M l : items_ok rd M l -> items_ok false M l.
  Proof. intros Hv ik. specialize (Hv ik). by destruct (M !! item_key lph ik). Qed.
  Lemma chain_ok_off k (v : bytes) M : (forall j, k <> chain_key lph j) -> chain_ok M -> chain_ok (<[k := v]> M).
  Proof. intros Hk Hc j b. rewrite lookup_insert_ne by apply Hk. apply Hc. Qed.
  Lemma chain_ok_set k k' M : chain_ok M -> chain_ok (<[k := u64_bytes (hashk cfg k')]> M).
  Proof.
    intros Hc j b. destruct (decide (k = chain_key lph j)) as [->|Hk]; [rewrite lookup_insert; intros [= <-]; by exists k'|].
    rewrite lookup_insert_ne by done. apply Hc.
  Qed.
  Lemma chain_ok_del k M : chain_ok M -> chain_ok (delete k M).
  Proof. intros Hc j b. destruct (decide (k = chain_key lph j)) as [->|Hk]; [by rewrite lookup_delete|]. rewrite lookup_delete_ne by done. apply Hc. Qed.
  Lemma near_same M M' l : (M' !! list_key lk : option bytes) = M !! list_key lk -> near M l -> near M' l.
  Proof. unfold near. by intros ->. Qed.
  Lemma near_rec M l h t n : h < U64 -> t < U64 -> n < U64 -> n <= len l + 1 -> len l <= n + 1 -> near (<[list_key lk := enc_rec (LRec h t n)]> M) l.
  Proof. intros. unfold near. rewrite lookup_insert. exists h, t, n. done. Qed.
  Lemma near_gone M l : len l <= 1 -> near (delete (list_key lk) M) l.
  Proof. intros. unfold near. by rewrite lookup_delete. Qed.
  Lemma sV_loc rd M M' l : agree K M M' -> sV rd M l -> sV rd M' l.
  Proof.
    intros Ha (H1 & H2 & H3). split; [|split].
    - eapply items_ok_agree; [|exact H1]. intros k [ik ->]. apply Ha. auto with kne.
    - intros j b. rewrite (Ha (chain_key lph j)) by auto with kne. apply H2.
    - eapply near_same; [|exact H3]. apply Ha. auto with kne.
  Qed.
  Lemma nearC_ins l k (v : bytes) M : (forall j, k <> chain_key lph j) -> k <> list_key lk -> nearC l M -> nearC l (<[k := v]> M).
  Proof. intros H1 H2 [H3 H4]. split; [by apply chain_ok_off|]. eapply near_same; [|exact H4]. by rewrite lookup_insert_ne. Qed.
  Lemma nearC_chain l j k M : nearC l M -> nearC l (<[chain_key lph j := u64_bytes (hashk cfg k)]> M).
  Proof. intros [H3 H4]. split; [by apply chain_ok_set|]. eapply near_same; [|exact H4]. rewrite lookup_insert_ne; [done|kdiff]. Qed.
  Lemma nearC_del l k M : k <> list_key lk -> nearC l M -> nearC l (delete k M).
  Proof. intros H2 [H3 H4]. split; [by apply chain_ok_del|]. eapply near_same; [|exact H4]. by rewrite lookup_delete_ne. Qed.
  Lemma nearC_rec l M h t n : h < U64 -> t < U64 -> n < U64 -> n <= len l + 1 -> len l <= n + 1 -> nearC l M -> nearC l (<[list_key lk := enc_rec (LRec h t n)]> M).
  Proof. intros A1 A2 A3 A4 A5 [H3 H4]. split; [|by apply near_rec]. apply chain_ok_off; [intros ?; kdiff|done]. Qed.
  Lemma nearC_gone l M : len l <= 1 -> nearC l M -> nearC l (delete (list_key lk) M).
  Proof. intros A1 [H3 H4]. split; [|by apply near_gone]. by apply chain_ok_del. Qed.

  Lemma rep_sV rd M its : rep cfg lk M its 0 -> sV rd M (map snd its).
  Proof.
    intros HR. pose proof (rep_core _ _ _ _ _ HR) as HC. split; [|split].
    - intros ik. rewrite (core_get cfg lk M its ik HC), li_find_get. destruct (li_find its ik) as [[j v]|]; cbn; [|done]. exists v, j. done.
    - exact (co_links _ _ _ _ HC).
    - unfold near. destruct (rec_case _ _ _ _ _ HR) as [(-> & -> & _)|(h & t & -> & H1 & H2 & H3 & H4)]; [unfold len; cbn; lia|].
      exists h, t, (len its + 0). rewrite len_map_snd. split; [done|]. split; [lia|]. split; [done|]. split; [lia|]. lia.
  Qed.

  Lemma kwp_lift_C {A} (r : res A) (C : kvmap -> Prop) (Q : A -> kvmap -> Prop) M : C M -> (forall a, r = Ok a -> Q a M) -> kwp cfg (klift r) C Q TE M.
  Proof. intros HC H. destruct r as [a|e]; (split; [done|]); [by apply H|done]. Qed.
  Lemma kwp_set_C (k v : bytes) (C : kvmap -> Prop) (Q : set_status -> kvmap -> Prop) M : k <> [] -> C M -> C (<[k := v]> M) -> (forall st, Q st (<[k := v]> M)) -> kwp cfg (kset k v) C Q TE M.
  Proof. intros Hk HC HC' H. apply kwp_set2; auto. Qed.
  Lemma kwp_rep_C (k v : bytes) (ex : option bytes) (C : kvmap -> Prop) (Q : replace_status -> kvmap -> Prop) M : k <> [] -> C M -> C (<[k := v]> M) -> (forall st, Q st (<[k := v]> M)) -> (forall st, Q st M) -> kwp cfg (kreplace k v ex) C Q TE M.
  Proof.
    intros Hk HC HC' H H'. cbn. split; [done|]. split; [done|]. destruct (ins_err cfg k v); [done|].
    unfold spec_ins. destruct (M !! k); destruct ex; cbn; try case_bool_decide; cbn; auto.
  Qed.
  Lemma insert_near its ik v mode M : rep cfg lk M its 0 ->
    kwp cfg (insert_to_list cfg lk ik v mode) (nearC (map snd its)) (fun _ _ => True) TE M.
  Proof.
    intros HR. set (l := map snd its). assert (nearC l M) as HN by (destruct (rep_sV true M its HR) as (_ & ? & ?); by split).
    assert (Hit : forall (x : bytes) M, nearC l M -> nearC l (<[item_key lph ik := x]> M)) by (intros x M1; apply nearC_ins; [intros ?; kdiff|kdiff]).
    unfold insert_to_list. cbv zeta. apply kwp_locked, kwp_bind, kwp_get; [done|].
    destruct (M !! item_key lph ik) as [ev|] eqn:Eev.
    - apply kwp_bind, kwp_lift_C; [done|]. intros [old suf] _.
      assert (kwp cfg (dok _ <- kreplace (item_key lph ik) (v ++ suf) None; KRet (IReplaced old)) (nearC l) (fun _ _ => True) TE M) as Hrep.
      { apply kwp_bind, kwp_rep_C; [auto with kne|done|by apply Hit| |]; intros st; apply kwp_ret; try done. by apply Hit. }
      destruct mode as [|[ex|]|]; try done. case_bool_decide; [done|by apply kwp_ret].
    - set (q := kbind (kgoc (list_key lk) _) _). assert (kwp cfg q (nearC l) (fun _ _ => True) TE M) as Hins; [|by destruct mode; try done; apply kwp_ret]. unfold q.
      assert (FIRST_IDX + 1 < U64) by done.
      destruct (rec_case _ _ _ _ _ HR) as [(Hr & E1 & _)|(h & t & Hr & H1 & H2 & H3 & H4)].
      + assert (len l = 0) as El by (unfold l; by rewrite E1).
        apply kwp_bind, kwp_goc2; [auto with kne|done|done| |]; [intros lb _ Elb; congruence|]. intros _ _.
        assert (nearC l (<[list_key lk := enc_rec (LRec FIRST_IDX (FIRST_IDX + 1) 1)]> M)) as HN1 by (apply nearC_rec; [done|done|done|lia|lia|done]).
        split; [done|]. apply kwp_bind, kwp_set_C; [auto with kne|done|by apply nearC_chain|]. intros _.
        apply kwp_bind, kwp_set_C; [auto with kne|by apply nearC_chain|by apply Hit, nearC_chain|]. intros _. apply kwp_ret; [by apply Hit, nearC_chain|done].
      + assert (len l = len its) as El by apply len_map_snd.
        apply kwp_bind, kwp_goc2; [auto with kne|done|done| |]; [|intros _ En; congruence]. intros lb _ Elb. rewrite Hr in Elb. injection Elb as <-.
        apply kwp_bind. eapply kwp_lift_ok; [apply dec_enc_rec; lia|done|]. cbn [l_head l_tail l_num].
        apply kwp_bind, kwp_lift_C; [done|]. intros t' Et. apply kwp_bind, kwp_lift_C; [done|]. intros k Ek.
        assert (t' = t + 1 /\ k = len its + 0 + 1 /\ t + 1 < U64 /\ len its + 0 + 1 < U64) as (-> & -> & ? & ?).
        { unfold inc64 in *. destruct (N.ltb_spec (t + 1) U64), (N.ltb_spec (len its + 0 + 1) U64); try done. repeat split; congruence || lia. }
        assert (nearC l (<[list_key lk := enc_rec (LRec h (t + 1) (len its + 0 + 1))]> M)) as HN1 by (apply nearC_rec; [lia|lia|lia|lia|lia|done]).
        apply kwp_bind, kwp_set_C; [auto with kne|done|done|]. intros _. apply kwp_bind, kwp_set_C; [auto with kne|done|by apply nearC_chain|]. intros _.
        apply kwp_bind, kwp_set_C; [auto with kne|by apply nearC_chain|by apply Hit, nearC_chain|]. intros _. apply kwp_ret; [by apply Hit, nearC_chain|done].
  Qed.
  Lemma remove_near its ik M : rep cfg lk M its 0 ->
    kwp cfg (remove_from_list cfg lk ik) (nearC (map snd its)) (fun _ _ => True) TE M.
  Proof.
    intros HR. set (l := map snd its). assert (nearC l M) as HN by (destruct (rep_sV true M its HR) as (_ & ? & ?); by split).
    pose proof (rep_core _ _ _ _ _ HR) as HC.
    unfold remove_from_list. cbv zeta. apply kwp_locked, kwp_bind, kwp_get; [done|].
    rewrite (core_get cfg lk M its ik HC). destruct (li_find its ik) as [[j old]|] eqn:Ef; cbn [fmap option_fmap option_map fst snd]; [|by apply kwp_ret].
    apply kwp_bind. eapply kwp_lift_ok; [apply cut8|done|]. cbv beta iota.
    apply kwp_bind, kwp_get; [done|]. apply kwp_bind.
    assert (Hend : forall M1 x, nearC l M1 -> kwp cfg (dok _ <- kop1 (KRem (chain_key lph x)); dok _ <- kop1 (KRem (item_key lph ik)); KRet (Some old)) (nearC l) (fun _ _ => True) TE M1).
    { intros M1 x H1. assert (nearC l (delete (chain_key lph x) M1)) as H2 by (apply nearC_del; [kdiff|done]).
      apply kwp_bind, kwp_rem; [done|done|]. apply kwp_bind, kwp_rem; [done|apply nearC_del; [kdiff|done]|]. apply kwp_ret; [apply nearC_del; [kdiff|done]|done]. }
    assert (len l = len its) as El by apply len_map_snd.
    destruct (rec_case _ _ _ _ _ HR) as [(Hr & E1 & _)|(h & t & Hr & H1 & H2 & H3 & H4)]; rewrite Hr; [apply kwp_ret; [done|by apply Hend]|].
    apply kwp_bind. eapply kwp_lift_ok; [apply dec_enc_rec; lia|done|]. cbn [l_head l_tail l_num].
    apply kwp_bind, kwp_lift_C; [done|]. intros k Ek.
    assert (k = len its - 1 /\ len its <> 0) as [-> Hn0] by (unfold dec64 in Ek; destruct (N.eqb_spec (len its + 0) 0); [done|]; injection Ek as <-; lia).
    apply li_find_Some in Ef. pose proof H3 as H3'. rewrite Forall_forall in H3'. pose proof (H3' _ Ef) as Hj. cbn [fst] in Hj.
    assert (Hfin : forall (hd tl : N), hd <= tl -> tl < U64 -> (hd = tl -> len l <= 1) -> kwp cfg (if hd =? tl then dok _ <- kop1 (KRem (list_key lk)); KRet tt
      else dok _ <- kset (list_key lk) (enc_rec (LRec hd tl (len its - 1))); KRet tt) (nearC l)
      (fun _ => kwp cfg (dok _ <- kop1 (KRem (chain_key lph (le_N (u64_bytes j)))); dok _ <- kop1 (KRem (item_key lph ik)); KRet (Some old)) (nearC l) (fun _ _ => True) TE) TE M).
    { intros hd tl H5 Htl Hl. destruct (N.eqb_spec hd tl) as [->|Hne].
      - assert (nearC l (delete (list_key lk) M)) by (apply nearC_gone; [by apply Hl|done]).
        apply kwp_bind, kwp_rem; [done|done|]. apply kwp_ret; [done|]. by apply Hend.
      - assert (nearC l (<[list_key lk := enc_rec (LRec hd tl (len its - 1))]> M)) by (apply nearC_rec; [lia|lia|lia|lia|lia|done]).
        apply kwp_bind, kwp_set_C; [auto with kne|done|done|]. intros _. apply kwp_ret; [done|]. by apply Hend. }
    rewrite le_N_u64 in * by lia.
    destruct (N.eqb_spec h j) as [->|Hh].
    - apply kwp_bind, kwp_ret; [done|]. apply kwp_bind, kwp_bind, kwp_lift_C; [done|]. intros hd Ehd. apply kwp_ret; [done|]. cbv beta iota.
      assert (hd = j + 1) as -> by (unfold inc64 in Ehd; destruct (j + 1 <? U64); [|done]; congruence).
      apply Hfin; [lia|lia|]. lia.
    - apply kwp_bind, kwp_lift_C; [done|]. intros i1 Ei. apply kwp_bind.
      assert (i1 = j + 1) as -> by (unfold inc64 in Ei; destruct (j + 1 <? U64); [|done]; congruence).
      destruct (N.eqb_spec t (j + 1)).
      + apply kwp_bind, kwp_lift_C; [done|]. intros tl Htl. apply kwp_ret; [done|]. cbv beta iota.
        assert (tl = t - 1) as -> by (unfold dec64 in Htl; destruct (N.eqb_spec t 0); [done|]; congruence). apply Hfin; lia.
      + apply kwp_ret; [done|]. cbv beta iota. apply Hfin; [lia|done|lia].
  Qed.
  (** Compaction. *)
  Lemma at_index_S (C : kvmap -> Prop) (j : N) M (Q : option (phash * bytes * bytes) -> kvmap -> Prop) : C M -> chain_ok M ->
    (forall k ik w, M !! item_key lph ik = Some w -> Q (Some (hashk cfg k, item_key lph ik, w)) M) -> Q None M ->
    kwp cfg (get_at_index lph j) C Q TE M.
  Proof.
    intros HC Hch H1 H2. unfold get_at_index. apply kwp_bind, kwp_get; [done|]. destruct (M !! chain_key lph j) as [b|] eqn:Eb; [|by apply kwp_ret].
    destruct (Hch _ _ Eb) as [k ->]. apply kwp_bind. eapply kwp_lift_ok; [apply dec_u64_bytes, hashk_bound|done|]. apply kwp_bind. cbn [kop1 kwp]. split; [done|].
    destruct (_ =? _); [done|]. intros ls (_ & L2 & _). split; [done|]. destruct (find_item _ _ ls) as [[k0 w]|] eqn:Ef; [|by apply kwp_ret].
    apply find_item_spec in Ef as (F1 & F2 & _). apply ends_with_item in F2 as [ik ->]. apply L2 in F1 as [F1 _]. apply kwp_ret; [done|]. by apply H1.
  Qed.
  Lemma sV_off rd k (v : bytes) M l : (forall ik, k <> item_key lph ik) -> (forall j, k <> chain_key lph j) -> near (<[k := v]> M) l -> sV rd M l -> sV rd (<[k := v]> M) l.
  Proof. intros H1 H2 H3 (V1 & V2 & V3). split; [by apply items_ok_off|]. split; [by apply chain_ok_off|done]. Qed.
  Lemma sV_chain rd j k M l : sV rd M l -> sV rd (<[chain_key lph j := u64_bytes (hashk cfg k)]> M) l.
  Proof.
    intros (V1 & V2 & V3). split; [apply items_ok_off; [intros ?; kdiff|done]|]. split; [by apply chain_ok_set|].
    eapply near_same; [|exact V3]. rewrite lookup_insert_ne; [done|kdiff].
  Qed.
  Lemma sV_chain_del rd j M l : sV rd M l -> sV rd (delete (chain_key lph j) M) l.
  Proof.
    intros (V1 & V2 & V3). split; [apply items_ok_del; [intros ?; kdiff|done]|]. split; [by apply chain_ok_del|].
    eapply near_same; [|exact V3]. rewrite lookup_delete_ne; [done|kdiff].
  Qed.
  Lemma compact_items_S rd l n : forall j nj M, sV rd M l ->
    kwp cfg (compact_items lph n j nj) (fun M' => sV rd M' l) (fun _ M' => sV rd M' l) TE M.
  Proof.
    induction n as [|n IH]; intros j nj M HV; cbn [compact_items]; [by apply kwp_ret|].
    apply kwp_bind, at_index_S; [done|apply HV| |by apply IH]. intros k ik w Ew.
    assert (sV rd (<[chain_key lph nj := u64_bytes (hashk cfg k)]> M) l) as HV1 by (by apply sV_chain).
    apply kwp_bind, kwp_set_C; [auto with kne|done|done|]. intros _.
    apply kwp_bind, kwp_lift_C; [done|]. intros [v' x] Ec.
    assert (sV rd (<[item_key lph ik := v' ++ u64_bytes nj]> (<[chain_key lph nj := u64_bytes (hashk cfg k)]> M)) l) as HV2.
    { destruct HV1 as (V1 & V2 & V3). split; [|split; [apply chain_ok_off; [intros ?; kdiff|done]|eapply near_same; [|exact V3]; rewrite lookup_insert_ne; [done|kdiff]]].
      intros ik'. destruct (decide (ik' = ik)) as [->|Hne].
      - rewrite lookup_insert. destruct HV as (V0 & _). specialize (V0 ik). rewrite Ew in V0. destruct V0 as (v & j' & -> & Hg). rewrite cut8 in Ec. injection Ec as <- <-. eauto.
      - rewrite lookup_insert_ne by (intros E; by apply item_key_inj in E). by apply V1. }
    apply kwp_bind, kwp_set_C; [auto with kne|done|done|]. intros _.
    apply kwp_bind, kwp_rem; [done|by apply sV_chain_del|]. apply kwp_bind, kwp_lift_C; [by apply sV_chain_del|]. intros x' _. apply IH. by apply sV_chain_del.
  Qed.
  Lemma compact_near rd its few ml M : rep cfg lk M its 0 -> entries_ok cfg M -> index_room (list_key lk) M ->
    kwp cfg (compact_list cfg few ml lk) (fun M' => sV rd M' (map snd its)) (fun _ _ => True) TE M.
  Proof.
    intros HR Hent HJ. set (l := map snd its). assert (sV rd M l) as HV by (by apply rep_sV).
    pose proof (rep_core _ _ _ _ _ HR) as HC. assert (len l = len its) as Ell by apply len_map_snd.
    unfold compact_list. cbv zeta. apply kwp_locked, kwp_bind, kwp_get; [done|].
    destruct (rec_case _ _ _ _ _ HR) as [(Hr & _)|(h & t & Hr & H1 & H2 & H3 & H4)]; rewrite Hr; [by apply kwp_ret|].
    pose proof (rep_index _ _ _ _ _ _ _ HR HJ Hr H1 H2 H4) as Hroom.
    apply kwp_bind. eapply kwp_lift_ok; [apply dec_enc_rec; lia|done|]. cbn [l_head l_tail l_num].
    apply kwp_bind. eapply (kwp_lift_ok _ (t - h)); [unfold sub64; destruct (N.ltb_spec t h); [lia|done]|done|].
    destruct (t - h <? ml); [by apply kwp_ret|].
    apply kwp_bind. eapply (kwp_lift_ok _ (t - h - (len its + 0))); [unfold sub64; destruct (N.ltb_spec (t - h) (len its + 0)); [lia|done]|done|].
    destruct (few (t - h) (t - h - (len its + 0))); [by apply kwp_ret|].
    apply kwp_bind.
    assert (kwp cfg (compact_items lph (N.to_nat (t - h)) h t) (fun _ => True)
      (fun new' M' => exists D', core cfg lk M' D' /\ entries_ok cfg M' /\ M' !! list_key lk = Some (enc_rec (LRec h t (len its + 0))) /\ map snd D' = map snd ([] : ixs) ++ map snd its /\
       Forall (fun x : N * (bytes * bytes) => t <= fst x < new') D' /\ new' = t + len D' /\ new' < U64) (fun _ _ => False) M) as Hci.
    { apply kwp_compact_items; [by rewrite app_nil_r|done|done|lia|done|done|unfold len; cbn; lia|lia]. }
    eapply kwp_mono; [| | |exact (kwp_and _ _ _ _ _ _ _ _ _ (compact_items_S rd l (N.to_nat (t - h)) h t M HV) Hci)]; [by intros M' [? _]| |done].
    intros new' M1 _ (HV1 & D & K1 & K2 & K3 & K4 & K5 & K6 & K7). cbn [map app] in K4.
    assert (len D = len its) as El by (rewrite <- (len_map_snd D), K4, len_map_snd; done).
    apply kwp_bind. destruct (N.eqb_spec t new') as [Et|Et].
    - assert (sV rd (delete (list_key lk) M1) l) as HV2.
      { destruct HV1 as (V1 & V2 & V3). split; [apply items_ok_del; [intros ?; kdiff|done]|]. split; [by apply chain_ok_del|]. apply near_gone. lia. }
      apply kwp_bind, kwp_rem; [done|done|]. apply kwp_ret; [done|]. by apply kwp_ret.
    - assert (sV rd (<[list_key lk := enc_rec (LRec t new' (new' - t))]> M1) l) as HV2.
      { apply sV_off; [intros ?; kdiff|intros ?; kdiff| |done]. apply near_rec; lia. }
      apply kwp_bind, kwp_set_C; [auto with kne|done|done|]. intros _. apply kwp_ret; [done|]. by apply kwp_ret.
  Qed.
  (** Discarding. *)
  Lemma discard_items_S l js : forall M, items_ok false M l /\ chain_ok M ->
    kwp cfg (discard_items lph js) (fun M' => items_ok false M' l /\ chain_ok M') (fun _ M' => items_ok false M' l /\ chain_ok M') TE M.
  Proof.
    induction js as [|j js IH]; intros M HV; cbn [discard_items]; [by apply kwp_ret|].
    apply kwp_bind, at_index_S; [done|apply HV| |by apply IH]. intros k ik w Ew.
    assert (Hd : forall k M, items_ok false M l /\ chain_ok M -> items_ok false (delete k M) l /\ chain_ok (delete k M)).
    { intros k0 M0 [V1 V2]. split; [by apply items_ok_gone|by apply chain_ok_del]. }
    apply kwp_bind, kwp_rem; [done|by apply Hd|]. apply kwp_bind, kwp_rem; [by apply Hd|by apply Hd, Hd|]. by apply IH, Hd, Hd.
  Qed.
  Lemma discard_near its M : rep cfg lk M its 0 ->
    kwp cfg (discard_list cfg lk) (fun M' => items_ok false M' (map snd its) /\ chain_ok M') (fun _ _ => True) TE M.
  Proof.
    intros HR. destruct (rep_sV false M its HR) as (V1 & V2 & V3). unfold discard_list. apply kwp_locked, kwp_bind, kwp_get; [done|].
    destruct (M !! list_key lk) as [lb|]; [|by apply kwp_ret]. apply kwp_bind, kwp_lift_C; [done|]. intros r _. apply kwp_bind.
    eapply kwp_mono; [| | |by apply discard_items_S]; [done| |done]. intros ? M1 _ [V4 V5].
    assert (items_ok false (delete (list_key lk) M1) (map snd its) /\ chain_ok (delete (list_key lk) M1)) as HD by (split; [by apply items_ok_gone|by apply chain_ok_del]).
    apply kwp_bind, kwp_rem; [done|done|]. by apply kwp_ret.
  Qed.
  Lemma range_near rd its M : rep cfg lk M its 0 ->
    kwp cfg (list_range cfg lk) (fun M' => sV rd M' (map snd its)) (fun _ M' => M' = M) (fun _ _ => False) M.
  Proof. intros HR. apply (kwp_range _ _ M its 0); [done|by apply rep_sV|done|done]. Qed.
End parts.

Lemma kwp_ext {A} (cfg : config) (p : kprog A) (C : kvmap -> Prop) (Q : A -> kvmap -> Prop) (E : err -> kvmap -> Prop) : forall q M,
  keq p q -> kwp cfg p C Q E M -> kwp cfg q C Q E M.
Proof.
  induction p as [a|e|X o k IH]; intros q M; cbn [keq]; [by intros ->|by intros ->|]. intros (k' & -> & Hk). cbn [kwp]. intros [HC H]. split; [done|].
  destruct o as [key|key v mode|key|ph|j|j]; try (by eapply IH).
  - destruct H as [H1 H2]. split; [done|]. destruct (ins_err cfg key v); [done|]. by eapply IH.
  - destruct (_ =? _); [done|]. intros ls Hls. eapply IH; [done|by apply H].
Qed.
Section inst.
  Context (cfg : config) (lk : bytes) (rd : bool).
  Local Notation lph := (list_ph cfg lk).
  Local Notation i := (lock_idx cfg lph).
  Local Notation K := (list_keys cfg lk).
  Local Notation F := (fun k : bytes => ends_with k (item_suffix lph)).
  Local Notation R := (lR cfg lk).
  Local Notation V := (sV cfg lk rd).
  Local Notation G := (entries_ok cfg).
  Local Notation w := (list_w lk).
  Local Notation spec := (list_seen lk rd).
  Local Notation mid := (list_mid lk).
  Local Notation sess := (ss cfg i R V G w spec mid top_any).
  Local Notation ends := (ends_ok cfg i R V G w spec mid top_any).

  Lemma lR_sV B M l : R B M l -> V M l.
  Proof. intros (its & HR & <- & _). by apply rep_sV. Qed.
  Lemma w_lk lc : w (CList lk lc) = 1.
  Proof. cbn. by rewrite bool_decide_eq_true_2. Qed.
  Lemma spec_lk (H : list items) l lc y l' : lseen rd H l lc y l' -> spec H l (CList lk lc) (Ok y) l'.
  Proof. intros Hs. cbn. rewrite bool_decide_eq_true_2 by done. by exists y. Qed.

  (** A critical section of a call. *)
  Lemma sess_section {A} (IK : bytes -> Prop) lc (H : list items) (p : kprog A) (f : A -> kprog reply) (C : items -> kvmap -> Prop) (Q : N -> items -> A -> kvmap -> Prop) :
    section cfg lk IK p -> (forall l M M', agree IK M M' -> V M l -> C l M' -> V M' l) ->
    (forall H' B l x M', H ⊆ H' -> l ∈ H' -> Q B l x M' -> ends (CList lk lc) H' l B (f x) M') ->
    (forall B its M, G M -> rep cfg lk M its 0 -> idx_ok (list_key lk) (B + 1) M -> kwp cfg p (C (map snd its)) (Q B (map snd its)) (fun _ _ => False) M) ->
    sess (CList lk lc) H (kbind p f) Out.
  Proof.
    intros (q & -> & H1 & H2) H3 H4 H5.
    eapply (ss_section cfg i R V G w spec mid top_any lR_sV IK (CList lk lc) H lph q f C Q); [done|done|done|exact H4|].
    intros B M l HG (its & HR & <- & HJ). rewrite w_lk in HJ. eapply kwp_locked_inv. by apply H5.
  Qed.
  (** The calls that hold the lock throughout. *)
  Lemma sess_own {A} (IK : bytes -> Prop) lc (H : list items) (p : kprog A) (f : A -> kprog reply) (C : items -> kvmap -> Prop) :
    locked_call lc = true -> lcall_accepts cfg lk lc ->
    keq (kbind p f) (list_prog cfg lk lc) -> section cfg lk IK p -> (forall x, exists r, f x = klift r) ->
    (forall l M M', agree IK M M' -> V M l -> C l M' -> V M' l) ->
    (forall its M, G M -> rep cfg lk M its 0 -> index_room (list_key lk) M -> kwp cfg p (C (map snd its)) (fun _ _ => True) (fun _ _ => True) M) ->
    sess (CList lk lc) H (list_prog cfg lk lc) Out.
  Proof.
    intros Hlc Hacc Hk Hs Hf HV HC. eapply ss_ext; [exact Hk|].
    eapply (sess_section IK lc H p f C (fun B l x M' => kwp cfg (f x) (fun _ => True) (fun y M' => exists l', list_spec l lc y l' /\ R B M' l') (fun _ _ => False) M')).
    - exact Hs.
    - exact HV.
    - intros H' B l x M' _ Hl Hw. left. destruct (Hf x) as [r Er]. rewrite Er in *. destruct r as [y|e]; cbn [klift kwp] in Hw; destruct Hw as [_ Hw]; [|done].
      destruct Hw as (l' & K1 & K2). exists (Ok y), l'. split; [done|]. split; [|done]. apply spec_lk. by destruct lc.
    - intros B its M HG HR HJ. pose proof (idx_ok_room _ _ _ HJ) as Hroom.
      pose proof (list_kwp cfg lk M its 0 lc HR (fun _ => conj HG Hroom)) as Hw.
      pose proof (list_header cfg lk B its lc M Hlc HR HG HJ) as Hh.
      pose proof (kwp_and _ _ _ _ _ _ _ _ _ Hw Hh) as Hwh. eapply kwp_ext in Hwh; [|apply keq_sym, Hk]. apply kwp_bind_inv in Hwh.
      eapply kwp_mono; [| | |exact (kwp_and _ _ _ _ _ _ _ _ _ (HC its M HG HR Hroom) Hwh)].
      + by intros M' [? _].
      + intros x M' _ [_ Hx]. eapply kwp_mono; [| | |exact Hx]; [done| |].
        * intros y M2 _ ((its' & lost' & K1 & K2 & K3) & K4). assert (lost' = 0) as -> by lia. exists (map snd its'). split; [by apply list_spec_0|]. by exists its'.
        * intros e M2 _ ((its' & lost' & K1 & K2 & K3 & K4) & _). done.
      + intros e M2 _ (_ & (its' & lost' & K1 & K2 & K3 & K4) & _). done.
  Qed.
  Lemma near_V l M M' : agree (item_keys cfg lk) M M' -> V M l -> nearC cfg lk l M' -> V M' l.
  Proof. intros Ha (V1 & _) [V2 V3]. split; [by eapply items_ok_agree|done]. Qed.
  Lemma own_calls lc H : locked_call lc = true -> lcall_accepts cfg lk lc -> (rd = true -> lc <> LDiscard) -> sess (CList lk lc) H (list_prog cfg lk lc) Out.
  Proof.
    intros Hlc Hacc Hd. pose proof near_V as HnV.
    destruct lc as [ik v|ik v|ik v ex|ik v|ik|ik|few ml|fwd|fwd|fwd| |]; try done.
    - eapply (sess_own (item_keys cfg lk) (LSet ik v) H (insert_to_list cfg lk ik v MSet)); [done|done|exact (keq_sym _ _ (keq_assoc (insert_to_list cfg lk ik v MSet) _ (fun a => KRet (YSet a))))|apply insert_section| |exact HnV|intros; by apply insert_near].
      intros []; first [by eexists (Ok _) | by eexists (Err _)].
    - eapply (sess_own (item_keys cfg lk) (LReplace ik v ex) H (insert_to_list cfg lk ik v (MReplace ex))); [done|done|apply keq_sym, keq_assoc|apply insert_section| |exact HnV|intros; by apply insert_near].
      intros []; first [by eexists (Ok _) | by eexists (Err _)].
    - eapply (sess_own (item_keys cfg lk) (LGetOrCreate ik v) H (insert_to_list cfg lk ik v MGetOrCreate)); [done|done|apply keq_sym, keq_assoc|apply insert_section| |exact HnV|intros; by apply insert_near].
      intros []; first [by eexists (Ok _) | by eexists (Err _)].
    - eapply (sess_own (item_keys cfg lk) (LRemove ik) H (remove_from_list cfg lk ik)); [done|done|apply keq_refl|apply remove_section| |exact HnV|intros; by apply remove_near].
      intros x. by eexists (Ok _).
    - eapply (sess_own (fun _ => False) (LCompact few ml) H (compact_list cfg few ml lk) _ (fun l M' => V M' l)); [done|done|apply keq_refl|apply compact_section| | |intros; by apply (compact_near cfg lk rd)].
      + intros x. by eexists (Ok _).
      + done.
    - eapply (sess_own (fun k => k = list_key lk) LDiscard H (discard_list cfg lk) _ (fun l M' => items_ok cfg lk false M' l /\ chain_ok cfg lk M')); [done|done|apply keq_refl|apply discard_section| | |intros; by apply discard_near].
      + intros x. by eexists (Ok _).
      + intros l M M' Ha (_ & _ & V3) [V1 V2]. assert (rd = false) as -> by (destruct rd; [by destruct Hd|done]). split; [done|]. split; [done|].
        eapply near_same; [|exact V3]. by apply Ha.
  Qed.

  (** Looking at an index outside the lock. *)
  Lemma sess_at_index c (H : list items) (j : N) (f : option (phash * bytes * bytes) -> kprog reply) :
    (forall H', H ⊆ H' -> sess c H' (f None) Out) ->
    (forall H' ph ik v j', H ⊆ H' -> seen_in H' ik v -> sess c H' (f (Some (ph, item_key lph ik, v ++ u64_bytes j'))) Out) ->
    sess c H (kbind (get_at_index lph j) f) Out.
  Proof.
    intros H1 H2. unfold get_at_index. cbn [kop1 kbind ss]. intros H' M l Hs Hl (V1 & V2 & V3).
    destruct (M !! chain_key lph j) as [b|] eqn:Eb; [|cbn [kbind]; by apply H1]. destruct (V2 _ _ Eb) as [k ->].
    rewrite dec_u64_bytes by apply hashk_bound. cbn [klift kbind kop1 ss].
    destruct (N.eqb_spec (ph_sig (hashk cfg k)) INVALID_SIG) as [E|_]; [by apply hashk_sig in E|].
    intros H2' M2 l2 ls Hs2 Hl2 (V4 & _) (_ & L2 & _). assert (H ⊆ H2') by (by etransitivity).
    destruct (find_item _ _ ls) as [[k0 w0]|] eqn:Ef; cbn [kbind]; [|by apply H1].
    apply find_item_spec in Ef as (F1 & F2 & _). apply ends_with_item in F2 as [ik ->]. apply L2 in F1 as [F1 _].
    specialize (V4 ik). rewrite F1 in V4. destruct V4 as (v & j' & -> & Hg). apply H2; [done|]. by exists l2.
  Qed.
  Lemma trunc_item_ok ik v (j : N) : trunc_item (item_key lph ik) (v ++ u64_bytes j) = KRet (ik, v).
  Proof. unfold trunc_item. rewrite cut8. cbn [klift kbind]. rewrite cut9. done. Qed.
  Lemma sub_refl {X} (A : list X) : A ⊆ A.
  Proof. done. Qed.
  Lemma sess_range lc (H : list items) (f : option (N * N) -> kprog reply) :
    (forall H' r, H ⊆ H' -> sess (CList lk lc) H' (f r) Out) -> sess (CList lk lc) H (kbind (list_range cfg lk) f) Out.
  Proof.
    intros Hf. eapply (sess_section (fun _ => False) lc H (list_range cfg lk) f (fun l M' => V M' l) (fun B l _ M' => R (B + 1) M' l)).
    - apply range_section.
    - done.
    - intros H' B l x M' Hs Hl HR. right. exists l. split; [by left|]. rewrite w_lk. split; [done|]. apply Hf. etransitivity; [exact Hs|apply sub_tail].
    - intros B its M HG HR HJ. eapply kwp_mono; [| | |by apply (range_near cfg lk rd its M)]; [done| |done]. intros r M' _ ->. by exists its.
  Qed.
  (** Removing an item in the middle of a call. *)
  Lemma sess_remove lc (H : list items) ik (f : option bytes -> kprog reply) :
    (forall H' B l o M', H ⊆ H' -> l ∈ H' -> o = l_get l ik -> R (B + 1) M' (l_remove l ik) -> ends (CList lk lc) H' l B (f o) M') ->
    sess (CList lk lc) H (kbind (remove_from_list cfg lk ik) f) Out.
  Proof.
    intros Hf. eapply (sess_section (item_keys cfg lk) lc H (remove_from_list cfg lk ik) f (nearC cfg lk) (fun B l o M' => o = l_get l ik /\ R (B + 1) M' (l_remove l ik))).
    - apply remove_section.
    - exact near_V.
    - intros H' B l x M' Hs Hl [-> HR]. by apply Hf.
    - intros B its M HG HR HJ. pose proof (idx_ok_room _ _ _ HJ) as Hroom.
      eapply kwp_mono; [| | |exact (kwp_and _ _ _ _ _ _ _ _ _ (remove_near cfg lk its ik M HR) (kwp_and _ _ _ _ _ _ _ _ _ (kwp_remove cfg lk M its 0 ik HR HG) (remove_header cfg lk (B + 1) ik M HJ)))].
      + by intros M' [? _].
      + intros o M' _ (_ & (K1 & -> & _) & K2). split; [by rewrite li_find_get|]. exists (li_remove its ik). split; [done|]. split; [by rewrite li_remove_map|done].
      + by intros e M' _ (_ & ? & _).
  Qed.
  Lemma l_remove_none l ik : l_get l ik = None -> l_remove l ik = l.
  Proof.
    unfold l_get, l_remove. induction l as [|x l IH]; cbn [List.find List.filter]; [done|]. case_bool_decide; cbn [negb]; [done|]. intros Hg. by rewrite IH.
  Qed.
  Lemma lR_mono B B' M l : B <= B' -> R B' M l -> R B M l.
  Proof. intros HB (its & H1 & H2 & H3). exists its. split; [done|]. split; [done|]. by eapply idx_ok_mono. Qed.


  Lemma sess_iter c js : forall (H : list items) (f : list kv -> kprog reply),
    (forall H' (xs : list kv), H ⊆ H' -> (forall ik v, (ik, v) ∈ xs -> seen_in H' ik v) -> sess c H' (f xs) Out) ->
    sess c H (kbind (iter_items lph js) f) Out.
  Proof.
    induction js as [|j js IH]; intros H f Hf; cbn [iter_items kbind].
    - apply Hf; [done|]. intros ik v Hin. by apply elem_of_nil in Hin.
    - eapply ss_ext; [apply keq_sym, keq_assoc|]. apply sess_at_index.
      + intros H' Hs. apply IH. intros H2 xs Hs2. apply Hf. by etransitivity.
      + intros H' ph ik v j' Hs Hseen. rewrite trunc_item_ok. cbn [kbind]. eapply ss_ext; [apply keq_sym, keq_assoc|]. cbn [kbind].
        apply IH. intros H2 xs Hs2 Hxs. apply Hf; [by etransitivity|]. intros ik' v' Hin. apply elem_of_cons in Hin as [[= -> ->]|Hin]; [by eapply seen_mono|by apply Hxs].
  Qed.
  Lemma sess_peek c js : forall (H : list items) (f : option kv -> kprog reply),
    (forall H' (o : option kv), H ⊆ H' -> (forall ik v, o = Some (ik, v) -> seen_in H' ik v) -> sess c H' (f o) Out) ->
    sess c H (kbind (peek_items lph js) f) Out.
  Proof.
    induction js as [|j js IH]; intros H f Hf; cbn [peek_items kbind]; [by apply Hf|].
    eapply ss_ext; [apply keq_sym, keq_assoc|]. apply sess_at_index.
    - intros H' Hs. apply IH. intros H2 o Hs2. apply Hf. by etransitivity.
    - intros H' ph ik v j' Hs Hseen. rewrite trunc_item_ok. cbn [kbind]. apply Hf; [done|]. by intros ik' v' [= -> ->].
  Qed.
  Lemma sess_pop fwd js : forall (H : list items),
    sess (CList lk (LPop fwd)) H (kbind (pop_items cfg lk js) (fun o => KRet (YItem o))) Out.
  Proof.
    induction js as [|j js IH]; intros H; cbn [pop_items kbind].
    - cbn [ss]. intros H' l Hs Hl. apply spec_lk. cbn [lseen]. by left.
    - eapply ss_ext; [apply keq_sym, keq_assoc|]. apply sess_at_index.
      + intros H' Hs. apply IH.
      + intros H' ph ik v j' Hs Hseen. rewrite trunc_item_ok. cbn [kbind fst]. eapply ss_ext; [apply keq_sym, keq_assoc|].
        apply sess_remove. intros H2 B l o M' Hs2 Hl Eo HR. destruct o as [old|]; cbn [kbind].
        * left. exists (Ok (YItem (Some (ik, v)))), (l_remove l ik). split; [done|]. split; [|eapply lR_mono; [|exact HR]; lia].
          apply spec_lk. cbn [lseen]. right. exists ik, v. split; [done|]. split; [by rewrite <- Eo|]. split; [done|]. by eapply seen_mono.
        * right. exists l. split; [by left|]. rewrite w_lk. rewrite l_remove_none in HR by done. split; [done|]. apply IH.
  Qed.
  Lemma l_remove_get l ik : l_get (l_remove l ik) ik = None.
  Proof.
    unfold l_get, l_remove. induction l as [|x l IH]; cbn [List.find List.filter]; [done|]. case_bool_decide as E; cbn [negb]; [done|]. cbn [List.find]. by rewrite bool_decide_eq_false_2.
  Qed.
  Lemma sess_promote ik v (H : list items) : list_accepts cfg lk ik v -> sess (CList lk (LSetPromoting ik v)) H (list_prog cfg lk (LSetPromoting ik v)) Out.
  Proof.
    intros Hacc. cbn [list_prog]. unfold kmap, set_in_list.
    eapply ss_ext; [apply keq_sym; eapply keq_trans; [apply keq_assoc|apply keq_assoc]|]. cbn [kbind]. apply sess_remove.
    intros H' B l o M' Hs Hl Eo HR. right. exists (l_remove l ik). split; [right; by exists ik, v|]. rewrite w_lk. split; [done|].
    eapply ss_ext; [apply keq_sym, keq_assoc|].
    eapply (sess_section (item_keys cfg lk) (LSetPromoting ik v) _ (insert_to_list cfg lk ik v MSet) _ (nearC cfg lk)
      (fun B l st M' => exists l', ins_post l MSet ik v st l' /\ R B M' l')).
    - apply insert_section.
    - exact near_V.
    - intros H2 B2 l2 st M2 Hs2 Hl2 (l' & K1 & K2). left.
      assert (exists l0, l0 ∈ H2 /\ l_get l0 ik = None) as Hrem.
      { exists (l_remove l ik). split; [apply Hs2, elem_of_cons; by left|apply l_remove_get]. }
      unfold ins_post in K1. destruct (l_get l2 ik) as [old|] eqn:Eg; destruct K1 as [-> ->].
      + exists (Ok (YSet (PrevValue old))), (l_update l2 ik v). split; [done|]. split; [|done]. apply spec_lk. cbn [lseen]. split; [done|]. cbn [list_spec]. unfold l_set. by rewrite Eg.
      + exists (Ok (YSet CreatedNew)), (l2 ++ [(ik, v)]). split; [done|]. split; [|done]. apply spec_lk. cbn [lseen]. split; [done|]. cbn [list_spec]. unfold l_set. by rewrite Eg.
    - intros B2 its M HG HR2 HJ. pose proof (idx_ok_room _ _ _ HJ) as Hroom.
      eapply kwp_mono; [| | |exact (kwp_and _ _ _ _ _ _ _ _ _ (insert_near cfg lk its ik v MSet M HR2) (kwp_and _ _ _ _ _ _ _ _ _ (kwp_insert cfg lk M its 0 ik v MSet HR2 Hroom) (insert_header cfg lk B2 ik v MSet M HJ)))].
      + by intros M2 [? _].
      + intros st M2 _ (_ & (its' & K1 & K2) & K3). exists (map snd its'). split; [done|]. by exists its'.
      + intros e M2 _ (_ & (lost' & K1 & K2 & K3) & _). done.
  Qed.

  (** Everything is local. *)
  Lemma section_local {A} IK (p : kprog A) : section cfg lk IK p -> klocal K F anyv p.
  Proof.
    intros (q & -> & H1 & _). unfold klocked. cbn [kop1 kbind klocal]. intros _. apply klocal_seq; [done|]. intros a. cbn [klocal]. done.
  Qed.
  Lemma trunc_local (k v : bytes) : klocal K F anyv (trunc_item k v).
  Proof. unfold trunc_item. kl. Qed.
  Lemma iter_items_local js : klocal K F anyv (iter_items lph js).
  Proof.
    induction js as [|j js IH]; cbn [iter_items]; [done|]. eapply klocal_bind; [apply at_index_local|]. intros [[[ph k] v]|] _; [|done].
    apply klocal_seq; [apply trunc_local|]. intros y. apply klocal_seq; [exact IH|]. done.
  Qed.
  Lemma peek_items_local js : klocal K F anyv (peek_items lph js).
  Proof.
    induction js as [|j js IH]; cbn [peek_items]; [done|]. eapply klocal_bind; [apply at_index_local|]. intros [[[ph k] v]|] _; [|done].
    apply klocal_seq; [apply trunc_local|]. done.
  Qed.
  Lemma pop_items_local js : klocal K F anyv (pop_items cfg lk js).
  Proof.
    induction js as [|j js IH]; cbn [pop_items]; [done|]. eapply klocal_bind; [apply at_index_local|]. intros [[[ph k] v]|] _; [|done].
    apply klocal_seq; [apply trunc_local|]. intros y. apply klocal_seq; [eapply section_local, remove_section|]. by intros [].
  Qed.
  Lemma list_local lc : klocal K F anyv (list_prog cfg lk lc).
  Proof.
    destruct lc as [ik v|ik v|ik v ex|ik v|ik|ik|few ml|fwd|fwd|fwd| |]; cbn [list_prog]; unfold kmap; (apply klocal_seq; [|done]).
    - unfold set_in_list. cbn [kbind]. apply klocal_seq; [eapply section_local, insert_section|]. by intros [].
    - unfold set_in_list. apply klocal_seq; [apply klocal_seq; [eapply section_local, remove_section|done]|]. intros _. apply klocal_seq; [eapply section_local, insert_section|]. by intros [].
    - unfold replace_in_list. apply klocal_seq; [eapply section_local, insert_section|]. by intros [].
    - unfold get_or_create_in_list. apply klocal_seq; [eapply section_local, insert_section|]. by intros [].
    - unfold get_from_list. kl.
    - eapply section_local, remove_section.
    - eapply section_local, compact_section.
    - unfold iter_list. apply klocal_seq; [eapply section_local, range_section|]. intros [[h t]|]; [apply iter_items_local|done].
    - unfold peek_list. apply klocal_seq; [eapply section_local, range_section|]. intros [[h t]|]; [apply peek_items_local|done].
    - unfold pop_list. apply klocal_seq; [eapply section_local, range_section|]. intros [[h t]|]; [apply pop_items_local|done].
    - eapply section_local, discard_section.
    - unfold list_len. kl.
  Qed.
  Lemma rdr_get ik : rdr cfg V spec top_any (CList lk (LGet ik)) (call_prog cfg (CList lk (LGet ik))).
  Proof.
    split; [done|]. split; [done|]. intros a M lks M' lks' p' l HV Hk. cbn in Hk. destruct Hk as (-> & -> & ->). split; [done|].
    destruct HV as (V1 & _). specialize (V1 ik). destruct (M !! item_key lph ik) as [ev|].
    - destruct V1 as (v & j & -> & Hg). exists (Ok (YOpt (Some v))). rewrite cut8. split; [done|]. intros H _. apply spec_lk. cbn [lseen]. split; [done|]. exists (Some v). auto.
    - exists (Ok (YOpt None)). split; [done|]. intros H _. apply spec_lk. cbn [lseen]. split; [done|]. exists None. split; [done|]. destruct rd; [left; symmetry; by apply V1|by right].
  Qed.
  Lemma rdr_len : rdr cfg V spec top_any (CList lk LLen) (call_prog cfg (CList lk LLen)).
  Proof.
    split; [done|]. split; [done|]. intros a M lks M' lks' p' l HV Hk. cbn [call_prog list_prog] in Hk. unfold kmap, list_len in Hk. cbn [kop1 kbind kop_step] in Hk.
    destruct Hk as (-> & -> & ->). split; [done|].
    destruct HV as (_ & _ & V3). unfold near in V3. destruct (M !! list_key lk) as [b|].
    - destruct V3 as (h & t & n & -> & K1 & K2 & K3 & K4). exists (Ok (YNum n)). rewrite dec_enc_rec by done. split; [done|]. intros H _. apply spec_lk. cbn [lseen]. split; [done|]. by exists n.
    - exists (Ok (YNum 0)). split; [done|]. intros H _. apply spec_lk. cbn [lseen]. split; [done|]. exists 0. split; [done|]. lia.
  Qed.
  Lemma list_all c : list_any cfg lk rd c ->
    mine cfg i K F R V G w spec mid top_any c (call_prog cfg c) \/ rdr cfg V spec top_any c (call_prog cfg c) \/ oth K spec c (call_prog cfg c).
  Proof.
    intros Hok. assert ((exists lc, c = CList lk lc) \/ forall lc, c <> CList lk lc) as [[lc ->]|Hn].
    { destruct c as [o|tid o|lk' lc|qk qc|b bc]; try (right; done). destruct (decide (lk' = lk)) as [->|]; [left; eauto|right; congruence]. }
    - cbn [list_any] in Hok. rewrite bool_decide_eq_true_2 in Hok by done. destruct Hok as [Hacc Hd].
      assert ((locked_call lc = true) \/ locked_call lc = false) as [Hlc|Hlc] by (destruct (locked_call lc); auto).
      { left. split; [apply list_local|]. intros l. by apply own_calls. }
      destruct lc as [ik v|ik v|ik v ex|ik v|ik|ik|few ml|fwd|fwd|fwd| |]; try done.
      + left. split; [apply list_local|]. intros l. by apply sess_promote.
      + right. left. apply rdr_get.
      + left. split; [apply list_local|]. intros l. cbn [call_prog list_prog]. unfold kmap, iter_list. eapply ss_ext; [apply keq_sym, keq_assoc|].
        apply sess_range. intros H' r Hs. assert (Hfin : forall H2 (xs : list kv), (forall ik v, (ik, v) ∈ xs -> seen_in H2 ik v) -> sess (CList lk (LIter fwd)) H2 (KRet (YItems xs)) Out).
        { intros H2 xs Hxs. cbn [ss]. intros H3 l3 Hs3 _. apply spec_lk. cbn [lseen]. split; [done|]. exists xs. split; [done|]. intros ik v Hin. eapply seen_mono; [exact Hs3|by apply Hxs]. }
        destruct r as [[h t]|]; cbn [kbind]; [|apply Hfin; intros ik v Hin; by apply elem_of_nil in Hin]. apply sess_iter. intros H2 xs _ Hxs. by apply Hfin.
      + left. split; [apply list_local|]. intros l. cbn [call_prog list_prog]. unfold kmap, peek_list. eapply ss_ext; [apply keq_sym, keq_assoc|].
        apply sess_range. intros H' r Hs. assert (Hfin : forall H2 (o : option kv), (forall ik v, o = Some (ik, v) -> seen_in H2 ik v) -> sess (CList lk (LPeek fwd)) H2 (KRet (YItem o)) Out).
        { intros H2 xs Hxs. cbn [ss]. intros H3 l3 Hs3 _. apply spec_lk. cbn [lseen]. split; [done|]. exists xs. split; [done|]. intros ik v Hin. eapply seen_mono; [exact Hs3|by apply Hxs]. }
        destruct r as [[h t]|]; cbn [kbind]; [|by apply Hfin]. apply sess_peek. intros H2 xs _ Hxs. by apply Hfin.
      + left. split; [apply list_local|]. intros l. cbn [call_prog list_prog]. unfold kmap, pop_list. eapply ss_ext; [apply keq_sym, keq_assoc|].
        apply sess_range. intros H' r Hs. destruct r as [[h t]|]; cbn [kbind]; [apply sess_pop|]. apply (sess_pop fwd []).
      + right. left. apply rdr_len.
    - right. right. destruct (list_other cfg lk true c) as [H1 _]; [|done|].
      + destruct c as [o|tid o|lk' lc|qk qc|b bc]; try done. cbn in *. destruct (decide (lk' = lk)) as [->|Hne]; [by destruct (Hn lc)|]. by rewrite bool_decide_eq_false_2 in *.
      + split; [done|]. intros H l r. destruct c as [o|tid o|lk' lc|qk qc|b bc]; try done. cbn. rewrite bool_decide_eq_false_2; [done|]. intros ->. by destruct (Hn lc).
  Qed.
  (** Every concurrent run on the abstract map. *)
  Lemma lin_list_all M es A l : arun cfg (AS M ∅ ∅) es A -> (forall a c, EvCall a c ∈ es -> list_any cfg lk rd c) ->
    entries_ok cfg M -> R (weight w es) M l ->
    exists l' P, hrun spec mid l ∅ es l' P /\ V (a_map A) l' /\ (a_ths A = ∅ -> R 0 (a_map A) l' /\ P = ∅).
  Proof.
    intros Ha Hok HG HR.
    destruct (lin_sess cfg i K F (F_ok cfg lk) R V G w spec mid (list_any cfg lk rd) top_any (entries_step cfg) (lR_loc cfg lk) (sV_loc cfg lk rd) lR_sV top_any_one top_any_in (top_any_push _) (list_seen_mono lk rd) list_all
      _ _ _ Ha l ∅ (weight w es) None []) as (l' & P' & B' & md & X & L1 & L2 & L3 & L4 & L5).
    - done.
    - done.
    - exact HR.
    - intros a. cbn [a_ths]. by rewrite !lookup_empty.
    - cbn [total]. lia.
    - exists l', P'. split; [done|]. split; [eapply modes_V; [exact lR_sV|exact L3]|]. intros Ht. destruct md as [a|].
      + destruct L3 as (c & H & p & B0 & E & _). by rewrite Ht, lookup_empty in E.
      + cbn [modes] in L3. split; [eapply lR_mono; [|exact L3]; lia|]. apply map_eq. intros a. rewrite lookup_empty. specialize (L4 a). rewrite Ht, lookup_empty in L4.
        by destruct (P' !! a) as [[]|].
  Qed.
End inst.
