(** From the abstract machine to linearizability, for calls that run under a keyed lock.

    A call takes the lock, works on the keys of one collection and releases the lock; other
    threads meanwhile change other keys only.  The call takes effect with its last write. *)
From Verif Require Import Base Hashing HashingProofs Fs Shard Router Store Kv KvSpec Limits Lists Queues Api KeySpace Spec Hist PlainSpec Plain Conc ConcSpec ConcLin.

(** ** Lock discipline *)
(** Starting with the lock [h] held, the program ends with the lock [h'] held; it never takes a
    second lock and releases only the lock it holds. *)
Fixpoint wl {A} (h : option N) (p : kprog A) (h' : option N) : Prop :=
  match p with
  | KRet _ => h = h'
  | KFail _ => True
  | KVis o k =>
    match o in kop X return (X -> kprog A) -> Prop with
    | KLock i => fun k => h = None /\ wl (Some i) (k tt) h'
    | KUnlock i => fun k => h = Some i /\ wl None (k tt) h'
    | _ => fun k => forall x, wl h (k x) h'
    end k
  end.
Lemma wl_bind {A B} (p : kprog A) (f : A -> kprog B) : forall h h1 h2,
  wl h p h1 -> (forall a, wl h1 (f a) h2) -> wl h (kbind p f) h2.
Proof.
  induction p as [a|e|X o k IH]; intros h h1 h2; cbn [kbind wl]; [by intros ->|done|].
  destruct o; cbn; try (intros H1 H2 x; by eapply IH); intros [H1 H2] H3; (split; [done|]); by eapply IH.
Qed.
Lemma wl_lift {A} h (r : res A) : wl h (klift r) h.
Proof. by destruct r. Qed.
Lemma wl_locked {A} cfg ph (p : kprog A) : wl (Some (lock_idx cfg ph)) p (Some (lock_idx cfg ph)) -> wl None (klocked cfg ph p) None.
Proof.
  intros H. unfold klocked. cbn. split; [done|]. eapply wl_bind; [exact H|]. intros a. cbn. done.
Qed.
Lemma wl_map {A B} h h' (f : A -> B) (p : kprog A) : wl h p h' -> wl h (kmap f p) h'.
Proof. intros H. unfold kmap. eapply wl_bind; [exact H|]. done. Qed.
Lemma wl_set h k v : wl h (kset k v) h.
Proof. intros x. apply wl_lift. Qed.
Lemma wl_goc h k v : wl h (kgoc k v) h.
Proof. intros x. apply wl_lift. Qed.
Lemma wl_replace h k v ex : wl h (kreplace k v ex) h.
Proof. intros x. apply wl_lift. Qed.
Ltac wls :=
  repeat match goal with
  | |- wl _ (kmap _ _) _ => apply wl_map
  | |- wl _ (kbind _ _) _ => eapply wl_bind
  | |- wl _ (klift _) _ => apply wl_lift
  | |- wl _ (kset _ _) _ => apply wl_set
  | |- wl _ (kgoc _ _) _ => apply wl_goc
  | |- wl _ (kreplace _ _ _) _ => apply wl_replace
  | |- wl _ (klocked _ _ _) _ => apply wl_locked
  | |- wl ?h (KRet _) ?h' => exact (eq_refl h)
  | |- wl _ (KFail _) _ => exact Logic.I
  | |- wl _ (kop1 (KGet _)) _ => intros ?; reflexivity
  | |- wl _ (kop1 (KRem _)) _ => intros ?; reflexivity
  | |- wl _ (kop1 (KByHash _)) _ => intros ?; reflexivity
  | |- forall _, wl _ _ _ => intros ?
  | |- wl _ (match ?x with _ => _ end) _ => destruct x
  end.
Lemma wl_insert cfg lk ik v mode : wl None (insert_to_list cfg lk ik v mode) None.
Proof. unfold insert_to_list. cbv zeta. wls. Qed.
Lemma wl_remove cfg lk ik : wl None (remove_from_list cfg lk ik) None.
Proof. unfold remove_from_list. cbv zeta. wls. Qed.
Lemma wl_at_index h ph j : wl h (get_at_index ph j) h.
Proof. unfold get_at_index. wls. Qed.
Lemma wl_trunc h k v : wl h (trunc_item k v) h.
Proof. unfold trunc_item. wls. Qed.
Lemma wl_range cfg lk : wl None (list_range cfg lk) None.
Proof. unfold list_range. wls. Qed.
Lemma wl_compact_items h ph n : forall j nj, wl h (compact_items ph n j nj) h.
Proof.
  induction n as [|n IH]; intros j nj; cbn [compact_items]; [done|]. eapply wl_bind; [apply wl_at_index|].
  intros [[[? ?] ?]|]; [|apply IH]. wls. apply IH.
Qed.
Lemma wl_iter h ph l : wl h (iter_items ph l) h.
Proof.
  induction l as [|j l IH]; cbn [iter_items]; [done|]. eapply wl_bind; [apply wl_at_index|]. intros [[[? ?] ?]|]; [|apply IH].
  eapply wl_bind; [apply wl_trunc|]. intros ?. eapply wl_bind; [apply IH|]. done.
Qed.
Lemma wl_peek h ph l : wl h (peek_items ph l) h.
Proof.
  induction l as [|j l IH]; cbn [peek_items]; [done|]. eapply wl_bind; [apply wl_at_index|]. intros [[[? ?] ?]|]; [|apply IH].
  eapply wl_bind; [apply wl_trunc|]. done.
Qed.
Lemma wl_pop cfg lk l : wl None (pop_items cfg lk l) None.
Proof.
  induction l as [|j l IH]; cbn [pop_items]; [done|]. eapply wl_bind; [apply wl_at_index|]. intros [[[? ?] ?]|]; [|apply IH].
  eapply wl_bind; [apply wl_trunc|]. intros ?. eapply wl_bind; [apply wl_remove|]. intros [?|]; [done|apply IH].
Qed.
Lemma wl_discard_items h ph l : wl h (discard_items ph l) h.
Proof.
  induction l as [|j l IH]; cbn [discard_items]; [done|]. eapply wl_bind; [apply wl_at_index|]. intros [[[? ?] ?]|]; [|apply IH].
  wls. apply IH.
Qed.
Lemma wl_pop_loop h qk b n : forall q, wl h (pop_loop qk b n q) h.
Proof. induction n as [|n IH]; intros q; cbn [pop_loop]; [done|]. cbv zeta. wls. apply IH. Qed.
Lemma wl_rem_items h qk l : wl h (rem_items qk l) h.
Proof. induction l as [|j l IH]; cbn [rem_items]; [done|]. wls. apply IH. Qed.
Lemma wl_extend_items h qk l : forall t n, wl h (extend_items qk l t n) h.
Proof. induction l as [|j l IH]; intros t n; cbn [extend_items]; [done|]. wls. apply IH. Qed.
Lemma wl_iter_q h qk l : wl h (iter_qitems qk l) h.
Proof. induction l as [|j l IH]; cbn [iter_qitems]; [done|]. wls; apply IH. Qed.
Lemma wl_peek_q h qk l : wl h (peek_qitems qk l) h.
Proof. induction l as [|j l IH]; cbn [peek_qitems]; [done|]. wls; apply IH. Qed.
Lemma wl_fetch cfg qk : wl None (fetch_queue cfg qk) None.
Proof. unfold fetch_queue. wls. Qed.
Lemma wl_discard_q cfg qk : wl None (discard_queue cfg qk) None.
Proof. unfold discard_queue. wls. apply wl_rem_items. Qed.
Lemma wl_extend_q cfg qk l : wl None (extend_queue cfg qk l) None.
Proof. unfold extend_queue. wls. apply wl_extend_items. Qed.
Lemma wl_iter_queue cfg f qk : wl None (iter_queue cfg f qk) None.
Proof. unfold iter_queue. eapply wl_bind; [apply wl_fetch|]. intros [q|]; [apply wl_iter_q|done]. Qed.
(** Every call of the API keeps the discipline. *)
Lemma call_wl cfg c : wl None (call_prog cfg c) None.
Proof.
  destruct c as [o|tid o|lk c|qk c|b c]; cbn [call_prog].
  - apply wl_map. destruct o; cbn [plain_prog]; wls.
  - apply wl_map. destruct o; cbn [typed_prog]; wls.
  - destruct c; cbn [list_prog]; apply wl_map.
    + unfold set_in_list. eapply wl_bind; [done|]. intros _. eapply wl_bind; [apply wl_insert|]. intros a. wls.
    + unfold set_in_list. eapply wl_bind; [eapply wl_bind; [apply wl_remove|done]|]. intros _. eapply wl_bind; [apply wl_insert|]. intros a. wls.
    + unfold replace_in_list. eapply wl_bind; [apply wl_insert|]. intros a. wls.
    + unfold get_or_create_in_list. eapply wl_bind; [apply wl_insert|]. intros a. wls.
    + unfold get_from_list. wls.
    + apply wl_remove.
    + unfold compact_list. cbv zeta. wls. apply wl_compact_items.
    + unfold iter_list. eapply wl_bind; [apply wl_range|]. intros [[? ?]|]; [apply wl_iter|done].
    + unfold peek_list. eapply wl_bind; [apply wl_range|]. intros [[? ?]|]; [apply wl_peek|done].
    + unfold pop_list. eapply wl_bind; [apply wl_range|]. intros [[? ?]|]; [apply wl_pop|done].
    + unfold discard_list. wls. apply wl_discard_items.
    + unfold list_len. wls.
  - destruct c; cbn [queue_prog]; apply wl_map.
    + unfold push_to_queue. wls.
    + apply wl_extend_q.
    + unfold pop_queue. wls. apply wl_pop_loop.
    + unfold remove_from_queue. wls.
    + apply wl_discard_q.
    + apply wl_iter_queue.
    + unfold peek_queue. eapply wl_bind; [apply wl_fetch|]. intros [q|]; [apply wl_peek_q|done].
    + unfold queue_len. eapply wl_bind; [apply wl_fetch|]. done.
    + unfold queue_range. eapply wl_bind; [apply wl_fetch|]. done.
  - destruct c; cbn [big_prog]; apply wl_map.
    + unfold set_big. eapply wl_bind; [apply wl_discard_q|]. intros ?. eapply wl_bind; [apply wl_extend_q|]. done.
    + unfold get_big. eapply wl_bind; [apply wl_iter_queue|]. done.
    + apply wl_discard_q.
Qed.

(** ** Locality *)
(** The program reads and writes keys of [K] only; of what [get_by_hash] returns it uses the
    entries whose key satisfies [F] only. *)
Fixpoint klocal {A} (K : bytes -> Prop) (F : bytes -> bool) (Q : A -> Prop) (p : kprog A) : Prop :=
  match p with
  | KRet a => Q a
  | KFail _ => True
  | KVis o k =>
    match o in kop X return (X -> kprog A) -> Prop with
    | KGet key => fun k => K key /\ forall x, klocal K F Q (k x)
    | KIns key _ _ => fun k => K key /\ forall x, klocal K F Q (k x)
    | KRem key => fun k => K key /\ forall x, klocal K F Q (k x)
    | KByHash _ => fun k =>
      (forall l l', List.filter (fun x : kv => F (fst x)) l = List.filter (fun x : kv => F (fst x)) l' -> k l = k l') /\
      forall x, klocal K F Q (k x)
    | KLock _ => fun k => forall x, klocal K F Q (k x)
    | KUnlock _ => fun k => forall x, klocal K F Q (k x)
    end k
  end.
Lemma klocal_bind {A B} K F (Q : A -> Prop) (Q' : B -> Prop) (p : kprog A) (f : A -> kprog B) :
  klocal K F Q p -> (forall a, Q a -> klocal K F Q' (f a)) -> klocal K F Q' (kbind p f).
Proof.
  intros H Hf. induction p as [a|e|X o k IH]; cbn [kbind klocal] in *; [by apply Hf|done|].
  destruct o; cbn in *; try (destruct H as [H1 H2]; split; [try done|intros x; by apply IH]); try (intros x; by apply IH).
  intros l l' E. by rewrite (H1 _ _ E).
Qed.
Lemma klocal_seq {A B} K F (Q' : B -> Prop) (p : kprog A) (f : A -> kprog B) :
  klocal K F anyv p -> (forall a, klocal K F Q' (f a)) -> klocal K F Q' (kbind p f).
Proof. intros H Hf. eapply klocal_bind; [exact H|]. intros a _. apply Hf. Qed.
Lemma klocal_lift {A} K F (r : res A) : klocal K F anyv (klift r).
Proof. by destruct r. Qed.
Lemma klocal_set (K : bytes -> Prop) F k v : K k -> klocal K F anyv (kset k v).
Proof. intros H. split; [done|]. intros x. apply klocal_lift. Qed.
Lemma klocal_goc (K : bytes -> Prop) F k v : K k -> klocal K F anyv (kgoc k v).
Proof. intros H. split; [done|]. intros x. apply klocal_lift. Qed.
Lemma klocal_replace (K : bytes -> Prop) F k v ex : K k -> klocal K F anyv (kreplace k v ex).
Proof. intros H. split; [done|]. intros x. apply klocal_lift. Qed.

(** ** The last write *)
(** The program takes no lock and does not write keys of [IK]. *)
Fixpoint calmp {A} (IK : bytes -> Prop) (p : kprog A) : Prop :=
  match p with
  | KRet _ | KFail _ => True
  | KVis o k =>
    match o in kop X return (X -> kprog A) -> Prop with
    | KIns key _ _ => fun k => ~ IK key /\ forall x, calmp IK (k x)
    | KRem key => fun k => ~ IK key /\ forall x, calmp IK (k x)
    | KLock _ | KUnlock _ => fun _ => False
    | _ => fun k => forall x, calmp IK (k x)
    end k
  end.
(** ... except with its last operation. *)
Fixpoint pw {A} (IK : bytes -> Prop) (p : kprog A) : Prop :=
  match p with
  | KRet _ | KFail _ => True
  | KVis o k =>
    match o in kop X return (X -> kprog A) -> Prop with
    | KIns key _ _ => fun k => (~ IK key /\ forall x, pw IK (k x)) \/ (forall x, exists r, k x = klift r)
    | KRem key => fun k => (~ IK key /\ forall x, pw IK (k x)) \/ (forall x, exists r, k x = klift r)
    | KLock _ | KUnlock _ => fun _ => False
    | _ => fun k => forall x, pw IK (k x)
    end k
  end.
(** The same with the release of the lock [i] at the end. *)
Definition lend {A} (i : N) (p : kprog A) : Prop :=
  match p with
  | KRet _ => False
  | KFail _ => True
  | KVis o k =>
    match o in kop X return (X -> kprog A) -> Prop with
    | KUnlock j => fun k => j = i /\ exists r, k tt = klift r
    | _ => fun _ => False
    end k
  end.
Fixpoint lastw {A} (i : N) (IK : bytes -> Prop) (p : kprog A) : Prop :=
  lend i p \/
  match p with
  | KRet _ | KFail _ => False
  | KVis o k =>
    match o in kop X return (X -> kprog A) -> Prop with
    | KIns key _ _ => fun k => (~ IK key /\ forall x, lastw i IK (k x)) \/ (forall x, lend i (k x))
    | KRem key => fun k => (~ IK key /\ forall x, lastw i IK (k x)) \/ (forall x, lend i (k x))
    | KLock _ | KUnlock _ => fun _ => False
    | _ => fun k => forall x, lastw i IK (k x)
    end k
  end.
Lemma pw_bind {A B} IK (p : kprog A) (f : A -> kprog B) : calmp IK p -> (forall a, pw IK (f a)) -> pw IK (kbind p f).
Proof.
  intros H Hf. induction p as [a|e|X o k IH]; cbn [kbind calmp pw] in *; [done|done|].
  destruct o; cbn in *; try done; try (intros x; by apply IH); (left; destruct H as [H1 H2]; split; [done|]; intros x; by apply IH).
Qed.
Lemma calmp_bind {A B} IK (p : kprog A) (f : A -> kprog B) : calmp IK p -> (forall a, calmp IK (f a)) -> calmp IK (kbind p f).
Proof.
  intros H Hf. induction p as [a|e|X o k IH]; cbn [kbind calmp] in *; [done|done|].
  destruct o; cbn in *; try done; try (intros x; by apply IH); (destruct H as [H1 H2]; split; [done|]; intros x; by apply IH).
Qed.
Lemma calmp_pw {A} IK (p : kprog A) : calmp IK p -> pw IK p.
Proof.
  induction p as [a|e|X o k IH]; cbn [calmp pw]; [done|done|]. destruct o; cbn; try done; try (intros H x; by apply IH); (intros [H1 H2]; left; split; [done|]; intros x; by apply IH).
Qed.
Lemma calmp_lift {A} IK (r : res A) : calmp IK (klift r).
Proof. by destruct r. Qed.
Lemma calmp_set (IK : bytes -> Prop) k v : ~ IK k -> calmp IK (kset k v).
Proof. intros H. split; [done|]. intros x. apply calmp_lift. Qed.
Lemma calmp_goc (IK : bytes -> Prop) k v : ~ IK k -> calmp IK (kgoc k v).
Proof. intros H. split; [done|]. intros x. apply calmp_lift. Qed.
Lemma calmp_replace (IK : bytes -> Prop) k v ex : ~ IK k -> calmp IK (kreplace k v ex).
Proof. intros H. split; [done|]. intros x. apply calmp_lift. Qed.
Lemma pw_last {A B} IK (o : kop A) (f : A -> kprog B) :
  match o with KIns _ _ _ | KRem _ => True | _ => False end -> (forall x, exists r, f x = klift r) -> pw IK (kbind (kop1 o) f).
Proof. intros Ho Hf. destruct o; try done; right; done. Qed.
Lemma lastw_pure {A B} i IK (p : kprog A) (f : A -> kprog B) : lastw i IK p -> (forall a, exists r, f a = klift r) -> lastw i IK (kbind p f).
Proof.
  intros H Hf.
  assert (Hend : forall q : kprog A, lend i q -> lend i (kbind q f)).
  { intros [a|e|X o k]; cbn [kbind lend]; [done|done|]. destruct o; try done. intros (-> & r & E). split; [done|]. rewrite E.
    destruct r as [a|e]; [apply Hf|by exists (Err e)]. }
  induction p as [a|e|X o k IH]; [by destruct H|by left|]. cbn [lastw] in H. destruct H as [H|H]; [left; exact (Hend _ H)|]. right.
  destruct o; cbn in *; try done; try (intros x; by apply IH);
    (destruct H as [[H1 H2]|H]; [left; split; [done|]; intros x; by apply IH|right; intros x; by apply Hend]).
Qed.
Lemma lastw_locked {A} (cfg : config) i IK (p : kprog A) : pw IK p -> lastw i IK (dok a <- p; dok _ <- kop1 (KUnlock i); KRet a).
Proof.
  assert (Hend : forall r : res A, lend i (dok a <- klift r; dok _ <- kop1 (KUnlock i); KRet a)).
  { intros [a|e]; cbn; [|done]. split; [done|]. by exists (Ok a). }
  induction p as [a|e|X o k IH]; intros H.
  - left. cbn. split; [done|]. by exists (Ok a).
  - by left.
  - right. cbn [kbind pw] in *. destruct o; cbn in *; try done; try (intros x; by apply IH);
      (destruct H as [[H1 H2]|H]; [left; split; [done|]; intros x; by apply IH|right; intros x; destruct (H x) as [r ->]; apply Hend]).
Qed.

Definition agree (K : bytes -> Prop) (M M' : kvmap) : Prop := forall k, K k -> @eq (option bytes) (M' !! k) (M !! k).
Lemma agree_sym (K : bytes -> Prop) (M M' : kvmap) : agree K M M' -> agree K M' M.
Proof. intros H k Hk. by rewrite H. Qed.
Lemma agree_insert (K : bytes -> Prop) (M M' : kvmap) (key v : bytes) : agree K M M' -> agree K (<[key := v]> M) (<[key := v]> M').
Proof.
  intros H k Hk. destruct (decide (k = key)) as [->|Hne]; [by rewrite !lookup_insert|]. rewrite !lookup_insert_ne by done. by apply H.
Qed.
Lemma agree_delete (K : bytes -> Prop) (M M' : kvmap) (key : bytes) : agree K M M' -> agree K (delete key M) (delete key M').
Proof.
  intros H k Hk. destruct (decide (k = key)) as [->|Hne]; [by rewrite !lookup_delete|]. rewrite !lookup_delete_ne by done. by apply H.
Qed.
Lemma agree_ins (K : bytes -> Prop) (M M' : kvmap) (key v : bytes) mode : K key -> agree K M M' ->
  snd (spec_ins M' key v mode) = snd (spec_ins M key v mode) /\ agree K (fst (spec_ins M key v mode)) (fst (spec_ins M' key v mode)).
Proof.
  intros Hk H. unfold spec_ins. rewrite (H key Hk). destruct (M !! key) as [cur|]; destruct mode as [|ex|]; cbn [fst snd]; try (split; [done|]; first [by apply agree_insert|done]).
  destruct ex as [ex|]; cbn [fst snd]; [case_bool_decide; cbn [fst snd]|]; (split; [done|]); first [by apply agree_insert|done].
Qed.
(** A list that [get_by_hash] may return on [M'] has a counterpart on [M]. *)
Lemma byhash_local (cfg : config) (K : bytes -> Prop) (F : bytes -> bool) (HF : forall k, F k = true -> K k) (M M' : kvmap) ph l : agree K M M' -> byhash_spec cfg M' ph l ->
  exists l', byhash_spec cfg M ph l' /\ List.filter (fun x : kv => F (fst x)) l' = List.filter (fun x : kv => F (fst x)) l.
Proof.
  intros Ha (H1 & H2 & H3).
  set (other := map_to_list (filter (fun x : bytes * bytes => F (fst x) = false /\ hashk cfg (fst x) = ph) M) : list kv).
  assert (Ho : forall k v, (k, v) ∈ other <-> M !! k = Some v /\ F k = false /\ hashk cfg k = ph).
  { intros k v. unfold other. rewrite elem_of_map_to_list, map_filter_lookup_Some. done. }
  assert (Hf : forall k v, (k, v) ∈ List.filter (fun x : kv => F (fst x)) l <-> (k, v) ∈ l /\ F k = true).
  { intros k v. rewrite !elem_of_list_In, filter_In. done. }
  exists (List.filter (fun x : kv => F (fst x)) l ++ other). split.
  - split; [|split].
    + rewrite map_app. apply NoDup_app. split; [|split].
      * clear - H1. induction l as [|[k v] l IH]; [constructor|]. cbn [map List.filter fst] in *. apply NoDup_cons in H1 as [H1 H2].
        destruct (F k); [|by apply IH]. cbn [map fst]. apply NoDup_cons. split; [|by apply IH].
        intros Hin. apply H1. apply elem_of_list_fmap in Hin as ([k' v'] & E & Hin). apply elem_of_list_In, filter_In in Hin as [Hin _].
        apply elem_of_list_fmap. exists (k', v'). split; [done|]. by apply elem_of_list_In.
      * intros k Hin Hin2. apply elem_of_list_fmap in Hin as ([k1 v1] & -> & Hin). apply elem_of_list_fmap in Hin2 as ([k2 v2] & E & Hin2).
        cbn in E. subst k2. apply Hf in Hin as [_ Hin]. apply Ho in Hin2 as (_ & Hin2 & _). congruence.
      * exact (NoDup_fst_map_to_list _).
    + intros k v Hin. apply elem_of_app in Hin as [Hin|Hin].
      * apply Hf in Hin as [Hin HFk]. destruct (H2 _ _ Hin) as (E & Hr). split; [|done]. rewrite <- E. symmetry. by apply Ha, HF.
      * apply Ho in Hin as (Hin & _ & <-). done.
    + intros k v Hm Hh. apply elem_of_app. destruct (F k) eqn:EF.
      * left. apply Hf. split; [|done]. apply H3; [|done]. rewrite <- Hm. by apply Ha, HF.
      * right. apply Ho. done.
  - rewrite List.filter_app.
    assert (List.filter (fun x : kv => F (fst x)) other = []) as ->.
    { destruct (List.filter (fun x : kv => F (fst x)) other) as [|[k v] r] eqn:E; [done|]. exfalso.
      assert (In (k, v) (List.filter (fun x : kv => F (fst x)) other)) as Hin by (rewrite E; by left).
      apply filter_In in Hin as [Hin E2]. apply elem_of_list_In, Ho in Hin as (_ & E3 & _). cbn in E2. congruence. }
    rewrite app_nil_r. clear. induction l as [|[k v] l IH]; [done|]. cbn [List.filter fst]. destruct (F k) eqn:E; [|done].
    cbn [List.filter fst]. rewrite E. by f_equal.
Qed.

(** ** Critical sections *)
Section locked.
  Context {S : Type} (cfg : config) (i : N) (K : bytes -> Prop) (F : bytes -> bool) (HF : forall k, F k = true -> K k).
  (** [R B M l]: outside critical sections the map [M] represents the collection [l], and calls
      of total weight [B] may still be made; [V]: what holds also within critical sections;
      [G]: a condition that every raw operation keeps. *)
  Context (R : N -> kvmap -> S -> Prop) (V : kvmap -> S -> Prop) (G : kvmap -> Prop) (w : call -> N).
  Context (spec : S -> call -> res reply -> S -> Prop) (Gc : call -> Prop).
  Context (Gok : forall a (M : kvmap) lk p (M' : kvmap) lk' p', kop_step cfg a M lk p M' lk' p' -> G M -> G M').
  Context (Rloc : forall B (M M' : kvmap) l, agree K M M' -> R B M l -> R B M' l).
  Context (Vloc : forall (M M' : kvmap) l, agree K M M' -> V M l -> V M' l).
  Context (RV : forall B (M : kvmap) l, R B M l -> V M l).

  Implicit Types (l : S) (c : call) (B : N) (p : kprog reply) (M : kvmap) (a b : nat) (lk : gmap N nat) (h : option N) (X : list (nat * N)) (P : gmap nat phase) (A : astate) (md : option nat).

  (** The call [c], begun on [l], has taken effect and only has to release the lock. *)
  Definition fin (l : S) (c : call) (B : N) (p : kprog reply) (M : kvmap) : Prop :=
    match p with
    | KRet _ => False
    | KFail e => exists l', spec l c (Err e) l' /\ R B M l'
    | KVis o k =>
      match o in kop X return (X -> kprog reply) -> Prop with
      | KUnlock j => fun k => j = i /\ exists r l', k tt = klift r /\ spec l c r l' /\ R B M l'
      | _ => fun _ => False
      end k
    end.
  (** The call is at work. *)
  Fixpoint cs (l : S) (c : call) (B : N) (p : kprog reply) (M : kvmap) : Prop :=
    V M l /\
    match p with
    | KRet _ | KFail _ => False
    | KVis o k =>
      match o in kop X return (X -> kprog reply) -> Prop with
      | KGet key => fun k => cs l c B (k (M !! key)) M \/ fin l c B (k (M !! key)) M
      | KIns key v mode => fun k =>
        match ins_err cfg key v with
        | Some e => exists l', spec l c (Err e) l' /\ R B M l'
        | None => cs l c B (k (snd (spec_ins M key v mode))) (fst (spec_ins M key v mode)) \/
                  fin l c B (k (snd (spec_ins M key v mode))) (fst (spec_ins M key v mode))
        end
      | KRem key => fun k => cs l c B (k (M !! key)) (delete key M) \/ fin l c B (k (M !! key)) (delete key M)
      | KByHash ph => fun k =>
        if ph_sig ph =? INVALID_SIG then exists l', spec l c (Err EPanic) l' /\ R B M l'
        else forall ls, byhash_spec cfg M ph ls -> cs l c B (k ls) M \/ fin l c B (k ls) M
      | KLock _ | KUnlock _ => fun _ => False
      end k
    end.
  Definition nx (l : S) (c : call) (B : N) (p : kprog reply) (M : kvmap) : Prop := cs l c B p M \/ fin l c B p M.

  Lemma fin_local l c B p (M M' : kvmap) : agree K M M' -> fin l c B p M -> fin l c B p M'.
  Proof.
    intros Ha. destruct p as [y|e|X o k]; cbn [fin]; [done| |].
    - intros (l' & H1 & H2). exists l'. split; [done|]. by eapply Rloc.
    - destruct o; try done. intros (-> & r & l' & H1 & H2 & H3). split; [done|]. exists r, l'. split; [done|]. split; [done|]. by eapply Rloc.
  Qed.
  Lemma cs_local l c B p : klocal K F anyv p -> forall (M M' : kvmap), agree K M M' -> cs l c B p M -> cs l c B p M'.
  Proof.
    induction p as [y|e|X o k IH]; intros Hl M M' Ha; cbn [cs]; intros [HV Hc]; (split; [by eapply Vloc|]); [done|done|].
    assert (Hnx : forall x (M1 M1' : kvmap), klocal K F anyv (k x) -> agree K M1 M1' ->
      cs l c B (k x) M1 \/ fin l c B (k x) M1 -> cs l c B (k x) M1' \/ fin l c B (k x) M1').
    { intros x M1 M1' Hl1 Ha1 [H|H]; [left; by eapply IH|right; by eapply fin_local]. }
    destruct o as [key|key v mode|key|ph|j|j]; cbn [klocal] in Hl; try done.
    - destruct Hl as [Hk Hl]. rewrite (Ha _ Hk). by eapply Hnx.
    - destruct Hl as [Hk Hl]. destruct (ins_err cfg key v) as [e|].
      + destruct Hc as (l' & H1 & H2). exists l'. split; [done|]. by eapply Rloc.
      + destruct (agree_ins K M M' key v mode Hk Ha) as [E1 E2]. rewrite E1. by eapply Hnx.
    - destruct Hl as [Hk Hl]. rewrite (Ha _ Hk). eapply Hnx; [done| |exact Hc]. by apply agree_delete.
    - destruct Hl as [Hl1 Hl2]. destruct (ph_sig ph =? INVALID_SIG).
      + destruct Hc as (l' & H1 & H2). exists l'. split; [done|]. by eapply Rloc.
      + intros ls Hls. destruct (byhash_local cfg K F HF M M' ph ls Ha Hls) as (ls' & H1 & H2).
        rewrite <- (Hl1 _ _ H2). eapply Hnx; [done|exact Ha|]. by apply Hc.
  Qed.
  Lemma klocal_step a p (M : kvmap) lk (M' : kvmap) lk' p' : klocal K F anyv p -> kop_step cfg a M lk p M' lk' p' -> klocal K F anyv p'.
  Proof.
    destruct p as [y|e|X o k]; cbn [kop_step]; [done|done|]. destruct o as [key|key v mode|key|ph|j|j]; cbn [klocal].
    - intros [_ Hl] (_ & _ & ->). apply Hl.
    - intros [_ Hl] (_ & H). destruct (ins_err cfg key v); destruct H as [_ ->]; [done|apply Hl].
    - intros [_ Hl] (_ & _ & ->). apply Hl.
    - intros [_ Hl] (_ & _ & H). destruct (_ =? _); [by rewrite H|]. destruct H as (? & _ & ->). apply Hl.
    - intros Hl (_ & _ & _ & ->). apply Hl.
    - intros Hl (_ & _ & ->). apply Hl.
  Qed.
  Lemma wl_step a h p (M : kvmap) lk (M' : kvmap) lk' p' : wl h p None -> (forall j, h = Some j -> lk !! j = Some a) -> kop_step cfg a M lk p M' lk' p' ->
    exists h', wl h' p' None /\ (forall j, h' = Some j -> lk' !! j = Some a) /\ (forall b j, b <> a -> lk !! j = Some b -> lk' !! j = Some b).
  Proof.
    destruct p as [y|e|X o k]; cbn [kop_step]; [done|done|]. destruct o as [key|key v mode|key|ph|j|j]; cbn [wl].
    - intros Hl Hh (_ & -> & ->). exists h; (split; [apply Hl|split; done]).
    - intros Hl Hh (-> & H). destruct (ins_err cfg key v); destruct H as [_ ->]; (exists h; split; [first [done|apply Hl]|split; done]).
    - intros Hl Hh (_ & -> & ->). exists h; (split; [apply Hl|split; done]).
    - intros Hl Hh (_ & -> & H). destruct (_ =? _); [rewrite H; (exists h; split; [first [done|apply Hl]|split; done])|]. destruct H as (? & _ & ->). exists h; (split; [apply Hl|split; done]).
    - intros [-> Hl] Hh (_ & Hn & -> & ->). exists (Some j). split; [done|]. split; [intros j' [= <-]; by rewrite lookup_insert|].
      intros b j' Hb Hj. rewrite lookup_insert_ne; [done|]. intros ->. congruence.
    - intros [-> Hl] Hh (_ & -> & ->). exists None. split; [done|]. split; [done|].
      intros b j' Hb Hj. rewrite lookup_delete_ne; [done|]. intros ->. specialize (Hh _ eq_refl). congruence.
  Qed.
  (** One step of a critical section. *)
  Lemma cs_step l c B h a p (M : kvmap) lk (M' : kvmap) lk' p' : cs l c B p M -> wl h p None -> kop_step cfg a M lk p M' lk' p' -> lk' = lk /\ wl h p' None /\ nx l c B p' M'.
  Proof.
    destruct p as [y|e|X o k]; cbn [kop_step]; [done|done|]. cbn [cs wl]. intros [_ Hc]. unfold nx. destruct o as [key|key v mode|key|ph|j|j]; try done.
    - intros Hl (-> & -> & ->). split; [done|]. split; [apply Hl|done].
    - intros Hl (-> & H). split; [done|]. destruct (ins_err cfg key v); destruct H as [-> ->]; [split; [done|by right]|split; [apply Hl|done]].
    - intros Hl (-> & -> & ->). split; [done|]. split; [apply Hl|done].
    - intros Hl (-> & -> & H). split; [done|]. destruct (_ =? _); [rewrite H; split; [done|by right]|].
      destruct H as (ls & Hls & ->). split; [apply Hl|by apply Hc].
  Qed.

  (** Critical sections from weakest preconditions: the call takes effect with its last write to
      the keys [IK] on which [V] depends. *)
  Lemma fin_kwp l c B p (C : kvmap -> Prop) (Q : reply -> kvmap -> Prop) (E : err -> kvmap -> Prop) M : lend i p -> kwp cfg p C Q E M ->
    (forall y M', Q y M' -> exists l', spec l c (Ok y) l' /\ R B M' l') -> (forall e M', E e M' -> exists l', spec l c (Err e) l' /\ R B M' l') ->
    fin l c B p M.
  Proof.
    intros He Hw HQ HE. destruct p as [y|e|X o k]; cbn [lend fin kwp] in *; [done|apply HE, Hw|]. destruct o; try done.
    destruct He as (-> & r & Er). split; [done|]. destruct Hw as [_ Hw]. rewrite Er in Hw. exists r.
    destruct r as [y|e]; cbn [klift kwp] in Hw; destruct Hw as [_ Hw].
    - destruct (HQ _ _ Hw) as (l' & H). by exists l'.
    - destruct (HE _ _ Hw) as (l' & H). by exists l'.
  Qed.
  Lemma nx_kwp (IK : bytes -> Prop) l c B (C : kvmap -> Prop) (Q : reply -> kvmap -> Prop) (E : err -> kvmap -> Prop) :
    (forall y M', Q y M' -> exists l', spec l c (Ok y) l' /\ R B M' l') -> (forall e M', E e M' -> exists l', spec l c (Err e) l' /\ R B M' l') ->
    (forall M M', agree IK M M' -> V M l -> C M' -> V M' l) ->
    forall p M, lastw i IK p -> kwp cfg p C Q E M -> V M l -> nx l c B p M.
  Proof.
    intros HQ HE HV. induction p as [y|e|X o k IH]; intros M Hl Hw HVM; cbn [lastw] in Hl;
      (destruct Hl as [Hl|Hl]; [right; by eapply fin_kwp|]); [done|done|].
    left. cbn [cs]. split; [done|]. cbn [kwp] in Hw. destruct Hw as [_ Hw].
    assert (Hins : forall key M' x, ((~ IK key /\ (forall x, lastw i IK (k x))) \/ (forall x, lend i (k x))) ->
      (forall k', k' <> key -> @eq (option bytes) (M' !! k') (M !! k')) -> kwp cfg (k x) C Q E M' -> nx l c B (k x) M').
    { intros key M' x H Hm Hw'. destruct H as [[H1 H2]|H]; [|right; by eapply fin_kwp].
      apply IH; [done|done|]. eapply HV; [|exact HVM|by eapply kwp_C]. intros k' Hk'. apply Hm. intros ->. done. }
    destruct o as [key|key v mode|key|ph|j|j]; try done.
    - apply IH; done.
    - destruct Hw as [_ Hw]. destruct (ins_err cfg key v); [by apply HE|]. eapply Hins; [exact Hl| |exact Hw].
      intros k' Hk'. unfold spec_ins. destruct (M !! key), mode as [|[]|]; cbn [fst]; try case_bool_decide; cbn [fst]; try done; by apply lookup_insert_ne.
    - eapply Hins; [exact Hl| |exact Hw]. intros k' Hk'. by apply lookup_delete_ne.
    - destruct (ph_sig ph =? INVALID_SIG); [by apply HE|]. intros ls Hls. apply IH; [done| |done]. by apply Hw.
  Qed.
  (** A call that begins with the lock and then works as described. *)
  Definition own (c : call) (p : kprog reply) : Prop :=
    exists k, p = KVis (KLock i) k /\ klocal K F anyv (k tt) /\
      forall B (M : kvmap) l, G M -> R (B + w c) M l -> nx l c B (k tt) M.
  Lemma own_kwp (IK : bytes -> Prop) c p (C : S -> kvmap -> Prop) (Q : N -> S -> reply -> kvmap -> Prop) (E : N -> S -> err -> kvmap -> Prop) :
    match p with KVis o k => match o in kop X return (X -> kprog reply) -> Prop with
      KLock j => fun k => j = i /\ klocal K F anyv (k tt) /\ lastw i IK (k tt) | _ => fun _ => False end k | _ => False end ->
    (forall B l y M', Q B l y M' -> exists l', spec l c (Ok y) l' /\ R B M' l') -> (forall B l e M', E B l e M' -> exists l', spec l c (Err e) l' /\ R B M' l') ->
    (forall l M M', agree IK M M' -> V M l -> C l M' -> V M' l) ->
    (forall B M l, G M -> R (B + w c) M l -> kwp cfg p (C l) (Q B l) (E B l) M) ->
    own c p.
  Proof.
    intros Hp HQ HE HV Hw. destruct p as [y|e|X o k]; [done|done|]. destruct o; try done. destruct Hp as (-> & H1 & H2).
    exists k. split; [done|]. split; [done|]. intros B M l HG HR.
    eapply (nx_kwp IK l c B (C l) (Q B l) (E B l)); [apply HQ|apply HE|apply HV|done| |by eapply RV].
    specialize (Hw B M l HG HR). cbn [kwp] in Hw. apply Hw.
  Qed.

  (** A call that only reads, once. *)
  Definition reader (c : call) (p : kprog reply) : Prop :=
    (forall y, p <> KRet y) /\ (forall e, p <> KFail e) /\
    forall a (M : kvmap) lk (M' : kvmap) lk' p' l, V M l -> kop_step cfg a M lk p M' lk' p' ->
      M' = M /\ exists r, spec l c r l /\ p' = done_prog r.
  (** A call that has nothing to do with the collection. *)
  Definition other (c : call) (p : kprog reply) : Prop :=
    (exists Kf : bytes -> Prop, kwrites Kf anyv p /\ forall k, K k -> ~ Kf k) /\ forall l r, spec l c r l.

  Context (Hcalls : forall c, Gc c -> own c (call_prog cfg c) \/ reader c (call_prog cfg c) \/ other c (call_prog cfg c)).

  Definition unlocking (r : res reply) (p : kprog reply) : Prop :=
    exists k, p = KVis (KUnlock i) k /\ k tt = klift r.
  Definition holding (lk : gmap N nat) (a : nat) (p : kprog reply) (h : option N) : Prop :=
    wl h p None /\ forall j, h = Some j -> lk !! j = Some a.
  Definition tm (lk : gmap N nat) (md : option nat) (X : list (nat * N)) (a : nat) (ph : option phase) (p : option (kprog reply)) : Prop :=
    match ph, p with
    | None, None => True
    | Some (PCalled c), Some p =>
      exists h, holding lk a p h /\
        ((md = Some a /\ h = Some i /\ (a, w c) ∈ X) \/
         (md <> Some a /\ ((own c p /\ (a, w c) ∈ X) \/ reader c p \/ other c p)))
    | Some (PDone r), Some p => md <> Some a /\ exists h, holding lk a p h /\ (p = done_prog r \/ unlocking r p)
    | _, _ => False
    end.
  Definition mode_ok (l : S) (P : gmap nat phase) (A : astate) (B : N) (md : option nat) : Prop :=
    match md with
    | None => R B (a_map A) l
    | Some a => exists c p B', a_ths A !! a = Some p /\ P !! a = Some (PCalled c) /\ B = B' + w c /\ cs l c B' p (a_map A) /\ klocal K F anyv p
    end.
  Fixpoint total (X : list (nat * N)) : N := match X with [] => 0 | (_, n) :: X => n + total X end.
  Fixpoint weight (es : list cevent) : N :=
    match es with [] => 0 | EvCall _ c :: es => w c + weight es | _ :: es => weight es end.
  Lemma total_perm X Y : X ≡ₚ Y -> total X = total Y.
  Proof. induction 1 as [|[? ?] ? ? _ IH|[? ?] [? ?] ?|? ? ? _ IH1 _ IH2]; cbn [total]; lia. Qed.

  Lemma mode_V l P A B md : mode_ok l P A B md -> V (a_map A) l.
  Proof.
    destruct md as [a|]; cbn [mode_ok]; [|apply RV]. intros (c & p & B' & _ & _ & _ & Hc & _). destruct p; apply Hc.
  Qed.

  (** Another thread's entry after a step of [a]. *)
  Lemma tm_other lk lk' md md' X X' a b (ph : option phase) (p : option (kprog reply)) : b <> a ->
    (forall j, lk !! j = Some b -> lk' !! j = Some b) ->
    (md' = Some b <-> md = Some b) -> (forall n, (b, n) ∈ X -> (b, n) ∈ X') ->
    tm lk md X b ph p -> tm lk' md' X' b ph p.
  Proof.
    intros Hne Hlk Hmd HX. assert (Hh : forall q h, holding lk b q h -> holding lk' b q h) by (intros q h [H1 H2]; split; [done|]; auto).
    destruct ph as [[c|r]|], p as [p|]; cbn [tm]; try done.
    - intros (h & H1 & H2). exists h. split; [by apply Hh|]. destruct H2 as [(H2 & H3 & H4)|(H2 & H3)].
      + left. split; [by apply Hmd|]. auto.
      + right. split; [by rewrite Hmd|]. destruct H3 as [[H3 H4]|H3]; [left|by right]. auto.
    - intros (H0 & h & H1 & H2). split; [by rewrite Hmd|]. exists h. auto.
  Qed.
  Lemma unlock_other lk a b j : b <> a -> lk !! j = Some b -> unlock_all lk a !! j = Some b.
  Proof. intros Hne Hj. unfold unlock_all. apply map_filter_lookup_Some. split; [done|]. cbn. congruence. Qed.

  Lemma lin_locked (A : astate) (es : list cevent) (A' : astate) : arun cfg A es A' -> forall (l : S) (P : gmap nat phase) B md X,
    (forall a c, EvCall a c ∈ es -> Gc c) -> G (a_map A) ->
    mode_ok l P A B md -> (forall a, tm (a_lk A) md X a (P !! a) (a_ths A !! a)) -> total X + weight es <= B ->
    exists l' P' B' md' X', lrun spec l P es l' P' /\ G (a_map A') /\ mode_ok l' P' A' B' md' /\
      (forall a, tm (a_lk A') md' X' a (P' !! a) (a_ths A' !! a)) /\ total X' <= B'.
  Proof.
    induction 1 as [s|s e s1 es s' Hs Hr IH]; intros l P B md X HG HGM Hmd Htm HB.
    { exists l, P, B, md, X. cbn [weight] in HB. split; [apply lr_nil|]. split; [done|]. split; [done|]. split; [done|lia]. }
    assert (HG' : forall a c, EvCall a c ∈ es -> Gc c) by (intros b c Hin; apply (HG b); apply elem_of_app; by right).
    pose proof (mode_V _ _ _ _ _ Hmd) as HV.
    destruct Hs as [M T lk a c Ha|M T lk a p M' lk' p' Ha Hk|M T lk a y Ha|M T lk a er Ha]; cbn [a_map a_ths a_lk option_list app] in *.
    - (* a call *)
      pose proof (Htm a) as Hpa. rewrite Ha in Hpa. destruct (P !! a) as [[]|] eqn:Epa; try done.
      assert (md <> Some a) as Hnm.
      { intros ->. destruct Hmd as (c' & p & B' & E & _). cbn [a_ths] in E. congruence. }
      change (total X + (w c + weight es) <= B) in HB.
      destruct (IH l (<[a := PCalled c]> P) B md ((a, w c) :: X) HG' HGM) as (l' & P' & B' & md' & X' & L1 & L2); cbn [a_map a_ths a_lk].
      + destruct md as [b|]; [|done]. destruct Hmd as (c' & p & B' & E1 & E2 & E3). cbn [a_map a_ths] in *. exists c', p, B'. cbn [a_map a_ths].
        rewrite !lookup_insert_ne by (intros ->; done). auto.
      + intros b. destruct (decide (b = a)) as [->|Hne].
        * rewrite !lookup_insert. cbn [tm]. exists None. split; [split; [apply call_wl|done]|]. right. split; [done|].
          assert (Gc c) as Hc by (apply (HG a), elem_of_cons; by left).
          destruct (Hcalls c Hc) as [H|H]; [left|by right]. split; [done|]. apply elem_of_cons. by left.
        * rewrite !lookup_insert_ne by done. eapply (tm_other lk lk md md X _ a b); [done|done|done| |apply Htm].
          intros n Hn. apply elem_of_cons. by right.
      + cbn [total]. lia.
      + exists l', P', B', md', X'. split; [by eapply lr_call|done].
    - (* a raw operation *)
      change (total X + weight es <= B) in HB.
      pose proof (Htm a) as Hpa. rewrite Ha in Hpa. destruct (P !! a) as [[c|r]|] eqn:Epa; try done; cbn [tm] in Hpa.
      + destruct Hpa as (h & [Hw Hh] & Hpa).
        assert (Hlk : forall b j, b <> a -> lk !! j = Some b -> lk' !! j = Some b).
        { by destruct (wl_step _ _ _ _ _ _ _ _ Hw Hh Hk) as (h' & _ & _ & Hlk). }
        (* the call takes effect now *)
        assert (Heff : forall h' B' r l' X', holding lk' a p' h' -> total X' + weight es <= B' -> (forall b n, b <> a -> (b, n) ∈ X -> (b, n) ∈ X') ->
          spec l c r l' -> mode_ok l' (<[a := PDone r]> P) (AS M' (<[a := p']> T) lk') B' (if bool_decide (md = Some a) then None else md) ->
          (p' = done_prog r \/ unlocking r p') ->
          exists l' P' B' md' X', lrun spec l P es l' P' /\ G (a_map s') /\ mode_ok l' P' s' B' md' /\
            (forall b, tm (a_lk s') md' X' b (P' !! b) (a_ths s' !! b)) /\ total X' <= B').
        { intros h' B' r l' X' Hw' HB' HX Hsp HR Hp.
          destruct (IH l' (<[a := PDone r]> P) B' (if bool_decide (md = Some a) then None else md) X' HG') as (l2 & P2 & B2 & md2 & X2 & L1 & L2); cbn [a_map a_ths a_lk].
          - by eapply Gok.
          - exact HR.
          - intros b. destruct (decide (b = a)) as [->|Hne].
            + rewrite !lookup_insert. cbn [tm]. split; [by case_bool_decide|]. exists h'. by split.
            + rewrite !lookup_insert_ne by done. eapply (tm_other lk lk' md _ X X' a b); [done|by intros j; apply Hlk| |by intros n; apply HX|apply Htm].
              case_bool_decide as E; [|done]. rewrite E. split; [done|congruence].
          - done.
          - exists l2, P2, B2, md2, X2. split; [by eapply lr_effect|done]. }
        (* the critical section goes on, or ends *)
        assert (Hnx : forall B', B = B' + w c -> (a, w c) ∈ X -> nx l c B' p' M' -> klocal K F anyv p' -> holding lk' a p' (Some i) -> (forall b, md = Some b -> b = a) ->
          exists l' P' B' md' X', lrun spec l P es l' P' /\ G (a_map s') /\ mode_ok l' P' s' B' md' /\
            (forall b, tm (a_lk s') md' X' b (P' !! b) (a_ths s' !! b)) /\ total X' <= B').
        { intros B' HBe HX Hn Hloc Hhi Hmd0.
          assert ((if bool_decide (md = Some a) then None else md) = None) as Enone.
          { case_bool_decide as E; [done|]. destruct md as [b|]; [|done]. destruct E. f_equal. by apply Hmd0. }
          assert (Heff' : forall r l', spec l c r l' -> R B' M' l' -> (p' = done_prog r \/ unlocking r p') ->
            exists l' P' B' md' X', lrun spec l P es l' P' /\ G (a_map s') /\ mode_ok l' P' s' B' md' /\
              (forall b, tm (a_lk s') md' X' b (P' !! b) (a_ths s' !! b)) /\ total X' <= B').
          { intros r l' H1 H2 H3. apply elem_of_Permutation in HX as [X' HX]. apply (Heff (Some i) B' r l' X'); [done| | |done| |done].
            - rewrite (total_perm _ _ HX) in HB. cbn [total] in HB. lia.
            - intros b n Hb Hn'. rewrite HX in Hn'. apply elem_of_cons in Hn' as [Hn'|Hn']; [congruence|done].
            - rewrite Enone. exact H2. }
          destruct Hn as [Hn|Hn].
          - destruct (IH l P B (Some a) X HG') as (l2 & P2 & B2 & md2 & X2 & L1 & L2); cbn [a_map a_ths a_lk].
            + by eapply Gok.
            + exists c, p', B'. cbn [a_map a_ths]. by rewrite lookup_insert.
            + intros b. destruct (decide (b = a)) as [->|Hne].
              * rewrite lookup_insert, Epa. cbn [tm]. exists (Some i). split; [done|]. left. done.
              * rewrite lookup_insert_ne by done. eapply (tm_other lk lk' md (Some a) X X a b); [done|by intros j; apply Hlk| |done|apply Htm].
                split; [congruence|]. intros E. destruct Hne. by apply Hmd0.
            + done.
            + exists l2, P2, B2, md2, X2. done.
          - destruct p' as [y|e|Y o k]; [done| |].
            + destruct Hn as (l' & H1 & H2). apply (Heff' (Err e) l'); [done|done|by left].
            + destruct o; try done. destruct Hn as (-> & r & l' & H1 & H2 & H3). apply (Heff' r l'); [done|done|]. right. by exists k. }
        destruct Hpa as [(-> & -> & HX)|(Hnm & Hpa)].
        { (* in the critical section *)
          destruct Hmd as (c' & q & B' & E1 & E2 & E3 & Hcs & Hloc). cbn [a_map a_ths] in *.
          assert (q = p) as -> by congruence. assert (c' = c) as -> by congruence.
          destruct (cs_step _ _ _ _ _ _ _ _ _ _ _ Hcs Hw Hk) as (-> & Hw' & Hn).
          apply (Hnx B'); [done|done|done|by eapply klocal_step|done|congruence]. }
        (* the mode is not that of this thread *)
        assert (Hstay : forall l' P', agree K M M' -> (forall b, b <> a -> P' !! b = P !! b) -> l' = l ->
          mode_ok l' P' (AS M' (<[a := p']> T) lk') B md).
        { intros l' P' Hag HP ->. destruct md as [b|]; cbn [mode_ok a_map a_ths] in *; [|by eapply Rloc].
          destruct Hmd as (c' & q & B' & E1 & E2 & E3 & Hcs & Hloc). assert (b <> a) as Hb by congruence. exists c', q, B'.
          rewrite lookup_insert_ne by done. rewrite HP by done. split; [done|]. split; [done|]. split; [done|]. split; [by eapply cs_local|done]. }
        destruct (wl_step _ _ _ _ _ _ _ _ Hw Hh Hk) as (h' & Hw' & Hh' & _).
        destruct Hpa as [[(k & -> & Hloc & Hst) HX]|[(_ & _ & Hpa)|[(Kf & HK1 & HK2) Hf]]].
        * (* takes the lock *)
          cbn [kop_step] in Hk. destruct Hk as (-> & Hn & -> & ->).
          destruct md as [b|].
          { exfalso. destruct Hmd as (c' & q & B' & E1 & E2 & _). cbn [a_map a_ths] in *. pose proof (Htm b) as Hb. rewrite E1, E2 in Hb. cbn [tm] in Hb.
            destruct Hb as (hb & [_ Hb1] & [(_ & -> & _)|(Hb2 & _)]); [|done]. specialize (Hb1 _ eq_refl). congruence. }
          pose proof HX as HX'. apply elem_of_Permutation in HX' as [X' HX']. rewrite (total_perm _ _ HX') in HB. cbn [total] in HB.
          apply (Hnx (B - w c)); [lia|done| |done| |done].
          -- apply Hst; [done|]. replace (B - w c + w c) with B by lia. exact Hmd.
          -- cbn [wl] in Hw. destruct Hw as [_ Hw]. split; [done|]. intros j [= <-]. by rewrite lookup_insert.
        * (* reads *)
          destruct (Hpa _ _ _ _ _ _ _ HV Hk) as (-> & r & Hsp & ->).
          apply (Heff h' B r l X); [done|lia|auto|done| |by left].
          rewrite bool_decide_false by done. apply Hstay; [done| |done]. intros b Hb. by rewrite lookup_insert_ne.
        * (* has nothing to do with the collection *)
          destruct (kop_step_writes _ _ _ _ _ _ _ _ _ HK1 Hk) as [W1 W2].
          destruct (IH l P B md X HG') as (l2 & P2 & B2 & md2 & X2 & L1 & L2); cbn [a_map a_ths a_lk].
          -- by eapply Gok.
          -- apply Hstay; [|done|done]. intros k Hk1. apply W1. by apply HK2.
          -- intros b. destruct (decide (b = a)) as [->|Hne].
             ++ rewrite lookup_insert, Epa. cbn [tm]. exists h'. split; [done|]. right. split; [done|]. right. right. split; [|done]. by exists Kf.
             ++ rewrite lookup_insert_ne by done. eapply (tm_other lk lk' md md X X a b); [done|by intros j; apply Hlk|done|done|apply Htm].
          -- lia.
          -- exists l2, P2, B2, md2, X2. done.
      + (* releases the lock *)
        destruct Hpa as (Hnm & h & [Hw Hh] & [->|(k & -> & Ek)]); [by destruct r|].
        destruct (wl_step _ _ _ _ _ _ _ _ Hw Hh Hk) as (h' & Hw' & Hh' & Hlk).
        pose proof (Gok _ _ _ _ _ _ _ Hk HGM) as HGM'.
        cbn [kop_step] in Hk. destruct Hk as (-> & -> & ->).
        destruct (IH l P B md X HG') as (l2 & P2 & B2 & md2 & X2 & L1 & L2); cbn [a_map a_ths a_lk].
        * done.
        * destruct md as [b|]; cbn [mode_ok a_map a_ths] in *; [|done].
          destruct Hmd as (c' & q & B' & E1 & E2 & E3). assert (b <> a) as Hb by congruence. exists c', q, B'. by rewrite lookup_insert_ne.
        * intros b. destruct (decide (b = a)) as [->|Hne].
          -- rewrite lookup_insert, Epa. cbn [tm]. split; [done|]. exists h'. split; [done|]. by left.
          -- rewrite lookup_insert_ne by done. eapply (tm_other lk _ md md X X a b); [done|by intros j; apply Hlk|done|done|apply Htm].
        * lia.
        * exists l2, P2, B2, md2, X2. done.
    - (* a return *)
      change (total X + weight es <= B) in HB. pose proof (Htm a) as Hpa. rewrite Ha in Hpa.
      assert (Hfin : md <> Some a -> exists l' P' B' md' X', lrun spec l (delete a P) es l' P' /\ G (a_map s') /\ mode_ok l' P' s' B' md' /\
            (forall b, tm (a_lk s') md' X' b (P' !! b) (a_ths s' !! b)) /\ total X' <= B').
      { intros Hnm. apply (IH l (delete a P) B md X HG' HGM); cbn [a_map a_ths a_lk]; [| |done].
        - destruct md as [b|]; cbn [mode_ok a_map a_ths] in *; [|done].
          destruct Hmd as (c' & q & B' & E1 & E2 & E3). assert (b <> a) as Hb by congruence. exists c', q, B'. by rewrite !lookup_delete_ne.
        - intros b. destruct (decide (b = a)) as [->|Hne]; [by rewrite !lookup_delete|]. rewrite !lookup_delete_ne by done. apply Htm. }
      destruct (P !! a) as [[c|r]|] eqn:Epa; try done; cbn [tm] in Hpa.
      + destruct Hpa as (h & _ & [(-> & _)|(Hnm & Hpa)]).
        { exfalso. destruct Hmd as (c' & q & B' & E1 & E2 & E3 & Hcs & _). cbn [a_map a_ths] in *. assert (q = KRet y) as -> by congruence. by destruct Hcs. }
        destruct Hpa as [[(k & Hk & _) _]|[(Hpa & _)|[_ Hf]]]; [done|by destruct (Hpa y)|].
        destruct (Hfin Hnm) as (l2 & P2 & B2 & md2 & X2 & L1 & L2). exists l2, P2, B2, md2, X2. split; [|done].
        eapply lr_effect; [exact Epa|apply (Hf l (Ok y))|]. apply lr_ret; [by rewrite lookup_insert|]. by rewrite delete_insert_delete.
      + destruct Hpa as (Hnm & h & _ & [Hp|(k & Hp & _)]); [|done]. destruct r as [y'|]; [|done]. injection Hp as ->.
        destruct (Hfin Hnm) as (l2 & P2 & B2 & md2 & X2 & L1 & L2). exists l2, P2, B2, md2, X2. split; [|done]. by apply lr_ret.
    - (* a failure *)
      change (total X + weight es <= B) in HB. pose proof (Htm a) as Hpa. rewrite Ha in Hpa.
      assert (Hfin : md <> Some a -> exists l' P' B' md' X', lrun spec l (delete a P) es l' P' /\ G (a_map s') /\ mode_ok l' P' s' B' md' /\
            (forall b, tm (a_lk s') md' X' b (P' !! b) (a_ths s' !! b)) /\ total X' <= B').
      { intros Hnm. apply (IH l (delete a P) B md X HG' HGM); cbn [a_map a_ths a_lk]; [| |done].
        - destruct md as [b|]; cbn [mode_ok a_map a_ths] in *; [|done].
          destruct Hmd as (c' & q & B' & E1 & E2 & E3). assert (b <> a) as Hb by congruence. exists c', q, B'. by rewrite !lookup_delete_ne.
        - intros b. destruct (decide (b = a)) as [->|Hne]; [by rewrite !lookup_delete|]. rewrite !lookup_delete_ne by done.
          eapply (tm_other lk _ md md X X a b); [done| |done|done|apply Htm]. intros j. by apply unlock_other. }
      destruct (P !! a) as [[c|r]|] eqn:Epa; try done; cbn [tm] in Hpa.
      + destruct Hpa as (h & _ & [(-> & _)|(Hnm & Hpa)]).
        { exfalso. destruct Hmd as (c' & q & B' & E1 & E2 & E3 & Hcs & _). cbn [a_map a_ths] in *. assert (q = KFail er) as -> by congruence. by destruct Hcs. }
        destruct Hpa as [[(k & Hk & _) _]|[(_ & Hpa & _)|[_ Hf]]]; [done|by destruct (Hpa er)|].
        destruct (Hfin Hnm) as (l2 & P2 & B2 & md2 & X2 & L1 & L2). exists l2, P2, B2, md2, X2. split; [|done].
        eapply lr_effect; [exact Epa|apply (Hf l (Err er))|]. apply lr_ret; [by rewrite lookup_insert|]. by rewrite delete_insert_delete.
      + destruct Hpa as (Hnm & h & _ & [Hp|(k & Hp & _)]); [|done]. destruct r as [|er']; [done|]. injection Hp as ->.
        destruct (Hfin Hnm) as (l2 & P2 & B2 & md2 & X2 & L1 & L2). exists l2, P2, B2, md2, X2. split; [|done]. by apply lr_ret.
  Qed.
End locked.
