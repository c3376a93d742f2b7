(** Programs over raw operations, run on the abstract map, and their refinement by the store. *)
From Verif Require Import Base Hashing HashingProofs Fs Shard Router RouterPure Wpc Spec FileRep RowOps
  Compact Inv ShardOps Split Insert Open Merge Create Store Limits StoreRefine Kv Api Hist.

(** [kwp p C Q E M]: run on the map [M], [p] keeps [C] at every step, ends in [Q] or fails in [E]. *)
Fixpoint kwp {A} (cfg : config) (p : kprog A) (C : kvmap -> Prop) (Q : A -> kvmap -> Prop)
    (E : err -> kvmap -> Prop) (M : kvmap) : Prop :=
  C M /\
  match p with
  | KRet a => Q a M
  | KFail e => E e M
  | KVis o k =>
    match o in kop X return (X -> kprog A) -> Prop with
    | KGet key => fun k => kwp cfg (k (M !! key)) C Q E M
    | KIns key v mode => fun k =>
      key <> [] /\
      match ins_err cfg key v with
      | Some e => E e M
      | None => kwp cfg (k (snd (spec_ins M key v mode))) C Q E (fst (spec_ins M key v mode))
      end
    | KRem key => fun k => kwp cfg (k (M !! key)) C Q E (delete key M)
    | KByHash ph => fun k =>
      if ph_sig ph =? INVALID_SIG then E EPanic M
      else forall l, byhash_ok cfg M ph l -> kwp cfg (k l) C Q E M
    | KLock _ => fun k => kwp cfg (k tt) C Q E M
    | KUnlock _ => fun k => kwp cfg (k tt) C Q E M
    end k
  end.

Implicit Types (M : kvmap) (E : err -> kvmap -> Prop) (C : kvmap -> Prop).

Lemma kwp_C {A} (cfg : config) (p : kprog A) C (Q : A -> kvmap -> Prop) E (M : kvmap) : kwp cfg p C Q E M -> C M.
Proof. destruct p; cbn; tauto. Qed.

Lemma kwp_mono {A} (cfg : config) (p : kprog A) (C C' : kvmap -> Prop) (Q Q' : A -> kvmap -> Prop) (E E' : err -> kvmap -> Prop) (M : kvmap) :
  (forall M, C M -> C' M) -> (forall a M, C M -> Q a M -> Q' a M) -> (forall e M, C M -> E e M -> E' e M) ->
  kwp cfg p C Q E M -> kwp cfg p C' Q' E' M.
Proof.
  intros HC HQ HE. revert M; induction p as [a|e|X o k IH]; intros M; cbn [kwp]; intros [H1 H2].
  - auto.
  - auto.
  - split; [auto|]. destruct o as [key|key v mode|key|ph|i|i].
    + by apply IH.
    + destruct H2 as [Hne H2]. split; [done|]. destruct (ins_err cfg key v); [by apply HE|by apply IH].
    + by apply IH.
    + destruct (ph_sig ph =? INVALID_SIG); [by apply HE|]. intros l Hl. apply IH. by apply H2.
    + by apply IH.
    + by apply IH.
Qed.

Lemma kwp_bind {A B} (cfg : config) (p : kprog A) (f : A -> kprog B) C (Q : B -> kvmap -> Prop) E (M : kvmap) :
  kwp cfg p C (fun a => kwp cfg (f a) C Q E) E M -> kwp cfg (kbind p f) C Q E M.
Proof.
  revert M; induction p as [a|e|X o k IH]; intros M; cbn [kbind].
  - cbn [kwp]. tauto.
  - cbn [kwp]. tauto.
  - cbn [kwp]. intros [H1 H2]. split; [done|]. destruct o as [key|key v mode|key|ph|i|i].
    + by apply IH.
    + destruct H2 as [Hne H2]. split; [done|]. destruct (ins_err cfg key v); [done|by apply IH].
    + by apply IH.
    + destruct (ph_sig ph =? INVALID_SIG); [done|]. intros l Hl. apply IH. by apply H2.
    + by apply IH.
    + by apply IH.
Qed.
Lemma kwp_ret {A} (cfg : config) (a : A) (C : kvmap -> Prop) (Q : A -> kvmap -> Prop) E M : C M -> Q a M -> kwp cfg (KRet a) C Q E M.
Proof. cbn. auto. Qed.
Lemma kwp_map {A B} (cfg : config) (f : A -> B) (p : kprog A) C (Q : B -> kvmap -> Prop) E (M : kvmap) :
  kwp cfg p C (fun a => Q (f a)) E M -> kwp cfg (kmap f p) C Q E M.
Proof.
  intros H. apply kwp_bind. eapply kwp_mono; [| | |exact H]; auto. intros a M' H1 H2. by apply kwp_ret.
Qed.
Lemma kwp_lift_ok {A} (cfg : config) (a : A) (r : res A) (C : kvmap -> Prop) (Q : A -> kvmap -> Prop) E (M : kvmap) :
  r = Ok a -> C M -> Q a M -> kwp cfg (klift r) C Q E M.
Proof. intros ->. cbn. auto. Qed.
Lemma kwp_get (cfg : config) (k : bytes) (C : kvmap -> Prop) (Q : option bytes -> kvmap -> Prop) E (M : kvmap) :
  C M -> Q (M !! k) M -> kwp cfg (kop1 (KGet k)) C Q E M.
Proof. cbn. auto. Qed.
Lemma kwp_rem (cfg : config) (k : bytes) (C : kvmap -> Prop) (Q : option bytes -> kvmap -> Prop) E (M : kvmap) :
  C M -> C (delete k M) -> Q (M !! k) (delete k M) -> kwp cfg (kop1 (KRem k)) C Q E M.
Proof. cbn. auto. Qed.
Lemma kwp_set (cfg : config) (k v : bytes) (C : kvmap -> Prop) (Q : set_status -> kvmap -> Prop) (E : err -> kvmap -> Prop) (M : kvmap) :
  k <> [] -> ins_err cfg k v = None -> C M -> C (<[k := v]> M) ->
  Q (match M !! k with Some o => PrevValue o | None => CreatedNew end) (<[k := v]> M) ->
  kwp cfg (kset k v) C Q E M.
Proof.
  intros Hne He H1 H2 H3. cbn. split; [done|]. split; [done|]. rewrite He.
  unfold spec_ins. destruct (M !! k); cbn; auto.
Qed.
Lemma kwp_goc (cfg : config) (k v : bytes) (C : kvmap -> Prop) (Q : goc_status -> kvmap -> Prop) (E : err -> kvmap -> Prop) (M : kvmap) :
  k <> [] -> ins_err cfg k v = None -> C M ->
  (forall o, M !! k = Some o -> Q (GExisting o) M) ->
  (M !! k = None -> C (<[k := v]> M) /\ Q (GCreated v) (<[k := v]> M)) ->
  kwp cfg (kgoc k v) C Q E M.
Proof.
  intros Hne He H1 H2 H3. cbn. split; [done|]. split; [done|]. rewrite He.
  unfold spec_ins. destruct (M !! k) as [o|]; cbn; [auto|]. destruct H3; auto.
Qed.
Lemma kwp_replace_none (cfg : config) (k v : bytes) (C : kvmap -> Prop) (Q : replace_status -> kvmap -> Prop) (E : err -> kvmap -> Prop) (M : kvmap) :
  k <> [] -> ins_err cfg k v = None -> C M ->
  (forall o, M !! k = Some o -> C (<[k := v]> M) /\ Q (RPrevValue o) (<[k := v]> M)) ->
  (M !! k = None -> Q RDoesNotExist M) ->
  kwp cfg (kreplace k v None) C Q E M.
Proof.
  intros Hne He H1 H2 H3. cbn. split; [done|]. split; [done|]. rewrite He.
  unfold spec_ins. destruct (M !! k) as [o|]; cbn; [|auto]. destruct (H2 o); auto.
Qed.
Lemma kwp_locked {A} (cfg : config) (ph : phash) (p : kprog A) (C : kvmap -> Prop) (Q : A -> kvmap -> Prop) E (M : kvmap) :
  kwp cfg p C Q E M -> kwp cfg (klocked cfg ph p) C Q E M.
Proof.
  intros H. pose proof (kwp_C _ _ _ _ _ _ H). cbn. split; [done|]. apply kwp_bind.
  eapply kwp_mono; [| | |exact H]; auto. cbn. auto.
Qed.

(** ** Soundness *)
Lemma exec_wpc {A} (cfg : config) (s : store) (p : prog (router * A)) (C : fs -> Prop) (Q : router * A -> fs -> Prop) (E : err -> Prop) :
  wpc p C Q E (st_fs s) ->
  match exec s p with
  | (s', Ok a) => C (st_fs s') /\ Q (st_root s', a) (st_fs s')
  | (s', Err e) => C (st_fs s') /\ E e
  end /\ forall n, C (crash_at n p (st_fs s)).
Proof.
  intros H. apply wpc_sound in H as [H1 H2]. split; [|done]. unfold exec.
  by destruct (run p (st_fs s)) as [w' [[r a]|e]].
Qed.

(** One raw operation. *)
Definition kop_fits {X} (cfg : config) (o : kop X) (s : store) : Prop :=
  match o with
  | KIns key v _ => ins_err cfg key v = None -> forall M, content cfg s M -> headroom cfg s M key v
  | _ => True
  end.
Definition kop_post {X} (cfg : config) (o : kop X) (M : kvmap) : res X -> kvmap -> Prop :=
  match o in kop X return res X -> kvmap -> Prop with
  | KGet key => fun r M' => r = Ok (M !! key) /\ M' = M
  | KIns key v mode => fun r M' =>
    match ins_err cfg key v with
    | Some e => r = Err e /\ M' = M
    | None => r = Ok (snd (spec_ins M key v mode)) /\ M' = fst (spec_ins M key v mode)
    end
  | KRem key => fun r M' => r = Ok (M !! key) /\ M' = delete key M
  | KByHash ph => fun r M' => M' = M /\
    if ph_sig ph =? INVALID_SIG then r = Err EPanic else exists l, r = Ok l /\ byhash_ok cfg M ph l
  | KLock _ => fun r M' => r = Ok tt /\ M' = M
  | KUnlock _ => fun r M' => r = Ok tt /\ M' = M
  end.
Definition kop_ne {X} (o : kop X) : Prop := match o with KIns key _ _ => key <> [] | _ => True end.

Lemma store_eta s : Store (st_root s) (st_fs s) = s.
Proof. by destruct s. Qed.

Lemma run_kop_ok {X} cfg x M s (o : kop X) :
  SInv cfg x M s -> kop_ne o -> kop_fits cfg o s ->
  exists M', SInv cfg x M' (fst (run_kop cfg o s)) /\ kop_post cfg o M (snd (run_kop cfg o s)) M' /\
    forall n, DiskInv cfg false M (kop_dies cfg o s n) \/ DiskInv cfg false M' (kop_dies cfg o s n).
Proof.
  intros HI Hne Hf. pose proof (Inv_disk' _ _ _ _ _ HI) as HD.
  destruct o as [key|key v mode|key|ph|i|i]; cbn [run_kop kop_post kop_dies kop_ne kop_fits] in *.
  - exists M. split; [done|]. split; [|auto]. cbn. split; [|done]. by eapply get_raw_ok.
  - destruct (ins_err cfg key v) as [e|] eqn:He.
    + exists M. unfold insert_raw, exec. rewrite (insert_rejected _ _ _ _ _ _ He). cbn. rewrite store_eta.
      split; [done|]. split; [done|]. left. by destruct n.
    + assert (headroom cfg s M key v) as Hh by (apply Hf; [done|by eapply SInv_content]).
      rewrite <- (store_eta s) in Hh.
      pose proof (insert_wpc cfg x M (st_root s) (st_fs s) key v mode HI Hne He Hh) as Hw.
      apply (exec_wpc cfg) in Hw as [Hw Hc]. exists (fst (spec_ins M key v mode)).
      unfold insert_raw. destruct (exec s _) as [s' [a|e]]; cbn in Hw |- *.
      * destruct Hw as (_ & H2 & H3). subst a. split; [done|]. split; [done|]. exact Hc.
      * by destruct Hw.
  - pose proof (remove_wpc cfg x M (st_root s) (st_fs s) key HI) as Hw.
    apply (exec_wpc cfg) in Hw as [Hw Hc]. exists (delete key M).
    unfold remove_raw. destruct (exec s _) as [s' [a|e]]; cbn in Hw |- *.
    + destruct Hw as (_ & H2 & H3). subst a. split; [done|]. split; [done|]. exact Hc.
    + by destruct Hw.
  - exists M. split; [done|]. split; [|auto]. cbn. split; [done|].
    destruct (N.eqb_spec (ph_sig ph) INVALID_SIG) as [Hs|Hs].
    + unfold get_by_hash. rewrite Hs. by rewrite N.eqb_refl.
    + by eapply get_by_hash_ok.
  - exists M. auto.
  - exists M. auto.
Qed.

Lemma kwp_krun {A} (cfg : config) (x : bool) (p : kprog A) C (Q : A -> kvmap -> Prop) E : forall M s,
  SInv cfg x M s -> kfits cfg p s -> kwp cfg p C Q E M ->
  exists M', SInv cfg x M' (fst (krun cfg p s)) /\
    match snd (krun cfg p s) with Ok a => Q a M' | Err e => E e M' end.
Proof.
  induction p as [a|e|X o k IH]; intros M s HI Hf Hw.
  - exists M. split; [done|]. apply Hw.
  - exists M. split; [done|]. apply Hw.
  - cbn [kfits] in Hf. destruct Hf as [Hf1 Hf2]. cbn [kwp] in Hw. destruct Hw as [_ Hw]. cbn [krun].
    assert (kop_ne o) as Hne by (destruct o; try done; apply Hw).
    destruct (run_kop_ok cfg x M s o HI Hne Hf1) as (M' & HI' & Hp & _).
    destruct (run_kop cfg o s) as [s' r]. cbn [fst snd] in HI', Hp.
    destruct o as [key|key v mode|key|ph|i|i]; cbn [kop_post] in Hp.
    + destruct Hp as [-> ->]. by eapply IH.
    + destruct (ins_err cfg key v) as [e|].
      * destruct Hp as [-> ->]. exists M. split; [done|]. apply Hw.
      * destruct Hp as [-> ->]. eapply IH; [done|done|]. apply Hw.
    + destruct Hp as [-> ->]. by eapply IH.
    + destruct Hp as [-> Hp]. destruct (ph_sig ph =? INVALID_SIG).
      * subst r. by exists M.
      * destruct Hp as (l & -> & Hl). eapply IH; [done|done|]. by apply Hw.
    + destruct Hp as [-> ->]. by eapply IH.
    + destruct Hp as [-> ->]. by eapply IH.
Qed.

Lemma kwp_kdies {A} (cfg : config) (x : bool) (p : kprog A) (C : kvmap -> Prop) (Q : A -> kvmap -> Prop) (E : err -> kvmap -> Prop) s w :
  kdies cfg p s w -> forall M, SInv cfg x M s -> kfits cfg p s -> kwp cfg p C Q E M ->
  exists M', C M' /\ DiskInv cfg false M' w.
Proof.
  induction 1 as [p s|X o k s n|X o k s s' y w Hr Hd IH]; intros M HI Hf Hw.
  - exists M. split; [by eapply kwp_C|]. by eapply Inv_disk'.
  - cbn [kfits] in Hf. destruct Hf as [Hf1 Hf2]. cbn [kwp] in Hw. destruct Hw as [HC Hw].
    assert (kop_ne o) as Hne by (destruct o; try done; apply Hw).
    destruct (run_kop_ok cfg x M s o HI Hne Hf1) as (M' & HI' & Hp & Hd).
    destruct (Hd n) as [Hd'|Hd']; [by exists M|].
    destruct o as [key|key v mode|key|ph|i|i]; cbn [kop_post] in Hp.
    + destruct Hp as [_ ->]. by exists M.
    + destruct (ins_err cfg key v) as [e|].
      * destruct Hp as [_ ->]. by exists M.
      * destruct Hp as [_ ->]. destruct Hw as [_ Hw]. apply kwp_C in Hw. eauto.
    + destruct Hp as [_ ->]. apply kwp_C in Hw. eauto.
    + destruct Hp as [-> _]. by exists M.
    + destruct Hp as [_ ->]. by exists M.
    + destruct Hp as [_ ->]. by exists M.
  - cbn [kfits] in Hf. destruct Hf as [Hf1 Hf2]. cbn [kwp] in Hw. destruct Hw as [HC Hw].
    assert (kop_ne o) as Hne by (destruct o; try done; apply Hw).
    destruct (run_kop_ok cfg x M s o HI Hne Hf1) as (M' & HI' & Hp & _).
    rewrite Hr in HI', Hp, Hf2. cbn [fst snd] in HI', Hp.
    destruct o as [key|key v mode|key|ph|i|i]; cbn [kop_post] in Hp.
    + destruct Hp as [[= ->] ->]. by eapply IH.
    + destruct (ins_err cfg key v) as [e|]; [by destruct Hp|].
      destruct Hp as [[= ->] ->]. eapply IH; [done|done|]. apply Hw.
    + destruct Hp as [[= ->] ->]. by eapply IH.
    + destruct Hp as [-> Hp]. destruct (ph_sig ph =? INVALID_SIG); [done|].
      destruct Hp as (l & [= ->] & Hl). eapply IH; [done|done|]. by apply Hw.
    + destruct Hp as [[= ->] ->]. by eapply IH.
    + destruct Hp as [[= ->] ->]. by eapply IH.
Qed.

(** ** Programs that write only keys satisfying [P] (and return values satisfying [Q]) *)
Fixpoint kwrites {A} (P : bytes -> Prop) (Q : A -> Prop) (p : kprog A) : Prop :=
  match p with
  | KRet a => Q a
  | KFail _ => True
  | KVis o k =>
    match o with
    | KIns key _ _ => key <> [] /\ P key
    | KRem key => P key
    | _ => True
    end /\ forall x, kwrites P Q (k x)
  end.
Lemma kwrites_bind {A B} P (Q : B -> Prop) (p : kprog A) (f : A -> kprog B) :
  kwrites P (fun a => kwrites P Q (f a)) p -> kwrites P Q (kbind p f).
Proof.
  induction p as [a|e|X o k IH]; cbn [kbind kwrites]; [done|done|].
  intros [H1 H2]. split; [done|]. intros x. by apply IH.
Qed.
Lemma kwrites_mono {A} (P P' : bytes -> Prop) (Q Q' : A -> Prop) (p : kprog A) :
  (forall k, P k -> P' k) -> (forall a, Q a -> Q' a) -> kwrites P Q p -> kwrites P' Q' p.
Proof.
  intros HP HQ. induction p as [a|e|X o k IH]; cbn [kwrites]; [auto|done|]. intros [H1 H2]. split; [|auto].
  destruct o; auto. destruct H1; auto.
Qed.
Definition anyv {A} (_ : A) : Prop := True.
Lemma kwrites_seq {A B} P (Q : B -> Prop) (p : kprog A) (f : A -> kprog B) :
  kwrites P anyv p -> (forall a, kwrites P Q (f a)) -> kwrites P Q (kbind p f).
Proof. intros H1 H2. apply kwrites_bind. eapply kwrites_mono; [| |exact H1]; auto. Qed.
Lemma kwrites_lift {A} P (Q : A -> Prop) (r : res A) : (forall a, r = Ok a -> Q a) -> kwrites P Q (klift r).
Proof. destruct r; cbn; auto. Qed.
Lemma kwrites_set (P : bytes -> Prop) (Q : set_status -> Prop) k v : k <> [] -> P k -> (forall a, Q a) -> kwrites P Q (kset k v).
Proof. intros H1 H2 H3. cbn. split; [done|]. intros x. apply kwrites_lift. auto. Qed.
Lemma kwrites_goc (P : bytes -> Prop) (Q : goc_status -> Prop) k v : k <> [] -> P k -> (forall a, Q a) -> kwrites P Q (kgoc k v).
Proof. intros H1 H2 H3. cbn. split; [done|]. intros x. apply kwrites_lift. auto. Qed.
Lemma kwrites_replace (P : bytes -> Prop) (Q : replace_status -> Prop) k v ex : k <> [] -> P k -> (forall a, Q a) -> kwrites P Q (kreplace k v ex).
Proof. intros H1 H2 H3. cbn. split; [done|]. intros x. apply kwrites_lift. auto. Qed.
Lemma kwrites_locked {A} cfg ph P (Q : A -> Prop) (p : kprog A) : kwrites P Q p -> kwrites P Q (klocked cfg ph p).
Proof.
  intros H. cbn. split; [done|]. intros _. apply kwrites_bind. eapply kwrites_mono; [| |exact H]; [auto|].
  cbn. auto.
Qed.
Lemma kwrites_map {A B} P (Q : B -> Prop) (f : A -> B) (p : kprog A) :
  kwrites P (fun a => Q (f a)) p -> kwrites P Q (kmap f p).
Proof. intros H. apply kwrites_bind. eapply kwrites_mono; [| |exact H]; auto. Qed.

(** [M] and [M'] agree outside [P]. *)
Definition same_outside (P : bytes -> Prop) (M M' : kvmap) : Prop := forall k, ~ P k -> M' !! k = M !! k.
Lemma spec_ins_outside (P : bytes -> Prop) M key v mode k : P key -> ~ P k -> fst (spec_ins M key v mode) !! k = M !! k.
Proof.
  intros HP Hk. assert (key <> k) as Hne by (by intros ->). unfold spec_ins.
  destruct (M !! key) as [o|], mode as [|[ex|]|]; cbn; try (by rewrite lookup_insert_ne); try done.
  case_bool_decide; cbn; [by rewrite lookup_insert_ne|done].
Qed.
Lemma kwp_frame {A} (cfg : config) (P : bytes -> Prop) (p : kprog A) (Q : A -> Prop) (M0 : kvmap) : kwrites P Q p -> forall M, same_outside P M0 M ->
  kwp cfg p (same_outside P M0) (fun _ => same_outside P M0) (fun _ => same_outside P M0) M.
Proof.
  induction p as [a|e|X o k IH]; intros Hp M HM; cbn [kwp kwrites] in *; [done|done|].
  destruct Hp as [H1 H2]. split; [done|]. destruct o as [key|key v mode|key|ph|i|i].
  - by apply IH.
  - destruct H1 as [Hne HP]. split; [done|]. destruct (ins_err cfg key v); [done|]. apply IH; [done|].
    intros y Hy. rewrite <- (HM y Hy). by apply (spec_ins_outside P).
  - apply IH; [done|]. intros y Hy. rewrite lookup_delete_ne; [by apply HM|]. by intros ->.
  - destruct (ph_sig ph =? INVALID_SIG); [done|]. intros l _. by apply IH.
  - by apply IH.
  - by apply IH.
Qed.

(** Two specifications at once (the demonic choices are the same). *)
Lemma kwp_and {A} (cfg : config) (p : kprog A) (C1 : kvmap -> Prop) (Q1 : A -> kvmap -> Prop) (E1 : err -> kvmap -> Prop) (C2 : kvmap -> Prop) (Q2 : A -> kvmap -> Prop) (E2 : err -> kvmap -> Prop) (M : kvmap) :
  kwp cfg p C1 Q1 E1 M -> kwp cfg p C2 Q2 E2 M ->
  kwp cfg p (fun M => C1 M /\ C2 M) (fun a M => Q1 a M /\ Q2 a M) (fun e M => E1 e M /\ E2 e M) M.
Proof.
  revert M; induction p as [a|e|X o k IH]; intros M; cbn [kwp]; intros [H1 H2] [H3 H4]; [done|done|].
  split; [done|]. destruct o as [key|key v mode|key|ph|i|i].
  - by apply IH.
  - destruct H2 as [Hne H2], H4 as [_ H4]. split; [done|]. destruct (ins_err cfg key v); [done|by apply IH].
  - by apply IH.
  - destruct (ph_sig ph =? INVALID_SIG); [done|]. intros l Hl. apply IH; auto.
  - by apply IH.
  - by apply IH.
Qed.
