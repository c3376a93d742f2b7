(** From the abstract machine to linearizability, for calls that are one raw operation each. *)
From Verif Require Import Base Hashing HashingProofs Fs Shard Router Store Kv KvSpec Limits Lists Queues Api KeySpace Spec Hist PlainSpec Plain Conc ConcSpec.

(** What one raw operation of a program that only writes keys in [K] may change. *)
Lemma kop_step_writes (cfg : config) (K : bytes -> Prop) (a : nat) (M : kvmap) (lk : gmap N nat) (p : kprog reply) (M' : kvmap) (lk' : gmap N nat) (p' : kprog reply) :
  kwrites K anyv p -> kop_step cfg a M lk p M' lk' p' ->
  (forall k : bytes, ~ K k -> @eq (option bytes) (M' !! k) (M !! k)) /\ kwrites K anyv p'.
Proof.
  destruct p as [y|e|X o k]; cbn [kop_step]; [done|done|]. intros [H1 H2]. destruct o as [key|key v mode|key|ph|i|i]; cbn [kop_step].
  - intros (-> & -> & ->). split; [done|apply H2].
  - intros (-> & H). destruct (ins_err cfg key v).
    + destruct H as [-> ->]. split; done.
    + destruct H as [-> ->]. split; [|apply H2]. intros k' Hk'. unfold spec_ins. destruct (M !! key), mode as [|[]|]; cbn [fst]; try case_bool_decide; cbn [fst]; try done; apply lookup_insert_ne; intros ->; by apply Hk', H1.
  - intros (-> & -> & ->). split; [|apply H2]. intros k' Hk'. apply lookup_delete_ne. by intros ->.
  - intros (-> & -> & H). split; [done|]. destruct (_ =? _).
    + by rewrite H.
    + destruct H as (l & _ & ->). apply H2.
  - intros (-> & _ & -> & ->). split; [done|apply H2].
  - intros (-> & -> & ->). split; [done|apply H2].
Qed.

Lemma kwp_kop_step (cfg : config) (a : nat) (p : kprog reply) (C : kvmap -> Prop) (Q : reply -> kvmap -> Prop) (E : err -> kvmap -> Prop)
    (M : kvmap) (lk : gmap N nat) (M' : kvmap) (lk' : gmap N nat) (p' : kprog reply) :
  kwp cfg p C Q E M -> kop_step cfg a M lk p M' lk' p' -> kwp cfg p' C Q E M'.
Proof.
  destruct p as [y|e|X o k]; cbn [kop_step]; [done|done|]. cbn [kwp]. intros [H1 H2]. destruct o as [key|key v mode|key|ph|i|i].
  - intros (-> & -> & ->). done.
  - intros (-> & H). destruct H2 as [_ H2]. destruct (ins_err cfg key v).
    + by destruct H as [-> ->].
    + by destruct H as [-> ->].
  - intros (-> & -> & ->). done.
  - intros (-> & -> & H). destruct (_ =? _).
    + by rewrite H.
    + destruct H as (l & Hl & ->). by apply H2.
  - intros (-> & _ & -> & ->). done.
  - intros (-> & -> & ->). done.
Qed.

Definition done_prog (r : res reply) : kprog reply := match r with Ok y => KRet y | Err e => KFail e end.

(** A program of one raw operation. *)
Definition one_op (p : kprog reply) : Prop :=
  match p with KVis _ k => forall x, exists r, k x = done_prog r | _ => False end.
Lemma one_op_kwp (cfg : config) (a : nat) (p : kprog reply) (C : kvmap -> Prop) (Q : reply -> kvmap -> Prop) (E : err -> kvmap -> Prop)
    (M : kvmap) (lk : gmap N nat) (M' : kvmap) (lk' : gmap N nat) (p' : kprog reply) :
  one_op p -> kwp cfg p C Q E M -> kop_step cfg a M lk p M' lk' p' ->
  exists r, p' = done_prog r /\ match r with Ok y => Q y M' | Err e => E e M' end.
Proof.
  intros Ho Hw Hk. pose proof (kwp_kop_step _ _ _ _ _ _ _ _ _ _ _ Hw Hk) as Hw'.
  assert (exists r, p' = done_prog r) as [r ->].
  { destruct p as [y|e|X o k]; [done|done|]. cbn [one_op] in Ho. destruct o as [key|key v mode|key|ph|i|i]; cbn [kop_step] in Hk.
    - destruct Hk as (_ & _ & ->). apply Ho.
    - destruct Hk as (_ & Hk). destruct (ins_err cfg key v) as [e|]; destruct Hk as [_ ->]; [by exists (Err e)|apply Ho].
    - destruct Hk as (_ & _ & ->). apply Ho.
    - destruct Hk as (_ & _ & Hk). destruct (_ =? _); [by exists (Err EPanic)|]. destruct Hk as (l & _ & ->). apply Ho.
    - destruct Hk as (_ & _ & _ & ->). apply Ho.
    - destruct Hk as (_ & _ & ->). apply Ho. }
  exists r. split; [done|]. destruct r; apply Hw'.
Qed.

Section lin.
  Context {S : Type} (cfg : config) (G : call -> Prop) (spec : S -> call -> res reply -> S -> Prop) (view : kvmap -> S -> Prop).

  (** The program makes one raw operation, and that is the effect of [c]; or it fails at once,
      and [c] has no effect. *)
  Definition single (p : kprog reply) (c : call) : Prop :=
    match p with
    | KRet _ => False
    | KFail e => forall (M : kvmap) (m : S), view M m -> spec m c (Err e) m
    | KVis _ _ => forall (a : nat) (M : kvmap) (lk : gmap N nat) (M' : kvmap) (lk' : gmap N nat) (p' : kprog reply) (m : S),
        view M m -> kop_step cfg a M lk p M' lk' p' ->
        exists (r : res reply) (m' : S), spec m c r m' /\ view M' m' /\ p' = done_prog r
    end.
  Definition foreign (p : kprog reply) (c : call) : Prop :=
    (exists K : bytes -> Prop, kwrites K anyv p /\
      forall (M M' : kvmap) (m : S), (forall k : bytes, ~ K k -> @eq (option bytes) (M' !! k) (M !! k)) -> view M m -> view M' m) /\
    (forall (m : S) (r : res reply), spec m c r m).

  Context (Hcalls : forall c, G c -> single (call_prog cfg c) c \/ foreign (call_prog cfg c) c).

  Definition pmatch (ph : option phase) (p : option (kprog reply)) : Prop :=
    match ph, p with
    | None, None => True
    | Some (PCalled c), Some p => single p c \/ foreign p c
    | Some (PDone r), Some p => p = done_prog r
    | _, _ => False
    end.

  Lemma lin (A : astate) (es : list cevent) (A' : astate) : arun cfg A es A' -> forall (m : S) (P : gmap nat phase),
    (forall a c, EvCall a c ∈ es -> G c) ->
    view (a_map A) m -> (forall a, pmatch (P !! a) (a_ths A !! a)) ->
    exists m' P', lrun spec m P es m' P' /\ view (a_map A') m' /\ (forall a, pmatch (P' !! a) (a_ths A' !! a)).
  Proof.
    assert (Hput : forall (P : gmap nat phase) (T : gmap nat (kprog reply)) a ph p,
      (forall b, pmatch (P !! b) (T !! b)) -> pmatch (Some ph) (Some p) -> forall b, pmatch (<[a := ph]> P !! b) (<[a := p]> T !! b)).
    { intros P T a ph p H1 H2 b. destruct (decide (b = a)) as [->|Hne]; [by rewrite !lookup_insert|by rewrite !lookup_insert_ne]. }
    assert (Hdel : forall (P : gmap nat phase) (T : gmap nat (kprog reply)) a,
      (forall b, pmatch (P !! b) (T !! b)) -> forall b, pmatch (delete a P !! b) (delete a T !! b)).
    { intros P T a H1 b. destruct (decide (b = a)) as [->|Hne]; [by rewrite !lookup_delete|by rewrite !lookup_delete_ne]. }
    induction 1 as [s|s e s1 es s' Hs Hr IH]; intros m P HG Hv Hp.
    - exists m, P. split; [apply lr_nil|done].
    - assert (HG' : forall a c, EvCall a c ∈ es -> G c) by (intros b c Hin; apply (HG b); apply elem_of_app; by right).
      destruct Hs as [M T lk a c Ha|M T lk a p M' lk' p' Ha Hk|M T lk a y Ha|M T lk a er Ha]; cbn [a_map a_ths option_list app] in *.
      + pose proof (Hp a) as Hpa. rewrite Ha in Hpa. destruct (P !! a) as [[]|] eqn:Epa; try done.
        destruct (IH m (<[a := PCalled c]> P) HG' Hv) as (m' & P' & L1 & L2).
        { apply Hput; [done|]. apply Hcalls, (HG a). apply elem_of_cons. by left. }
        exists m', P'. split; [|done]. by eapply lr_call.
      + pose proof (Hp a) as Hpa. rewrite Ha in Hpa. destruct (P !! a) as [[c|r]|] eqn:Epa; try done; cbn [pmatch] in Hpa.
        * destruct Hpa as [Hpa|[(K & HK1 & HK2) Hf]].
          -- destruct p as [y|er|X ko kk]; [done|done|].
             destruct (Hpa a M lk M' lk' p' m Hv Hk) as (r & m1 & S1 & V1 & ->).
             destruct (IH m1 (<[a := PDone r]> P) HG' V1) as (m' & P' & L1 & L2); [by apply Hput|].
             exists m', P'. split; [|done]. by eapply lr_effect.
          -- destruct (kop_step_writes _ _ _ _ _ _ _ _ _ HK1 Hk) as [W1 W2].
             destruct (IH m (<[a := PCalled c]> P) HG') as (m' & P' & L1 & L2); [by eapply HK2| |].
             { apply Hput; [done|]. cbn [pmatch]. right. split; [|done]. by exists K. }
             exists m', P'. split; [|done]. by rewrite insert_id in L1.
        * subst p. by destruct r.
      + pose proof (Hp a) as Hpa. rewrite Ha in Hpa. destruct (P !! a) as [[c|r]|] eqn:Epa; try done; cbn [pmatch] in Hpa.
        * destruct Hpa as [[]|[_ Hf]].
          destruct (IH m (delete a P) HG' Hv) as (m' & P' & L1 & L2); [by apply Hdel|].
          exists m', P'. split; [|done]. eapply lr_effect; [exact Epa|apply (Hf m (Ok y))|].
          apply lr_ret; [by rewrite lookup_insert|]. by rewrite delete_insert_delete.
        * destruct r as [x|]; [|done]. injection Hpa as ->.
          destruct (IH m (delete a P) HG' Hv) as (m' & P' & L1 & L2); [by apply Hdel|].
          exists m', P'. split; [|done]. by apply lr_ret.
      + pose proof (Hp a) as Hpa. rewrite Ha in Hpa. destruct (P !! a) as [[c|r]|] eqn:Epa; try done; cbn [pmatch] in Hpa.
        * assert (Hf : spec m c (Err er) m) by (destruct Hpa as [Hpa|[_ Hf]]; [by apply (Hpa M)|apply Hf]).
          destruct (IH m (delete a P) HG' Hv) as (m' & P' & L1 & L2); [by apply Hdel|].
          exists m', P'. split; [|done]. eapply lr_effect; [exact Epa|exact Hf|].
          apply lr_ret; [by rewrite lookup_insert|]. by rewrite delete_insert_delete.
        * destruct r as [|er']; [done|]. injection Hpa as ->.
          destruct (IH m (delete a P) HG' Hv) as (m' & P' & L1 & L2); [by apply Hdel|].
          exists m', P'. split; [|done]. by apply lr_ret.
  Qed.
End lin.

(** ** The plain calls *)
Lemma plain_single cfg o : single cfg (plain_call cfg) view (call_prog cfg (CPlain o)) (CPlain o).
Proof.
  destruct o as [k|k|k|k v|k v ex|k v]; cbn [call_prog plain_prog].
  - cbn. intros a M lk M' lk' p' m Hv (-> & _ & ->). eexists (Ok _), m. by rewrite Hv.
  - cbn. intros a M lk M' lk' p' m Hv (-> & _ & ->). eexists (Ok _), m. rewrite Hv. split; [done|]. split; [done|]. cbn. by destruct (m !! k).
  - cbn. intros a M lk M' lk' p' m Hv (-> & _ & ->). eexists (Ok _), (delete k m). rewrite Hv. split; [done|]. split; [by apply view_delete|done].
  - destruct (ensure_sizes k v) as [[]|e] eqn:Es; cbn.
    2:{ intros M m _. by rewrite rejected_ins, Es. }
    intros a M lk M' lk' p' m Hv (-> & H). rewrite rejected_ins, Es. destruct (ins_err cfg (user_key k) v) as [er|].
    + destruct H as [-> ->]. by exists (Err er), m.
    + destruct H as [-> ->]. unfold spec_ins. rewrite Hv. pose proof (view_insert M m k v Hv).
      destruct (m !! k); eexists (Ok _), (<[k := v]> m); done.
  - destruct (ensure_sizes k v) as [[]|e] eqn:Es; cbn.
    2:{ intros M m _. by rewrite rejected_ins, Es. }
    intros a M lk M' lk' p' m Hv (-> & H). rewrite rejected_ins, Es. destruct (ins_err cfg (user_key k) v) as [er|].
    + destruct H as [-> ->]. by exists (Err er), m.
    + destruct H as [-> ->]. unfold spec_ins. rewrite Hv. pose proof (view_insert M m k v Hv).
      destruct (m !! k) as [cur|]; [|by eexists (Ok _), m].
      destruct ex as [ex|]; cbn; [|by eexists (Ok _), _]. case_bool_decide; by eexists (Ok _), _.
  - destruct (ensure_sizes k v) as [[]|e] eqn:Es; cbn.
    2:{ intros M m _. by rewrite rejected_ins, Es. }
    intros a M lk M' lk' p' m Hv (-> & H). rewrite rejected_ins, Es. destruct (ins_err cfg (user_key k) v) as [er|].
    + destruct H as [-> ->]. by exists (Err er), m.
    + destruct H as [-> ->]. unfold spec_ins. rewrite Hv. pose proof (view_insert M m k v Hv). destruct (m !! k); by eexists (Ok _), _.
Qed.
Lemma plain_foreign cfg c : (forall o, c <> CPlain o) -> foreign (plain_call cfg) view (call_prog cfg c) c.
Proof.
  intros Hc. split.
  - exists (call_keys cfg c). split; [apply call_writes|]. intros M M' m Hm Hv k. rewrite Hm; [apply Hv|].
    intros Hk. apply call_keys_user in Hk as (o & -> & _). by apply (Hc o).
  - intros m r. destruct c; try done. by destruct (Hc o).
Qed.
Lemma plain_calls cfg c : True -> single cfg (plain_call cfg) view (call_prog cfg c) c \/ foreign (plain_call cfg) view (call_prog cfg c) c.
Proof.
  intros _. destruct c as [o|tid o|lk c|qk c|b c]; [left; apply plain_single|right; by apply plain_foreign..].
Qed.
