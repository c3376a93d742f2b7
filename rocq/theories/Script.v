(** Scripts with crashes between raw operations, and guards. *)
From Verif Require Import Base SipHash Hashing HashingProofs Fs Shard Router RouterPure Wpc Spec FileRep RowOps
  Compact Inv ShardOps Split Insert Open Merge Create Store Limits StoreRefine Kv Lists Queues Api Hist KvSpec
  HistInv Check.
Implicit Types (M : kvmap) (cfg : config) (s : store).

(** [GCrash c i]: the process dies in the call [c] after [i] raw operations; the directory is
    opened again with the same settings. *)
Inductive gcmd := GCmd (c : cmd) | GCrash (c : call) (i : nat).
Fixpoint kprefix {A} (cfg : config) (p : kprog A) (s : store) (M : kvmap) (i : nat) : store * kvmap :=
  match i, p with
  | S i, KVis o k =>
    match run_kop cfg o s with
    | (s', Ok x) => kprefix cfg (k x) s' (kop_map cfg o M) i
    | (s', Err e) => (s, M)
    end
  | _, _ => (s, M)
  end.
Definition gstep (cfg : config) (s : store) (M : kvmap) (g : gcmd) : option (event * config * store * kvmap) :=
  match g with
  | GCmd c => cmd_step cfg s M c
  | GCrash c i =>
    match krun_b cfg (call_prog cfg c) s M with
    | None => None
    | Some _ =>
      let '(s1, M1) := kprefix cfg (call_prog cfg c) s M i in
      if disk_room_b (st_fs s1) then
        match store_open cfg (st_fs s1) with
        | (_, Ok s') => Some (ECrash (ACall c), cfg, s', M1)
        | _ => None
        end
      else None
    end
  end.
Fixpoint gscript (gb : config -> kvmap -> event -> bool) (cfg : config) (s : store) (M : kvmap) (l : list gcmd)
  : option (list event * config * store * kvmap) :=
  match l with
  | [] => Some ([], cfg, s, M)
  | c :: l =>
    match gstep cfg s M c with
    | Some (e, cfg1, s1, M1) =>
      if gb cfg M e then
        match gscript gb cfg1 s1 M1 l with
        | Some (es, cfg', s', M') => Some (e :: es, cfg', s', M')
        | None => None
        end
      else None
    | None => None
    end
  end.

Lemma kprefix_ok {A} cfg x (p : kprog A) : forall s M i r s' M', SInv cfg x M s -> krun_b cfg p s M = Some r ->
  kprefix cfg p s M i = (s', M') -> kdies cfg p s (st_fs s') /\ SInv cfg x M' s'.
Proof.
  induction p as [a|e|X o k IH]; intros s M [|i] r s' M' HI Hr Hk; cbn [kprefix krun_b] in *;
    try (injection Hk as <- <-; split; [constructor|done]).
  destruct (kop_b cfg o s M) eqn:Hb; [|done]. destruct (kop_b_ok cfg x o s M HI Hb) as (H1 & H2 & H3).
  destruct (run_kop cfg o s) as [s1 [y|e]] eqn:E; cbn [fst] in H3.
  - destruct (IH y _ _ _ _ _ _ H3 Hr Hk) as [H4 H5]. split; [by eapply kd_later|done].
  - injection Hk as <- <-. split; [constructor|done].
Qed.

Definition gsame_hash (cfg : config) (g : gcmd) : Prop := match g with GCmd c => same_hash cfg c | _ => True end.
Lemma gstep_ok g cfg s M e cfg' s' M' x : SInv cfg x M s -> gsame_hash cfg g ->
  gstep cfg s M g = Some (e, cfg', s', M') ->
  fits cfg s e /\ hstep cfg s e cfg' s' /\ c_hash cfg' = c_hash cfg /\ exists x', SInv cfg' x' M' s'.
Proof.
  intros HI Hh Hg. destruct g as [c|c i]; cbn [gstep] in Hg.
  - destruct (cmd_step_ok _ _ _ _ _ _ _ _ x HI Hh Hg) as (H1 & H2 & _ & H4 & x1 & H5 & _). eauto.
  - destruct (krun_b cfg (call_prog cfg c) s M) as [[[s1 M1] r]|] eqn:E; [|done].
    destruct (kprefix cfg (call_prog cfg c) s M i) as [s2 M2] eqn:E2.
    destruct (disk_room_b (st_fs s2)) eqn:Hr; [|done]. apply disk_room_b_ok in Hr.
    destruct (store_open cfg (st_fs s2)) as [w3 [s3|]] eqn:E3; [|done]. injection Hg as <- <- <- <-.
    destruct (krun_b_ok cfg x _ _ _ _ _ _ HI E) as (H1 & _ & _).
    destruct (kprefix_ok cfg x _ _ _ _ _ _ _ HI E E2) as [H2 H3].
    split; [done|]. split; [eapply h_crash; [exact H2|done|]; by eapply rec_done|]. split; [done|].
    destruct (open_ok cfg x M2 (st_fs s2)) as (w4 & s4 & Ho & HI4); [by eapply Inv_disk|done|].
    rewrite Ho in E3. injection E3 as _ <-. eauto.
Qed.
Lemma gscript_ok (gb : config -> kvmap -> event -> bool) (G : config -> store -> event -> Prop) :
  (forall cfg s x M e, SInv cfg x M s -> fits cfg s e -> gb cfg M e = true -> G cfg s e) ->
  forall l cfg s M es cfg' s' M' x, SInv cfg x M s -> Forall (gsame_hash cfg) l ->
  gscript gb cfg s M l = Some (es, cfg', s', M') ->
  hist G cfg s es cfg' s' /\ c_hash cfg' = c_hash cfg /\ exists x', SInv cfg' x' M' s'.
Proof.
  intros HG. induction l as [|c l IH]; intros cfg s M es cfg' s' M' x HI Hh Hs; cbn [gscript] in Hs.
  - injection Hs as <- <- <- <-. split; [constructor|]. eauto.
  - destruct (gstep cfg s M c) as [[[[e cfg1] s1] M1]|] eqn:E; [|done].
    destruct (gb cfg M e) eqn:Eg; [|done].
    destruct (gscript gb cfg1 s1 M1 l) as [[[[es1 cfg2] s2] M2]|] eqn:E2; [|done]. injection Hs as <- <- <- <-.
    apply Forall_cons in Hh as [Hh1 Hh2].
    destruct (gstep_ok _ _ _ _ _ _ _ _ x HI Hh1 E) as (H1 & H2 & H4 & x1 & H5).
    assert (Forall (gsame_hash cfg1) l) as Hh3.
    { eapply Forall_impl; [exact Hh2|]. intros [[]|] ?; cbn in *; congruence. }
    destruct (IH _ _ _ _ _ _ _ x1 H5 Hh3 E2) as (H7 & H9 & x2 & H10).
    split; [econstructor; [by eapply HG|done|done]|]. split; [congruence|]. eauto.
Qed.

Definition no_guard (cfg : config) (M : kvmap) (e : event) : bool := true.
(** The events of a script run on a new store. *)
Definition gevents (gb : config -> kvmap -> event -> bool) (cfg : config) (l : list gcmd) : list event :=
  match gscript gb cfg (new_store cfg) ∅ l with Some (es, _, _, _) => es | None => [] end.
Definition gstore (gb : config -> kvmap -> event -> bool) (cfg : config) (l : list gcmd) : store :=
  match gscript gb cfg (new_store cfg) ∅ l with Some (_, _, s, _) => s | None => new_store cfg end.
Definition gmap_after (gb : config -> kvmap -> event -> bool) (cfg : config) (l : list gcmd) : kvmap :=
  match gscript gb cfg (new_store cfg) ∅ l with Some (_, _, _, M) => M | None => ∅ end.
Definition gcfg (gb : config -> kvmap -> event -> bool) (cfg : config) (l : list gcmd) : config :=
  match gscript gb cfg (new_store cfg) ∅ l with Some (_, c, _, _) => c | None => cfg end.
Definition gruns (gb : config -> kvmap -> event -> bool) (cfg : config) (l : list gcmd) : bool :=
  match gscript gb cfg (new_store cfg) ∅ l with Some _ => true | None => false end.
Lemma gscript0_ok (gb : config -> kvmap -> event -> bool) (G : config -> store -> event -> Prop) cfg l :
  (forall cfg s x M e, SInv cfg x M s -> fits cfg s e -> gb cfg M e = true -> G cfg s e) ->
  cfg_ok cfg -> Forall (gsame_hash cfg) l -> gruns gb cfg l = true ->
  created cfg (new_store cfg) /\ hist G cfg (new_store cfg) (gevents gb cfg l) (gcfg gb cfg l) (gstore gb cfg l) /\
  exists x, SInv (gcfg gb cfg l) x (gmap_after gb cfg l) (gstore gb cfg l).
Proof.
  intros HG Hc Hl Hr. pose proof (new_created cfg Hc) as H1. split; [done|].
  unfold gruns, gevents, gcfg, gstore, gmap_after in *.
  destruct (gscript gb cfg (new_store cfg) ∅ l) as [[[[es cfg'] s'] M']|] eqn:E; [|done].
  destruct (gscript_ok gb G HG l cfg (new_store cfg) ∅ es cfg' s' M' true (created_ok _ _ H1) Hl E) as (H2 & _ & H3). auto.
Qed.
Definition call_of (c : call) : gcmd := GCmd (XCall c).
