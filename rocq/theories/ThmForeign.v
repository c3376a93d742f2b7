(** C67: files in the directory that are not the store's. *)
From Verif Require Import Base Hashing Fs Shard Router Store Kv Lists Queues Api Spec Limits Hist Names Foreign ThmStore ExStore.

(** ** Specification *)
(** A file whose name begins with none of the prefixes "shard_", "compact_", "bottom_", "top_", "merge_"
    is an [FOther] of Fs.v; for the files with these prefixes see [C67_reserved_prefixes_refuted]. *)
Definition others_same (w w' : fs) : Prop :=
  (forall n, fs_dir w' !! FOther n = fs_dir w !! FOther n) /\
  (forall n i, fs_dir w !! FOther n = Some i -> fs_files w' !! i = fs_files w !! i).
(** No hard links between a file of the store and another file; new i-nodes are new. *)
Definition separate (w : fs) : Prop :=
  (forall n a i, fs_dir w !! FOther n = Some i -> fs_dir w !! a = Some i -> exists m, a = FOther m) /\
  (forall n i, fs_dir w !! FOther n = Some i -> i < fs_next w).
(** Any history: calls, maintenance, clear, reopening, crashes, each whatever its outcome. *)
Definition any_step (cfg : config) (s : store) (e : event) : Prop := True.

(** ** C67 *)
(** Other files in the directory are left alone: none is created, removed, renamed or changed by opening
    (successful, failing or interrupted at any point), by any history of the store, by a crash at any point
    of it, or by a clear, merge or opening that fails. *)
Theorem C67_other_files_are_left_alone : forall w0, separate w0 ->
  (forall cfg n, others_same w0 (crash_at n (router_new cfg) w0)) /\
  (forall cfg, others_same w0 (fst (store_open cfg w0))) /\
  forall cfg0 w1 s0 es cfg s, store_open cfg0 w0 = (w1, Ok s0) -> hist any_step cfg0 s0 es cfg s ->
    others_same w0 (st_fs s) /\
    (forall a w, dies cfg s a w -> others_same w0 w) /\
    (forall n, others_same w0 (crash_at n (router_clear cfg) (st_fs s))) /\
    (forall cfg' n, others_same w0 (crash_at n (router_new cfg') (st_fs s))) /\
    (forall c, others_same w0 (st_fs (fst (krun cfg (call_prog cfg c) s)))) /\
    (forall m, others_same w0 (st_fs (fst (exec s (maint_prog cfg m (st_root s)))))) /\
    others_same w0 (st_fs (fst (store_clear cfg s))).
Proof.
  intros w0 [H1 H2]. set (F := fun i => exists n, fs_dir w0 !! FOther n = Some i).
  assert (sep F w0) as Hw.
  { split; [|intros i [n Hn]; by eapply H2]. intros a i Ha Ho [n Hn]. by destruct (H1 n a i Hn Ha) as [m ->]. }
  assert (forall w, kept F w0 w -> others_same w0 w) as G.
  { intros w [K1 K2]. split; [done|]. intros n i Hn. apply K2. by exists n. }
  split; [|split].
  - intros cfg n. apply G. by destruct (pok_crash F _ _ (router_new_ok F cfg) w0 n Hw).
  - intros cfg. apply G. destruct (pok_run F _ _ (router_new_ok F cfg) w0 Hw) as (_ & K & _). unfold store_open.
    by destruct (run (router_new cfg) w0) as [w1 [r|e]].
  - intros cfg0 w1 s0 es cfg s E Hh. assert (st_ok F w0 s) as Hs.
    { eapply hist_ok; [exact Hh|]. eapply open_ok; [exact Hw|apply kept_refl|exact E]. }
    pose proof Hs as (S1 & S2 & S3). split; [by apply G|]. split; [|split; [|split; [|split; [|split]]]].
    + intros a w Hd. apply G. by destruct (dies_ok F w0 cfg s a w Hd Hs).
    + intros n. apply G. destruct (pok_crash F _ _ (router_clear_ok F cfg) (st_fs s) n S2) as [_ K]. by eapply kept_trans.
    + intros cfg' n. apply G. destruct (pok_crash F _ _ (router_new_ok F cfg') (st_fs s) n S2) as [_ K]. by eapply kept_trans.
    + intros c. apply G. by destruct (krun_ok F w0 cfg (call_prog cfg c) s Hs) as (_ & _ & K).
    + intros m. apply G. by destruct (exec_ok F w0 s _ Hs (maint_ok F cfg m (st_root s) S1)) as (_ & _ & K).
    + apply G. by destruct (exec_ok F w0 s _ Hs (clear_ok F cfg)) as (_ & _ & K).
Qed.

(** A user's file whose name begins with "bottom_", "top_" or "merge_" is deleted when the store is opened
    ("top_secret"), although no file of the store has such a name; one that begins with "shard_" may make
    the opening panic ("shard_zoo-list"). *)
Theorem C67_reserved_prefixes_refuted : exists str str',
  (forall n, name_string n <> Some str) /\ classify str = NDelete /\
  (forall n, name_string n <> Some str') /\ classify str' = NPanic.
Proof.
  exists [x74;x6f;x70;x5f;x73;x65;x63;x72;x65;x74], [x73;x68;x61;x72;x64;x5f;x7a;x6f;x6f;x2d;x6c;x69;x73;x74].
  assert (forall p s e str, span_name p s e = str -> take (length p) str = p) as Hp.
  { intros p s e str <-. unfold span_name. by rewrite take_app. }
  assert (forall x s e l, hex_val x = None -> hex4 s ++ c_dash :: hex4 e <> x :: l) as Hx.
  { intros x s e l Hx E. pose proof (hex4_hex s) as Hh. rewrite Forall_forall in Hh.
    assert (hex4 s <> []) as Hn.
    { unfold hex4. intros Hn. apply app_nil in Hn as [Hn1 Hn2]. by rewrite Hn2 in Hn1. }
    destruct (hex4 s) as [|z l'] eqn:Es; [done|]. injection E as -> _. destruct (Hh x) as [d Hd]; [by left|]. congruence. }
  split; [|split; [reflexivity|split; [|reflexivity]]].
  - intros n Hn. destruct n as [s e|s e|s e|s e|s e|s]; cbn [name_string] in Hn; try done; apply (inj Some) in Hn; pose proof (Hp _ _ _ _ Hn) as Hq; try discriminate Hq.
    unfold span_name, s_top in Hn. injection Hn as Hn. by apply (Hx x73) in Hn.
  - intros n Hn. destruct n as [s e|s e|s e|s e|s e|s]; cbn [name_string] in Hn; try done; apply (inj Some) in Hn; pose proof (Hp _ _ _ _ Hn) as Hq; try discriminate Hq.
    unfold span_name, s_shard in Hn. injection Hn as Hn. by apply (Hx x7a) in Hn.
Qed.

(** ** The hypotheses are met *)
Fixpoint calls (cfg : config) (s : store) (l : list call) : list event * store :=
  match l with
  | [] => ([], s)
  | c :: l => let '(s1, r) := krun cfg (call_prog cfg c) s in let '(es, s2) := calls cfg s1 l in (ECall c r :: es, s2)
  end.
Lemma calls_hist cfg l : forall s es s', calls cfg s l = (es, s') -> hist any_step cfg s es cfg s'.
Proof.
  induction l as [|c l IH]; intros s es s' E; cbn [calls] in E; [injection E as <- <-; constructor|].
  destruct (krun cfg (call_prog cfg c) s) as [s1 r] eqn:E1. destruct (calls cfg s1 l) as [es1 s2] eqn:E2. injection E as <- <-.
  econstructor; [done|constructor; exact E1|]. by eapply IH.
Qed.
(** A directory with a file of the user's; the store is opened, filled until it splits, and closed. *)
Definition ex_user_file : file := File 3 [] 0 0 0 0 0 0 [] ∅.
Definition ex_dir : fs := Fs {[FOther 7 := 5]} {[5 := ex_user_file]} 6.
Lemma ex_dir_separate : separate ex_dir.
Proof.
  split.
  - intros n a i _ Ha. unfold ex_dir in Ha. cbn [fs_dir] in Ha. apply lookup_singleton_Some in Ha as [<- _]. by exists 7.
  - intros n i Hn. unfold ex_dir in Hn. cbn [fs_dir] in Hn. apply lookup_singleton_Some in Hn as [_ <-]. by vm_compute.
Qed.
Definition ex_calls : list call := map (fun i => CPlain (OSet (xkey (N.of_nat i)) (xval 96 (N.of_nat i)))) (seq 0 12).
Example C67_example : exists w1 s0 es s, separate ex_dir /\ store_open ex_cfg ex_dir = (w1, Ok s0) /\ hist any_step ex_cfg s0 es ex_cfg s /\
  (1 < length (leaves (st_root s)))%nat /\ fs_files (st_fs s) !! 5 = Some ex_user_file.
Proof.
  assert (match store_open ex_cfg ex_dir with
    | (_, Ok s0) => (1 <? length (leaves (st_root (snd (calls ex_cfg s0 ex_calls)))))%nat
    | _ => false end = true) as H by (by vm_cast_no_check (eq_refl true)).
  destruct (store_open ex_cfg ex_dir) as [w1 [s0|]] eqn:E; [|discriminate H].
  destruct (calls ex_cfg s0 ex_calls) as [es s] eqn:E2. apply Nat.ltb_lt in H. cbn [snd] in H.
  exists w1, s0, es, s. split; [exact ex_dir_separate|]. split; [reflexivity|]. split; [exact (calls_hist _ _ _ _ _ E2)|]. split; [exact H|].
  destruct (C67_other_files_are_left_alone ex_dir ex_dir_separate) as (_ & _ & G).
  destruct (G _ _ _ _ _ _ E (calls_hist _ _ _ _ _ E2)) as ((_ & G2) & _). exact (eq_trans (G2 7 5 eq_refl) eq_refl).
Qed.
