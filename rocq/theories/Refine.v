(** Calls and background work only ever refine the division of the selectors into shards. *)
From Verif Require Import Base Hashing Fs Shard Router RouterPure Store Kv Api Spec Limits Hist.
Implicit Types (cfg : config) (s : store) (w : fs) (sh : shard) (r : router).

(** All results of a program satisfy [P], whatever the effects return. *)
Fixpoint outs {A} (P : A -> Prop) (p : prog A) : Prop :=
  match p with
  | Ret a => P a
  | Fail _ => True
  | Vis e k => forall x, outs P (k x)
  end.
Lemma outs_run {A} (P : A -> Prop) (p : prog A) : forall w w' a, outs P p -> run p w = (w', Ok a) -> P a.
Proof.
  induction p as [a|e|X e k IH]; intros w w' b Ho Hr; cbn [run outs] in *.
  - by injection Hr as _ <-.
  - done.
  - destruct (run_eff e w) as [w1 x]. by eapply IH.
Qed.
Lemma outs_bind {A B} (P : A -> Prop) (Q : B -> Prop) (p : prog A) (f : A -> prog B) :
  outs P p -> (forall a, P a -> outs Q (f a)) -> outs Q (pbind p f).
Proof.
  intros Hp Hf. induction p as [a|e|X e k IH]; cbn [outs pbind] in *; [by apply Hf|done|]. intros x. by apply IH.
Qed.
Lemma outs_true {A} (p : prog A) : outs (fun _ => True) p.
Proof. induction p; cbn; auto. Qed.
Lemma outs_bind' {A B} (Q : B -> Prop) (p : prog A) (f : A -> prog B) :
  (forall a, outs Q (f a)) -> outs Q (pbind p f).
Proof. intros Hf. eapply outs_bind; [apply outs_true|]. auto. Qed.
Lemma outs_mono {A} (P Q : A -> Prop) (p : prog A) : (forall a, P a -> Q a) -> outs P p -> outs Q p.
Proof. intros H. induction p; cbn; auto. Qed.

Definition spans_ok r : Prop := forall sh, In sh (leaves r) -> sh_start sh <= sh_end sh.
(** Every shard of [r'] lies within a shard of [r]. *)
Definition within r r' : Prop := forall sh', In sh' (leaves r') -> exists sh, In sh (leaves r) /\ sh_start sh <= sh_start sh' /\ sh_end sh' <= sh_end sh.
Definition finer r r' : Prop := spans_ok r -> spans_ok r' /\ within r r'.
Lemma finer_refl r : finer r r.
Proof. intros H0. split; [done|]. intros sh H. exists sh. split; [done|]. lia. Qed.
Lemma finer_trans r1 r2 r3 : finer r1 r2 -> finer r2 r3 -> finer r1 r3.
Proof.
  intros H1 H2 Hs. destruct (H1 Hs) as [K1 W1]. destruct (H2 K1) as [K2 W2]. split; [done|].
  intros sh3 H. destruct (W2 _ H) as (sh2 & G2 & ?). destruct (W1 _ G2) as (sh1 & G1 & ?). exists sh1. split; [done|]. lia.
Qed.
Lemma finer_vertex b t b' t' : finer b b' -> finer t t' -> finer (RVertex b t) (RVertex b' t').
Proof.
  intros H1 H2 Hs. destruct H1 as [K1 W1]; [intros sh H; apply Hs; apply in_app_iff; by left|].
  destruct H2 as [K2 W2]; [intros sh H; apply Hs; apply in_app_iff; by right|]. split.
  - intros sh H. apply in_app_iff in H as [H|H]; [by apply K1|by apply K2].
  - intros sh H. cbn [leaves] in *. apply in_app_iff in H as [H|H]; [destruct (W1 _ H) as (q & ? & ?)|destruct (W2 _ H) as (q & ? & ?)];
    exists q; (split; [apply in_app_iff; auto|done]).
Qed.
Definition same_span sh sh' : Prop := sh_start sh' = sh_start sh /\ sh_end sh' = sh_end sh.
Lemma finer_leaf sh sh' : same_span sh sh' -> finer (RLeaf sh) (RLeaf sh').
Proof.
  intros [E1 E2] Hs. pose proof (Hs sh (or_introl eq_refl)). split; intros q [<-|[]]; [lia|].
  exists sh. split; [by left|]. lia.
Qed.

Lemma begin_span cfg sh n : outs (same_span sh) (begin_compaction cfg sh n).
Proof.
  unfold begin_compaction. apply outs_bind'. intros f. case_match; [done|]. case_match; [done|].
  apply outs_bind'. intros t. apply outs_bind'. intros _. done.
Qed.
Lemma insert_span cfg sh ph k v mode : outs (fun x => same_span sh (fst x)) (shard_insert cfg sh ph k v mode).
Proof.
  unfold shard_insert. apply outs_bind'. intros w. apply outs_bind'. intros [i f].
  case_match.
  - apply outs_bind'. intros st. done.
  - case_match; [|case_match; [done|]].
    + apply outs_bind'. intros st. eapply outs_bind; [apply begin_span|]. intros sh' H'. exact H'.
    + apply outs_bind'. intros st. done.
Qed.
Lemma wait_span cfg sh : outs (same_span sh) (wait_compaction cfg sh).
Proof.
  unfold wait_compaction. case_match; [|done]. case_match. apply outs_bind'. intros _.
  unfold finish_compaction. apply outs_bind'. intros _. done.
Qed.
Lemma split_span cfg sh : sh_start sh <= sh_end sh ->
  outs (fun x => sh_start (fst x) = sh_start sh /\ sh_end (fst x) = sh_start (snd x) /\ sh_end (snd x) = sh_end sh /\
     sh_start (fst x) <= sh_end (fst x) <= sh_end (snd x)) (shard_split cfg sh).
Proof.
  intros Hlt. unfold shard_split. eapply outs_bind; [apply wait_span|]. intros sh' [E1 E2].
  do 7 (apply outs_bind'; intros _ || intros ?). cbn. rewrite E1, E2. 
  pose proof (N.div_mod (sh_start sh + sh_end sh) 2 ltac:(lia)). pose proof (N.mod_lt (sh_start sh + sh_end sh) 2 ltac:(lia)). lia.
Qed.

Lemma leaf_insert_finer' cfg ph k v mode fuel : forall sh, sh_start sh <= sh_end sh ->
  outs (fun x => finer (RLeaf sh) (fst x)) (leaf_insert cfg fuel ph k v mode sh).
Proof.
  induction fuel as [|n IH]; intros sh Hle; cbn [leaf_insert]; (eapply outs_bind; [apply insert_span|]); intros [sh' st] [E1 E2]; cbn [fst] in E1, E2;
    (destruct st; try (by apply (finer_leaf sh sh'))); [done|].
  eapply outs_bind; [apply split_span; lia|]. intros [b t] (S1 & S2 & S3 & S4 & S5). cbn [fst snd] in *.
  assert (finer (RLeaf sh) (RVertex (RLeaf b) (RLeaf t))) as H0.
  { intros _. split; intros q Hq; cbn [leaves app] in Hq; [destruct Hq as [<-|[<-|[]]]; lia|].
    exists sh. split; [by left|]. destruct Hq as [<-|[<-|[]]]; lia. }
  case_match; (eapply outs_bind; [apply IH; lia|]); intros [q st] Hq; cbn [fst] in Hq; cbn [outs fst];
    (eapply finer_trans; [exact H0|]); apply finer_vertex; done || apply finer_refl.
Qed.
Lemma outs_imp {A} (H : Prop) (P : A -> Prop) (p : prog A) : (H -> outs P p) -> outs (fun a => H -> P a) p.
Proof. induction p as [a|e|X e k IH]; cbn; [done|done|]. intros Ho x. apply IH. intros h. by apply Ho. Qed.
Lemma leaf_insert_finer cfg ph k v mode fuel sh :
  outs (fun x => finer (RLeaf sh) (fst x)) (leaf_insert cfg fuel ph k v mode sh).
Proof.
  eapply outs_mono; [|apply (outs_imp (sh_start sh <= sh_end sh)), leaf_insert_finer'].
  intros a Ha Hs. apply Ha; [|done]. apply Hs. by left.
Qed.
Lemma on_leaf_finer {A} r sel (f : shard -> prog (router * A)) :
  (forall sh, In sh (leaves r) -> outs (fun x => finer (RLeaf sh) (fst x)) (f sh)) ->
  outs (fun x => finer r (fst x)) (on_leaf r sel f).
Proof.
  induction r as [sh|b IHb t IHt]; intros Hf; cbn [on_leaf].
  - apply Hf. by left.
  - case_match.
    + eapply outs_bind; [apply IHb|]; [intros sh Hs; apply Hf; apply in_app_iff; by left|].
      intros [b' a] H'. cbn [outs fst] in *. apply finer_vertex; [done|apply finer_refl].
    + eapply outs_bind; [apply IHt|]; [intros sh Hs; apply Hf; apply in_app_iff; by right|].
      intros [b' a] H'. cbn [outs fst] in *. apply finer_vertex; [apply finer_refl|done].
Qed.
Lemma insert_finer cfg r k v mode : outs (fun x => finer r (fst x)) (insert_prog cfg r k v mode).
Proof.
  unfold insert_prog. repeat (case_match; [done|]). apply on_leaf_finer. intros sh Hs. apply leaf_insert_finer.
Qed.
Lemma remove_finer cfg r k : outs (fun x => finer r (fst x)) (remove_prog cfg r k).
Proof. unfold remove_prog. apply outs_bind'. intros a. cbn. apply finer_refl. Qed.
Lemma stats_finer cfg r : outs (fun x => finer r (fst x)) (router_stats cfg r).
Proof.
  induction r as [sh|b IHb t IHt]; cbn [router_stats].
  - eapply (outs_bind (fun x => same_span sh (fst x))).
    + unfold shard_get_stats. eapply outs_bind; [apply wait_span|]. intros sh' H. apply outs_bind'. intros f. exact H.
    + intros [sh' st] H. by apply finer_leaf.
  - eapply outs_bind; [exact IHb|]. intros [b' l1] H1. eapply outs_bind; [exact IHt|]. intros [t' l2] H2.
    cbn [outs fst] in *. by apply finer_vertex.
Qed.
Definition no_merge (m : maint) : Prop := match m with MMerge _ => False | _ => True end.
Lemma maint_finer cfg m r : no_merge m -> outs (fun x => finer r (fst x)) (maint_prog cfg m r).
Proof.
  destruct m as [sel|sel| |mf]; intros Hm; cbn [maint_prog]; [| | |done].
  - apply on_leaf_finer. intros sh _. eapply (outs_bind (same_span sh)).
    + unfold bg_row. case_match; [|done]. case_match. apply outs_bind'. intros ft. case_match; [done|]. apply outs_bind'. intros _. done.
    + intros sh' H. by apply finer_leaf.
  - apply on_leaf_finer. intros sh _. eapply (outs_bind (same_span sh)).
    + unfold bg_finish, finish_compaction. case_match; [|done]. case_match. apply outs_bind'. intros ft. case_match; [|done]. apply outs_bind'. intros _. done.
    + intros sh' H. by apply finer_leaf.
  - eapply outs_bind; [apply stats_finer|]. intros [r' l] H. exact H.
Qed.

Lemma exec_finer {A} s (p : prog (router * A)) s' a : outs (fun x => finer (st_root s) (fst x)) p ->
  exec s p = (s', a) -> finer (st_root s) (st_root s').
Proof.
  intros Ho He. unfold exec in He. destruct (run p (st_fs s)) as [w [[r b]|e]] eqn:E; injection He as <- <-.
  - exact (outs_run _ _ _ _ _ Ho E).
  - apply finer_refl.
Qed.

Lemma run_kop_finer {X} cfg (o : kop X) s : finer (st_root s) (st_root (fst (run_kop cfg o s))).
Proof.
  destruct o; cbn [run_kop fst]; try apply finer_refl.
  - unfold insert_raw. destruct (exec s _) as [s' a] eqn:E. eapply exec_finer; [apply insert_finer|exact E].
  - unfold remove_raw. destruct (exec s _) as [s' a] eqn:E. eapply exec_finer; [apply remove_finer|exact E].
Qed.
Lemma krun_finer {A} cfg (p : kprog A) : forall s, finer (st_root s) (st_root (fst (krun cfg p s))).
Proof.
  induction p as [a|e|X o k IH]; intros s; cbn [krun]; try apply finer_refl.
  pose proof (run_kop_finer cfg o s) as H. destruct (run_kop cfg o s) as [s1 [x|e]]; cbn [fst] in *; [|done].
  eapply finer_trans; [exact H|apply IH].
Qed.
(** Calls of any kind, background compaction and statistics. *)
Definition modifies (e : event) : Prop :=
  match e with ECall _ _ => True | EMaint m => no_merge m | _ => False end.
Lemma hstep_finer cfg s e cfg' s' : hstep cfg s e cfg' s' -> modifies e -> finer (st_root s) (st_root s').
Proof.
  intros Hs He. destruct Hs as [cfg s c s' r Hr|cfg s m s' Hm| | |]; try done.
  - pose proof (krun_finer cfg (call_prog cfg c) s) as H. by rewrite Hr in H.
  - eapply exec_finer; [by apply maint_finer|exact Hm].
Qed.
