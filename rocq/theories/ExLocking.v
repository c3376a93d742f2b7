(** C55: the three ways to deadlock that C54 excludes; and examples for C54. *)
From Verif Require Import Base Hashing Fs Shard Router Store Kv Api Locking LockInv LockSpec LockLive LockFree ThmLocking.

(** ** Running the machine *)
Definition grantb (st : lstate) (l : lock) (m : lmode) : bool :=
  forallb (fun t => forallb (fun x => negb (bool_decide (x.1 = l)) || compat m x.2) (t_held t)) (s_ths st).
Lemma grantb_sound st l m : grantb st l m = true -> grantable st l m.
Proof.
  intros H b t m' Hb Hm. unfold grantb in H. rewrite forallb_forall in H.
  assert (In t (s_ths st)) as Hin by (by apply elem_of_list_In, elem_of_list_lookup_2 with b).
  specialize (H t Hin). rewrite forallb_forall in H. specialize (H (l, m')). cbn in H.
  rewrite bool_decide_eq_true_2 in H by done. cbn in H. apply H. by apply elem_of_list_In.
Qed.
(** Steps without a choice, for one client (thread 0) and one worker (thread 1), if any. *)
Definition go (pol : policy) (st : lstate) (a : nat) : option lstate :=
  match s_ths st !! a with
  | None => None
  | Some (LT w j h p) =>
    match p with
    | PAcq l m k => if grantb st l m && (bool_decide (m = Ex) || negb (pol st a)) then Some (put st a (LT w j h PEnd) ((l, m) :: h) k) else None
    | PRel l k => match h with (l', _) :: h' => if decide (l' = l) then Some (put st a (LT w j h' PEnd) h' k) else None | [] => None end
    | PTake s k => match s_handle st !! s with
                   | None => Some (put st a (LT w j h PEnd) h k)
                   | Some i => Some (put (with_handle st (delete s (s_handle st))) a (LT w j h PEnd) h (PWait i k)) end
    | PBegin s k1 k2 => if decide (s ∈ s_tgt st) then None
                        else match s_handle st !! s with None => Some (put st a (LT w j h PEnd) h k2) | _ => None end
    | PSubmit s k => Some (LS (<[a := LT w j h k]> (s_ths st)) ({[s]} ∪ s_tgt st)
                       (<[s := length (s_jobs st)]> (s_handle st)) (s_jobs st ++ [s])
                       (s_queue st ++ [length (s_jobs st)]) (s_done st))
    | PEnd => if w then match j, h, s_queue st with
              | None, [], i :: q => match s_jobs st !! i with
                  | Some s => Some (LS (<[a := LT true (Some i) [] (job_prog s i)]> (s_ths st)) (s_tgt st)
                       (s_handle st) (s_jobs st) q (s_done st))
                  | None => None end
              | _, _, _ => None end else None
    | _ => None
    end
  end.
Lemma go_sound pol st a st' : go pol st a = Some st' -> lstep pol st a st'.
Proof.
  unfold go. intros H. destruct (s_ths st !! a) as [[w j h p]|] eqn:Ha; [|done].
  destruct p as [|l m k|l k|l k|l k|X k|s k|i k|s k1 k2|i k|s k|s k|i]; try done.
  - destruct w; [|done]. destruct j; [done|]. destruct h; [|done]. destruct (s_queue st) as [|i q] eqn:Hq; [done|].
    destruct (s_jobs st !! i) as [s|] eqn:Hs; [|done]. injection H as <-. by eapply St_job.
  - destruct (grantb st l m) eqn:Hg; [|done]. cbn [andb] in H.
    destruct (bool_decide (m = Ex) || negb (pol st a)) eqn:Hm; [|done]. injection H as <-. eapply St_acq; [done|by apply grantb_sound|].
    intros Hne. rewrite bool_decide_eq_false_2 in Hm by done. by destruct (pol st a).
  - destruct h as [|[l' m] h']; [done|]. destruct (decide (l' = l)) as [->|]; [|done]. injection H as <-. by eapply St_rel.
  - destruct (s_handle st !! s) as [i|] eqn:Hh; injection H as <-; [by eapply St_take|by eapply St_take_none].
  - destruct (decide (s ∈ s_tgt st)) as [|Hs]; [done|]. destruct (s_handle st !! s) as [i|] eqn:Hh; [done|]. injection H as <-. by eapply St_begin_go.
  - injection H as <-. by eapply St_submit.
Qed.

(** parking_lot: a reader waits behind whoever asks for the lock exclusively. *)
Definition asks (l : lock) (t : lthr) : bool :=
  match t_prog t with PAcq l' Ex _ | PUp l' _ => bool_decide (l' = l) | _ => false end.
Definition parking : policy := fun st a =>
  match s_ths st !! a with
  | Some (LT _ _ _ (PAcq l _ _)) => existsb (asks l) (delete a (s_ths st))
  | _ => false
  end.
Lemma asks_spec l t : asks l t = true -> exists k, t_prog t = PAcq l Ex k \/ t_prog t = PUp l k.
Proof.
  unfold asks. destruct (t_prog t) as [|l' [] k| |l' k| | | | | | | | |]; try done; intros H%bool_decide_eq_true; subst l'; eauto.
Qed.
Lemma delete_lookup {A} (l : list A) a x : x ∈ delete a l -> exists b, b <> a /\ l !! b = Some x.
Proof.
  intros Hin. apply elem_of_list_lookup_1 in Hin as [i Hi]. destruct (decide (i < a)%nat).
  - rewrite lookup_delete_lt in Hi by done. exists i. split; [lia|done].
  - rewrite lookup_delete_ge in Hi by lia. exists (S i). split; [lia|done].
Qed.
Lemma parking_reasonable : reasonable parking.
Proof.
  intros st a H. unfold parking in H. destruct (s_ths st !! a) as [[w j h p]|] eqn:Ha; [|done].
  destruct p as [|l m k| | | | | | | | | | |]; try done. apply existsb_exists in H as (t & Hin & Ht).
  apply elem_of_list_In, delete_lookup in Hin as (b & Hba & Hb). apply asks_spec in Ht as (k' & Ht).
  exists (LT w j h (PAcq l m k)), l, m, k, b. split; [done|]. split; [done|]. split; [done|]. by exists t, k'.
Qed.

Ltac forward H a := eapply lr_step in H; [|apply (go_sound _ _ a); reflexivity]; unfold put, with_handle in H; cbn in H.
Ltac choose H a v := eapply lr_step in H; [|eapply (St_choice _ _ a _ _ _ _ _ v); reflexivity]; unfold put, with_handle in H; cbn in H.

(** A [set] that finds much waste in its shard. *)
Definition ex_call : call := CPlain (OSet [] []).
Lemma set_prog fa cfg : exists K : option ins_status -> lprog, K (Some SAdded) = PEnd /\
  tr fa None (call_prog cfg ex_call) = PChoice (fun x : N * irun => let '(id, r) := x in ins_prog fa 0 false id r (PChoice K)).
Proof. eexists. split; [|reflexivity]. reflexivity. Qed.

Notation s0 := ((0, 0) : sid).
Ltac run_set fa cfg H :=
  let K := fresh "K" in let HK := fresh "HK" in let HP := fresh "HP" in
  destruct (set_prog fa cfg) as (K & HK & HP);
  eapply lr_call in H; [|eapply (Sc _ _ _ _ 0%nat); [reflexivity|apply (op_call _ _ _ ex_call)]];
  rewrite HP in H; unfold put in H; cbn in H; choose H 0%nat (0, ILeaf s0 0 true);
  forward H 0%nat; forward H 0%nat; forward H 0%nat; forward H 0%nat;
  match fa with true => choose H 0%nat false | _ => idtac end;
  forward H 0%nat; forward H 0%nat; forward H 0%nat; choose H 0%nat false;
  forward H 0%nat; forward H 0%nat; forward H 0%nat; forward H 0%nat; forward H 0%nat;
  choose H 0%nat (Some SAdded); rewrite HK in H; clear K HK HP.
Lemma after_set fa cfg mr (w : bool) :
  lreach fa cfg mr parking 1 (if w then 1 else 0)
    (LS (LT false None [] PEnd :: if w then [LT true None [] PEnd] else []) ({[s0]} ∪ ∅) (<[s0 := 0%nat]> ∅) [s0] [0%nat] ∅).
Proof.
  pose proof (lr_start fa cfg mr parking 1 (if w then 1 else 0)) as H. unfold lstart in H. cbn in H.
  destruct w; cbn in H; destruct fa.
  - run_set true cfg H. exact H.
  - run_set false cfg H. exact H.
  - run_set true cfg H. exact H.
  - run_set false cfg H. exact H.
Qed.

(** What a thread that can go on has to meet. *)
Definition enabled (pol : policy) (st : lstate) (a : nat) (t : lthr) : Prop :=
  match t_prog t with
  | PAcq l m _ => grantable st l m /\ (m <> Ex -> pol st a = false)
  | PUp l _ => forall b u m', b <> a -> s_ths st !! b = Some u -> (l, m') ∉ t_held u
  | PWait i _ | PWaitPast i _ => i ∈ s_done st
  | PEnd => t_worker t = true /\ s_queue st <> []
  | _ => True
  end.
Lemma step_enabled pol st a : can_step pol st a -> exists t, s_ths st !! a = Some t /\ enabled pol st a t.
Proof.
  intros [st' Hs]. destruct Hs; eexists; (split; [eassumption|]); try done; cbn.
  split; [done|]. intros E. congruence.
Qed.

(** Nobody can go on, and a call is in progress. *)
Definition deadlock (pol : policy) (st : lstate) : Prop :=
  in_progress st 0 /\ is_client st 0 /\ forall a, ~ can_step pol st a.

(** ** Without compaction threads (Config::num_compaction_threads = 0, lib.rs:111) *)
Lemma set_then_stats cfg mr (w : bool) : exists st,
  lreach false cfg mr parking 1 (if w then 1 else 0) st /\
  s_ths st = LT false None [(LHandle s0, Ex); (LNode 0 false 0, Sh)]
        (PWait 0 (PRel (LHandle s0) (PAcq (LFiles s0) Sh (PRel (LFiles s0) (PRel (LNode 0 false 0) (both_stats PEnd)))))) ::
      (if w then [LT true None [] PEnd] else []) /\
  s_queue st = [0%nat] /\ s_done st = ∅ /\ s_jobs st = [s0].
Proof.
  pose proof (after_set false cfg mr w) as H.
  eapply lr_call in H; [|eapply (Sc _ _ _ _ 0%nat); [reflexivity|apply (op_stats _ _ _ (SLeaf 0 s0))]]. unfold put in H; cbn in H.
  destruct w; forward H 0%nat; forward H 0%nat; forward H 0%nat; eexists; (split; [exact H|]); done.
Qed.
Theorem C55_no_compaction_thread_refuted (cfg : config) :
  exists st, lreach false cfg mok parking 1 0 st /\ deadlock parking st.
Proof.
  destruct (set_then_stats cfg mok false) as (st & Hr & Hths & Hq & Hd & Hj). exists st. split; [exact Hr|].
  split; [|split].
  - eexists. rewrite Hths. split; [reflexivity|]. done.
  - eexists. rewrite Hths. split; [reflexivity|]. done.
  - intros a Hs. apply step_enabled in Hs as (t & Ha & He). rewrite Hths in Ha. destruct a as [|a]; cbn in Ha; [|done].
    injection Ha as <-. cbn in He. rewrite Hd in He. by apply not_elem_of_empty in He.
Qed.

(** ** With flush_aggregation: the writer asks for the files lock again while a compaction that is about to finish
    asks to upgrade it *)
Lemma worker_rows cfg mr (s : sid) n : forall st,
  lreach true cfg mr parking 1 1 st ->
  s_ths st = [LT false None [] PEnd; LT true (Some 0%nat) [(LFiles s, Upg)] (job_rows s 0 n)] ->
  exists st', lreach true cfg mr parking 1 1 st' /\
    s_ths st' = [LT false None [] PEnd; LT true (Some 0%nat) [(LFiles s, Upg)] (job_rows s 0 0)].
Proof.
  induction n as [|n IH]; intros st Hr Hths; [by exists st|].
  destruct st as [ths tg hd jb q dn]. cbn in Hths. subst ths. cbn [job_rows] in Hr.
  eapply lr_step in Hr; [|eapply (St_choice _ _ 1%nat _ _ _ _ _ false); reflexivity]. unfold put in Hr. cbn [s_ths s_tgt s_handle s_jobs s_queue s_done t_worker t_job] in Hr.
  eapply lr_step in Hr; [|apply (go_sound _ _ 1%nat); unfold go; cbn -[NUM_ROWS Nat.sub]; reflexivity].
  eapply lr_step in Hr; [|apply (go_sound _ _ 1%nat); unfold go; cbn -[NUM_ROWS Nat.sub]; rewrite decide_True by done; reflexivity].
  eapply IH; [exact Hr|]. reflexivity.
Qed.
Theorem C55_flush_aggregation_refuted (cfg : config) :
  exists st, lreach true cfg mok parking 1 1 st /\ deadlock parking st.
Proof.
  pose proof (after_set true cfg mok true) as H. cbv iota in H.
  eapply lr_step in H; [|apply (go_sound _ _ 1%nat); reflexivity]. cbn -[job_rows NUM_ROWS] in H. unfold job_prog in H.
  eapply lr_step in H; [|apply (go_sound _ _ 1%nat); unfold go; cbn -[job_rows NUM_ROWS]; reflexivity].
  unfold put in H. cbn -[job_rows NUM_ROWS] in H.
  destruct (worker_rows cfg mok s0 NUM_ROWS _ H eq_refl) as (st & Hr & Hths). clear H.
  destruct st as [ths tg hd jb q dn]. cbn in Hths. subst ths. rename Hr into H.
  choose H 1%nat false.
  (* the client, up to its second request *)
  destruct (set_prog true cfg) as (K & HK & HP).
  eapply lr_call in H; [|eapply (Sc _ _ _ _ 0%nat); [reflexivity|apply (op_call _ _ _ ex_call)]].
  rewrite HP in H; unfold put in H; cbn in H. choose H 0%nat (0, ILeaf s0 0 false).
  forward H 0%nat. forward H 0%nat. forward H 0%nat. forward H 0%nat. choose H 0%nat true. forward H 0%nat. choose H 0%nat false.
  (* the worker, up to the upgrade *)
  forward H 1%nat. forward H 1%nat.
  eexists. split; [exact H|]. split; [|split].
  - eexists. split; [reflexivity|]. done.
  - eexists. split; [reflexivity|]. done.
  - intros a Hs. apply step_enabled in Hs as (t & Ha & He). destruct a as [|[|a]]; cbn in Ha; [| |done]; injection Ha as <-; cbn in He.
    + destruct He as [_ He]. discriminate He. done.
    + eapply (He 0%nat _ Sh); [done|reflexivity|]. cbn. apply elem_of_list_further, elem_of_list_here.
Qed.

(** ** A merge of a leaf with a vertex whose halves were merged (router.rs:432-438; see also C06) *)
Theorem C55_merge_refuted (cfg : config) :
  exists st, lreach false cfg (fun _ => True) parking 1 1 st /\ deadlock parking st.
Proof.
  pose proof (lr_start false cfg (fun _ => True) parking 1 1) as H. unfold lstart in H. cbn in H.
  eapply lr_call in H; [|eapply (Sc _ _ _ _ 0%nat); [reflexivity|
    apply (op_merge _ _ _ (SVertex 0 (SLeaf 1 (0, 0)) (SVertex 2 (SLeaf 3 (32768, 0)) (SLeaf 4 (49152, 0)))) 0
      (MLeafVertex 1 2 (MLeaves 3 4 (32768, 0) (49152, 0) MMerged) false) [] (SLeaf 0 (0, 1)) Logic.I)]].
  unfold put in H. cbn in H.
  do 62 (try (forward H 0%nat)).
  eexists. split; [exact H|]. split; [|split].
  - eexists. split; [reflexivity|]. done.
  - eexists. split; [reflexivity|]. done.
  - intros a Hs. apply step_enabled in Hs as (t & Ha & He). destruct a as [|[|a]]; cbn in Ha; [| |done]; injection Ha as <-; cbn in He.
    + destruct He as [He _]. specialize (He 0%nat _ Ex eq_refl). discriminate He. cbn. apply elem_of_list_further, elem_of_list_here.
    + destruct He as [_ He]. done.
Qed.

(** ** C54 at work: a client waits for a compaction that is still in the queue of the pool; it cannot
    go on, and the idle worker it waits for can *)
Example C54_example (cfg : config) : exists st,
  lreach false cfg mok parking 1 1 st /\ in_progress st 0 /\ ~ can_step parking st 0 /\
  waits_for parking st 0 1 /\ can_step parking st 1.
Proof.
  destruct (set_then_stats cfg mok true) as (st & Hr & Hths & Hq & Hd & Hj). exists st. split; [exact Hr|]. split; [|split; [|split]].
  - eexists. rewrite Hths. split; [reflexivity|]. done.
  - intros Hs. apply step_enabled in Hs as (t & Ha & He). rewrite Hths in Ha. cbn in Ha.
    injection Ha as <-. cbn in He. rewrite Hd in He. by apply not_elem_of_empty in He.
  - eapply (wf_pool _ _ _ _ _ 0%nat); [by rewrite Hths|by left|rewrite Hq; apply elem_of_list_here|].
    eexists. rewrite Hths. split; [reflexivity|]. done.
  - eexists. eapply (St_job _ _ _ 0%nat []); [by rewrite Hths|done|by rewrite Hj].
Qed.
