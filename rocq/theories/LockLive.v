(** The invariant of Locking.v is kept, and it excludes deadlocks. *)
From Verif Require Import Base Hashing Fs Shard Router Store Kv Api ConcLock Locking LockInv LockSpec.

Ltac inv H := inversion H; clear H; subst.
Definition tinv (jobs : list sid) (t : lthr) : Prop :=
  if t_worker t then
    (t_job t = None /\ t_held t = [] /\ t_prog t = PEnd) \/
    (exists j s, t_job t = Some j /\ jobs !! j = Some s /\ jobst j s (t_held t) (t_prog t))
  else t_job t = None /\ cst (t_held t) (t_prog t).
(** What a waiting client knows. *)
Definition aux (st : lstate) (p : lprog) : Prop :=
  match p with
  | PWait j _ => (j < length (s_jobs st))%nat
  | PWaitPast j k => match k with PSubmit s _ => s_jobs st !! j = Some s /\ s ∉ s_tgt st | _ => False end
  | PSubmit s _ => s ∉ s_tgt st
  | _ => True
  end.
Definition active_thr (t : lthr) (j : nat) : Prop := t_job t = Some j /\ t_prog t <> PDone j.
Definition active (st : lstate) (j : nat) : Prop :=
  j ∈ s_queue st \/ exists a t, s_ths st !! a = Some t /\ active_thr t j.
Definition fresh_thr (t : lthr) (j : nat) : Prop := t_job t = Some j /\ t_held t = [] /\ t_prog t <> PDone j.
Definition excl (ths : list lthr) : Prop := forall a b t u l m m', a <> b ->
  ths !! a = Some t -> ths !! b = Some u -> (l, m) ∈ t_held t -> (l, m') ∈ t_held u -> compat m m' = true.
Record linv (st : lstate) : Prop := {
  li_thr : forall a t, s_ths st !! a = Some t -> tinv (s_jobs st) t;
  li_aux : forall a t, s_ths st !! a = Some t -> aux st (t_prog t);
  li_excl : excl (s_ths st);
  li_jobs : forall j, (j < length (s_jobs st))%nat -> j ∈ s_queue st \/ j ∈ s_done st \/
              exists a t, s_ths st !! a = Some t /\ t_job t = Some j;
  li_queue : forall j, j ∈ s_queue st -> (j < length (s_jobs st))%nat;
  li_handle : forall s j, s_handle st !! s = Some j -> s_jobs st !! j = Some s;
  li_act : forall j j' s, active st j -> active st j' -> s_jobs st !! j = Some s -> s_jobs st !! j' = Some s -> j = j';
  li_nodup : NoDup (s_queue st);
  li_place : forall a t j, s_ths st !! a = Some t -> t_job t = Some j -> j ∉ s_queue st;
  li_place2 : forall a b t u j, s_ths st !! a = Some t -> s_ths st !! b = Some u -> t_job t = Some j -> t_job u = Some j -> a = b;
  li_pend : forall j s, s_jobs st !! j = Some s -> j ∈ s_queue st -> s ∈ s_tgt st;
  li_pend2 : forall a t j s, s_ths st !! a = Some t -> s_jobs st !! j = Some s -> fresh_thr t j -> s ∈ s_tgt st
}.

Lemma compat_sym m m' : compat m m' = compat m' m.
Proof. by destruct m, m'. Qed.
Lemma excl_insert ths a t' : excl ths ->
  (forall b u l m m', b <> a -> ths !! b = Some u -> (l, m) ∈ t_held t' -> (l, m') ∈ t_held u -> compat m m' = true) ->
  excl (<[a := t']> ths).
Proof.
  intros He Ha b c t u l m m' Hbc Hb Hc Hm Hm'.
  destruct (decide (b = a)) as [->|Hba].
  - apply list_lookup_insert_Some in Hb as [(_ & <- & _)|(? & _)]; [|done].
    rewrite list_lookup_insert_ne in Hc by done. by eapply Ha.
  - rewrite list_lookup_insert_ne in Hb by done. destruct (decide (c = a)) as [->|Hca].
    + apply list_lookup_insert_Some in Hc as [(_ & <- & _)|(? & _)]; [|done].
      rewrite compat_sym. by eapply Ha.
    + rewrite list_lookup_insert_ne in Hc by done. by eapply (He b c).
Qed.
(** Guards that a thread keeps are compatible with the others'. *)
Lemma excl_keep ths a t t' : excl ths -> ths !! a = Some t -> (forall x, x ∈ t_held t' -> x ∈ t_held t) ->
  excl (<[a := t']> ths).
Proof.
  intros He Hl Hs. apply excl_insert; [done|]. intros b u l m m' Hba Hb Hm Hm'. eapply (He a b); [done|done|done| |done]. by apply Hs.
Qed.
Lemma insert_cases {A} (l : list A) a b x y : <[a := x]> l !! b = Some y -> (b = a /\ y = x) \/ (b <> a /\ l !! b = Some y).
Proof. intros H. apply list_lookup_insert_Some in H as [(-> & <- & _)|(? & ?)]; [by left|by right]. Qed.

(** A step that only changes one thread (and may drop a handle). *)
Lemma linv_put st a t t' hd : linv st -> s_ths st !! a = Some t ->
  t_job t' = t_job t -> t_worker t' = t_worker t -> tinv (s_jobs st) t' -> aux st (t_prog t') ->
  excl (<[a := t']> (s_ths st)) -> hd ⊆ s_handle st ->
  (forall j, active_thr t' j -> active_thr t j) -> (forall j, fresh_thr t' j -> fresh_thr t j) ->
  linv (LS (<[a := t']> (s_ths st)) (s_tgt st) hd (s_jobs st) (s_queue st) (s_done st)).
Proof.
  intros Hi Ha Hj Hw Ht Hx He Hh Hac Hfr. constructor; cbn.
  - intros b u Hb. apply insert_cases in Hb as [[-> ->]|[? Hb]]; [done|]. by eapply li_thr.
  - intros b u Hb. apply insert_cases in Hb as [[-> ->]|[? Hb]]; [done|]. by apply (li_aux st Hi b u Hb).
  - done.
  - intros j Hlt. destruct (li_jobs st Hi j Hlt) as [?|[?|(b & u & Hb & Hu)]]; [by left|by right; left|]. right. right.
    destruct (decide (b = a)) as [->|Hba].
    + exists a, t'. rewrite list_lookup_insert by (by eapply lookup_lt_Some). split; [done|]. rewrite Hj. congruence.
    + exists b, u. by rewrite list_lookup_insert_ne.
  - apply (li_queue st Hi).
  - intros s j Hs. apply (li_handle st Hi). by eapply lookup_weaken.
  - assert (forall j, active (LS (<[a := t']> (s_ths st)) (s_tgt st) hd (s_jobs st) (s_queue st) (s_done st)) j -> active st j) as H.
    { intros j [?|(b & u & Hb & Hu)]; [by left|]. cbn in Hb. right. apply insert_cases in Hb as [[-> ->]|[? Hb]].
      - exists a, t. eauto.
      - by exists b, u. }
    intros j j' s H1 H2. apply (li_act st Hi); by apply H.
  - apply (li_nodup st Hi).
  - intros b u j Hb Hu. apply insert_cases in Hb as [[-> ->]|[? Hb]]; [|by eapply (li_place st Hi)].
    eapply (li_place st Hi); [exact Ha|]. congruence.
  - intros b c u v j Hb Hc Hu Hv.
    assert (exists u', s_ths st !! b = Some u' /\ t_job u' = Some j) as (u' & Hb' & Hu').
    { apply insert_cases in Hb as [[-> ->]|[? Hb]]; [exists t; split; congruence|by exists u]. }
    assert (exists u', s_ths st !! c = Some u' /\ t_job u' = Some j) as (v' & Hc' & Hv').
    { apply insert_cases in Hc as [[-> ->]|[? Hc]]; [exists t; split; congruence|by exists v]. }
    by eapply (li_place2 st Hi).
  - apply (li_pend st Hi).
  - intros b u j s Hb Hs Hf. apply insert_cases in Hb as [[-> ->]|[? Hb]]; [|by eapply (li_pend2 st Hi)].
    eapply (li_pend2 st Hi); [exact Ha|exact Hs|by apply Hfr].
Qed.

(** The running thread of a kind. *)
Lemma tinv_client jobs t : t_worker t = false -> tinv jobs t -> t_job t = None /\ cst (t_held t) (t_prog t).
Proof. unfold tinv. by intros ->. Qed.
(** A worker that holds a lock or has a program is in a job. *)
Lemma tinv_worker jobs t : t_worker t = true -> tinv jobs t -> t_prog t <> PEnd ->
  exists j s, t_job t = Some j /\ jobs !! j = Some s /\ jobst j s (t_held t) (t_prog t).
Proof. unfold tinv. intros ->. intros [(_ & _ & ?)|?]; done. Qed.

(** Steps of a job. *)
Inductive jstep : held -> lprog -> held -> lprog -> Prop :=
| js_acq h l m k : jstep h (PAcq l m k) ((l, m) :: h) k
| js_rel h l m k : jstep ((l, m) :: h) (PRel l k) h k
| js_up h l k : jstep ((l, Upg) :: h) (PUp l k) ((l, Ex) :: h) k
| js_down h l k : jstep ((l, Ex) :: h) (PDown l k) ((l, Upg) :: h) k
| js_choice h X (k : X -> lprog) x : jstep h (PChoice k) h (k x)
| js_clear h s k : jstep h (PClear s k) h k.
Lemma jobst_step j s h p h' p' : jobst j s h p -> jstep h p h' p' -> jobst j s h' p' /\ (h' = [] -> p' = PDone j) /\ p' <> PEnd.
Proof.
  intros [[-> ->]|[(h0 & m & -> & Hj)|[-> ->]]] Hs.
  - unfold job_prog in Hs. inv Hs. split; [|split; [done|by destruct NUM_ROWS]]. right. left. exists [], Upg. split; [done|]. apply jr_rows.
  - assert (forall l m' l0 m0 (h0 : held), (l, m') :: l0 = h0 ++ [(LFiles s, m0)] -> l0 = [] \/ exists h1, l0 = h1 ++ [(LFiles s, m0)]) as Htl.
    { intros l m' l0 m0 [|x h1] Heq; cbn in Heq; inv Heq; [by left|]. right. by eexists. }
    assert (forall h0 m, jr j s (h0 ++ [(LFiles s, m)]) p' -> p' <> PEnd) as Hne by (intros h1 m1 ? ->; done).
    assert (forall (h0 : held) (m : lmode), h0 ++ [(LFiles s, m)] = [] -> p' = PDone j) as Hnn.
    { intros h1 m1 H. by destruct h1. }
    remember (h0 ++ [(LFiles s, m)]) as h eqn:Eh.
    destruct Hs as [h l m' k|h l m' k|h l k|h l k|h X k x|h s' k]; cbn [jr] in Hj.
    + destruct Hj as (_ & _ & Hj). subst h. split; [|split; [done|by eapply (Hne ((l, m') :: h0) m)]].
      right. left. by exists ((l, m') :: h0), m.
    + destruct h as [|x h1].
      * destruct Hj as [_ ->]. split; [by right; right|]. done.
      * destruct Hj as [_ Hj]. destruct (Htl _ _ _ _ _ Eh) as [?|[h2 E2]]; [done|]. rewrite E2 in Hj |- *.
        split; [right; left; by exists h2, m|]. split; [by apply Hnn|by eapply Hne].
    + destruct Hj as (_ & _ & _ & Hj). destruct h0 as [|y h0]; cbn in Eh; inv Eh.
      * split; [right; left; by exists [], Ex|]. split; [done|]. by eapply (Hne [] Ex).
      * split; [right; left; by exists ((l, Ex) :: h0), m|]. split; [done|]. by eapply (Hne ((l, Ex) :: h0) m).
    + destruct Hj as (_ & Hj). destruct h0 as [|y h0]; cbn in Eh; inv Eh.
      * split; [right; left; by exists [], Upg|]. split; [done|]. by eapply (Hne [] Upg).
      * split; [right; left; by exists ((l, Upg) :: h0), m|]. split; [done|]. by eapply (Hne ((l, Upg) :: h0) m).
    + destruct Hj as [_ Hj]. subst h. split; [right; left; by exists h0, m|]. split; [by apply Hnn|]. by eapply Hne.
    + destruct Hj as [_ Hj]. subst h. split; [right; left; by exists h0, m|]. split; [by apply Hnn|]. by eapply Hne.
  - inv Hs.
Qed.

(** Steps of a client that change nothing but its guards: what comes next respects the order. *)
Lemma wr_step h p h' p' : wr h p -> jstep h p h' p' -> wr h' p'.
Proof.
  intros Hw Hs. destruct Hs; cbn [wr] in Hw; try done; by destruct Hw.
Qed.
Lemma aux_wr st h p : wr h p -> aux st p.
Proof. by destruct p. Qed.
Lemma jstep_cst h p h' p' : cst h p -> jstep h p h' p' -> wr h' p'.
Proof. intros Hc Hs. apply (wr_step h p); [|done]. by destruct Hs. Qed.
Lemma jstep_thr jobs st w j h p h' p' : tinv jobs (LT w j h p) -> jstep h p h' p' ->
  tinv jobs (LT w j h' p') /\ aux st p' /\ (forall i, active_thr (LT w j h' p') i -> active_thr (LT w j h p) i) /\
  (forall i, fresh_thr (LT w j h' p') i -> fresh_thr (LT w j h p) i).
Proof.
  intros Ht Hs. assert (p <> PEnd) as Hp by (intros ->; inv Hs).
  assert (forall i, p <> PDone i) as Hd by (intros i ->; inv Hs).
  destruct w; unfold tinv in *; cbn [t_worker t_job t_held t_prog] in *.
  - destruct Ht as [(_ & _ & ?)|(i & s & -> & Hi & Hj)]; [done|].
    destruct (jobst_step i s h p h' p' Hj Hs) as (Hj' & Hnil & Hne). split; [|split; [|split]].
    + right. by exists i, s.
    + destruct Hj' as [[-> ->]|[(? & ? & -> & Hj')|[-> ->]]]; [done| |done]. by destruct p'.
    + intros i' [Hi' _]. split; [done|apply Hd].
    + intros i' (Hi' & Hh & Hq). cbn in *. injection Hi' as <-. by specialize (Hnil Hh).
  - destruct Ht as [-> Hc]. assert (wr h' p') as Hw by by eapply jstep_cst. split; [|split; [|split]].
    + split; [done|]. by apply wr_cst.
    + by eapply aux_wr.
    + by intros i' [? _].
    + by intros i' [? _].
Qed.
Lemma linv_jstep st a w j h p h' p' : linv st -> s_ths st !! a = Some (LT w j h p) -> jstep h p h' p' ->
  excl (<[a := LT w j h' p']> (s_ths st)) ->
  linv (LS (<[a := LT w j h' p']> (s_ths st)) (s_tgt st) (s_handle st) (s_jobs st) (s_queue st) (s_done st)).
Proof.
  intros Hi Ha Hs He. destruct (jstep_thr (s_jobs st) st w j h p h' p' (li_thr st Hi a _ Ha) Hs) as (H1 & H2 & H3 & H4).
  eapply linv_put; try done.
Qed.
(** A step of a client to a state that it may be in. *)
Lemma linv_client st a t h p hd : linv st -> s_ths st !! a = Some t -> t_worker t = false -> h = t_held t ->
  cst h p -> aux st p -> hd ⊆ s_handle st ->
  linv (LS (<[a := LT false None h p]> (s_ths st)) (s_tgt st) hd (s_jobs st) (s_queue st) (s_done st)).
Proof.
  intros Hi Ha Hw -> Hc Hx Hh. pose proof (li_thr st Hi a t Ha) as Ht. apply tinv_client in Ht as [Hj _]; [|done].
  eapply (linv_put st a t); try done.
  - eapply excl_keep; [apply (li_excl st Hi)|done|done].
  - intros i [? _]; done.
  - intros i [? _]; done.
Qed.
(** The instructions only clients have. *)
Lemma client_only jobs w j h p : tinv jobs (LT w j h p) ->
  match p with PTake _ _ | PWait _ _ | PBegin _ _ _ | PWaitPast _ _ | PSubmit _ _ => True | _ => False end ->
  w = false /\ j = None /\ cst h p.
Proof.
  intros Ht Hp. destruct w; unfold tinv in Ht; cbn in Ht; [|by destruct Ht].
  destruct Ht as [(_ & _ & ->)|(i & s & _ & _ & [[_ ->]|[(? & ? & _ & Hj)|[_ ->]]])]; try done. by destruct p.
Qed.
(** ... and those only workers have. *)
Lemma worker_only jobs w j h p : tinv jobs (LT w j h p) ->
  match p with PClear _ _ | PDone _ => True | _ => False end ->
  w = true /\ exists i s, j = Some i /\ jobs !! i = Some s /\ jobst i s h p.
Proof.
  intros Ht Hp. destruct w; unfold tinv in Ht; cbn in Ht.
  - split; [done|]. by destruct Ht as [(_ & _ & ->)|Ht].
  - destruct Ht as [_ Ht]. by destruct p.
Qed.

Lemma linv_submit st a h s k : linv st -> s_ths st !! a = Some (LT false None h (PSubmit s k)) ->
  linv (LS (<[a := LT false None h k]> (s_ths st)) ({[s]} ∪ s_tgt st)
           (<[s := length (s_jobs st)]> (s_handle st)) (s_jobs st ++ [s])
           (s_queue st ++ [length (s_jobs st)]) (s_done st)).
Proof.
  intros Hi Ha. pose proof (li_thr st Hi a _ Ha) as Ht. apply tinv_client in Ht as [_ Hc]; [|done]. cbn in Hc.
  destruct Hc as [Hin Hk]. pose proof (li_aux st Hi a _ Ha) as Hx. cbn in Hx.
  set (n := length (s_jobs st)) in *.
  assert (forall j s', s_jobs st !! j = Some s' -> (s_jobs st ++ [s]) !! j = Some s') as Hold by (intros; by apply lookup_app_l_Some).
  assert (forall j s', (s_jobs st ++ [s]) !! j = Some s' -> (j < n)%nat -> s_jobs st !! j = Some s') as Hold'.
  { intros j s' Hj Hlt. by rewrite lookup_app_l in Hj. }
  assert ((s_jobs st ++ [s]) !! n = Some s) as Hn by (by apply list_lookup_middle).
  assert (forall b u, b <> a -> s_ths st !! b = Some u -> forall m, (LFiles s, m) ∉ t_held u) as Hex.
  { intros b u Hb Hu m Hm. pose proof (li_excl st Hi a b _ u (LFiles s) Ex m (not_eq_sym Hb) Ha Hu Hin Hm) as H. by destruct m. }
  assert (forall b u i, s_ths st !! b = Some u -> t_job u = Some i -> (i < n)%nat) as Hrun.
  { intros b u i Hu Hi'. pose proof (li_thr st Hi b u Hu) as Htu. unfold tinv in Htu. destruct (t_worker u).
    - destruct Htu as [(? & _)|(i' & s' & ? & Hi2 & _)]; [congruence|]. apply lookup_lt_Some in Hi2. by simplify_eq.
    - destruct Htu; congruence. }
  (* no job of this shard is active *)
  assert (forall i, s_jobs st !! i = Some s -> active st i -> False) as Hno.
  { intros i His [Hq|(b & u & Hu & Hju & Hpu)].
    - apply Hx. by eapply (li_pend st Hi).
    - pose proof (li_thr st Hi b u Hu) as Htu. unfold tinv in Htu. destruct (t_worker u); [|destruct Htu; congruence].
      destruct Htu as [(? & _)|(i' & s' & Hi' & Hs' & Hj')]; [congruence|]. assert (i' = i) as -> by congruence.
      assert (s' = s) as -> by congruence. destruct Hj' as [[Hh Hp]|[(h0 & m & Hh & _)|[_ Hp]]].
      + apply Hx. eapply (li_pend2 st Hi b u i s); [done|done|]. split; [done|]. split; [done|]. by rewrite Hp.
      + assert (b <> a) as Hba by (intros ->; rewrite Ha in Hu; injection Hu as <-; done).
        apply (Hex b u Hba Hu m). rewrite Hh. apply elem_of_app. right. by apply elem_of_list_here.
      + done. }
  constructor; cbn.
  - intros b u Hb. apply insert_cases in Hb as [[-> ->]|[Hba Hb]].
    + split; [done|]. by apply wr_cst.
    + pose proof (li_thr st Hi b u Hb) as Htu. unfold tinv in *. destruct (t_worker u); [|done].
      destruct Htu as [?|(i & s' & ? & ? & ?)]; [by left|]. right. exists i, s'. auto.
  - intros b u Hb. apply insert_cases in Hb as [[-> ->]|[Hba Hb]].
    + by eapply aux_wr.
    + pose proof (li_aux st Hi b u Hb) as Hxu. pose proof (li_thr st Hi b u Hb) as Htu.
      assert (forall s', (LFiles s', Ex) ∈ t_held u -> s' <> s) as Hne by (intros s' Hs' ->; by eapply Hex).
      destruct u as [wu ju hu pu]. cbn [t_prog t_held] in *.
      destruct pu as [| | | | | | |i k'| |i k'|s' k'| |]; try done; cbn [aux] in *; cbn [s_jobs s_tgt] in *.
      * rewrite app_length. cbn. fold n. cbn in Hxu. lia.
      * destruct (client_only _ _ _ _ _ Htu Logic.I) as (_ & _ & Hcu). cbn in Hcu.
        destruct k'; try done. destruct Hxu as [Hxu1 Hxu2]. destruct Hcu as [Hcu _]. split; [by apply Hold|].
        apply not_elem_of_union. split; [|done]. apply not_elem_of_singleton. by apply Hne.
      * destruct (client_only _ _ _ _ _ Htu Logic.I) as (_ & _ & Hcu). cbn in Hcu. destruct Hcu as [Hcu _].
        apply not_elem_of_union. split; [|done]. apply not_elem_of_singleton. by apply Hne.
  - eapply excl_keep; [apply (li_excl st Hi)|done|done].
  - intros j. rewrite app_length. cbn. fold n. intros Hj. destruct (decide (j = n)) as [->|Hjn].
    + left. apply elem_of_app. right. by apply elem_of_list_here.
    + destruct (li_jobs st Hi j) as [?|[?|(b & u & Hb & Hu)]]; [unfold n in *; lia|left; apply elem_of_app; by left|by right; left|].
      right. right. assert (b <> a) as Hba by (intros ->; rewrite Ha in Hb; injection Hb as <-; done).
      exists b, u. by rewrite list_lookup_insert_ne.
  - intros j. rewrite app_length. cbn. fold n. intros [Hj|Hj]%elem_of_app.
    + apply (li_queue st Hi) in Hj. unfold n; lia.
    + apply elem_of_list_singleton in Hj. lia.
  - intros s' j. rewrite lookup_insert_Some. intros [[<- <-]|[Hne Hh]]; [done|]. apply Hold. by apply (li_handle st Hi).
  - assert (forall j, active (LS (<[a := LT false None h k]> (s_ths st)) ({[s]} ∪ s_tgt st) (<[s := n]> (s_handle st)) (s_jobs st ++ [s])
           (s_queue st ++ [n]) (s_done st)) j -> j = n \/ ((j < n)%nat /\ active st j)) as Hact.
    { intros j [Hj|(b & u & Hb & Hu & Hp)]; cbn in *.
      - apply elem_of_app in Hj as [Hj|Hj]; [right|left; by apply elem_of_list_singleton in Hj].
        split; [by apply (li_queue st Hi)|by left].
      - right. apply insert_cases in Hb as [[-> ->]|[Hba Hb]]; [done|]. split; [by eapply Hrun|]. right. by exists b, u. }
    intros j j' s' Hj Hj' Hs Hs'. apply Hact in Hj as [->|[Hlt Hj]]; apply Hact in Hj' as [->|[Hlt' Hj']]; [done| | |].
    + exfalso. rewrite Hn in Hs. injection Hs as <-. by eapply Hno; [eapply Hold'|].
    + exfalso. rewrite Hn in Hs'. injection Hs' as <-. by eapply (Hno j); [eapply Hold'|].
    + eapply (li_act st Hi j j' s'); [done|done|by apply Hold'|by apply Hold'].
  - apply NoDup_app. split; [apply (li_nodup st Hi)|]. split; [|apply NoDup_singleton].
    intros j Hj Hj'. apply elem_of_list_singleton in Hj' as ->. apply (li_queue st Hi) in Hj. unfold n in *. lia.
  - intros b u j Hb Hu Hj. apply insert_cases in Hb as [[-> ->]|[Hba Hb]]; [done|].
    apply elem_of_app in Hj as [Hj|Hj]; [by eapply (li_place st Hi)|]. apply elem_of_list_singleton in Hj as ->.
    apply (Hrun b u n Hb) in Hu. lia.
  - intros b c u v j Hb Hc Hu Hv. apply insert_cases in Hb as [[-> ->]|[Hba Hb]]; [done|].
    apply insert_cases in Hc as [[-> ->]|[Hca Hc]]; [done|]. by eapply (li_place2 st Hi).
  - intros j s' Hs' Hj. apply elem_of_app in Hj as [Hj|Hj].
    + apply elem_of_union. right. eapply (li_pend st Hi); [|done]. apply Hold'; [done|]. by apply (li_queue st Hi).
    + apply elem_of_list_singleton in Hj as ->. rewrite Hn in Hs'. injection Hs' as <-. set_solver.
  - intros b u j s' Hb Hs' Hf. apply insert_cases in Hb as [[-> ->]|[Hba Hb]]; [by destruct Hf|].
    apply elem_of_union. right. eapply (li_pend2 st Hi b u j); [done| |done]. apply Hold'; [done|].
    destruct Hf as [Hf _]. by eapply Hrun.
Qed.

Lemma linv_clear st a i h s k : linv st -> s_ths st !! a = Some (LT true (Some i) h (PClear s k)) ->
  linv (LS (<[a := LT true (Some i) h k]> (s_ths st)) (s_tgt st ∖ {[s]}) (s_handle st) (s_jobs st) (s_queue st) (s_done st)).
Proof.
  intros Hi Ha. pose proof (li_thr st Hi a _ Ha) as Ht.
  destruct (worker_only _ _ _ _ _ Ht Logic.I) as (_ & i' & s' & Hi' & Hs' & Hj). injection Hi' as <-.
  destruct Hj as [[_ ?]|[(h0 & m & -> & Hj)|[_ ?]]]; [done| |done]. cbn [jr] in Hj. destruct Hj as [<- Hj].
  assert (jstep (h0 ++ [(LFiles s, m)]) (PClear s k) (h0 ++ [(LFiles s, m)]) k) as Hst by constructor.
  assert (excl (<[a := LT true (Some i) (h0 ++ [(LFiles s, m)]) k]> (s_ths st))) as He.
  { eapply excl_keep; [apply (li_excl st Hi)|done|done]. }
  pose proof (linv_jstep st a _ _ _ _ _ _ Hi Ha Hst He) as Hi2.
  destruct Hi2 as [H1 H2 H3 H4 H5 H6 H7 H8 H9 H10 H11 H12]; cbn in *.
  assert (active st i) as Hai by (right; exists a, (LT true (Some i) (h0 ++ [(LFiles s, m)]) (PClear s k)); done).
  constructor; cbn; try done.
  - intros b u Hb. specialize (H2 b u Hb). destruct (t_prog u) as [| | | | | | | | |j k'|s' k'| |]; cbn in *; try done.
    + destruct k'; try done. set_solver.
    + set_solver.
  - intros j s' Hs1 Hq. assert (s' <> s) as Hne.
    { intros ->. assert (j = i) as -> by (eapply (li_act st Hi); [by left|done|done|done]). by eapply (li_place st Hi a). }
    specialize (H11 j s' Hs1 Hq). set_solver.
  - intros b u j s' Hb Hs1 Hf. assert (s' <> s) as Hne.
    { intros ->. apply insert_cases in Hb as [[-> ->]|[Hba Hb]].
      - destruct Hf as (_ & Hf & _). cbn in Hf. by destruct h0.
      - assert (active st j) as Haj by (right; exists b, u; destruct Hf as (? & _ & ?); done).
        assert (j = i) as -> by (eapply (li_act st Hi); done). destruct Hf as [Hf _].
        apply Hba. by eapply (li_place2 st Hi b a). }
    specialize (H12 b u j s' Hb Hs1 Hf). set_solver.
Qed.

Lemma linv_done st a w j h i : linv st -> s_ths st !! a = Some (LT w j h (PDone i)) ->
  linv (LS (<[a := LT w None h PEnd]> (s_ths st)) (s_tgt st) (s_handle st) (s_jobs st) (s_queue st) ({[i]} ∪ s_done st)).
Proof.
  intros Hi Ha. pose proof (li_thr st Hi a _ Ha) as Ht.
  destruct (worker_only _ _ _ _ _ Ht Logic.I) as (-> & i' & s' & -> & Hs' & Hj).
  assert (h = [] /\ i' = i) as [-> ->].
  { destruct Hj as [[_ ?]|[(h0 & m & _ & Hj)|[-> Hp]]]; [done|done|]. injection Hp as ->. done. }
  constructor; cbn.
  - intros b u Hb. apply insert_cases in Hb as [[-> ->]|[Hba Hb]]; [by left|]. by eapply (li_thr st Hi).
  - intros b u Hb. apply insert_cases in Hb as [[-> ->]|[Hba Hb]]; [done|]. by apply (li_aux st Hi b u Hb).
  - eapply excl_keep; [apply (li_excl st Hi)|done|done].
  - intros j Hlt. destruct (decide (j = i)) as [->|Hji]; [right; left; set_solver|].
    destruct (li_jobs st Hi j Hlt) as [?|[?|(b & u & Hb & Hu)]]; [by left|right; left; set_solver|]. right. right.
    exists b, u. rewrite list_lookup_insert_ne; [done|]. intros <-. rewrite Ha in Hb. injection Hb as <-. cbn in Hu. congruence.
  - apply (li_queue st Hi).
  - apply (li_handle st Hi).
  - intros j j' s H1 H2. apply (li_act st Hi).
    + destruct H1 as [?|(b & u & Hb & Hu)]; [by left|]. right. cbn in Hb. apply insert_cases in Hb as [[-> ->]|[Hba Hb]]; [by destruct Hu|]. by exists b, u.
    + destruct H2 as [?|(b & u & Hb & Hu)]; [by left|]. right. cbn in Hb. apply insert_cases in Hb as [[-> ->]|[Hba Hb]]; [by destruct Hu|]. by exists b, u.
  - apply (li_nodup st Hi).
  - intros b u j Hb Hu. apply insert_cases in Hb as [[-> ->]|[Hba Hb]]; [done|]. by eapply (li_place st Hi).
  - intros b c u v j Hb Hc Hu Hv. apply insert_cases in Hb as [[-> ->]|[Hba Hb]]; [done|].
    apply insert_cases in Hc as [[-> ->]|[Hca Hc]]; [done|]. by eapply (li_place2 st Hi).
  - apply (li_pend st Hi).
  - intros b u j s Hb Hs Hf. apply insert_cases in Hb as [[-> ->]|[Hba Hb]]; [by destruct Hf|]. by eapply (li_pend2 st Hi).
Qed.

Lemma linv_job st a i q s : linv st -> s_ths st !! a = Some (LT true None [] PEnd) -> s_queue st = i :: q -> s_jobs st !! i = Some s ->
  linv (LS (<[a := LT true (Some i) [] (job_prog s i)]> (s_ths st)) (s_tgt st) (s_handle st) (s_jobs st) q (s_done st)).
Proof.
  intros Hi Ha Hq Hs. assert (i ∈ s_queue st) as Hiq by (rewrite Hq; by apply elem_of_list_here).
  assert (forall j, j ∈ q -> j ∈ s_queue st) as Hsub by (intros j Hj; rewrite Hq; by apply elem_of_list_further).
  pose proof (li_nodup st Hi) as Hnd. rewrite Hq in Hnd. apply NoDup_cons in Hnd as [Hni Hnd].
  assert (forall j, active (LS (<[a := LT true (Some i) [] (job_prog s i)]> (s_ths st)) (s_tgt st) (s_handle st) (s_jobs st) q (s_done st)) j -> active st j) as Hact.
  { intros j [Hj|(b & u & Hb & Hu)]; cbn in *; [left; by apply Hsub|]. apply insert_cases in Hb as [[-> ->]|[Hba Hb]].
    - destruct Hu as [Hu _]. cbn in Hu. injection Hu as <-. by left.
    - right. by exists b, u. }
  constructor; cbn.
  - intros b u Hb. apply insert_cases in Hb as [[-> ->]|[Hba Hb]]; [|by eapply (li_thr st Hi)]. right. exists i, s. split; [done|]. split; [done|]. apply jobst_start.
  - intros b u Hb. apply insert_cases in Hb as [[-> ->]|[Hba Hb]]; [done|]. by apply (li_aux st Hi b u Hb).
  - eapply excl_keep; [apply (li_excl st Hi)|done|done].
  - intros j Hlt. destruct (decide (j = i)) as [->|Hji].
    { right. right. exists a, (LT true (Some i) [] (job_prog s i)). rewrite list_lookup_insert by (by eapply lookup_lt_Some). done. }
    destruct (li_jobs st Hi j Hlt) as [Hj|[?|(b & u & Hb & Hu)]].
    + left. rewrite Hq in Hj. apply elem_of_cons in Hj as [?|?]; done.
    + by right; left.
    + right. right. exists b, u. rewrite list_lookup_insert_ne; [done|]. intros <-. rewrite Ha in Hb. injection Hb as <-. done.
  - intros j Hj. by apply (li_queue st Hi), Hsub.
  - apply (li_handle st Hi).
  - intros j j' s' H1 H2. apply (li_act st Hi); by apply Hact.
  - done.
  - intros b u j Hb Hu Hj. apply insert_cases in Hb as [[-> ->]|[Hba Hb]].
    + cbn in Hu. injection Hu as <-. done.
    + by eapply (li_place st Hi b u j Hb Hu), Hsub.
  - intros b c u v j Hb Hc Hu Hv. apply insert_cases in Hb as [[-> ->]|[Hba Hb]]; apply insert_cases in Hc as [[-> ->]|[Hca Hc]]; [done| | |].
    + cbn in Hu. injection Hu as <-. exfalso. by eapply (li_place st Hi c v i Hc Hv).
    + cbn in Hv. injection Hv as <-. exfalso. by eapply (li_place st Hi b u i Hb Hu).
    + by eapply (li_place2 st Hi).
  - intros j s' Hs' Hj. eapply (li_pend st Hi); [done|]. by apply Hsub.
  - intros b u j s' Hb Hs' Hf. apply insert_cases in Hb as [[-> ->]|[Hba Hb]]; [|by eapply (li_pend2 st Hi)].
    destruct Hf as [Hf _]. cbn in Hf. injection Hf as <-. by eapply (li_pend st Hi).
Qed.

Lemma linv_step pol st a st' : linv st -> lstep pol st a st' -> linv st'.
Proof.
  intros Hi Hs. destruct Hs as [w j h l m k Ha Hg Hp|w j h l m k Ha|w j h l k Ha Ho|w j h l k Ha|w j h X k x Ha
    |w j h s k Ha Hn|w j h s k i Ha Hn|w j h i k Ha Hd|w j h s k1 k2 Ha Htg Hh|w j h s k1 k2 i Ha Htg Hh Hd
    |w j h s k1 k2 Ha Htg Hh|w j h s k1 k2 i Ha Htg Hh|w j h i k Ha Hd|w j h s k Ha|w j h s k Ha|w j h i Ha|i q s Ha Hq Hs];
    unfold put, with_handle; cbn [s_ths s_tgt s_handle s_jobs s_queue s_done t_worker t_job];
    try (pose proof (client_only _ _ _ _ _ (li_thr st Hi a _ Ha) Logic.I) as (-> & -> & Hc); cbn in Hc).
  - eapply linv_jstep; [done|done|constructor|]. apply excl_insert; [apply (li_excl st Hi)|].
    intros b u l' m1 m2 Hba Hb Hm1 Hm2. cbn in Hm1. apply elem_of_cons in Hm1 as [Hm1|Hm1].
    + injection Hm1 as -> ->. by eapply Hg.
    + by eapply (li_excl st Hi a b).
  - eapply linv_jstep; [done|done|constructor|]. eapply excl_keep; [apply (li_excl st Hi)|done|].
    intros x Hx. by apply elem_of_list_further.
  - eapply linv_jstep; [done|done|constructor|]. apply excl_insert; [apply (li_excl st Hi)|].
    intros b u l' m1 m2 Hba Hb Hm1 Hm2. cbn in Hm1. apply elem_of_cons in Hm1 as [Hm1|Hm1].
    + injection Hm1 as -> ->. exfalso. by eapply Ho.
    + eapply (li_excl st Hi a b); [done|done|done| |done]. by apply elem_of_list_further.
  - eapply linv_jstep; [done|done|constructor|]. apply excl_insert; [apply (li_excl st Hi)|].
    intros b u l' m1 m2 Hba Hb Hm1 Hm2. cbn in Hm1. apply elem_of_cons in Hm1 as [Hm1|Hm1].
    + injection Hm1 as -> ->. pose proof (li_excl st Hi a b _ u l Ex m2 (not_eq_sym Hba) Ha Hb (elem_of_list_here _ _) Hm2) as H. by destruct m2.
    + eapply (li_excl st Hi a b); [done|done|done| |done]. by apply elem_of_list_further.
  - eapply linv_jstep; [done|done|constructor|]. eapply excl_keep; [apply (li_excl st Hi)|done|done].
  - destruct Hc as [_ Hc]. eapply linv_client; try done; [by apply wr_cst|by eapply aux_wr].
  - eapply linv_client; try done; [|apply delete_subseteq]. cbn. apply (li_handle st Hi) in Hn. by eapply lookup_lt_Some.
  - destruct Hc as [_ Hc]. eapply linv_client; try done; [by apply wr_cst|by eapply aux_wr].
  - destruct Hc as (_ & Hc & _). eapply linv_client; try done; [by apply wr_cst|by eapply aux_wr].
  - destruct Hc as (_ & Hc & _). eapply linv_client; try done; [by apply wr_cst|by eapply aux_wr|apply delete_subseteq].
  - destruct Hc as (Hin & _ & Hc). destruct k2; try done. destruct Hc as [-> Hc]. eapply linv_client; done.
  - destruct Hc as (Hin & _ & Hc). destruct k2; try done. destruct Hc as [-> Hc].
    eapply linv_client; try done; [|apply delete_subseteq]. cbn. split; [|done]. by apply (li_handle st Hi).
  - pose proof (li_aux st Hi a _ Ha) as Hx. cbn in Hx. destruct k; try done. eapply linv_client; try done. by destruct Hx.
  - by apply linv_submit.
  - destruct (worker_only _ _ _ _ _ (li_thr st Hi a _ Ha) Logic.I) as (-> & i' & s' & -> & _). by apply linv_clear.
  - by eapply linv_done.
  - by eapply linv_job.
Qed.
Lemma lookup_start nc nw a t : s_ths (lstart nc nw) !! a = Some t -> exists w, t = LT w None [] PEnd.
Proof.
  cbn. rewrite lookup_app_Some. intros [H|[_ H]]; apply lookup_replicate in H as [-> _]; by eexists.
Qed.
Lemma linv_start nc nw : linv (lstart nc nw).
Proof.
  constructor.
  - intros a t H. apply lookup_start in H as [w ->]. unfold tinv. destruct w; cbn; [by left|done].
  - intros a t H. apply lookup_start in H as [w ->]. done.
  - intros a b t u l m m' _ H _ Hm. apply lookup_start in H as [w ->]. cbn in Hm. by apply elem_of_nil in Hm.
  - cbn. lia.
  - cbn. intros j Hj. by apply elem_of_nil in Hj.
  - done.
  - intros j j' s _ _ Hs. done.
  - constructor.
  - intros a t j H Hj. apply lookup_start in H as [w ->]. done.
  - intros a b t u j H _ Hj. apply lookup_start in H as [w ->]. done.
  - done.
  - done.
Qed.
Lemma linv_call cfg st a st' : linv st -> lcall_starts false cfg mok st a st' -> linv st'.
Proof.
  intros Hi [p Ha Hp]. unfold put. cbn. apply wr_op in Hp. eapply linv_client; try done; [by apply wr_cst|by eapply aux_wr].
Qed.
Lemma linv_reach cfg pol nc nw st : lreach false cfg mok pol nc nw st -> linv st.
Proof. induction 1; [apply linv_start|by eapply linv_call|by eapply linv_step]. Qed.
