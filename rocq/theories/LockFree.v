(** No deadlock: the waiting threads cannot form a cycle, and every run without new calls ends. *)
From Verif Require Import Base Hashing Fs Shard Router Store Kv Api ConcLock Locking LockInv LockSpec LockLive.

(** ** Levels *)
Notation level := (N * N * N)%type.
Definition llt (x y : level) : Prop := rlt x.1 y.1 \/ (x.1 = y.1 /\ x.2 < y.2).
Lemma llt_trans x y z : llt x y -> llt y z -> llt x z.
Proof. destruct x as [[? ?] ?], y as [[? ?] ?], z as [[? ?] ?]. unfold llt, rlt. cbn. rewrite !pair_equal_spec. lia. Qed.
Lemma llt_irrefl x : ~ llt x x.
Proof. destruct x as [[? ?] ?]. unfold llt, rlt. cbn. lia. Qed.
Global Instance rlt_dec x y : Decision (rlt x y).
Proof. unfold rlt. apply _. Defined.
Global Instance llt_dec x y : Decision (llt x y).
Proof. unfold llt. apply _. Defined.
Definition lev (p : lprog) : option level :=
  match p with
  | PAcq l m _ => Some (lrank l, if decide (m = Ex) then 1 else 0)
  | PUp l _ => Some (lrank l, 2)
  | PWait _ _ => Some (3, 0, 0)
  | PWaitPast _ _ => Some (7, 0, 0)
  | _ => None
  end.
Definition isend (p : lprog) : bool := match p with PEnd => true | _ => false end.
Lemma isend_spec p : isend p = true <-> p = PEnd.
Proof. by destruct p. Qed.

(** ** What can always go on *)
Lemma free_step pol st a t : linv st -> s_ths st !! a = Some t -> t_prog t <> PEnd -> lev (t_prog t) = None -> can_step pol st a.
Proof.
  intros Hi Ha Hp Hl. pose proof (li_thr st Hi a t Ha) as Ht. destruct t as [w j h p]. cbn [t_prog] in *.
  destruct p as [|l m k|l k|l k|l k|X k|s k|i k|s k1 k2|i k|s k|s k|i]; try done.
  - assert (exists m h', h = (l, m) :: h') as (m & h' & ->).
    { unfold tinv in Ht. destruct w; cbn in Ht.
      - destruct Ht as [(_ & _ & ?)|(i & s & _ & _ & Hj)]; [done|].
        destruct Hj as [[_ ?]|[(h0 & m & -> & Hj)|[_ ?]]]; [done| |done].
        destruct (h0 ++ [(LFiles s, m)]) as [|[l' m'] [|? ?]]; [done|by destruct Hj as [-> _]; eauto|by destruct Hj as [-> _]; eauto].
      - destruct Ht as [_ Ht]. destruct h as [|[l' m'] h']; [done|]. destruct Ht as [-> _]. eauto. }
    eexists. by eapply St_rel.
  - assert (exists h', h = (l, Ex) :: h') as (h' & ->).
    { unfold tinv in Ht. destruct w; cbn in Ht; [|by destruct Ht].
      destruct Ht as [(_ & _ & ?)|(i & s & _ & _ & Hj)]; [done|].
      destruct Hj as [[_ ?]|[(h0 & m & -> & Hj)|[_ ?]]]; [done| |done].
      destruct (h0 ++ [(LFiles s, m)]) as [|[l' []] ?]; try done. destruct Hj as [-> _]. eauto. }
    eexists. by eapply St_down.
  - assert (exists x : X, True) as [x _].
    { unfold tinv in Ht. destruct w; cbn in Ht; [|by destruct Ht as (_ & ? & _)].
      destruct Ht as [(_ & _ & ?)|(i & s & _ & _ & Hj)]; [done|].
      destruct Hj as [[_ ?]|[(h0 & m & -> & Hj)|[_ ?]]]; [done|by destruct Hj|done]. }
    eexists. by eapply (St_choice _ _ _ _ _ _ _ _ x).
  - destruct (s_handle st !! s) as [i|] eqn:Hh; eexists; [by eapply St_take|by eapply St_take_none].
  - destruct (decide (s ∈ s_tgt st)) as [Htg|Htg].
    + destruct (s_handle st !! s) as [i|] eqn:Hh.
      * destruct (decide (i ∈ s_done st)) as [Hd|Hd].
        -- eexists. by eapply St_begin_err.
        -- eexists. eapply St_begin_skip; [done|done|]. rewrite Hh. by intros i' [= <-].
      * eexists. eapply St_begin_skip; [done|done|]. by rewrite Hh.
    + destruct (s_handle st !! s) as [i|] eqn:Hh; eexists; [by eapply St_begin_wait|by eapply St_begin_go].
  - eexists. by eapply St_submit.
  - eexists. by eapply St_clear.
  - eexists. by eapply St_done.
Qed.
Lemma up_held st a w j h l k : linv st -> s_ths st !! a = Some (LT w j h (PUp l k)) ->
  exists h', h = (l, Upg) :: h' /\ below h' (lrank l).
Proof.
  intros Hi Ha. pose proof (li_thr st Hi a _ Ha) as Ht. unfold tinv in Ht. destruct w; cbn in Ht; [|by destruct Ht].
  destruct Ht as [(_ & _ & ?)|(i & s & _ & _ & Hj)]; [done|].
  destruct Hj as [[_ ?]|[(h0 & m & -> & Hj)|[_ ?]]]; [done| |done]. destruct Hj as [_ Hj].
  destruct (h0 ++ [(LFiles s, m)]) as [|[l' []] h1]; try done. destruct Hj as (-> & Hb & _). by exists h1.
Qed.
(** A thread that holds a lock waits, if at all, for something later in the order. *)
Lemma holder pol st b u l m : linv st -> s_ths st !! b = Some u -> (l, m) ∈ t_held u ->
  t_prog u <> PEnd /\ (can_step pol st b \/ (exists k, t_prog u = PUp l k /\ (l, Upg) ∈ t_held u) \/
  exists x, lev (t_prog u) = Some x /\ rlt (lrank l) x.1).
Proof.
  intros Hi Hb Hm. pose proof (li_thr st Hi b u Hb) as Ht. destruct u as [w j h p]. cbn [t_prog t_held] in *.
  assert (p <> PEnd) as Hp.
  { intros ->. unfold tinv in Ht. destruct w; cbn in Ht.
    - destruct Ht as [(_ & -> & _)|(i & s & _ & _ & Hj)]; [by apply elem_of_nil in Hm|].
      by destruct Hj as [[_ ?]|[(? & ? & _ & Hj)|[_ ?]]].
    - destruct Ht as [_ ->]. by apply elem_of_nil in Hm. }
  split; [done|].
  destruct (lev p) as [x|] eqn:Hl; [right|left; by eapply free_step].
  destruct p as [|l1 m1 k|l1 k|l1 k|l1 k|X k|s k|i k|s k1 k2|i k|s k|s k|i]; cbn [lev] in Hl; try done; injection Hl as <-.
  - right. eexists. split; [done|]. cbn [fst]. unfold tinv in Ht. destruct w; cbn in Ht.
    + destruct Ht as [(_ & _ & ?)|(i & s & _ & _ & Hj)]; [done|].
      destruct Hj as [[-> _]|[(h0 & m0 & -> & Hj)|[_ ?]]]; [by apply elem_of_nil in Hm| |done].
      destruct Hj as (_ & Hbl & _). by eapply below_in.
    + destruct Ht as (_ & Hbl & _). by eapply below_in.
  - destruct (up_held st b w j h l1 k Hi Hb) as (h' & -> & Hbl). apply elem_of_cons in Hm as [Hm|Hm].
    + injection Hm as -> ->. left. exists k. split; [done|]. by apply elem_of_list_here.
    + right. eexists. split; [done|]. by eapply below_in.
  - destruct (client_only _ _ _ _ _ Ht Logic.I) as (_ & _ & Hc). destruct Hc as [Hbl _]. right. eexists. split; [done|]. by eapply below_in.
  - right. eexists. split; [done|]. cbn. destruct l as [| | | | | |]; unfold rlt; cbn; lia.
Qed.
Lemma grantable_dec st l m : grantable st l m \/ exists b t m', s_ths st !! b = Some t /\ (l, m') ∈ t_held t /\ compat m m' = false.
Proof.
  destruct (decide (Forall (fun t => Forall (fun x => x.1 = l -> compat m x.2 = true) (t_held t)) (s_ths st))) as [H|H].
  - left. intros b t m' Hb Hm. rewrite Forall_forall in H. assert (t ∈ s_ths st) as Hin by (by eapply elem_of_list_lookup_2).
    specialize (H t Hin). rewrite Forall_forall in H. by apply (H (l, m') Hm).
  - right. apply not_Forall_Exists in H; [|apply _]. apply Exists_exists in H as (t & Hin & H). cbn in H.
    apply not_Forall_Exists in H; [|apply _]. apply Exists_exists in H as ([l' m'] & Hin' & H). cbn in H.
    apply elem_of_list_lookup_1 in Hin as [b Hb]. exists b, t, m'.
    destruct (decide (l' = l)) as [->|Hne]; [|exfalso; by apply H]. split; [done|]. split; [done|].
    destruct (compat m m'); [exfalso; by apply H|done].
Qed.
Definition holds_it (st : lstate) (l : lock) (b : nat) : Prop :=
  match s_ths st !! b with Some t => Exists (fun x => x.1 = l) (t_held t) | None => False end.
Global Instance holds_it_dec st l b : Decision (holds_it st l b).
Proof. unfold holds_it. destruct (s_ths st !! b); apply _. Defined.
Lemma readers_dec st a l : (forall b t m', b <> a -> s_ths st !! b = Some t -> (l, m') ∉ t_held t) \/
  exists b t m', b <> a /\ s_ths st !! b = Some t /\ (l, m') ∈ t_held t.
Proof.
  destruct (decide (Exists (fun b => b <> a /\ holds_it st l b)
    (seq 0 (length (s_ths st))))) as [H|H].
  - right. apply Exists_exists in H as (b & _ & Hba & H). unfold holds_it in H. destruct (s_ths st !! b) as [t|] eqn:Hb; [|done].
    apply Exists_exists in H as ([l' m'] & Hin & H). cbn in H. subst l'. by exists b, t, m'.
  - left. intros b t m' Hba Hb Hm. apply H. apply Exists_exists. exists b. split.
    + apply elem_of_seq. apply lookup_lt_Some in Hb. lia.
    + split; [done|]. unfold holds_it. rewrite Hb. apply Exists_exists. by exists (l, m').
Qed.

(** One link of the chain of waiting threads. *)
Lemma waits_up pol st a t : linv st -> reasonable pol -> (exists w, is_worker st w) ->
  s_ths st !! a = Some t -> t_prog t <> PEnd ->
  can_step pol st a \/ exists b, waits_for pol st a b /\
    (can_step pol st b \/ exists u x y, s_ths st !! b = Some u /\ t_prog u <> PEnd /\
       lev (t_prog t) = Some x /\ lev (t_prog u) = Some y /\ llt x y).
Proof.
  intros Hi Hpol Hw Ha Hp. destruct (lev (t_prog t)) as [x|] eqn:Hl; [|left; by eapply free_step].
  pose proof (li_thr st Hi a t Ha) as Ht. destruct t as [w j h p]. cbn [t_prog] in *.
  (* a worker that runs a job *)
  assert (forall b u i y, s_ths st !! b = Some u -> t_job u = Some i -> y.1 = (3, 0) ->
    can_step pol st b \/ exists u x, s_ths st !! b = Some u /\ t_prog u <> PEnd /\ lev (t_prog u) = Some x /\ llt y x) as Hrun.
  { intros b u i y Hb Hu Hy. pose proof (li_thr st Hi b u Hb) as Htu. unfold tinv in Htu.
    destruct (t_worker u); [|destruct Htu; congruence].
    destruct Htu as [(? & _)|(i' & s & _ & _ & Hj)]; [congruence|].
    assert (t_prog u <> PEnd) as Hpu by (intros E; rewrite E in Hj; by destruct Hj as [[_ ?]|[(? & ? & _ & ?)|[_ ?]]]).
    destruct (lev (t_prog u)) as [z|] eqn:Hz; [right|left; by eapply free_step].
    exists u, z. split; [done|]. split; [done|]. split; [done|]. left. rewrite Hy. unfold rlt. cbn [fst snd].
    destruct Hj as [[_ E]|[(? & ? & _ & Hj)|[_ E]]].
    - rewrite E in Hz. cbn in Hz. injection Hz as <-. cbn. lia.
    - destruct (t_prog u); try done; cbn in Hz, Hj; injection Hz as <-; cbn [fst]; lia.
    - rewrite E in Hz. done. }
  destruct p as [|l m k|l k|l k|l k|X k|s k|i k|s k1 k2|i k|s k|s k|i]; cbn [lev] in Hl; try done; injection Hl as <-.
  - (* acquire *)
    destruct (grantable_dec st l m) as [Hg|(b & u & m' & Hb & Hm & Hcf)].
    + destruct (decide (m = Ex)) as [->|Hne]; [left; eexists; by eapply St_acq|].
      destruct (pol st a) eqn:Hpa; [|left; eexists; by eapply St_acq].
      right. destruct (Hpol st a Hpa) as (t' & l' & m' & k' & b & Ha' & Hp' & Hba & Hask).
      rewrite Ha in Ha'. injection Ha' as <-. cbn in Hp'. injection Hp' as <- <- <-.
      exists b. split; [by eapply wf_queue|]. right. destruct Hask as (u & k' & Hb & Hu). exists u, (lrank l, 0).
      destruct Hu as [Hu|Hu]; rewrite Hu; cbn [lev].
      * rewrite decide_True by done. eexists. repeat split; try done. right. cbn. split; [done|lia].
      * eexists. repeat split; try done. right. cbn. split; [done|lia].
    + right. exists b. split; [by eapply wf_holder|].
      destruct (holder pol st b u l m' Hi Hb Hm) as (Hpu & [Hc|[(k' & Hu & _)|(y & Hy & Hr)]]); [by left| |].
      * right. exists u. do 2 eexists. rewrite Hu. cbn [lev]. repeat split; try done. right. cbn. split; [done|]. destruct (decide (m = Ex)); lia.
      * right. exists u. do 2 eexists. repeat split; try done. by left.
  - (* upgrade *)
    destruct (up_held st a w j h l k Hi Ha) as (h' & -> & Hbl).
    destruct (readers_dec st a l) as [Hno|(b & u & m' & Hba & Hb & Hm)]; [left; eexists; by eapply St_up|].
    right. exists b. split; [by eapply wf_readers|].
    destruct (holder pol st b u l m' Hi Hb Hm) as (Hpu & [Hc|[(k' & Hu & Hup)|(y & Hy & Hr)]]); [by left| |].
    + exfalso. pose proof (li_excl st Hi a b _ u l Upg Upg (not_eq_sym Hba) Ha Hb (elem_of_list_here _ _) Hup). done.
    + right. exists u. do 2 eexists. repeat split; try done. by left.
  - (* wait for a job *)
    destruct (decide (i ∈ s_done st)) as [Hd|Hd]; [left; eexists; by eapply St_wait|]. right.
    pose proof (li_aux st Hi a _ Ha) as Hx. cbn in Hx.
    destruct (li_jobs st Hi i Hx) as [Hq|[?|(b & u & Hb & Hu)]]; [|done|].
    + destruct Hw as [b Hw]. exists b. split; [eapply wf_pool; [done|by left|done|done]|].
      destruct Hw as (u & Hb & Hwu). pose proof (li_thr st Hi b u Hb) as Htu. unfold tinv in Htu. rewrite Hwu in Htu.
      destruct Htu as [(Hj & Hh & Hpu)|(i' & s & Hju & _)].
      * left. destruct (s_queue st) as [|i0 q] eqn:Eq; [by apply elem_of_nil in Hq|].
        destruct (lookup_lt_is_Some_2 (s_jobs st) i0) as [s0 Hs0].
        { apply (li_queue st Hi). rewrite Eq. by apply elem_of_list_here. }
        destruct u as [w0 j0 h0 p0]. cbn in *. subst w0 j0 h0 p0. eexists. by eapply St_job.
      * destruct (Hrun b u i' (3, 0, 0) Hb Hju eq_refl) as [Hc|(u' & y & ? & ? & ? & ?)]; [by left|]. right. exists u'. do 2 eexists. done.
    + exists b. split; [eapply wf_job; [done|by left|done|done|done]|].
      destruct (Hrun b u i (3, 0, 0) Hb Hu eq_refl) as [Hc|(u' & y & ? & ? & ? & ?)]; [by left|]. right. exists u'. do 2 eexists. done.
  - (* wait for a job that has done its work *)
    destruct (decide (i ∈ s_done st)) as [Hd|Hd]; [left; eexists; by eapply St_wait_past|]. right.
    pose proof (li_aux st Hi a _ Ha) as Hx. cbn in Hx. destruct k; try done. destruct Hx as [His Hs].
    destruct (client_only _ _ _ _ _ Ht Logic.I) as (_ & _ & Hc). cbn in Hc. destruct Hc as [Hin _].
    destruct (li_jobs st Hi i) as [Hq|[?|(b & u & Hb & Hu)]]; [by eapply lookup_lt_Some| |done|].
    + exfalso. apply Hs. by eapply (li_pend st Hi).
    + exists b. split; [eapply wf_job; [done|by right|done|done|done]|]. left.
      pose proof (li_thr st Hi b u Hb) as Htu. unfold tinv in Htu. destruct (t_worker u); [|destruct Htu; congruence].
      destruct Htu as [(? & _)|(i' & s' & Hi' & Hs' & Hj)]; [congruence|]. assert (i' = i) as -> by congruence.
      assert (s' = s) as -> by congruence.
      destruct Hj as [[Hh E]|[(h0 & m0 & Hh & Hj)|[Hh E]]].
      * exfalso. apply Hs. eapply (li_pend2 st Hi b u i s); [done|done|]. split; [done|]. split; [done|]. by rewrite E.
      * exfalso. assert (b <> a) as Hba by (intros ->; rewrite Ha in Hb; injection Hb as <-; cbn in *; destruct w; cbn in *; [done|destruct Ht; congruence]).
        pose proof (li_excl st Hi a b _ u (LFiles s) Ex m0 (not_eq_sym Hba) Ha Hb Hin) as H.
        destruct m0; discriminate H; rewrite Hh; apply elem_of_app; right; by apply elem_of_list_here.
      * eapply free_step; [done|exact Hb|by rewrite E|by rewrite E].
Qed.

Definition bigger (x : level) (u : lthr) : bool :=
  match lev (t_prog u) with Some y => bool_decide (llt x y) | None => false end.
Definition above (st : lstate) (x : level) : list lthr := List.filter (bigger x) (s_ths st).
Lemma bigger_mono x y u : llt x y -> bigger y u = true -> bigger x u = true.
Proof.
  unfold bigger. destruct (lev (t_prog u)) as [z|]; [|done]. rewrite !bool_decide_eq_true. intros. by eapply llt_trans.
Qed.
Lemma above_less st x y u : u ∈ s_ths st -> lev (t_prog u) = Some y -> llt x y -> (length (above st y) < length (above st x))%nat.
Proof.
  intros Hin Hu Hxy. unfold above. induction (s_ths st) as [|v l IH]; [by apply elem_of_nil in Hin|].
  assert (length (List.filter (bigger y) l) <= length (List.filter (bigger x) l))%nat as Hle.
  { clear -Hxy. induction l as [|v l IH]; [done|]. cbn [List.filter]. pose proof (bigger_mono x y v Hxy).
    destruct (bigger y v); destruct (bigger x v); cbn [length]; [lia| |lia|lia]. exfalso. naive_solver. }
  cbn [List.filter]. apply elem_of_cons in Hin as [<-|Hin].
  - assert (bigger y u = false) as -> by (unfold bigger; rewrite Hu; apply bool_decide_eq_false; apply llt_irrefl).
    assert (bigger x u = true) as -> by (unfold bigger; rewrite Hu; by apply bool_decide_eq_true). cbn [length]. lia.
  - specialize (IH Hin). pose proof (bigger_mono x y v Hxy).
    destruct (bigger y v); destruct (bigger x v); cbn [length]; [lia| |lia|lia]. exfalso. naive_solver.
Qed.
Lemma chain pol st : linv st -> reasonable pol -> (exists w, is_worker st w) -> forall n a t,
  s_ths st !! a = Some t -> t_prog t <> PEnd ->
  (match lev (t_prog t) with Some x => length (above st x) | None => 0%nat end < n)%nat ->
  exists b, rtc (waits_for pol st) a b /\ can_step pol st b.
Proof.
  intros Hi Hpol Hw. induction n as [|n IH]; intros a t Ha Hp Hn; [lia|].
  destruct (waits_up pol st a t Hi Hpol Hw Ha Hp) as [Hc|(b & Hab & [Hc|(u & x & y & Hb & Hu & Hx & Hy & Hxy)])].
  - exists a. split; [done|done].
  - exists b. split; [by apply rtc_once|done].
  - destruct (IH b u Hb Hu) as (c & Hbc & Hc).
    + rewrite Hy. rewrite Hx in Hn. assert (length (above st y) < length (above st x))%nat; [|lia].
      eapply above_less; [by eapply elem_of_list_lookup_2|done|done].
    + exists c. split; [by eapply rtc_l|done].
Qed.

(** ** Workers stay *)
Lemma roles_put (ths : list lthr) a t t' : ths !! a = Some t -> t_worker t' = t_worker t ->
  t_worker <$> <[a := t']> ths = t_worker <$> ths.
Proof.
  intros Ha Hw. rewrite list_fmap_insert. apply list_insert_id. rewrite list_lookup_fmap, Ha. cbn. by rewrite Hw.
Qed.
Lemma roles_step pol st a st' : lstep pol st a st' -> t_worker <$> s_ths st' = t_worker <$> s_ths st.
Proof. intros Hs. destruct Hs; cbn; by eapply roles_put. Qed.
Lemma roles_reach fa cfg mr pol nc nw st : lreach fa cfg mr pol nc nw st ->
  t_worker <$> s_ths st = replicate nc false ++ replicate nw true.
Proof.
  induction 1 as [|st a st' Hr IH Hc|st a st' Hr IH Hs].
  - cbn. by rewrite fmap_app, !fmap_replicate.
  - destruct Hc as [p Ha Hp]. cbn. rewrite <- IH. by eapply roles_put.
  - rewrite <- IH. by eapply roles_step.
Qed.
Lemma has_worker fa cfg mr pol nc nw st : (0 < nw)%nat -> lreach fa cfg mr pol nc nw st -> exists w, is_worker st w.
Proof.
  intros Hnw Hr. apply roles_reach in Hr. exists nc.
  assert ((t_worker <$> s_ths st) !! nc = Some true) as H.
  { rewrite Hr. rewrite lookup_app_r by (rewrite replicate_length; lia). rewrite replicate_length, Nat.sub_diag. by destruct nw; [lia|]. }
  rewrite list_lookup_fmap in H. destruct (s_ths st !! nc) as [t|] eqn:E; [|done]. cbn in H. injection H as H. by exists t.
Qed.

(** ** Every run without new calls ends *)
Inductive pstep : lprog -> lprog -> Prop :=
| ps_acq l m k : pstep k (PAcq l m k)
| ps_rel l k : pstep k (PRel l k)
| ps_up l k : pstep k (PUp l k)
| ps_down l k : pstep k (PDown l k)
| ps_choice X (k : X -> lprog) x : pstep (k x) (PChoice k)
| ps_take s k : pstep k (PTake s k)
| ps_take2 s i k : pstep (PWait i k) (PTake s k)
| ps_wait i k : pstep k (PWait i k)
| ps_begin1 s k1 k2 : pstep k1 (PBegin s k1 k2)
| ps_begin2 s k1 k2 : pstep k2 (PBegin s k1 k2)
| ps_begin3 s i k1 k2 : pstep (PWaitPast i k2) (PBegin s k1 k2)
| ps_past i k : pstep k (PWaitPast i k)
| ps_submit s k : pstep k (PSubmit s k)
| ps_clear s k : pstep k (PClear s k)
| ps_done i : pstep PEnd (PDone i).
Lemma pstep_acc p : Acc pstep p.
Proof.
  assert (forall i k, Acc pstep k -> Acc pstep (PWait i k)) as H1 by (intros i k Hk; constructor; intros q Hq; by inversion Hq; subst).
  assert (forall i k, Acc pstep k -> Acc pstep (PWaitPast i k)) as H2 by (intros i k Hk; constructor; intros q Hq; by inversion Hq; subst).
  assert (Acc pstep PEnd) as H0 by (constructor; intros q Hq; inversion Hq).
  assert (forall q p, pstep q p -> match p with
    | PEnd => False | PAcq _ _ k | PRel _ k | PUp _ k | PDown _ k | PWait _ k | PWaitPast _ k | PSubmit _ k | PClear _ k => q = k
    | PChoice k => exists x, q = k x | PTake _ k => q = k \/ exists i, q = PWait i k
    | PBegin _ k1 k2 => q = k1 \/ q = k2 \/ exists i, q = PWaitPast i k2 | PDone _ => q = PEnd end) as Hinv.
  { intros q p' Hq. destruct Hq; eauto. }
  induction p as [|l m k IH|l k IH|l k IH|l k IH|X k IH|s k IH|i k IH|s k1 IH1 k2 IH2|i k IH|s k IH|s k IH|i]; [exact H0|..]; try (apply H1; exact IH); try (apply H2; exact IH);
    constructor; intros q Hq; apply Hinv in Hq; try (subst q; assumption).
  - destruct Hq as [x ->]. apply IH.
  - destruct Hq as [->|[i ->]]; [done|by apply H1].
  - destruct Hq as [->|[->|[i ->]]]; [done|done|by apply H2].
Qed.
(** One element of a list gets smaller. *)
Definition one {A} (R : A -> A -> Prop) (l' l : list A) : Prop :=
  exists i x y, l !! i = Some x /\ R y x /\ l' = <[i := y]> l.
Lemma one_acc {A} (R : A -> A -> Prop) (l : list A) : Forall (Acc R) l -> Acc (one R) l.
Proof.
  induction l as [|x l IH]; intros Hf.
  - constructor. intros l' (i & x & y & Hi & _). done.
  - apply Forall_cons in Hf as [Hx Hf]. specialize (IH Hf). clear Hf.
    revert l IH. induction Hx as [x _ IHx]. intros l Hl. induction Hl as [l Hl IHl].
    constructor. intros l' (i & z & y & Hi & Hy & ->). destruct i as [|i]; cbn in *.
    + injection Hi as ->. apply IHx; [done|]. by constructor.
    + apply IHl. by exists i, z, y.
Qed.
Definition cprogs (ths : list lthr) : list lprog := (fun t => if t_worker t then PEnd else t_prog t) <$> ths.
Definition wprogs (ths : list lthr) : list lprog := (fun t => if t_worker t then t_prog t else PEnd) <$> ths.
Definition smaller (st' st : lstate) : Prop :=
  one pstep (cprogs (s_ths st')) (cprogs (s_ths st)) \/
  (cprogs (s_ths st') = cprogs (s_ths st) /\
   ((length (s_queue st') < length (s_queue st))%nat \/
    (s_queue st' = s_queue st /\ one pstep (wprogs (s_ths st')) (wprogs (s_ths st))))).
Lemma smaller_acc st : Acc smaller st.
Proof.
  remember (cprogs (s_ths st)) as c eqn:Ec.
  assert (Acc (one pstep) c) as Hc by (apply one_acc, Forall_true; intros; apply pstep_acc).
  revert st Ec. induction Hc as [c _ IHc]. intros st ->.
  remember (length (s_queue st)) as n eqn:En. revert st IHc En.
  induction (lt_wf n) as [n _ IHn]. intros st IHc ->.
  remember (wprogs (s_ths st)) as w eqn:Ew.
  assert (Acc (one pstep) w) as Hw by (apply one_acc, Forall_true; intros; apply pstep_acc).
  revert st Ew IHc IHn. induction Hw as [w _ IHw]. intros st -> IHc IHn.
  constructor. intros st' [H|[E [H|[Eq H]]]].
  - by eapply IHc.
  - eapply IHn; [exact H| |done]. intros y Hy. rewrite E in Hy. by apply IHc.
  - eapply IHw; [exact H|done| |].
    + intros y Hy. rewrite E in Hy. by apply IHc.
    + rewrite Eq. done.
Qed.
Lemma prog_moves (st : lstate) a w j j' h h' p p' : s_ths st !! a = Some (LT w j h p) -> pstep p' p ->
  (w = false /\ one pstep (cprogs (<[a := LT w j' h' p']> (s_ths st))) (cprogs (s_ths st))) \/
  (w = true /\ cprogs (<[a := LT w j' h' p']> (s_ths st)) = cprogs (s_ths st) /\
     one pstep (wprogs (<[a := LT w j' h' p']> (s_ths st))) (wprogs (s_ths st))).
Proof.
  intros Ha Hp. destruct w; [right|left]; (split; [done|]).
  - split.
    + unfold cprogs. rewrite list_fmap_insert. apply list_insert_id. by rewrite list_lookup_fmap, Ha.
    + exists a, p, p'. unfold wprogs. rewrite list_fmap_insert, list_lookup_fmap, Ha. done.
  - exists a, p, p'. unfold cprogs. rewrite list_fmap_insert, list_lookup_fmap, Ha. done.
Qed.
Lemma step_smaller pol st a st' : linv st -> lstep pol st a st' -> smaller st' st.
Proof.
  intros Hi Hs. destruct Hs as [w j h l m k Ha Hg Hp|w j h l m k Ha|w j h l k Ha Ho|w j h l k Ha|w j h X k x Ha
    |w j h s k Ha Hn|w j h s k i Ha Hn|w j h i k Ha Hd|w j h s k1 k2 Ha Htg Hh|w j h s k1 k2 i Ha Htg Hh Hd
    |w j h s k1 k2 Ha Htg Hh|w j h s k1 k2 i Ha Htg Hh|w j h i k Ha Hd|w j h s k Ha|w j h s k Ha|w j h i Ha|i q s Ha Hq Hs];
    unfold smaller, put, with_handle; cbn [s_ths s_queue t_worker t_job].
  16: { destruct (prog_moves st a w j None h h _ PEnd Ha (ps_done i)) as [[_ H]|[_ H]]; [by left|right]. tauto. }
  16: { right. split; [|left; rewrite Hq; cbn; lia]. unfold cprogs. rewrite list_fmap_insert. apply list_insert_id. by rewrite list_lookup_fmap, Ha. }
  14: { destruct (client_only _ _ _ _ _ (li_thr st Hi a _ Ha) Logic.I) as (-> & -> & _). left.
        destruct (prog_moves st a false None None h h _ k Ha (ps_submit s k)) as [[_ H]|[? _]]; done. }
  all: match goal with Ha : s_ths _ !! ?a = Some (LT ?w ?j ?h0 ?p0) |- context [<[?a := LT ?w ?j ?h1 ?p1]> _] =>
      let Hps := fresh in assert (pstep p1 p0) as Hps by constructor;
      let H := fresh in destruct (prog_moves _ a w j j h0 h1 p0 p1 Ha Hps) as [[_ H]|[_ H]]; [by left|right; tauto] end.
Qed.
