(** Iterating over a queue while it is being changed. *)
From Coq Require Import Sorted.
From Verif Require Import Base Hashing HashingProofs Fs Shard Router RouterPure Wpc Spec FileRep RowOps
  Compact Inv ShardOps Split Insert Open Merge Create Store Limits StoreRefine Kv Lists Queues Api Hist KvSpec
  HistInv KeySpace ListSpec ListRep ListProg ListHist ThmList QueueSpec QueueRep QueueProg QueueHist ThmQueue CollIter.
Implicit Types (M : kvmap) (cfg : config) (s : store) (q : elems) (fwd : bool) (lost : N) (rng : option (N * N)) (qk : bytes) (it : citer).

Definition way (fwd : bool) : N -> N -> Prop := if fwd then N.lt else N.gt.
Lemma way_sorted fwd h t : StronglySorted (way fwd) (idx_order fwd h t).
Proof.
  assert (forall n h, StronglySorted N.lt (map (fun i => h + N.of_nat i) (seq 0 n))) as Hs.
  { induction n as [|n IH]; intros k; [constructor|]. rewrite idx_seq_S. constructor; [apply IH|].
    apply Forall_forall. intros x Hx. apply elem_of_list_fmap in Hx as (y & -> & _). lia. }
  destruct fwd; unfold idx_order, idx_seq; [apply Hs|].
  assert (forall l : list N, StronglySorted N.lt l -> StronglySorted N.gt (rev l)) as Hr; [|apply Hr, Hs].
  induction l as [|x l IH]; intros Hl; [constructor|]. apply StronglySorted_inv in Hl as [H1 H2]. cbn.
  assert (Forall (fun y => y > x) (rev l)) as H3 by (apply Forall_rev; eapply Forall_impl; [exact H2|]; intros y; cbn; lia).
  specialize (IH H1). clear -IH H3. induction (rev l) as [|y r IHr]; cbn; [by repeat constructor|].
  apply StronglySorted_inv in IH as [K1 K2]. apply Forall_cons in H3 as [K3 K4]. constructor; [by apply IHr|].
  apply Forall_app. split; [done|]. constructor; [cbn in *; lia|constructor].
Qed.
Lemma idx_order_all fwd h t i : h <= i < t -> i ∈ idx_order fwd h t.
Proof.
  intros Hi. assert (i ∈ idx_seq h t) as H.
  { unfold idx_seq. apply elem_of_list_fmap. exists (N.to_nat (i - h)). split; [lia|]. apply elem_of_seq. lia. }
  destruct fwd; cbn [idx_order]; [done|]. by apply elem_of_list_In, in_rev; rewrite rev_involutive; apply elem_of_list_In.
Qed.

(** What a scan does. *)
Definition scanned {A : Type} (f : N -> option A) (js js' : list N) (y : option A) : Prop :=
  exists sk, Forall (fun j => f j = None) sk /\
    match y with None => js = sk /\ js' = [] | Some x => exists i, js = sk ++ i :: js' /\ f i = Some x end.
Lemma kwp_qscan cfg qk M q (C : kvmap -> Prop) (E : err -> kvmap -> Prop) : qcore qk M q -> C M ->
  forall js, (forall j, j ∈ js -> j < U64) ->
  kwp cfg (queue_scan qk js) C (fun a M' => M' = M /\ scanned (q_elem q) js (fst a) (snd a)) E M.
Proof.
  intros HC HCM. induction js as [|j js IH]; intros Hj; cbn [queue_scan].
  { apply kwp_ret; [done|]. split; [done|]. by exists []. }
  assert (forall i, i ∈ js -> i < U64) as Hj' by (intros i Hi; apply Hj; by right).
  apply kwp_bind, kwp_get; [done|]. rewrite (qc_items _ _ _ HC j) by (apply Hj; left).
  destruct (q_get q j) as [v|] eqn:Eg.
  - apply kwp_ret; [done|]. split; [done|]. exists []. split; [constructor|]. exists j. split; [done|]. cbn. unfold q_elem. by rewrite Eg.
  - eapply kwp_mono; [| | |exact (IH Hj')]; [done| |done]. intros [js' y] M' _ [-> (sk & H1 & H2)]. split; [done|].
    exists (j :: sk). split; [constructor; [unfold q_elem; by rewrite Eg|done]|]. cbn [fst snd] in *.
    destruct y as [x|]; [|by destruct H2 as [-> ->]]. destruct H2 as (i & -> & H2). by exists i.
Qed.
(** The iterator is sensible: its indices are in order. *)
Definition it_ok (fwd : bool) it : Prop :=
  match it with None => True | Some js => StronglySorted (way fwd) js /\ Forall (fun j => j < U64) js end.
(** What [next] does: [f i] is what there is at index [i], [r] is the range. *)
Definition nexted {A : Type} (f : N -> option A) (fwd : bool) rng it it' (y : option A) : Prop :=
  match it, rng with
  | None, None => it' = None /\ y = None
  | None, Some (h, t) => exists js', it' = Some js' /\ scanned f (idx_order fwd h t) js' y
  | Some js, _ => exists js', it' = Some js' /\ scanned f js js' y
  end.
Lemma kwp_qnext cfg qk fwd M q lost rng it (C : kvmap -> Prop) (E : err -> kvmap -> Prop) : qrep qk M q lost rng -> it_ok fwd it -> C M ->
  kwp cfg (queue_next cfg qk fwd it) C (fun a M' => M' = M /\ nexted (q_elem q) fwd rng it (fst a) (snd a)) E M.
Proof.
  intros HR Hit HCM. pose proof HR as [HC Hr]. unfold queue_next. apply kwp_bind. destruct it as [js|].
  - apply kwp_ret; [done|]. apply kwp_bind. destruct Hit as [_ Hb]. rewrite Forall_forall in Hb.
    eapply kwp_mono; [| | |apply (kwp_qscan cfg qk M q C E HC HCM js Hb)]; [done| |done].
    intros [js' y] M' _ [-> H]. apply kwp_ret; [done|]. split; [done|]. by exists js'.
  - apply kwp_bind, (kwp_fetch cfg qk M q lost rng); [done|done|]. apply kwp_ret; [done|]. destruct rng as [[h t]|]; cbn [fmap option_fmap option_map fst snd l_head l_tail].
    + apply kwp_bind. destruct Hr as (_ & _ & Ht & _).
      eapply kwp_mono; [| | |apply (kwp_qscan cfg qk M q C E HC HCM (idx_order fwd h t))]; [done| |done|].
      * intros [js' y] M' _ [-> H]. apply kwp_ret; [done|]. split; [done|]. by exists js'.
      * intros j Hj. apply idx_order_in in Hj. lia.
    + by apply kwp_ret.
Qed.
Lemma queue_scan_writes P qk l : kwrites P anyv (queue_scan qk l).
Proof. induction l as [|i l IH]; cbn [queue_scan]; [done|]. kw. exact IH. Qed.
Lemma queue_next_writes cfg P qk fwd it : kwrites P anyv (queue_next cfg qk fwd it).
Proof.
  unfold queue_next. apply kwrites_seq.
  - destruct it as [js|]; [done|]. apply kwrites_seq; [apply fetch_queue_writes|]. done.
  - intros [js|]; [|done]. apply kwrites_seq; [apply queue_scan_writes|]. by intros [].
Qed.
Lemma qnext_run cfg x M s qk fwd q lost rng it : SInv cfg x M s -> qrep qk M q lost rng -> it_ok fwd it ->
  exists s' it' y, krun cfg (queue_next cfg qk fwd it) s = (s', Ok (it', y)) /\ SInv cfg x M s' /\ nexted (q_elem q) fwd rng it it' y.
Proof.
  intros HI HR Hit.
  destruct (kwp_krun cfg x _ _ _ _ M s HI (reads_fits cfg _ (queue_next_writes cfg _ qk fwd it) s)
    (kwp_qnext cfg qk fwd M q lost rng it (fun _ => True) (fun _ _ => False) HR Hit Logic.I)) as (M' & HI' & H).
  destruct (krun cfg (queue_next cfg qk fwd it) s) as [s' [[it' y]|e]]; [|done]. cbn in *. destruct H as [-> H]. by exists s', it', y.
Qed.
Lemma sorted_app_r {A : Type} (R : A -> A -> Prop) (l l' : list A) : StronglySorted R (l ++ l') -> StronglySorted R l'.
Proof. induction l as [|x l IH]; [done|]. cbn. intros H. apply StronglySorted_inv in H as [H _]. by apply IH. Qed.
Lemma scanned_ok {A : Type} (f : N -> option A) (R : N -> N -> Prop) js js' y : scanned f js js' y ->
  StronglySorted R js /\ Forall (fun j => j < U64) js -> StronglySorted R js' /\ Forall (fun j => j < U64) js'.
Proof.
  intros (sk & _ & H) [H1 H2]. destruct y as [x|]; [|destruct H as [_ ->]; split; constructor].
  destruct H as (i & -> & _). apply sorted_app_r in H1. apply StronglySorted_inv in H1 as [H1 _]. apply Forall_app in H2 as [_ H2].
  by apply Forall_cons in H2 as [_ H2].
Qed.
Lemma nexted_ok {A : Type} (f : N -> option A) fwd rng it it' y : nexted f fwd rng it it' y -> match rng with Some (_, t) => t < U64 | None => True end ->
  it_ok fwd it -> it_ok fwd it'.
Proof.
  intros H Hr Hit. destruct it as [js|]; [|destruct rng as [[h t]|]].
  - destruct H as (js' & -> & H). by eapply scanned_ok.
  - destruct H as (js' & -> & H). eapply scanned_ok; [exact H|]. split; [apply way_sorted|]. apply Forall_forall. intros j Hj. apply idx_order_in in Hj. lia.
  - by destruct H as [-> _].
Qed.
(** The indices of the items returned: [y] was found at one of the indices [js] visited. *)
Lemma q_elem_fst q i x : q_elem q i = Some x -> fst x = i /\ x ∈ q.
Proof.
  unfold q_elem. destruct (q_get q i) as [v|] eqn:E; [|done]. cbn. intros [= <-]. split; [done|]. by apply q_get_Some.
Qed.

Definition in_it (i : N) it : Prop := match it with Some js => i ∈ js | None => True end.
Section queue.
  Context (qk : bytes) (fwd : bool).
  Notation iter := (iteration (queue_guard_lost qk) (fun cfg => queue_next cfg qk fwd)).
  (** Everything about an iteration from an iterator [it]. *)
  Lemma queue_iteration cfg s it l cfg' s' it' : iter cfg s it l cfg' s' it' ->
    forall x M q lost rng, SInv cfg x M s -> qrep qk M q lost rng -> it_ok fwd it ->
    (exists x' M' q' lost' rng', SInv cfg' x' M' s' /\ qrep qk M' q' lost' rng' /\ it_ok fwd it') /\
    (forall r z, r ∈ l -> r_item r = Some z -> exists q, shows_elems (r_cfg r) (r_store r) qk q /\ z ∈ q) /\
    StronglySorted (way fwd) (map fst (returned l)) /\
    Forall (fun z => in_it (fst z) it) (returned l) /\
    (forall z, (exists r, r ∈ l /\ r_item r = None) -> (forall r q, r ∈ l -> shows_elems (r_cfg r) (r_store r) qk q -> z ∈ q) ->
       in_it (fst z) it -> z ∈ returned l) /\
    (forall js, it = Some js -> len (returned l) <= len js).
  Proof.
    induction 1 as [cfg s it|cfg s it es cfg1 s1 s2 it1 y l cfg' s' it' Hh Hn Hi IH]; intros x M q lost rng HI HR Hit.
    { split; [by exists x, M, q, lost, rng|]. split; [intros r z Hr; by apply elem_of_nil in Hr|]. split; [constructor|]. split; [constructor|].
      split; [intros z (r & Hr & _); by apply elem_of_nil in Hr|]. intros js _. unfold returned, len. cbn. lia. }
    destruct (hist_lift _ _ _ (queue_lost_lifts qk) cfg s es cfg1 s1 x M (q, lost) Hh HI) as (x1 & M1 & [q1 lost1] & _ & HI1 & [rng1 HR1] & _); [by exists rng|].
    cbn [fst snd] in HR1. destruct (qnext_run cfg1 x1 M1 s1 qk fwd q1 lost1 rng1 it HI1 HR1 Hit) as (s2' & it1' & y' & Hn' & HI2 & Hx).
    rewrite Hn in Hn'. injection Hn' as <- <- <-.
    assert (it_ok fwd it1) as Hit1.
    { eapply nexted_ok; [exact Hx| |done]. destruct HR1 as [_ HR1]. destruct rng1 as [[h t]|]; [|done]. by destruct HR1 as (_ & _ & ? & _). }
    destruct (IH x1 M1 q1 lost1 rng1 HI2 HR1 Hit1) as (J1 & J2 & J3 & J4 & J5 & J6).
    pose proof (qrep_shows _ _ _ _ _ _ _ _ HI1 HR1) as Hsh. pose proof (qc_sorted _ _ _ (proj1 HR1)) as Hso.
    assert (Hy : forall z, y = Some z -> z ∈ q1 /\ in_it (fst z) it /\ (exists js, it1 = Some js /\ Forall (way fwd (fst z)) js)).
    { intros z ->. assert (exists js js', it1 = Some js' /\ scanned (q_elem q1) js js' (Some z) /\ (it = Some js \/ it = None) /\ StronglySorted (way fwd) js) as (js & js' & -> & Hs & Hor & Hst).
      { destruct it as [js|]; cbn [nexted] in Hx.
        - destruct Hx as (js' & -> & Hx). exists js, js'. split; [done|]. split; [done|]. split; [by left|by destruct Hit].
        - destruct rng1 as [[h t]|]; [|by destruct Hx]. destruct Hx as (js' & -> & Hx). exists (idx_order fwd h t), js'. split; [done|]. split; [done|]. split; [by right|apply way_sorted]. }
      destruct Hs as (sk & _ & i & -> & He). apply q_elem_fst in He as [<- He]. split; [done|]. split.
      - destruct Hor as [-> | ->]; cbn; [|done]. apply elem_of_app. right. left.
      - exists js'. split; [done|]. apply sorted_app_r in Hst. by apply StronglySorted_inv in Hst as [_ Hst]. }
    assert (Hsub : forall z, it1 <> None -> in_it z it1 -> in_it z it).
    { intros z Hne Hin. destruct it as [js|]; [|done]. destruct Hx as (js' & -> & (sk & _ & Hx)). cbn in *.
      destruct y as [w|]; [destruct Hx as (i & -> & _)|destruct Hx as [_ ->]; by apply elem_of_nil in Hin]. apply elem_of_app. right. by right. }
    split; [exact J1|]. split; [|split; [|split; [|split]]].
    - intros r z Hr Hz. apply elem_of_cons in Hr as [->|Hr]; [|by eapply J2]. cbn [r_item r_cfg r_store] in *.
      exists q1. split; [done|]. by apply Hy.
    - unfold returned. cbn [omap list_omap r_item]. destruct y as [z|]; [|exact J3]. destruct (Hy z eq_refl) as (_ & _ & js & Ejs & Hw).
      cbn [map]. constructor; [exact J3|]. apply Forall_forall. intros i Hii. apply elem_of_list_fmap in Hii as (w & -> & Hw').
      rewrite Forall_forall in J4. apply J4 in Hw'. rewrite Ejs in Hw'. cbn in Hw'. rewrite Forall_forall in Hw. by apply Hw.
    - assert (Forall (fun z : N * bytes => in_it (fst z) it) (returned l)) as K.
      { rewrite Forall_forall in J4; apply Forall_forall. intros z Hz. destruct it1 as [js1|] eqn:E1.
        - apply Hsub; [done|]. by apply J4.
        - destruct it as [js|]; [|done]. by destruct Hx as (? & ? & _). }
      unfold returned. cbn [omap list_omap r_item]. destruct y as [z|]; [|exact K]. constructor; [by apply Hy|exact K].
    - intros z (r & Hr & Hrn) Hall Hin. unfold returned. cbn [omap list_omap r_item].
      assert (z ∈ q1) as Hz. { apply (Hall (Round es cfg1 s1 y it1)); [left|done]. }
      assert (q_elem q1 (fst z) = Some z) as Ez. { unfold q_elem. destruct z as [i v]. cbn. by rewrite (q_get_in q1 i v). }
      assert (exists js js', it1 = Some js' /\ scanned (q_elem q1) js js' y /\ fst z ∈ js) as (js & js' & E1 & Hs & Hzj).
      { destruct it as [js|]; cbn [nexted] in Hx.
        - destruct Hx as (js' & -> & Hx). by exists js, js'.
        - destruct HR1 as [HC1 HR1]. destruct rng1 as [[h t]|]; [|destruct HR1 as (_ & -> & _); by apply elem_of_nil in Hz].
          destruct Hx as (js' & -> & Hx). exists (idx_order fwd h t), js'. split; [done|]. split; [done|]. apply idx_order_all.
          destruct HR1 as (_ & _ & _ & Hf & _). rewrite Forall_forall in Hf. by apply Hf. }
      destruct Hs as (sk & Hsk & Hs).
      assert (fst z ∉ sk) as Hnsk. { intros Hin'. rewrite Forall_forall in Hsk. apply Hsk in Hin'. congruence. }
      destruct y as [w|]; [|destruct Hs as [-> _]; done].
      destruct Hs as (i & -> & Hw). apply elem_of_app in Hzj as [|Hzj]; [done|]. apply elem_of_cons in Hzj as [<-|Hzj].
      + rewrite Ez in Hw. injection Hw as <-. left.
      + right. apply elem_of_cons in Hr as [->|Hr]; [done|]. apply J5; [by exists r| |by rewrite E1].
        intros r' q' Hr' Hq'. apply (Hall r'); [by right|done].
    - intros js ->. cbn [nexted] in Hx. destruct Hx as (js' & -> & (sk & _ & Hx)). specialize (J6 js' eq_refl). unfold returned in *. cbn [omap list_omap r_item].
      destruct y as [z|].
      + destruct Hx as (i & -> & _). unfold len in *. rewrite app_length. cbn [length]. lia.
      + destruct Hx as [-> ->]. unfold len in *. cbn [length] in J6. lia.
  Qed.
End queue.

(** ** C61 *)
(** An iterator over the queue [qk] is created and its [next] is called while the queue is being
    changed in any way in between. Then
    - [next] never fails;
    - what it returns is in the queue at that moment;
    - the elements come in the order of their indices, so none comes twice;
    - once the iteration has ended, every element that was in the queue at each of the calls has come. *)
Theorem C61_iterating_over_a_changing_queue : forall qk fwd cfg0 s0 es cfg s l cfg' s' it,
  created cfg0 s0 -> hist (queue_guard_lost qk) cfg0 s0 es cfg s ->
  iteration (queue_guard_lost qk) (fun cfg => queue_next cfg qk fwd) cfg s None l cfg' s' it ->
  (exists it' y, snd (krun cfg' (queue_next cfg' qk fwd it) s') = Ok (it', y)) /\
  (forall r x, r ∈ l -> r_item r = Some x -> exists q, shows_elems (r_cfg r) (r_store r) qk q /\ x ∈ q) /\
  StronglySorted (if fwd then N.lt else N.gt) (map fst (returned l)) /\
  ((exists r, r ∈ l /\ r_item r = None) ->
   forall x, (forall r q, r ∈ l -> shows_elems (r_cfg r) (r_store r) qk q -> x ∈ q) -> x ∈ returned l).
Proof.
  intros qk fwd cfg0 s0 es cfg s l cfg' s' it Hc Hh Hi.
  destruct (created_queue_lost qk cfg0 s0 es cfg s Hc Hh) as (x & M & q & lost & rng & _ & HI & HR).
  destruct (queue_iteration qk fwd _ _ _ _ _ _ _ Hi x M q lost rng HI HR Logic.I) as ((x1 & M1 & q1 & lost1 & rng1 & HI1 & HR1 & Hit) & J2 & J3 & J4 & J5 & _).
  split; [|split; [done|split; [done|]]].
  - destruct (qnext_run cfg' x1 M1 s' qk fwd q1 lost1 rng1 it HI1 HR1 Hit) as (s2 & it2 & y & E & _). exists it2, y. by rewrite E.
  - intros Hend z Hz. by apply J5.
Qed.
(** Whatever happens later, the upper bound that [size_hint] gives is one. *)
Theorem C62_queue_size_hint_upper_bound_partial : forall qk fwd cfg0 s0 es cfg s l1 cfg1 s1 it1 l2 cfg2 s2 it2 n,
  created cfg0 s0 -> hist (queue_guard_lost qk) cfg0 s0 es cfg s ->
  iteration (queue_guard_lost qk) (fun cfg => queue_next cfg qk fwd) cfg s None l1 cfg1 s1 it1 ->
  iteration (queue_guard_lost qk) (fun cfg => queue_next cfg qk fwd) cfg1 s1 it1 l2 cfg2 s2 it2 ->
  snd (size_hint it1) = Some n -> len (returned l2) <= n.
Proof.
  intros qk fwd cfg0 s0 es cfg s l1 cfg1 s1 it1 l2 cfg2 s2 it2 n Hc Hh H1 H2 Hn.
  destruct (created_queue_lost qk cfg0 s0 es cfg s Hc Hh) as (x & M & q & lost & rng & _ & HI & HR).
  destruct (queue_iteration qk fwd _ _ _ _ _ _ _ H1 x M q lost rng HI HR Logic.I) as ((x1 & M1 & q1 & lost1 & rng1 & HI1 & HR1 & Hit) & _).
  destruct (queue_iteration qk fwd _ _ _ _ _ _ _ H2 x1 M1 q1 lost1 rng1 HI1 HR1 Hit) as (_ & _ & _ & _ & _ & J).
  destruct it1 as [js|]; cbn [size_hint snd] in Hn; [|done]. injection Hn as <-. by apply J.
Qed.
