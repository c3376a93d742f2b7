(** Concrete iterations over lists and queues that change: the hypotheses of C61 and C62 are met;
    counterexamples. *)
From Verif Require Import Base SipHash Hashing HashingProofs Fs Shard Router RouterPure Wpc Spec FileRep RowOps
  Compact Inv ShardOps Split Insert Open Merge Create Store Limits StoreRefine Kv Lists Queues Api Hist KvSpec
  HistInv KeySpace ListSpec ListRep ListProg ListHist ThmList QueueSpec QueueRep QueueProg QueueHist ThmQueue
  CollIter IterQueue IterList Check Script ExStore ExList ExQueue.
Implicit Types (M : kvmap) (cfg : config) (s : store).

(** ** Scripts with calls of [next] between them *)
Section script.
  Context {A : Type} (gb : config -> kvmap -> event -> bool) (next : config -> citer -> kprog (citer * option A)).
  Fixpoint iter_script (cfg : config) (s : store) (M : kvmap) (it : citer) (l : list (list gcmd)) : option (list (round A) * config * store * citer) :=
    match l with
    | [] => Some ([], cfg, s, it)
    | g :: l =>
      match gscript gb cfg s M g with
      | Some (es, cfg1, s1, M1) =>
        match krun_b cfg1 (next cfg1 it) s1 M1 with
        | Some (s2, M2, Ok (it1, y)) =>
          match iter_script cfg1 s2 M2 it1 l with
          | Some (rs, cfg', s', it') => Some (Round es cfg1 s1 y it1 :: rs, cfg', s', it')
          | None => None
          end
        | _ => None
        end
      | None => None
      end
    end.
  Lemma iter_script_ok (G : config -> store -> event -> Prop) :
    (forall cfg s x M e, SInv cfg x M s -> fits cfg s e -> gb cfg M e = true -> G cfg s e) ->
    forall l cfg s M it x rs cfg' s' it', SInv cfg x M s -> Forall (Forall (gsame_hash cfg)) l ->
    iter_script cfg s M it l = Some (rs, cfg', s', it') -> iteration G next cfg s it rs cfg' s' it'.
  Proof.
    intros HG. induction l as [|g l IH]; intros cfg s M it x rs cfg' s' it' HI Hh Hs; cbn [iter_script] in Hs.
    - injection Hs as <- <- <- <-. constructor.
    - apply Forall_cons in Hh as [Hh1 Hh2].
      destruct (gscript gb cfg s M g) as [[[[es cfg1] s1] M1]|] eqn:E1; [|discriminate Hs].
      destruct (gscript_ok gb G HG g cfg s M es cfg1 s1 M1 x HI Hh1 E1) as (H1 & Hhash & x1 & H2).
      destruct (krun_b cfg1 (next cfg1 it) s1 M1) as [[[s2 M2] [[it1 y]|e]]|] eqn:E2; [|discriminate Hs|discriminate Hs].
      destruct (krun_b_ok cfg1 x1 _ _ _ _ _ _ H2 E2) as (_ & H3 & H4).
      destruct (iter_script cfg1 s2 M2 it1 l) as [[[[rs1 cfg2] s3] it2]|] eqn:E3; [|discriminate Hs]. injection Hs as <- <- <- <-.
      eapply it_next; [exact H1|exact H3|]. eapply IH; [exact H4| |exact E3].
      eapply Forall_impl; [exact Hh2|]. intros g' Hg'. eapply Forall_impl; [exact Hg'|]. intros [[]|] ?; cbn in *; congruence.
  Qed.
End script.
Definition iter_of {A : Type} (gb : config -> kvmap -> event -> bool) (next : config -> citer -> kprog (citer * option A)) (cfg : config)
  (l0 : list gcmd) (it : citer) (l : list (list gcmd)) : option (list (round A) * config * store * citer) :=
  iter_script gb next cfg (gstore gb cfg l0) (gmap_after gb cfg l0) it l.
Definition runs_iter {A : Type} (o : option (list (round A) * config * store * citer)) : bool := match o with Some _ => true | None => false end.
Definition rounds_of {A : Type} (o : option (list (round A) * config * store * citer)) : list (round A) :=
  match o with Some (rs, _, _, _) => rs | None => [] end.

Lemma iter_happens {A : Type} (gb : config -> kvmap -> event -> bool) (G : config -> store -> event -> Prop)
  (next : config -> citer -> kprog (citer * option A)) (l0 : list gcmd) (l : list (list gcmd)) :
  (forall cfg s x M e, SInv cfg x M s -> fits cfg s e -> gb cfg M e = true -> G cfg s e) ->
  (forall c, GCmd (XReopen c) ∉ l0) -> Forall (Forall (gsame_hash ex_cfg)) l ->
  gruns gb ex_cfg l0 = true -> runs_iter (iter_of gb next ex_cfg l0 None l) = true ->
  created ex_cfg (new_store ex_cfg) /\
  hist G ex_cfg (new_store ex_cfg) (gevents gb ex_cfg l0) ex_cfg (gstore gb ex_cfg l0) /\
  exists cfg' s' it', iteration G next ex_cfg (gstore gb ex_cfg l0) None (rounds_of (iter_of gb next ex_cfg l0 None l)) cfg' s' it'.
Proof.
  intros HG Hno Hl H0 Hr. destruct (gscript0_ok gb G ex_cfg l0 HG ex_cfg_ok) as (H1 & H2 & x & H3).
  - apply Forall_forall. intros [[| | |c]|] Hin; try exact Logic.I. by destruct (Hno c).
  - exact H0.
  - rewrite gcfg_same in H2, H3 by exact Hno. split; [exact H1|]. split; [exact H2|].
    unfold runs_iter, rounds_of in *. destruct (iter_of gb next ex_cfg l0 None l) as [[[[rs cfg'] s'] it']|] eqn:E; [|discriminate Hr].
    exists cfg', s', it'. unfold iter_of in E. eapply iter_script_ok; [exact HG|exact H3|exact Hl|exact E].
Qed.

(** ** Queues *)
(** Three elements; one is popped at the front, one pushed at the back and one at the front, one removed
    from the middle, and the process dies, while the iteration goes on. *)
Definition ex_iterq0 : list gcmd := [xq qa (QPush false [x31]); xq qa (QPush false [x32]); xq qa (QPush false [x33]); xq qa (QPush false [x34])].
Definition ex_iterq : list (list gcmd) :=
  [[]; [xq qa (QPop true); xq qa (QPush false [x35]); xq qa (QPush true [x36])]; [xq qa (QRemove (i0 + 2)); GCrash (CQueue qa (QPush false [x37])) 2]; []; []].
Definition ex_iterq_got : list (option (N * bytes)) := [Some (i0, [x31]); Some (i0 + 1, [x32]); Some (i0 + 3, [x34]); None; None].
Definition itemsN_b (a b : list (option (N * bytes))) : bool := bool_decide (a = b).
Example C61_queue_example : exists es s l cfg' s' it, created ex_cfg (new_store ex_cfg) /\
  hist (queue_guard_lost qa) ex_cfg (new_store ex_cfg) es ex_cfg s /\
  iteration (queue_guard_lost qa) (fun cfg => queue_next cfg qa true) ex_cfg s None l cfg' s' it /\ map r_item l = ex_iterq_got.
Proof.
  destruct (iter_happens (queue_gb_lost qa) (queue_guard_lost qa) (fun cfg => queue_next cfg qa true) ex_iterq0 ex_iterq (queue_gb_lost_ok qa)) as (H1 & H2 & cfg' & s' & it' & H3).
  - no_reopens.
  - by repeat constructor.
  - by vm_cast_no_check (eq_refl true).
  - by vm_cast_no_check (eq_refl true).
  - eexists _, _, _, cfg', s', it'. split; [exact H1|]. split; [exact H2|]. split; [exact H3|].
    by vm_cast_no_check (eq_refl ex_iterq_got).
Qed.

(** ** Lists *)
(** Items are changed, added and taken out, and a background row is written, while the iteration goes on. *)
Definition id_ : bytes := [x64].
Definition ex_iterl0 : list gcmd := [xl la (LSet ia [x31]); xl la (LSet ib [x32]); xl la (LSet ic [x33])].
Definition ex_iterl : list (list gcmd) :=
  [[]; [xl la (LSet ib [x35]); xl la (LSet id_ [x36]); xl la (LRemove ia)]; [xl la (LPop false); GCmd (XMaint (MBgRow 0))]; []; []].
Definition ex_iterl_got : list (option (bytes * bytes)) := [Some (ia, [x31]); Some (ib, [x35]); Some (ic, [x33]); None; None].
Example C61_list_example : exists es s l cfg' s' it, created ex_cfg (new_store ex_cfg) /\
  hist (list_guard_lost la) ex_cfg (new_store ex_cfg) es ex_cfg s /\
  iteration (list_guard_lost la) (fun cfg => list_next cfg la true) ex_cfg s None l cfg' s' it /\ map r_item l = ex_iterl_got /\
  (forall r e ik, r ∈ l -> e ∈ r_events r -> ik = ib \/ ik = ic -> ~ moves la ik e).
Proof.
  destruct (iter_happens (list_gb_lost la) (list_guard_lost la) (fun cfg => list_next cfg la true) ex_iterl0 ex_iterl (list_gb_lost_ok la)) as (H1 & H2 & cfg' & s' & it' & H3).
  - no_reopens.
  - by repeat constructor.
  - by vm_cast_no_check (eq_refl true).
  - by vm_cast_no_check (eq_refl true).
  - eexists _, _, _, cfg', s', it'. split; [exact H1|]. split; [exact H2|]. split; [exact H3|].
    split; [by vm_cast_no_check (eq_refl ex_iterl_got)|].
    set (R := rounds_of _) in *. clear H1 H2 H3.
    assert (concat (map r_events R) = [ECall (CList la (LSet ib [x35])) (Ok (YSet (PrevValue [x32]))); ECall (CList la (LSet id_ [x36])) (Ok (YSet CreatedNew));
      ECall (CList la (LRemove ia)) (Ok (YOpt (Some [x31]))); ECall (CList la (LPop false)) (Ok (YItem (Some (id_, [x36])))); EMaint (MBgRow 0)]) as E.
    { unfold R. match goal with |- _ = ?e => by vm_cast_no_check (eq_refl e) end. }
    clearbody R. intros r e ik Hr He Hk. assert (e ∈ concat (map r_events R)) as Hin.
    { apply elem_of_list_In, in_concat. exists (r_events r). split; [apply elem_of_list_In, elem_of_list_fmap; by exists r|by apply elem_of_list_In]. }
    rewrite E in Hin. clear E Hr He R.
    repeat (apply elem_of_cons in Hin as [->|Hin]; [cbn [moves call_moves]|]).
    + intros [_ []].
    + intros [_ []].
    + intros [_ Hx]. destruct Hk as [->| ->]; discriminate Hx.
    + intros [_ [v Hx]]. destruct Hk as [->| ->]; discriminate Hx.
    + intros [].
    + by apply elem_of_nil in Hin.
Qed.

(** An item is in the list all the time, and iterating to the end does not show it: the list was compacted
    (which moves the items to new places) after the first call of [next]. *)
Definition ex_iterc0 : list gcmd := [xl la (LSet ia [x31]); xl la (LSet ib [x32]); xl la (LSet ic [x33]); xl la (LRemove ib)].
Definition ex_iterc : list (list gcmd) := [[]; [xl la (LCompact (fun _ _ => false) 2)]; []].
Theorem C61_compacting_hides_items_refuted : exists es s l cfg' s' it, created ex_cfg (new_store ex_cfg) /\
  hist (list_guard_lost la) ex_cfg (new_store ex_cfg) es ex_cfg s /\
  iteration (list_guard_lost la) (fun cfg => list_next cfg la true) ex_cfg s None l cfg' s' it /\
  (exists r, r ∈ l /\ r_item r = None) /\
  (forall r, r ∈ l -> reply_to (r_cfg r) (r_store r) (CList la (LIter true)) = Ok (YItems [(ia, [x31]); (ic, [x33])])) /\
  returned l = [(ia, [x31])].
Proof.
  destruct (iter_happens (list_gb_lost la) (list_guard_lost la) (fun cfg => list_next cfg la true) ex_iterc0 ex_iterc (list_gb_lost_ok la)) as (H1 & H2 & cfg' & s' & it' & H3).
  - no_reopens.
  - by repeat constructor.
  - by vm_cast_no_check (eq_refl true).
  - by vm_cast_no_check (eq_refl true).
  - eexists _, _, _, cfg', s', it'. split; [exact H1|]. split; [exact H2|]. split; [exact H3|].
    set (R := rounds_of _) in *. clear H1 H2 H3.
    assert (map r_item R = [Some (ia, [x31]); None; None]) as E1.
    { unfold R. match goal with |- _ = ?e => by vm_cast_no_check (eq_refl e) end. }
    assert (map (fun r => reply_to (r_cfg r) (r_store r) (CList la (LIter true))) R = replicate 3 (Ok (YItems [(ia, [x31]); (ic, [x33])]))) as E2.
    { unfold R. match goal with |- _ = ?e => by vm_cast_no_check (eq_refl e) end. }
    clearbody R. split.
    { assert (None ∈ map r_item R) as Hin by (rewrite E1; by right; left). apply elem_of_list_fmap in Hin as (r & Hr1 & Hr2). by exists r. }
    split.
    { intros r Hr. assert (reply_to (r_cfg r) (r_store r) (CList la (LIter true)) ∈ replicate 3 (Ok (YItems [(ia, [x31]); (ic, [x33])]))) as Hin.
      { rewrite <- E2. apply elem_of_list_fmap. by exists r. }
      by apply elem_of_replicate_inv in Hin. }
    destruct R as [|[? ? ? ? ?] [|[? ? ? ? ?] [|[? ? ? ? ?] [|? ?]]]]; try discriminate E1. cbn [map CollIter.r_item] in E1. injection E1 as -> -> ->. reflexivity.
Qed.

Lemma first_round {A : Type} G (next : config -> citer -> kprog (citer * option A)) cfg s it cfg1 s1 y i l cfg' s' it' :
  iteration G next cfg s it (Round [] cfg1 s1 y i :: l) cfg' s' it' -> cfg1 = cfg /\ s1 = s.
Proof. intros H. inversion H as [|? ? ? ? ? ? ? ? ? ? ? ? ? Hh _ _]; subst. by inversion Hh; subst. Qed.
(** The lower bound of [size_hint] is not one: the list has two items and a hole between them; after the
    first one was returned, [size_hint] says that there are exactly two more. *)
Definition ex_hint : list (list gcmd) := [[]; []; []].
Theorem C62_size_hint_lower_bound_refuted : exists es s y1 it1 l2 cfg' s' it', created ex_cfg (new_store ex_cfg) /\
  hist (list_guard_lost la) ex_cfg (new_store ex_cfg) es ex_cfg s /\
  iteration (list_guard_lost la) (fun cfg => list_next cfg la true) ex_cfg s None (Round [] ex_cfg s (Some y1) it1 :: l2) cfg' s' it' /\
  (forall r, r ∈ l2 -> r_events r = []) /\ (exists r, r ∈ l2 /\ r_item r = None) /\
  size_hint it1 = (2, Some 2) /\ len (returned l2) = 1.
Proof.
  destruct (iter_happens (list_gb_lost la) (list_guard_lost la) (fun cfg => list_next cfg la true) ex_iterc0 ex_hint (list_gb_lost_ok la)) as (H1 & H2 & cfg' & s' & it' & H3).
  - no_reopens.
  - by repeat constructor.
  - by vm_cast_no_check (eq_refl true).
  - by vm_cast_no_check (eq_refl true).
  - set (R := rounds_of _) in *.
    assert (map (fun r => (r_events r, r_item r, size_hint (r_iter r))) R = [([], Some (ia, [x31]), (2, Some 2)); ([], Some (ic, [x33]), (0, Some 0)); ([], None, (0, Some 0))]) as E1.
    { unfold R. match goal with |- _ = ?e => by vm_cast_no_check (eq_refl e) end. }
    clearbody R. destruct R as [|[es1 c1 s1 y1 i1] [|[es2 c2 s2' y2 i2] [|[es3 c3 s3 y3 i3] [|? ?]]]]; try discriminate E1.
    cbn [map r_events r_item r_iter] in E1. injection E1 as -> -> E1 -> -> _ -> -> _.
    assert (c1 = ex_cfg /\ s1 = gstore (list_gb_lost la) ex_cfg ex_iterc0) as [-> ->].
    { exact (first_round _ _ _ _ _ _ _ _ _ _ _ _ _ H3). }
    eexists _, _, (ia, [x31]), i1, _, cfg', s', it'. split; [exact H1|]. split; [exact H2|]. split; [exact H3|]. clear H1 H2 H3.
    split.
    { intros r Hr. repeat (apply elem_of_cons in Hr as [->|Hr]; [reflexivity|]). by apply elem_of_nil in Hr. }
    split; [eexists; split; [right; left|reflexivity]|]. split; [exact E1|reflexivity].
Qed.
