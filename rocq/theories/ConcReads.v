(** Reads that return what was there at one moment since the call are linearizable.

    A call that takes effect when it returns, with the result of a state seen since it was made,
    takes effect at the moment of that state. *)
From Verif Require Import Base Fs Shard Router Store Kv Api Conc ConcSpec ConcSeen.

Section reads.
  Context {S : Type} (spec : S -> call -> res reply -> S -> Prop) (rd : call -> bool).
  Implicit Types (l : S) (seen : list S) (c : call) (r : res reply) (a b : nat) (P : gmap nat (hphase S)) (Q : gmap nat phase) (es : list cevent).
  (** The calls [rd] return the result of a state seen. *)
  Definition rd_spec seen l c r l' : Prop :=
    if rd c then l' = l /\ exists l0, l0 ∈ seen /\ spec l0 c r l0 else spec l c r l'.

  (** The call may have taken effect already. *)
  Definition rel (ph : option (hphase S)) (p : option phase) : Prop :=
    match ph, p with
    | None, None => True
    | Some (HDone r), Some (PDone r') => r' = r
    | Some (HCalled c seen), Some (PCalled c') => c' = c
    | Some (HCalled c seen), Some (PDone r) => rd c = true /\ exists l0, l0 ∈ seen /\ spec l0 c r l0
    | _, _ => False
    end.
  (** Calls that take effect now. *)
  Lemma lrun_now l es l' Q' (ks : list nat) : forall Q Q1,
    (forall b, Q !! b = Q1 !! b \/ (b ∈ ks /\ exists c r, Q !! b = Some (PCalled c) /\ Q1 !! b = Some (PDone r) /\ spec l c r l)) ->
    lrun spec l Q1 es l' Q' -> lrun spec l Q es l' Q'.
  Proof.
    induction ks as [|k ks IH]; intros Q Q1 HQ Hr.
    - assert (Q = Q1) as ->; [|done]. apply map_eq. intros b. destruct (HQ b) as [E|[Hb _]]; [done|]. by apply elem_of_nil in Hb.
    - destruct (HQ k) as [E|(_ & c & r & E1 & E2 & Hs)].
      + apply (IH Q Q1); [|done]. intros b. destruct (HQ b) as [Eb|(Hb & Hx)]; [by left|]. apply elem_of_cons in Hb as [->|Hb]; [by left|by right].
      + apply (lr_effect _ l Q k c r l es l' Q' E1 Hs). apply (IH _ Q1); [|done]. intros b. destruct (decide (b = k)) as [->|Hne].
        * left. by rewrite lookup_insert, E2.
        * rewrite lookup_insert_ne by done. destruct (HQ b) as [Eb|(Hb & Hx)]; [by left|]. apply elem_of_cons in Hb as [->|Hb]; [done|by right].
  Qed.
  (** Before the object took the state [l]. *)
  Definition unsee (ph : option (hphase S)) (p : option phase) (p0 : option phase) (l : S) : Prop :=
    rel ph p0 /\ (p0 = p \/ exists c r, p0 = Some (PCalled c) /\ p = Some (PDone r) /\ spec l c r l).
  Lemma unsee_one (ph : option (hphase S)) (p : option phase) l : rel (saw l <$> ph) p -> exists p0, unsee ph p p0 l.
  Proof.
    destruct ph as [[c seen|r]|], p as [[c'|r']|]; cbn [fmap option_fmap option_map saw rel]; try done.
    - intros ->. exists (Some (PCalled c)). split; [done|by left].
    - intros (H1 & l0 & Hin & Hs). apply elem_of_cons in Hin as [->|Hin].
      + exists (Some (PCalled c)). split; [done|]. right. by exists c, r'.
      + exists (Some (PDone r')). split; [|by left]. cbn [rel]. split; [done|]. by exists l0.
    - intros ->. exists (Some (PDone r)). split; [done|by left].
    - intros _. exists None. split; [done|by left].
  Qed.
  Lemma unsee_all (P : gmap nat (hphase S)) Q l : (forall b, rel (saw l <$> P !! b) (Q !! b)) ->
    exists Q0, forall b, unsee (P !! b) (Q !! b) (Q0 !! b) l.
  Proof.
    intros Hr. assert (forall (ks : list nat) (P0 : gmap nat (hphase S)), (forall b, b ∉ ks -> P0 !! b = None) -> (forall b, rel (saw l <$> P0 !! b) (if bool_decide (b ∈ ks) then Q !! b else None)) ->
      exists Q0, forall b, unsee (P0 !! b) (if bool_decide (b ∈ ks) then Q !! b else None) (Q0 !! b) l) as Hind.
    { induction ks as [|k ks IH]; intros P0 HP0 HR.
      - exists ∅. intros b. rewrite (HP0 b) by apply not_elem_of_nil. rewrite lookup_empty. rewrite bool_decide_eq_false_2 by apply not_elem_of_nil. split; [done|by left].
      - destruct (IH (if bool_decide (k ∈ ks) then P0 else delete k P0)) as [Q0 HQ0].
        + intros b Hb. case_bool_decide.
          * apply HP0. intros Hin. apply elem_of_cons in Hin as [->|Hin]; done.
          * destruct (decide (b = k)) as [->|Hne]; [by rewrite lookup_delete|]. rewrite lookup_delete_ne by done. apply HP0. intros Hin. apply elem_of_cons in Hin as [->|Hin]; done.
        + intros b. specialize (HR b). destruct (decide (b = k)) as [->|Hne].
          * rewrite (bool_decide_eq_true_2 (k ∈ k :: ks)) in HR by (apply elem_of_cons; by left). case_bool_decide; [done|]. by rewrite lookup_delete.
          * assert (bool_decide (b ∈ k :: ks) = bool_decide (b ∈ ks)) as Eb. { apply bool_decide_ext. rewrite elem_of_cons. naive_solver. }
            rewrite Eb in HR. destruct (bool_decide (k ∈ ks)); [done|]. by rewrite lookup_delete_ne.
        + destruct (unsee_one (P0 !! k) (Q !! k) l) as [p0 Hp0].
          { specialize (HR k). rewrite bool_decide_eq_true_2 in HR by (apply elem_of_cons; by left). done. }
          exists (match p0 with Some x => <[k := x]> Q0 | None => delete k Q0 end). intros b. destruct (decide (b = k)) as [->|Hne].
          * rewrite (bool_decide_eq_true_2 (k ∈ k :: ks)) by (apply elem_of_cons; by left).
            assert ((match p0 with Some x => <[k := x]> Q0 | None => delete k Q0 end) !! k = p0) as -> by (destruct p0; [by rewrite lookup_insert|by rewrite lookup_delete]). done.
          * assert (bool_decide (b ∈ k :: ks) = bool_decide (b ∈ ks)) as ->. { apply bool_decide_ext. rewrite elem_of_cons. naive_solver. }
            assert ((match p0 with Some x => <[k := x]> Q0 | None => delete k Q0 end) !! b = Q0 !! b) as -> by (destruct p0; [by rewrite lookup_insert_ne|by rewrite lookup_delete_ne]).
            specialize (HQ0 b). destruct (bool_decide (k ∈ ks)); [done|]. by rewrite lookup_delete_ne in HQ0. }
    destruct (Hind (map fst (map_to_list P)) P) as [Q0 HQ0].
    - intros b Hb. apply eq_None_not_Some. intros [x Hx]. apply Hb. apply elem_of_list_fmap. exists (b, x). split; [done|]. by apply elem_of_map_to_list.
    - intros b. specialize (Hr b). case_bool_decide as Hb; [done|]. destruct (P !! b) as [x|] eqn:E; [|done]. destruct Hb. apply elem_of_list_fmap. exists (b, x). split; [done|]. by apply elem_of_map_to_list.
    - exists Q0. intros b. specialize (HQ0 b). case_bool_decide as Hb; [done|]. specialize (Hr b). destruct (P !! b) as [x|] eqn:E.
      + destruct Hb. apply elem_of_list_fmap. exists (b, x). split; [done|]. by apply elem_of_map_to_list.
      + destruct (Q !! b); [done|exact HQ0].
  Qed.
  Lemma forget_rel (P : gmap nat (hphase S)) b : rel (P !! b) ((forget <$> P) !! b).
  Proof. rewrite lookup_fmap. by destruct (P !! b) as [[c seen|r]|]. Qed.

  Lemma hrun_rd_rel l P es l' P' : hrun rd_spec (fun _ _ _ => False) l P es l' P' ->
    exists Q, (forall b, rel (P !! b) (Q !! b)) /\ lrun spec l Q es l' (forget <$> P').
  Proof.
    induction 1 as [l P|l P a c es l' P' H _ IH|l P a c seen r l1 es l' P' H H1 _ IH|l P a c seen l1 es l' P' H H1 _ IH|l P a r es l' P' H _ IH].
    - exists (forget <$> P). split; [apply forget_rel|apply lr_nil].
    - destruct IH as (Q & HQ & Hl). exists (delete a Q). split.
      + intros b. destruct (decide (b = a)) as [->|Hne]; [by rewrite H, lookup_delete|]. specialize (HQ b). rewrite lookup_insert_ne in HQ by done. by rewrite lookup_delete_ne.
      + apply lr_call; [by rewrite lookup_delete|]. pose proof (HQ a) as Ha. rewrite lookup_insert in Ha. cbn [rel] in Ha.
        apply (lrun_now _ _ _ _ [a] _ Q); [|done]. intros b. destruct (decide (b = a)) as [->|Hne].
        * rewrite lookup_insert. destruct (Q !! a) as [[c'|r]|]; [left; by subst|right|done]. split; [by apply elem_of_list_singleton|].
          destruct Ha as (_ & l0 & Hin & Hs). apply elem_of_list_singleton in Hin as ->. by exists c, r.
        * left. by rewrite lookup_insert_ne, lookup_delete_ne.
    - destruct IH as (Q & HQ & Hl).
      destruct (unsee_all (<[a := HDone r]> P) Q l1) as [Q0 HQ0].
      { intros b. specialize (HQ b). by rewrite lookup_fmap in HQ. }
      assert (Hq : lrun spec l1 Q0 es l' (forget <$> P')).
      { apply (lrun_now _ _ _ _ (map fst (map_to_list Q0)) _ Q); [|done]. intros b. destruct (HQ0 b) as [_ [E|(c' & r' & E1 & E2 & E3)]]; [by left|]. right. split; [|by exists c', r'].
        apply elem_of_list_fmap. exists (b, PCalled c'). split; [done|]. by apply elem_of_map_to_list. }
      assert (Q0 !! a = Some (PDone r)) as Ea.
      { destruct (HQ0 a) as [Ha _]. rewrite lookup_insert in Ha. cbn [rel] in Ha. destruct (Q0 !! a) as [[c'|r']|]; try done. by subst. }
      unfold rd_spec in H1. destruct (rd c) eqn:Erd.
      + destruct H1 as [-> (l0 & Hin & Hs)]. exists Q0. split; [|done]. intros b. destruct (decide (b = a)) as [->|Hne].
        * rewrite H, Ea. cbn [rel]. split; [done|]. by exists l0.
        * destruct (HQ0 b) as [Hb _]. by rewrite lookup_insert_ne in Hb.
      + exists (<[a := PCalled c]> Q0). split.
        * intros b. destruct (decide (b = a)) as [->|Hne]; [by rewrite H, lookup_insert|]. rewrite lookup_insert_ne by done. destruct (HQ0 b) as [Hb _]. by rewrite lookup_insert_ne in Hb.
        * eapply lr_effect; [by rewrite lookup_insert|exact H1|]. rewrite insert_insert. by rewrite insert_id.
    - done.
    - destruct IH as (Q & HQ & Hl). exists (<[a := PDone r]> Q). split.
      + intros b. destruct (decide (b = a)) as [->|Hne]; [by rewrite H, lookup_insert|]. specialize (HQ b). rewrite lookup_delete_ne in HQ by done. by rewrite lookup_insert_ne.
      + apply lr_ret; [by rewrite lookup_insert|]. rewrite delete_insert; [done|]. specialize (HQ a). rewrite lookup_delete in HQ. cbn [rel] in HQ. by destruct (Q !! a).
  Qed.
  Lemma hrun_rd l es l' P' : hrun rd_spec (fun _ _ _ => False) l ∅ es l' P' -> lrun spec l ∅ es l' (forget <$> P').
  Proof.
    intros Hr. destruct (hrun_rd_rel _ _ _ _ _ Hr) as (Q & HQ & Hl). assert (Q = ∅) as ->; [|done]. apply map_eq. intros b. specialize (HQ b).
    rewrite lookup_empty in *. by destruct (Q !! b).
  Qed.
End reads.

(** A view of the state. *)
Lemma lrun_view {S T : Type} (f : S -> T) (spec : S -> call -> res reply -> S -> Prop) (spec' : T -> call -> res reply -> T -> Prop) l P es l' P' :
  (forall l c r l', spec l c r l' -> spec' (f l) c r (f l')) -> lrun spec l P es l' P' -> lrun spec' (f l) P es (f l') P'.
Proof.
  intros Hs. induction 1 as [l P|l P a c es l' P' H _ IH|l P a c r l1 es l' P' H H1 _ IH|l P a r es l' P' H _ IH].
  - apply lr_nil.
  - by apply lr_call.
  - eapply lr_effect; [exact H|by apply Hs|exact IH].
  - by apply lr_ret.
Qed.
