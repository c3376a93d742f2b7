(** What concurrent calls may return if some of them look at the object more than once.

    Like [lrun] of ConcSpec.v, but the specification of a call may refer to the states that the
    object has had since the call was made, and a call may change the object in an earlier step. *)
From Verif Require Import Base Fs Shard Router Store Kv Api Conc ConcSpec.

(** A call in progress: not yet effective, with the states seen since it was made (the newest
    first), or effective with a result that has not been returned. *)
Inductive hphase (S : Type) := HCalled (c : call) (seen : list S) | HDone (r : res reply).
Arguments HCalled {S} c seen.
Arguments HDone {S} r.
(** The object takes the state [l]. *)
Definition saw {S} (l : S) (ph : hphase S) : hphase S :=
  match ph with HCalled c seen => HCalled c (l :: seen) | HDone r => HDone r end.

(** [hrun spec mid l P es l' P']: from the state [l] with the calls [P] in progress, the calls and
    returns [es] are possible if every call takes effect at one moment between its call and its
    return with a result and a new state that [spec seen l c r l'] allows, where [seen] are the
    states since the call; before, a call [c] may change the state as [mid l c l'] says. *)
Inductive hrun {S : Type} (spec : list S -> S -> call -> res reply -> S -> Prop) (mid : S -> call -> S -> Prop)
  : S -> gmap nat (hphase S) -> list cevent -> S -> gmap nat (hphase S) -> Prop :=
| hr_nil l P : hrun spec mid l P [] l P
| hr_call l P a c es l' P' :
    P !! a = None -> hrun spec mid l (<[a := HCalled c [l]]> P) es l' P' ->
    hrun spec mid l P (EvCall a c :: es) l' P'
| hr_effect l P a c seen r l1 es l' P' :
    P !! a = Some (HCalled c seen) -> spec seen l c r l1 ->
    hrun spec mid l1 (saw l1 <$> <[a := HDone r]> P) es l' P' ->
    hrun spec mid l P es l' P'
| hr_mid l P a c seen l1 es l' P' :
    P !! a = Some (HCalled c seen) -> mid l c l1 ->
    hrun spec mid l1 (saw l1 <$> P) es l' P' ->
    hrun spec mid l P es l' P'
| hr_ret l P a r es l' P' :
    P !! a = Some (HDone r) -> hrun spec mid l (delete a P) es l' P' ->
    hrun spec mid l P (EvRet a r :: es) l' P'.

(** Without the history and without earlier steps this is [lrun]. *)
Definition forget {S} (ph : hphase S) : phase := match ph with HCalled c _ => PCalled c | HDone r => PDone r end.
Lemma forget_saw {S} (l : S) (P : gmap nat (hphase S)) : forget <$> (saw l <$> P) = forget <$> P.
Proof. rewrite <- map_fmap_compose. apply map_fmap_ext. by intros a [c seen|r] _. Qed.
Lemma hrun_lrun {S} (spec : S -> call -> res reply -> S -> Prop) l P es l' P' :
  hrun (fun _ => spec) (fun _ _ _ => False) l P es l' P' -> lrun spec l (forget <$> P) es l' (forget <$> P').
Proof.
  induction 1 as [l P|l P a c es l' P' H _ IH|l P a c seen r l1 es l' P' H H1 _ IH|l P a c seen l1 es l' P' H H1 _ IH|l P a r es l' P' H _ IH].
  - apply lr_nil.
  - rewrite fmap_insert in IH. apply lr_call; [by rewrite lookup_fmap, H|done].
  - rewrite forget_saw, fmap_insert in IH. eapply lr_effect; [by rewrite lookup_fmap, H|exact H1|exact IH].
  - done.
  - rewrite fmap_delete in IH. apply lr_ret; [by rewrite lookup_fmap, H|done].
Qed.
