(** The plain API refines the map specification along every history. *)
From Verif Require Import Base Hashing HashingProofs Fs Shard Router RouterPure Wpc Spec FileRep RowOps
  Compact Inv ShardOps Split Insert Open Merge Create Store Limits StoreRefine Kv Lists Queues Api Hist KvSpec
  HistInv KeySpace PlainSpec.

(** The raw map [M] seen through the plain API. *)
Definition view (M m : gmap bytes bytes) : Prop := forall k, M !! user_key k = m !! k.

Lemma rejected_ins cfg k v :
  rejected cfg k v = match ensure_sizes k v with Err e => Some e | Ok _ => ins_err cfg (user_key k) v end.
Proof.
  unfold rejected, ensure_sizes, ins_err. destruct (N.ltb_spec MAX_KEY_SIZE (len k)) as [|H1]; [done|].
  destruct (N.ltb_spec MAX_VALUE_SIZE (len v)) as [|H2]; [done|].
  unfold user_key. rewrite Base.len_app. change (len [USER_NS]) with 1.
  unfold MAX_KEY_SIZE, MAX_VALUE_SIZE, MAX_TOTAL_KEY_SIZE, MAX_TOTAL_VALUE_SIZE in *.
  destruct (N.ltb_spec 16383 (len k + 1)) as [|_]; [lia|].
  destruct (N.ltb_spec 65535 (len v)) as [|_]; [lia|]. done.
Qed.

Lemma view_insert M m k v : view M m -> view (<[user_key k := v]> M) (<[k := v]> m).
Proof.
  intros H k'. destruct (decide (k = k')) as [->|Hne].
  - by rewrite !lookup_insert.
  - rewrite !lookup_insert_ne; [apply H|done|]. intros E. by apply user_key_inj in E.
Qed.
Lemma view_delete M m k : view M m -> view (delete (user_key k) M) (delete k m).
Proof.
  intros H k'. destruct (decide (k = k')) as [->|Hne].
  - by rewrite !lookup_delete.
  - rewrite !lookup_delete_ne; [apply H|done|]. intros E. by apply user_key_inj in E.
Qed.

Lemma plain_kwp cfg o M m : view M m ->
  kwp cfg (plain_prog o) (fun M' => view M' m \/ view M' (fst (spec_op cfg m o)))
    (fun r M' => snd (spec_op cfg m o) = Ok r /\ view M' (fst (spec_op cfg m o)))
    (fun e M' => snd (spec_op cfg m o) = Err e /\ view M' (fst (spec_op cfg m o))) M.
Proof.
  intros HV. destruct o as [k|k|k|k v|k v ex|k v]; cbn [plain_prog spec_op fst snd].
  - cbn. rewrite HV. auto.
  - cbn. rewrite HV. split; [auto|]. split; [auto|]. split; [|done]. by destruct (m !! k).
  - cbn. rewrite HV. split; [auto|]. pose proof (view_delete M m k HV). auto.
  - rewrite rejected_ins. destruct (ensure_sizes k v) as [[]|e]; [|cbn; auto].
    cbn. split; [auto|]. split; [apply user_key_ne|]. destruct (ins_err cfg (user_key k) v); [cbn; auto|].
    pose proof (view_insert M m k v HV). unfold spec_ins. rewrite HV. by destruct (m !! k); cbn; auto.
  - rewrite rejected_ins. destruct (ensure_sizes k v) as [[]|e]; [|cbn; auto].
    cbn. split; [auto|]. split; [apply user_key_ne|]. destruct (ins_err cfg (user_key k) v); [cbn; auto|].
    pose proof (view_insert M m k v HV). unfold spec_ins. rewrite HV. destruct (m !! k) as [cur|]; [|cbn; auto].
    destruct ex as [ex|]; cbn; [|auto]. case_bool_decide; cbn; auto.
  - rewrite rejected_ins. destruct (ensure_sizes k v) as [[]|e]; [|cbn; auto].
    cbn. split; [auto|]. split; [apply user_key_ne|]. destruct (ins_err cfg (user_key k) v); [cbn; auto|].
    pose proof (view_insert M m k v HV). unfold spec_ins. rewrite HV. by destruct (m !! k); cbn; auto.
Qed.

(** Calls of the other kinds do not touch plain keys. *)
Lemma other_kwp cfg c M m : view M m -> (forall o, c <> CPlain o) ->
  kwp cfg (call_prog cfg c) (fun M' => view M' m) (fun _ M' => view M' m) (fun _ M' => view M' m) M.
Proof.
  intros HV Hc.
  assert (Hs : forall M', same_outside (call_keys cfg c) M M' -> view M' m).
  { intros M' HM k. rewrite <- HV. apply HM. intros Hk. apply call_keys_user in Hk as (o & -> & _). by apply (Hc o). }
  eapply kwp_mono; [| | |eapply (kwp_frame cfg (call_keys cfg c) _ anyv M); [apply call_writes|by intros ? ?]].
  - exact Hs.
  - intros a M' _. apply Hs.
  - intros a M' _. apply Hs.
Qed.

Lemma plain_lifts : lifts (fun _ M m => view M m) plain_step fits.
Proof.
  constructor.
  - done.
  - done.
  - intros cfg s x M m c r HI HV _. exists (fun _ => True). destruct c as [o|tid o|lk c|qk c|b c].
    + cbn [call_prog]. apply kwp_map. eapply kwp_mono; [| | |by apply (plain_kwp cfg o M m)].
      * done.
      * intros y M' _ [H1 H2]. eexists. split; [|exact H2]. cbn. by rewrite H1.
      * intros e M' _ [H1 H2]. eexists. split; [|exact H2]. cbn. by rewrite H1.
    + eapply kwp_mono; [| | |apply (other_kwp cfg _ M m HV); done]; [done|intros y M' _ H; by exists m|intros y M' _ H; by exists m].
    + eapply kwp_mono; [| | |apply (other_kwp cfg _ M m HV); done]; [done|intros y M' _ H; by exists m|intros y M' _ H; by exists m].
    + eapply kwp_mono; [| | |apply (other_kwp cfg _ M m HV); done]; [done|intros y M' _ H; by exists m|intros y M' _ H; by exists m].
    + eapply kwp_mono; [| | |apply (other_kwp cfg _ M m HV); done]; [done|intros y M' _ H; by exists m|intros y M' _ H; by exists m].
  - intros cfg s x M m c HI HV _. destruct c as [o|tid o|lk c|qk c|b c].
    + cbn [call_prog]. apply kwp_map. eapply kwp_mono; [| | |by apply (plain_kwp cfg o M m)]; [|done|done].
      intros M' [H|H]; [exists m|exists (fst (spec_op cfg m o))]; (split; [|done]); intros cfg' _; cbn; auto.
    + eapply kwp_mono; [| | |apply (other_kwp cfg _ M m HV); done]; [intros M' H; by exists m|done|done].
    + eapply kwp_mono; [| | |apply (other_kwp cfg _ M m HV); done]; [intros M' H; by exists m|done|done].
    + eapply kwp_mono; [| | |apply (other_kwp cfg _ M m HV); done]; [intros M' H; by exists m|done|done].
    + eapply kwp_mono; [| | |apply (other_kwp cfg _ M m HV); done]; [intros M' H; by exists m|done|done].
  - intros cfg s x M m e HI HV _ He. exists m. split; [|done]. intros cfg' _.
    destruct e as [c r|mt| | |[|c|mt]]; done.
  - intros cfg s x M m HI HV _. exists ∅. split; [done|]. intros k. by rewrite !lookup_empty.
Qed.
