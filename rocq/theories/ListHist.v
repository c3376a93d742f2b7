(** The list API refines its specification along every history. *)
From Verif Require Import Base Hashing HashingProofs Fs Shard Router RouterPure Wpc Spec FileRep RowOps
  Compact Inv ShardOps Split Insert Open Merge Create Store Limits StoreRefine Kv Lists Queues Api Hist KvSpec
  HistInv KeySpace ListSpec ListRep ListProg.
Implicit Types (M : kvmap) (cfg : config) (s : store).

Lemma hashk_cfg cfg cfg' k : c_hash cfg' = c_hash cfg -> hashk cfg' k = hashk cfg k.
Proof. Transparent hashk. unfold hashk. by intros ->. Qed.
Opaque hashk.
Lemma list_ph_cfg cfg cfg' lk : c_hash cfg' = c_hash cfg -> list_ph cfg' lk = list_ph cfg lk.
Proof. intros H. by apply hashk_cfg. Qed.
Lemma rep_cfg cfg cfg' lk M its lost : c_hash cfg' = c_hash cfg -> rep cfg lk M its lost -> rep cfg' lk M its lost.
Proof.
  intros Hh [[A B C D E F] HR]. split; [|exact HR]. constructor; try done.
  - intros ik w. rewrite (list_ph_cfg _ _ _ Hh). apply A.
  - intros i ik v. rewrite (list_ph_cfg _ _ _ Hh), (hashk_cfg _ _ _ Hh). apply B.
  - intros i b. rewrite (list_ph_cfg _ _ _ Hh). intros H. destruct (C _ _ H) as [k ->]. exists k. by rewrite (hashk_cfg _ _ _ Hh).
Qed.
Lemma rep_ext cfg lk M M' its lost : (forall k, list_keys cfg lk k -> M' !! k = M !! k) -> rep cfg lk M its lost -> rep cfg lk M' its lost.
Proof.
  intros H [HC HR]. split.
  - eapply core_ext; [| |exact HC]; intros i; apply H; auto with kne.
  - unfold rec_ok in *. by rewrite (H (list_key lk)); [|auto with kne].
Qed.
Lemma rep_nil cfg lk : rep cfg lk ∅ [] 0.
Proof.
  split; [apply core_empty|].
  - intros ik. apply lookup_empty.
  - intros i b H. by rewrite lookup_empty in H.
  - unfold rec_ok. by rewrite lookup_empty.
Qed.

(** A call that does not concern the list. *)
Definition off_list (cfg : config) (lk : bytes) (c : call) : Prop :=
  match c with CList lk' _ => list_ph cfg lk' <> list_ph cfg lk | _ => True end.
Lemma off_list_kwp cfg lk c M its lost : rep cfg lk M its lost -> off_list cfg lk c ->
  kwp cfg (call_prog cfg c) (fun M' => rep cfg lk M' its lost) (fun _ M' => rep cfg lk M' its lost) (fun _ M' => rep cfg lk M' its lost) M.
Proof.
  intros HR Hc.
  assert (Hs : forall M', same_outside (call_keys cfg c) M M' -> rep cfg lk M' its lost).
  { intros M' HM. eapply rep_ext; [|exact HR]. intros k Hk. apply HM. intros Hk2.
    destruct (call_keys_list cfg c lk k Hk Hk2) as (lk' & c' & -> & Hp). done. }
  eapply kwp_mono; [| | |eapply (kwp_frame cfg (call_keys cfg c) _ anyv M); [apply call_writes|by intros ? ?]].
  - exact Hs.
  - intros a M' _. apply Hs.
  - intros a M' _. apply Hs.
Qed.
Lemma room_ok cfg x M s lk : SInv cfg x M s -> list_room cfg s lk -> entries_ok cfg M /\ index_room (list_key lk) M.
Proof. intros HI H. apply H. by eapply SInv_content. Qed.

Definition list_inv (lk : bytes) cfg M (l : items) : Prop := exists its, rep cfg lk M its 0 /\ map snd its = l.
Lemma list_spec_0 l c y l' : list_spec_lost l 0 c y l' -> list_spec l c y l'.
Proof. destruct c; try done. cbn. by rewrite N.add_0_r. Qed.

Lemma list_lifts lk : lifts (list_inv lk) (list_step lk) (list_guard lk).
Proof.
  constructor.
  - intros cfg cfg' M l Hh (its & HR & Hl). exists its. split; [by eapply rep_cfg|done].
  - intros cfg s e [H _]. exact H.
  - intros cfg s x M l c r HI (its & HR & Hl) [Hf Hg]. exists (fun _ => True).
    assert (off_list cfg lk c \/ exists lc, c = CList lk lc /\ (list_reads lc = false -> list_room cfg s lk) /\ lcall_accepts cfg lk lc) as Hcase.
    { destruct c as [o|tid o|lk' c|qk c|b c]; try (left; done). cbn in Hg. case_bool_decide as E; [subst lk'; right; eauto|by left]. }
    destruct Hcase as [Hoff|(lc & -> & Hroom & Hacc)].
    + assert (Hst : forall r', list_step lk cfg l (ECall c r') cfg l).
      { intros r'. destruct c as [o|tid o|lk' c|qk c|b c]; try done. cbn. case_bool_decide as E; [subst lk'; by destruct Hoff|done]. }
      eapply kwp_mono; [| | |by apply (off_list_kwp cfg lk c M its 0)]; [done| |];
        (intros y M' _ H; exists l; split; [apply Hst|]; exists its; done).
    + cbn [call_prog]. eapply kwp_mono; [| | |apply (list_kwp cfg lk M its 0 lc HR)]; [done| | |].
      * intros y M' _ (its' & lost' & H1 & H2 & H3). exists (map snd its'). rewrite Hl in H3. cbn [list_step].
        rewrite bool_decide_true by done. split; [exists y; split; [done|]; by apply list_spec_0|].
        exists its'. split; [|done]. by replace 0 with lost' by lia.
      * intros y M' _ (its' & lost' & H1 & H2 & H3 & H4). done.
      * intros Hr. apply (room_ok cfg x M s lk HI). by apply Hroom.
  - intros cfg s x M l c HI (its & HR & Hl) [Hf Hg].
    assert (off_list cfg lk c) as Hoff by (by destruct c).
    eapply kwp_mono; [| | |by apply (off_list_kwp cfg lk c M its 0)]; [|done|done].
    intros M' H. exists l. split; [|exists its; done]. intros cfg' _. done.
  - intros cfg s x M l e HI HV _ He. exists l. split; [|done]. intros cfg' _. destruct e as [c r|mt| | |[|c|mt]]; done.
  - intros cfg s x M l HI HV _. exists []. split; [done|]. exists []. split; [apply rep_nil|done].
Qed.

Definition list_inv_lost (lk : bytes) cfg M (a : items * N) : Prop := exists its, rep cfg lk M its (snd a) /\ map snd its = fst a.
Lemma list_lost_lifts lk : lifts (list_inv_lost lk) (list_step_lost lk) (list_guard_lost lk).
Proof.
  constructor.
  - intros cfg cfg' M l Hh (its & HR & Hl). exists its. split; [by eapply rep_cfg|done].
  - intros cfg s e [H _]. exact H.
  - intros cfg s x M [l lost] c r HI (its & HR & Hl) [Hf Hg]. exists (fun _ => True). cbn [fst snd] in *.
    assert (off_list cfg lk c \/ exists lc, c = CList lk lc /\ (list_reads lc = false -> list_room cfg s lk)) as Hcase.
    { destruct c as [o|tid o|lk' c|qk c|b c]; try (left; done). cbn in Hg. case_bool_decide as E; [subst lk'; right; eauto|by left]. }
    destruct Hcase as [Hoff|(lc & -> & Hroom)].
    + assert (Hst : forall r', list_step_lost lk cfg (l, lost) (ECall c r') cfg (l, lost)).
      { intros r'. destruct c as [o|tid o|lk' c|qk c|b c]; try done. cbn. case_bool_decide as E; [subst lk'; by destruct Hoff|done]. }
      eapply kwp_mono; [| | |by apply (off_list_kwp cfg lk c M its lost)]; [done| |];
        (intros y M' _ H; exists (l, lost); split; [apply Hst|]; exists its; done).
    + cbn [call_prog]. eapply kwp_mono; [| | |apply (list_kwp cfg lk M its lost lc HR)]; [done| | |].
      * intros y M' _ (its' & lost' & H1 & H2 & H3). exists (map snd its', lost'). rewrite Hl in H3. cbn [list_step_lost].
        rewrite bool_decide_true by done. split; [done|]. exists its'. done.
      * intros y M' _ (its' & lost' & H1 & H2 & H3 & H4). exists (map snd its', lost'). rewrite Hl in H4. cbn [list_step_lost].
        rewrite bool_decide_true by done. split; [done|]. exists its'. done.
      * intros Hr. apply (room_ok cfg x M s lk HI). by apply Hroom.
  - intros cfg s x M [l lost] c HI (its & HR & Hl) [Hf Hg]. cbn [fst snd] in *.
    assert (off_list cfg lk c \/ exists lc, c = CList lk lc /\ (list_reads lc = false -> list_room cfg s lk) /\ adds_or_reads lc = true) as Hcase.
    { destruct c as [o|tid o|lk' c|qk c|b c]; try (left; done). cbn in Hg. case_bool_decide as E; [subst lk'; right; eauto|by left]. }
    destruct Hcase as [Hoff|(lc & -> & Hroom & Had)].
    + eapply kwp_mono; [| | |by apply (off_list_kwp cfg lk c M its lost)]; [|done|done].
      intros M' H. exists (l, lost). split; [|exists its; done]. intros cfg' _.
      destruct c as [o|tid o|lk' c|qk c|b c]; try done. cbn. case_bool_decide as E; [subst lk'; by destruct Hoff|done].
    + cbn [call_prog]. eapply kwp_mono; [| | |apply (list_kwp cfg lk M its lost lc HR)]; [|done|done|].
      * intros M' Hc. destruct (Hc Had) as (its' & lost' & H1 & H2 & H3). rewrite Hl in H3. exists (map snd its', lost').
        split; [|exists its'; done]. intros cfg' _. cbn [list_step_lost]. rewrite bool_decide_true by done. done.
      * intros Hr. apply (room_ok cfg x M s lk HI). by apply Hroom.
  - intros cfg s x M l e HI HV _ He. exists l. split; [|done]. intros cfg' _. destruct e as [c r|mt| | |[|c|mt]]; done.
  - intros cfg s x M l HI HV _. exists ([], 0). split; [done|]. exists []. split; [apply rep_nil|done].
Qed.
