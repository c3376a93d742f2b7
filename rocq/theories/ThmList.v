(** The properties of lists (C20, C23-C27). *)
From Verif Require Import Base Hashing HashingProofs Fs Shard Router RouterPure Wpc Spec FileRep RowOps
  Compact Inv ShardOps Split Insert Open Merge Create Store Limits StoreRefine Kv Lists Queues Api Hist KvSpec
  HistInv KeySpace ListSpec ListRep ListProg ListHist.
Implicit Types (M : kvmap) (cfg : config) (s : store).

(** The reply to a call. *)
Definition reply_to (cfg : config) (s : store) (c : call) : res reply := snd (krun cfg (call_prog cfg c) s).
(** The list [lk] of the store is [l], as seen by all reading calls: get_from_list of every
    item key, iteration and peeking in both directions, list_len. *)
Definition shows_list (cfg : config) (s : store) (lk : bytes) (l : items) : Prop :=
  forall c y, list_reads c = true -> list_spec l c y l -> reply_to cfg s (CList lk c) = Ok y.
(** The same without list_len. *)
Definition shows_items (cfg : config) (s : store) (lk : bytes) (l : items) : Prop :=
  forall c y, list_reads c = true -> c <> LLen -> list_spec l c y l -> reply_to cfg s (CList lk c) = Ok y.

Lemma reads_fits {A} cfg (p : kprog A) : kwrites (fun _ => False) anyv p -> forall s, kfits cfg p s.
Proof.
  induction p as [a|e|X o k IH]; intros Hp s; cbn [kfits kwrites] in *; [done|done|]. destruct Hp as [H1 H2].
  split; [destruct o; try done; by destruct H1|]. destruct (run_kop cfg o s) as [s' [y|e]]; [by apply IH|done].
Qed.
Lemma list_reads_writes cfg lk c : list_reads c = true -> kwrites (fun _ => False) anyv (call_prog cfg (CList lk c)).
Proof.
  intros Hc. destruct c; try done; cbn [call_prog list_prog]; apply kwrites_map.
  - cbn. split; [done|]. intros [x|]; [|done]. apply kwrites_bind, kwrites_lift. by intros [].
  - unfold iter_list. apply kwrites_seq; [apply list_range_writes|]. intros [[]|]; [|done].
    eapply kwrites_mono; [| |apply iter_items_writes]; [intros k Hk; exact Hk|by intros a].
  - unfold peek_list. apply kwrites_seq; [apply list_range_writes|]. intros [[]|]; [|done].
    eapply kwrites_mono; [| |apply peek_items_writes]; [intros k Hk; exact Hk|by intros a].
  - cbn. split; [done|]. intros [x|]; [|done]. apply kwrites_bind, kwrites_lift. by intros [].
Qed.
Lemma spec_det l c y y' l' : list_reads c = true -> list_spec l c y l -> list_spec l c y' l' -> y' = y.
Proof. destruct c; try done; intros _ [_ ->] [_ ->]; done. Qed.
Lemma rep_shows cfg x M s lk its lost : SInv cfg x M s -> rep cfg lk M its lost -> shows_items cfg s lk (map snd its).
Proof.
  intros HI HR c y Hc Hn Hs. unfold reply_to.
  destruct (kwp_krun cfg x _ _ _ _ M s HI (reads_fits cfg _ (list_reads_writes cfg lk c Hc) s)
    (list_kwp cfg lk M its lost c HR ltac:(congruence))) as (M' & _ & H).
  change (list_prog cfg lk c) with (call_prog cfg (CList lk c)) in H.
  destruct (snd (krun cfg (call_prog cfg (CList lk c)) s)) as [y'|e].
  - destruct H as (its' & lost' & _ & _ & H). f_equal. eapply spec_det; [done|exact Hs|]. destruct c; try done; exact H.
  - exfalso. destruct H as (its' & lost' & _ & _ & H & _). apply H. by destruct c.
Qed.
Lemma rep_shows_all cfg x M s lk its : SInv cfg x M s -> rep cfg lk M its 0 -> shows_list cfg s lk (map snd its).
Proof.
  intros HI HR c y Hc Hs. unfold reply_to.
  destruct (kwp_krun cfg x _ _ _ _ M s HI (reads_fits cfg _ (list_reads_writes cfg lk c Hc) s)
    (list_kwp cfg lk M its 0 c HR ltac:(congruence))) as (M' & _ & H).
  change (list_prog cfg lk c) with (call_prog cfg (CList lk c)) in H.
  destruct (snd (krun cfg (call_prog cfg (CList lk c)) s)) as [y'|e].
  - destruct H as (its' & lost' & _ & _ & H). apply list_spec_0 in H. f_equal. by eapply spec_det.
  - exfalso. destruct H as (its' & lost' & _ & _ & H & _). apply H. by destruct c.
Qed.
Lemma rep_keys cfg lk M its lost : rep cfg lk M its lost -> NoDup (map fst (map snd its)).
Proof. intros [HC _]. rewrite map_map. apply (co_keys _ _ _ _ HC). Qed.

Lemma created_list lk cfg s es cfg' s' : created cfg s -> hist (list_guard lk) cfg s es cfg' s' ->
  exists x M its, trace (list_step lk) cfg [] es cfg' (map snd its) /\ SInv cfg' x M s' /\ rep cfg' lk M its 0.
Proof.
  intros Hc Hh. destruct (hist_lift _ _ _ (list_lifts lk) cfg s es cfg' s' true ∅ [] Hh (created_ok _ _ Hc)) as (x & M & l & H1 & H2 & (its & H3 & H4) & _).
  { exists []. split; [apply rep_nil|done]. }
  exists x, M, its. by rewrite H4.
Qed.
Lemma created_list_lost lk cfg s es cfg' s' : created cfg s -> hist (list_guard_lost lk) cfg s es cfg' s' ->
  exists x M its lost, trace (list_step_lost lk) cfg ([], 0) es cfg' (map snd its, lost) /\ SInv cfg' x M s' /\ rep cfg' lk M its lost.
Proof.
  intros Hc Hh. destruct (hist_lift _ _ _ (list_lost_lifts lk) cfg s es cfg' s' true ∅ ([], 0) Hh (created_ok _ _ Hc)) as (x & M & [l lost] & H1 & H2 & (its & H3 & H4) & _).
  { exists []. split; [apply rep_nil|done]. }
  exists x, M, its, lost. cbn in H3, H4. by rewrite H4.
Qed.

(** ** C23 *)
(** Along every history the calls on the list [lk] return what the calls on an insertion-ordered
    map return (they never fail), and at the end all reading calls show that map. *)
Theorem C23_list_is_an_ordered_map : forall lk cfg s es cfg' s',
  created cfg s -> hist (list_guard lk) cfg s es cfg' s' ->
  exists l, trace (list_step lk) cfg [] es cfg' l /\ NoDup (map fst l) /\ shows_list cfg' s' lk l.
Proof.
  intros lk cfg s es cfg' s' Hc Hh. destruct (created_list lk cfg s es cfg' s' Hc Hh) as (x & M & its & H1 & H2 & H3).
  exists (map snd its). split; [done|]. split; [by eapply rep_keys|by eapply rep_shows_all].
Qed.

(** ** C24 *)
(** The event is not a call on the list [lk], nor [clear]. *)
Definition not_on (lk : bytes) (e : event) : Prop :=
  match e with EClear => False | ECall (CList lk' _) _ | ECrash (ACall (CList lk' _)) => lk' <> lk | _ => True end.
(** Whatever happens to other lists (with other hashes), plain and typed keys, queues and big
    values, including crashes, leaves the list [lk] as it is. *)
Theorem C24_lists_are_independent : forall lk cfg s es cfg1 s1 es' cfg' s',
  created cfg s -> hist (list_guard lk) cfg s es cfg1 s1 ->
  hist (list_guard lk) cfg1 s1 es' cfg' s' -> Forall (not_on lk) es' ->
  exists l, shows_list cfg1 s1 lk l /\ shows_list cfg' s' lk l.
Proof.
  intros lk cfg s es cfg1 s1 es' cfg' s' Hc Hh1 Hh2 Hn.
  destruct (created_list lk cfg s es cfg1 s1 Hc Hh1) as (x & M & its & H1 & H2 & H3).
  destruct (hist_lift _ _ _ (list_lifts lk) cfg1 s1 es' cfg' s' x M (map snd its) Hh2 H2) as (x' & M' & l & H4 & H5 & (its' & H6 & H7) & _).
  { exists its. done. }
  exists (map snd its). split; [by eapply rep_shows_all|].
  assert (l = map snd its) as El.
  { clear - H4 Hn. induction H4 as [|cfg a e cfg1 a1 es cfg' a' Hcf HT Htr IH]; [done|]. apply Forall_cons in Hn as [Hn1 Hn2].
    rewrite (IH Hn2). destruct e as [[o|tid o|lk' c|qk c|b c] r|mt| | |act]; cbn [list_step not_on] in *; try done.
    by rewrite bool_decide_false in HT. }
  rewrite <- El, <- H7. by eapply rep_shows_all.
Qed.

(** ** C25 *)
Theorem C25_compacting_changes_nothing : forall lk cfg s es cfg1 s1 few min_length s' r,
  created cfg s -> hist (list_guard lk) cfg s es cfg1 s1 ->
  list_room cfg1 s1 lk -> kfits cfg1 (call_prog cfg1 (CList lk (LCompact few min_length))) s1 ->
  krun cfg1 (call_prog cfg1 (CList lk (LCompact few min_length))) s1 = (s', r) ->
  exists l b, r = Ok (YBool b) /\ shows_list cfg1 s1 lk l /\ shows_list cfg1 s' lk l.
Proof.
  intros lk cfg s es cfg1 s1 few ml s' r Hc Hh Hroom Hf Hr.
  destruct (created_list lk cfg s es cfg1 s1 Hc Hh) as (x & M & its & H1 & H2 & H3).
  destruct (kwp_krun cfg1 x _ _ _ _ M s1 H2 Hf (list_kwp cfg1 lk M its 0 (LCompact few ml) H3 ltac:(intros _; by eapply room_ok))) as (M' & HI' & H).
  change (list_prog cfg1 lk (LCompact few ml)) with (call_prog cfg1 (CList lk (LCompact few ml))) in *.
  rewrite Hr in HI', H. cbn [fst snd] in *. destruct r as [y|e]; [|by destruct H as (? & ? & _ & _ & H & _); destruct H].
  destruct H as (its' & lost' & H4 & H5 & H6 & b & ->). exists (map snd its), b. split; [done|]. split; [by eapply rep_shows_all|].
  rewrite <- H6. eapply rep_shows_all; [exact HI'|]. by replace 0 with lost' by lia.
Qed.

(** ** C26 *)
(** What holds: nothing is replaced unless the expected value is 8 bytes long; a call that does
    not replace changes nothing and reports the current value, or that there is none. Missing:
    the call never succeeds for the right expected value (see [C26_compare_and_swap_refuted]). *)
Theorem C26_replace_in_list_partial : forall lk cfg s es cfg1 s1 ik v expected s' r l,
  created cfg s -> hist (list_guard lk) cfg s es cfg1 s1 -> list_room cfg1 s1 lk ->
  lcall_accepts cfg1 lk (LReplace ik v (Some expected)) ->
  kfits cfg1 (call_prog cfg1 (CList lk (LReplace ik v (Some expected)))) s1 ->
  krun cfg1 (call_prog cfg1 (CList lk (LReplace ik v (Some expected)))) s1 = (s', r) ->
  shows_list cfg1 s1 lk l ->
  match l_get l ik with
  | None => r = Ok (YReplace RDoesNotExist) /\ shows_list cfg1 s' lk l
  | Some cur =>
    (r = Ok (YReplace (RWrongValue cur)) /\ shows_list cfg1 s' lk l) \/
    (r = Ok (YReplace (RPrevValue cur)) /\ shows_list cfg1 s' lk (l_update l ik v) /\ length expected = 8%nat)
  end.
Proof.
  intros lk cfg s es cfg1 s1 ik v ex s' r l Hc Hh Hroom Hacc Hf Hr Hl.
  destruct (created_list lk cfg s es cfg1 s1 Hc Hh) as (x & M & its & H1 & H2 & H3).
  assert (l = map snd its) as ->.
  { pose proof (Hl (LIter true) _ eq_refl ltac:(by split)) as E1.
    pose proof (rep_shows_all _ _ _ _ _ _ H2 H3 (LIter true) _ eq_refl ltac:(by split)) as E2. rewrite E2 in E1. by injection E1. }
  destruct (kwp_krun cfg1 x _ _ _ _ M s1 H2 Hf (list_kwp cfg1 lk M its 0 (LReplace ik v (Some ex)) H3 ltac:(intros _; by eapply room_ok))) as (M' & HI' & H).
  change (list_prog cfg1 lk (LReplace ik v (Some ex))) with (call_prog cfg1 (CList lk (LReplace ik v (Some ex)))) in *.
  rewrite Hr in HI', H. cbn [fst snd] in *. destruct r as [y|e]; [|by destruct H as (? & ? & _ & _ & H & _); destruct H].
  destruct H as (its' & lost' & H4 & H5 & H6). assert (lost' = 0) as -> by lia. pose proof (rep_shows_all _ _ _ _ _ _ HI' H4) as Hs.
  cbn [list_spec_lost list_spec] in H6. destruct (l_get (map snd its) ik) as [cur|].
  - destruct H6 as [(H6 & H7 & ->)|[H6 ->]]; [right; rewrite <- H7; done|left; rewrite <- H6; done].
  - destruct H6 as [H6 ->]. by rewrite <- H6.
Qed.

(** ** C20 *)
(** A call on a list that fails leaves its items (contents, order, values) as they were.
    Missing: set_in_list_promoting, which removes the item first, and list_len, which counts the
    rejected item (see [C20_list_len_refuted] and [C20_promoting_refuted]). *)
Theorem C20_rejected_list_call_partial : forall lk cfg s es cfg1 s1 c s' e,
  created cfg s -> hist (list_guard_lost lk) cfg s es cfg1 s1 -> list_room cfg1 s1 lk ->
  kfits cfg1 (call_prog cfg1 (CList lk c)) s1 -> (forall ik v, c <> LSetPromoting ik v) ->
  krun cfg1 (call_prog cfg1 (CList lk c)) s1 = (s', Err e) ->
  exists l, shows_items cfg1 s1 lk l /\ shows_items cfg1 s' lk l.
Proof.
  intros lk cfg s es cfg1 s1 c s' e Hc Hh Hroom Hf Hp Hr.
  destruct (created_list_lost lk cfg s es cfg1 s1 Hc Hh) as (x & M & its & lost & H1 & H2 & H3).
  destruct (kwp_krun cfg1 x _ _ _ _ M s1 H2 Hf (list_kwp cfg1 lk M its lost c H3 ltac:(intros _; by eapply room_ok))) as (M' & HI' & H).
  change (list_prog cfg1 lk c) with (call_prog cfg1 (CList lk c)) in *. rewrite Hr in HI', H. cbn [fst snd] in *.
  destruct H as (its' & lost' & H4 & _ & _ & [H5|(ik & v & H5 & _)]); [|by destruct (Hp ik v)].
  exists (map snd its). split; [by eapply rep_shows|]. rewrite <- H5. by eapply rep_shows.
Qed.

(** ** C27 *)
(** A crash during a call that adds or reads leaves, after recovery, the items before or after
    the call; membership, iteration and peeking agree.  Missing: the calls that remove or move
    items (see [C27_crash_during_remove_refuted]). *)
Theorem C27_crash_during_adding_partial : forall lk cfg s es cfg1 s1 c w cfg' s',
  created cfg s -> hist (list_guard_lost lk) cfg s es cfg1 s1 -> list_room cfg1 s1 lk ->
  adds_or_reads c = true -> kfits cfg1 (call_prog cfg1 (CList lk c)) s1 ->
  kdies cfg1 (call_prog cfg1 (CList lk c)) s1 w -> c_hash cfg' = c_hash cfg1 -> recovers cfg' w s' ->
  exists l l', shows_items cfg1 s1 lk l /\ shows_items cfg' s' lk l' /\ NoDup (map fst l') /\
    (l' = l \/ exists y, list_spec l c y l').
Proof.
  intros lk cfg s es cfg1 s1 c w cfg' s' Hc Hh Hroom Had Hf Hd Hh' Hrec.
  destruct (created_list_lost lk cfg s es cfg1 s1 Hc Hh) as (x & M & its & lost & H1 & H2 & H3).
  destruct (step_lift _ _ _ (list_lost_lifts lk) cfg1 s1 (ECrash (ACall (CList lk c))) cfg' s' x M (map snd its, lost))
    as (x' & M' & [l' lost'] & HT & HI' & (its' & H5 & H6) & _).
  - by econstructor.
  - split; [done|]. by rewrite bool_decide_true.
  - done.
  - exists its. done.
  - cbn [fst snd] in *. cbn [list_step_lost] in HT. rewrite bool_decide_true in HT by done. cbn [fst snd] in HT. destruct HT as [_ HT].
    exists (map snd its), l'. split; [by eapply rep_shows|]. rewrite <- H6. split; [by eapply rep_shows|]. split; [by eapply rep_keys|].
    rewrite H6. destruct HT as [HT|[y HT]]; [by left|right]. destruct c; try (by exists y). exists (YNum (len (map snd its))). by destruct HT.
Qed.

(** Along every history with rejected calls and crashes (during calls that add or read), the
    replies are those of an ordered map, except that list_len may report too many. *)
Theorem C27_list_histories_with_crashes_partial : forall lk cfg s es cfg' s',
  created cfg s -> hist (list_guard_lost lk) cfg s es cfg' s' ->
  exists l lost, trace (list_step_lost lk) cfg ([], 0) es cfg' (l, lost) /\ NoDup (map fst l) /\ shows_items cfg' s' lk l.
Proof.
  intros lk cfg s es cfg' s' Hc Hh. destruct (created_list_lost lk cfg s es cfg' s' Hc Hh) as (x & M & its & lost & H1 & H2 & H3).
  exists (map snd its), lost. split; [done|]. split; [by eapply rep_keys|by eapply rep_shows].
Qed.
