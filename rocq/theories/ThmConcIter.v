(** Iterating while other threads use the store (C66). *)
From Verif Require Import Base Hashing HashingProofs Fs Shard Router RouterPure Wpc Spec FileRep RowOps
  Compact Inv ShardOps Split Insert Open Merge Create Store Limits StoreRefine Kv Lists Queues Api Hist KvSpec
  HistInv KeySpace PlainSpec Plain Check ThmStore Iter ThmIter Conc ConcSpec ConcLocal ConcFile ConcTree
  ConcInv ConcStep ConcRow ConcStruct ConcMain ConcLin ThmConc ConcIter ConcWalk ConcSlots.
Implicit Types (cfg : config) (s : store) (m : umap) (es : list wevent) (c : cstate) (n : nat) (chs : list wchoice) (b : wstate) (its : list walker) (P : gmap nat phase).

(** What [next()] may return when the store holds the map [m]: [None]; or a key with its value in [m]; from
    [iter_raw()], which also returns the entries of lists, queues and typed stores, an entry which, if it
    is the one of a plain key, is the key's value in [m]; an error never. *)
Definition shows (m : umap) (raw : bool) (r : res (option kv)) : Prop :=
  match r with
  | Err _ => False
  | Ok None => True
  | Ok (Some (k, v)) => if raw then forall k', k = user_key k' -> m !! k' = Some v else m !! k = Some v
  end.

(** [wlin cfg m P es m' P']: there is one linearization of the calls and returns among [es], each call
    taking effect at one moment between its call and its return ([lrun], ConcSpec.v), such that each
    [next()] among [es] returns what [shows] allows for the map of the moment when it returns. *)
Inductive wlin cfg : umap -> gmap nat phase -> list wevent -> umap -> gmap nat phase -> Prop :=
| wl_nil m P : wlin cfg m P [] m P
| wl_calls m P l m1 P1 es m' P' :
    lrun (plain_call cfg) m P l m1 P1 -> wlin cfg m1 P1 es m' P' -> wlin cfg m P (map WE l ++ es) m' P'
| wl_new m P i es m' P' : wlin cfg m P es m' P' -> wlin cfg m P (WNew i :: es) m' P'
| wl_yield m P i raw r es m' P' :
    shows m raw r -> wlin cfg m P es m' P' -> wlin cfg m P (WYield i raw r :: es) m' P'.

Lemma wrun_lin cfg x b chs es b' : wrun cfg calm_step b chs es b' -> forall A os m P,
  CInv cfg x (w_c b) A os -> (forall i T, w_its b !! i = Some T -> wok (c_root (w_c b)) T) ->
  view (a_map A) m -> (forall a, pmatch cfg (plain_call cfg) view (P !! a) (a_ths A !! a)) ->
  exists A' os' m' P', CInv cfg x (w_c b') A' os' /\ (forall i T, w_its b' !! i = Some T -> wok (c_root (w_c b')) T) /\
    view (a_map A') m' /\ wlin cfg m P es m' P' /\
    (forall i raw r, WYield i raw r ∈ es -> exists T, w_its b !! i = Some T /\ it_raw (w_it T) = raw).
Proof.
  induction 1 as [b|b ch b1 e chs es b' Hs HG Hr IH]; intros A os m P HI Hw Hv Hp.
  - exists A, os, m, P. repeat (split; [done|]). split; [apply wl_nil|]. by intros ? ? ? ?%elem_of_nil.
  - destruct ch as [h|i|i]; cbn [wstep] in Hs.
    + destruct (kept b h) eqn:Hk; [done|]. destruct (cstep cfg (w_c b) h) as [[c' e']|] eqn:Ec; [|done]. injection Hs as <- <-.
      destruct (step_good _ _ _ _ _ _ _ _ HI HG Ec) as (A1 & os1 & HI1 & R1).
      destruct (lin cfg (fun _ => True) (plain_call cfg) view (plain_calls cfg) _ _ _ R1 m P) as (m1 & P1 & L1 & L2 & L3); [done|done|done|].
      destruct (IH A1 os1 m1 P1) as (A' & os' & m' & P' & I1 & I2 & I3 & I4 & I5); [done| |done|done|].
      { intros i T Hi. cbn [w_its] in Hi. cbn [w_c]. eapply wok_step; [exact HI|exact HI1|exact Ec|exact Hk|exact Hi|by eapply Hw]. }
      exists A', os', m', P'. repeat (split; [done|]). split.
      * assert (option_list (WE <$> e') = map WE (option_list e')) as -> by (by destruct e'). by eapply wl_calls.
      * intros i raw r Hin. apply elem_of_app in Hin as [Hin|Hin]; [|by eapply I5].
        destruct e'; cbn in Hin; [|by apply elem_of_nil in Hin]. by apply elem_of_list_singleton in Hin.
    + destruct (w_its b !! i) as [[it| |]|] eqn:Ei; try done. injection Hs as <- <-.
      destruct (IH A os m P) as (A' & os' & m' & P' & I1 & I2 & I3 & I4 & I5); [done| |done|done|].
      { intros j T Hj. cbn [w_its] in Hj. cbn [w_c]. destruct (decide (j = i)) as [->|Hne].
        - rewrite list_lookup_insert in Hj by (by eapply lookup_lt_Some). injection Hj as <-. split; [|done]. by apply (Hw _ _ Ei).
        - rewrite list_lookup_insert_ne in Hj by done. by eapply Hw. }
      exists A', os', m', P'. repeat (split; [done|]). split; [by apply wl_new|].
      intros j raw r Hin. cbn [option_list app] in Hin. apply elem_of_cons in Hin as [|Hin]; [done|].
      destruct (I5 _ _ _ Hin) as (T & HT & ET). cbn [w_its] in HT. destruct (decide (j = i)) as [->|Hne].
      * rewrite list_lookup_insert in HT by (by eapply lookup_lt_Some). injection HT as <-. by exists (WOut it).
      * rewrite list_lookup_insert_ne in HT by done. by exists T.
    + destruct (w_its b !! i) as [T|] eqn:Ei; [|done]. destruct (walk_step cfg (w_c b) T) as [[T' y]|] eqn:Es; [|done]. injection Hs as <- <-.
      destruct (walk_ok _ _ _ _ _ _ _ _ HI (Hw _ _ Ei) Es) as (K1 & K2 & K3).
      destruct (IH A os m P) as (A' & os' & m' & P' & I1 & I2 & I3 & I4 & I5); [done| |done|done|].
      { intros j Tj Hj. cbn [w_its] in Hj. cbn [w_c]. destruct (decide (j = i)) as [->|Hne].
        - rewrite list_lookup_insert in Hj by (by eapply lookup_lt_Some). by injection Hj as <-.
        - rewrite list_lookup_insert_ne in Hj by done. by eapply Hw. }
      exists A', os', m', P'. repeat (split; [done|]). split.
      * destruct y as [y|]; cbn [fmap option_fmap option_map option_list app]; [|done]. apply wl_yield; [|done].
        destruct y as [[[k v]|]|er]; [|done|done]. destruct K3 as (q & Q1 & Q2). cbn [shows].
        destruct (it_raw (w_it T)).
        -- injection Q1 as ->. intros k' ->. specialize (Hv k'). cbn [fst snd] in Q2. congruence.
        -- apply pick_user in Q1. subst q. cbn [fst snd] in Q2. specialize (Hv k). congruence.
      * intros j raw r Hin. apply elem_of_app in Hin as [Hin|Hin].
        -- destruct y as [y|]; cbn in Hin; [|by apply elem_of_nil in Hin]. apply elem_of_list_singleton in Hin. injection Hin as -> -> _. by exists T.
        -- destruct (I5 _ _ _ Hin) as (Tj & HT & ET). cbn [w_its] in HT. destruct (decide (j = i)) as [->|Hne].
           ++ rewrite list_lookup_insert in HT by (by eapply lookup_lt_Some). injection HT as <-. exists T. by rewrite <- K2.
           ++ rewrite list_lookup_insert_ne in HT by done. by exists Tj.
Qed.

(** ** C66 *)
(** Any number of threads make any calls, splits and compactions run meanwhile, and any number of iterators
    (new ones or made from cookies) go over the store, everything interleaved in any way.  No [next()]
    fails; every key that a [next()] returns has, at that moment, the value it is returned with: there is
    a single linearization of all calls that agrees with all items of all iterators. *)
Theorem C66_concurrent_items_are_current : forall cfg s n its chs es b m,
  live cfg s -> (forall k, get cfg s k = Ok (m !! k)) -> starts its ->
  wrun cfg calm_step (W (conc s n) its) chs es b ->
  exists m' P, wlin cfg m ∅ es m' P /\
    (forall i raw r, WYield i raw r ∈ es -> exists it, its !! i = Some (WOut it) /\ it_raw it = raw) /\
    (calm (w_c b) -> quiet cfg (w_c b) -> forall k, get cfg (store_of (w_c b)) k = Ok (m' !! k)).
Proof.
  intros cfg s n its chs es b m Hl Hg Hst Hr. destruct (live_inv _ _ Hl) as (x & M & HI).
  destruct (wrun_lin cfg x _ _ _ _ Hr (AS M ∅ ∅) _ m ∅ (conc_init cfg x M s n HI)) as (A' & os' & m' & P' & I1 & I2 & I3 & I4 & I5).
  { intros i T Hi. cbn [w_its] in Hi. destruct (Hst _ _ Hi) as (it & -> & Hc). by split. }
  { by eapply view_get. }
  { intros a. cbn [a_ths]. by rewrite !lookup_empty. }
  exists m', P'. split; [done|]. split.
  - intros i raw r Hin. destruct (I5 _ _ _ Hin) as (T & HT & ET). cbn [w_its] in HT. destruct (Hst _ _ HT) as (it & -> & _). by exists it.
  - intros Hcalm Hq k. unfold get. rewrite (get_raw_ok _ _ _ _ _ (cinv_quiet _ _ _ _ _ I1 Hcalm Hq)). by rewrite I3.
Qed.

(** ** Completeness *)
(** The call [cl] is about the plain key [k]. *)
Definition touches (k : bytes) (cl : call) : Prop := exists o, cl = CPlain o /\ op_key o = k.
(** How the key [k] with the value [v] shows up: as it is, or with the suffix of the plain keys. *)
Definition item (raw : bool) (k v : bytes) : kv := if raw then (user_key k, v) else (k, v).
Lemma item_pick raw k v : iter_pick raw (user_key k, v) = Some (item raw k v).
Proof. destruct raw; [done|]. by apply pick_user. Qed.

Lemma wrun_awaits cfg x (k v : bytes) (i : nat) (raw : bool) b chs es b' :
  wrun cfg (fun b1 b2 => calm_step b1 b2 /\ unmoved cfg (user_key k) i b1 b2) b chs es b' -> forall A os,
  CInv cfg x (w_c b) A os -> (forall j T, w_its b !! j = Some T -> wok (c_root (w_c b)) T) ->
  a_map A !! user_key k = Some v -> (forall a p, a_ths A !! a = Some p -> kwrites (fun q => q <> user_key k) anyv p) ->
  (forall a cl, WE (EvCall a cl) ∈ es -> ~ touches k cl) ->
  (forall T, w_its b !! i = Some T -> it_raw (w_it T) = raw /\ awaits cfg (w_c b) (user_key k) v T) ->
  WYield i raw (Ok (Some (item raw k v))) ∈ es \/ forall raw', WYield i raw' (Ok None) ∉ es.
Proof.
  induction 1 as [b|b ch b1 e chs es b' Hs [HG Hst] Hr IH]; intros A os HI Hw HK Hp Hes Haw.
  - right. intros raw' Hin. by apply elem_of_nil in Hin.
  - assert (forall a cl, WE (EvCall a cl) ∈ es -> ~ touches k cl) as Hes'.
    { intros a cl Hin. apply (Hes a cl). apply elem_of_app. by right. }
    assert (Hnone : (forall raw', WYield i raw' (Ok None) ∉ option_list e) ->
      (WYield i raw (Ok (Some (item raw k v))) ∈ es \/ forall raw', WYield i raw' (Ok None) ∉ es) ->
      WYield i raw (Ok (Some (item raw k v))) ∈ option_list e ++ es \/ forall raw', WYield i raw' (Ok None) ∉ option_list e ++ es).
    { intros Hn [Hin|Hno]; [left; apply elem_of_app; by right|right]. intros raw' Hin. apply elem_of_app in Hin as [Hin|Hin]; [by apply (Hn raw')|by apply (Hno raw')]. }
    destruct ch as [h|j|j]; cbn [wstep] in Hs.
    + destruct (kept b h) eqn:Hk; [done|]. destruct (cstep cfg (w_c b) h) as [[c' e']|] eqn:Ec; [|done]. injection Hs as <- <-.
      destruct (step_good _ _ _ _ _ _ _ _ HI HG Ec) as (A1 & os1 & HI1 & R1).
      destruct (arun_untouched cfg (user_key k) _ _ _ R1) as [E1 Hp1]; [|done|].
      { intros a y Hin Hy. apply call_keys_user in Hy. destruct e' as [e'|]; cbn in Hin; [|by apply elem_of_nil in Hin].
        apply elem_of_list_singleton in Hin as <-. apply (Hes a y); [|done]. cbn. by left. }
      apply Hnone.
      { intros raw' Hin. destruct e'; cbn in Hin; [by apply elem_of_list_singleton in Hin|by apply elem_of_nil in Hin]. }
      apply (IH A1 os1); [done| |congruence|done|done|].
      { intros j T Hj. cbn [w_its w_c] in *. eapply wok_step; [exact HI|exact HI1|exact Ec|exact Hk|exact Hj|by eapply Hw]. }
      intros T HT. cbn [w_its w_c] in *. destruct (Haw _ HT) as [Hraw Ha]. split; [done|]. eapply awaits_step; [exact HI|exact HI1|exact Ec|exact HT| |exact Ha].
      intros T1 HT1 Ham j v' Hj. eapply kept_slot; [exact HI|exact HI1|exact HG|exact Ec|by apply (Hst T1 HT1)|exact HK|congruence|exact Hj].
    + destruct (w_its b !! j) as [[it| |]|] eqn:Ej; try done. injection Hs as <- <-.
      apply Hnone. { intros raw' Hin. cbn in Hin. by apply elem_of_list_singleton in Hin. }
      apply (IH A os); [done| |done|done|done|].
      { intros l T Hl. cbn [w_its w_c] in *. destruct (decide (l = j)) as [->|Hne].
        - rewrite list_lookup_insert in Hl by (by eapply lookup_lt_Some). injection Hl as <-. split; [|done]. by apply (Hw _ _ Ej).
        - rewrite list_lookup_insert_ne in Hl by done. by eapply Hw. }
      intros T HT. cbn [w_its w_c] in *. destruct (decide (i = j)) as [->|Hne].
      * rewrite list_lookup_insert in HT by (by eapply lookup_lt_Some). injection HT as <-. apply (Haw (WOut it)). done.
      * rewrite list_lookup_insert_ne in HT by done. by apply Haw.
    + destruct (w_its b !! j) as [Tj|] eqn:Ej; [|done]. destruct (walk_step cfg (w_c b) Tj) as [[T' y]|] eqn:Es; [|done]. injection Hs as <- <-.
      destruct (walk_ok _ _ _ _ _ _ _ _ HI (Hw _ _ Ej) Es) as (K1 & K2 & K3).
      assert (Hw1 : forall l T, <[j := T']> (w_its b) !! l = Some T -> wok (c_root (w_c b)) T).
      { intros l T Hl. destruct (decide (l = j)) as [->|Hne].
        - rewrite list_lookup_insert in Hl by (by eapply lookup_lt_Some). by injection Hl as <-.
        - rewrite list_lookup_insert_ne in Hl by done. by eapply Hw. }
      destruct (decide (i = j)) as [->|Hne].
      * destruct (Haw _ Ej) as [Hraw Ha].
        destruct (awaits_walk _ _ _ _ _ _ _ _ _ _ HI (Hw _ _ Ej) HK Es Ha) as [(z & -> & Ez)|[Hy Ha']].
        -- left. apply elem_of_app. left. cbn. apply elem_of_list_singleton. rewrite item_pick, Hraw in Ez. injection Ez as <-. by rewrite Hraw.
        -- apply Hnone.
           { intros raw' Hin. destruct y as [y|]; cbn in Hin; [|by apply elem_of_nil in Hin]. apply elem_of_list_singleton in Hin. injection Hin as _ <-.
             destruct (Hy _ eq_refl) as [? ?]. done. }
           apply (IH A os); [done|done|done|done|done|]. intros T HT. cbn [w_its w_c] in *. rewrite list_lookup_insert in HT by (by eapply lookup_lt_Some).
           injection HT as <-. split; [congruence|]. apply Ha'. rewrite item_pick. by eexists.
      * apply Hnone.
        { intros raw' Hin. destruct y as [y|]; cbn in Hin; [|by apply elem_of_nil in Hin]. apply elem_of_list_singleton in Hin. congruence. }
        apply (IH A os); [done|done|done|done|done|]. intros T HT. cbn [w_its w_c] in *. rewrite list_lookup_insert_ne in HT by done. by apply Haw.
Qed.

(** A key that exists at the beginning and that no thread touches is returned by every new iterator that
    reaches the end, whatever the threads do to other keys meanwhile, provided that, while the iterator is
    in the middle of the key's row, this row is not moved to another file and the key's shard is not split
    ([unmoved], ConcSlots.v).
    Missing: rows moved just then, by a compaction or a split: the entry may move to a slot that the
    iterator has passed (see the refutation in ExConcIter.v, and the ones of C17). *)
Theorem C66_untouched_keys_are_returned_partial : forall cfg s n its chs es b k v i raw,
  live cfg s -> get cfg s k = Ok (Some v) -> starts its -> its !! i = Some (WOut (iter_new raw)) ->
  wrun cfg (fun b1 b2 => calm_step b1 b2 /\ unmoved cfg (user_key k) i b1 b2) (W (conc s n) its) chs es b ->
  (forall a cl, WE (EvCall a cl) ∈ es -> ~ touches k cl) ->
  WYield i raw (Ok None) ∈ es -> WYield i raw (Ok (Some (item raw k v))) ∈ es.
Proof.
  intros cfg s n its chs es b k v i raw Hl Hg Hst Hi Hr Hes Hend. destruct (live_inv _ _ Hl) as (x & M & HI).
  destruct (wrun_awaits cfg x k v i raw _ _ _ _ Hr (AS M ∅ ∅) _ (conc_init cfg x M s n HI)) as [Hy|Hno]; [..|exact Hy|by destruct (Hno raw)].
  - intros j T Hj. cbn [w_its] in Hj. destruct (Hst _ _ Hj) as (it & -> & Hc). by split.
  - cbn [a_map]. unfold get in Hg. rewrite (get_raw_ok _ _ _ _ _ HI) in Hg. by injection Hg.
  - intros a p Ha. cbn [a_ths] in Ha. by rewrite lookup_empty in Ha.
  - exact Hes.
  - intros T HT. cbn [w_its] in HT. rewrite Hi in HT. injection HT as <-. split; [done|]. cbn [w_c w_it iter_new].
    destruct (route_ok _ _ _ _ _ 0 HI ltac:(done)) as [_ Hs0]. unfold awaits, iter_new. cbn [w_it it_sel it_row it_col]. cbn zeta.
    change (c_root (conc s n)) with (st_root s). split; [lia|]. split; [lia|]. split; [by cbn|].
    destruct (N.le_gt_cases (sh_end (route (st_root s) 0)) (ph_selector (hashk cfg (user_key k)))) as [|Hgt]; [by left|right].
    split; [lia|]. destruct (decide (ph_row (hashk cfg (user_key k)) = 0%nat)) as [E|]; [right|left; lia]. split; [done|by left].
Qed.
