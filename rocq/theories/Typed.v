(** The typed wrappers refine their specifications along every history (C32, C33). *)
From Verif Require Import Base Hashing HashingProofs Fs Shard Router RouterPure Wpc Spec FileRep RowOps
  Compact Inv ShardOps Split Insert Open Merge Create Store Limits StoreRefine Kv Lists Queues Api Hist KvSpec
  HistInv KeySpace PlainSpec Plain ListSpec ListRep ListProg ListHist ThmList QueueSpec QueueRep QueueProg QueueHist ThmQueue
  TypedApi TypedSpec.
Implicit Types (M : kvmap) (cfg : config) (s : store).

Lemma enc_inj {A} (c : codec A) : round_trips c -> forall a b, enc c a = enc c b -> a = b.
Proof. intros H a b E. pose proof (H a) as H1. rewrite E, H in H1. congruence. Qed.
Lemma from_enc {A} (c : codec A) a : round_trips c -> from_bytes c (enc c a) = Ok a.
Proof. intros H. unfold from_bytes. by rewrite H. Qed.
Lemma decode_enc {A} (c : codec A) (o : option A) : round_trips c -> decode_opt c (enc c <$> o) = Ok o.
Proof. intros H. destruct o; [|done]. cbn. by rewrite from_enc. Qed.

Section store.
Context {K V : Type} `{Countable K} `{EqDecision V} (ck : codec K) (cv : codec V) (tid : N).
Context (HK : round_trips ck) (HV : round_trips cv) (Htid : tid < 2 ^ 32).
Implicit Types (m : gmap K V) (tc : tcall K V).

Definition tinv M m : Prop := forall k, M !! typed_key tid (enc ck k) = enc cv <$> m !! k.
Lemma trej cfg k v : ins_err cfg (typed_key tid (enc ck k)) (enc cv v) = trejected ck cv cfg k v.
Proof.
  unfold ins_err, trejected, typed_key. rewrite !Base.len_app. change (len (u32_bytes tid)) with 4. change (len [TYPED_NS]) with 1.
  replace (len (enc ck k) + (4 + 1)) with (len (enc ck k) + 5) by lia. done.
Qed.
Lemma tinv_insert M m k v : tinv M m -> tinv (<[typed_key tid (enc ck k) := enc cv v]> M) (<[k := v]> m).
Proof.
  intros Hv k'. destruct (decide (k = k')) as [->|Hne].
  - by rewrite !lookup_insert.
  - rewrite !lookup_insert_ne; [apply Hv|done|]. intros E. apply typed_key_inj in E as [_ E]; [|done|done]. by apply (enc_inj ck HK) in E.
Qed.
Lemma tinv_delete M m k : tinv M m -> tinv (delete (typed_key tid (enc ck k)) M) (delete k m).
Proof.
  intros Hv k'. destruct (decide (k = k')) as [->|Hne].
  - by rewrite !lookup_delete.
  - rewrite !lookup_delete_ne; [apply Hv|done|]. intros E. apply typed_key_inj in E as [_ E]; [|done|done]. by apply (enc_inj ck HK) in E.
Qed.
Lemma typed_kwp cfg tc M m : tinv M m -> small tc ->
  kwp cfg (call_prog cfg (tstore_call ck cv tid tc)) (fun M' => tinv M' m \/ tinv M' (fst (tspec ck cv cfg m tc)))
    (fun y M' => tstore_decode cv y = snd (tspec ck cv cfg m tc) /\ tinv M' (fst (tspec ck cv cfg m tc)))
    (fun e M' => snd (tspec ck cv cfg m tc) = Err e /\ tinv M' (fst (tspec ck cv cfg m tc))) M.
Proof.
  intros Hv Hs. destruct tc as [k|k|k v ex|k v|k v|k|k|k v|k]; try done; cbn [tstore_call call_prog tspec fst snd]; apply kwp_map; cbn [typed_prog].
  - cbn. rewrite Hv. split; [auto|]. split; [auto|]. split; [|done]. repeat f_equal. apply bool_decide_ext. by rewrite fmap_is_Some.
  - cbn. rewrite Hv. split; [auto|]. split; [auto|]. split; [|done]. by rewrite decode_enc.
  - cbn. split; [auto|]. split; [apply typed_key_ne|]. rewrite trej. destruct (trejected _ _ _ _ _); [cbn; auto|].
    pose proof (tinv_insert M m k v Hv). unfold spec_ins. rewrite Hv. destruct (m !! k) as [cur|]; [|cbn; auto].
    destruct ex as [x|]; cbn; [|rewrite from_enc by done; auto].
    assert (bool_decide (enc cv x = enc cv cur) = bool_decide (x = cur)) as ->.
    { apply bool_decide_ext. split; [apply (enc_inj cv HV)|by intros ->]. }
    case_bool_decide; cbn; [rewrite from_enc by done|]; auto.
  - cbn. split; [auto|]. split; [apply typed_key_ne|]. rewrite trej. destruct (trejected _ _ _ _ _); [cbn; auto|].
    pose proof (tinv_insert M m k v Hv). unfold spec_ins. rewrite Hv. destruct (m !! k); cbn; [rewrite from_enc by done|]; auto.
  - cbn. split; [auto|]. split; [apply typed_key_ne|]. rewrite trej. destruct (trejected _ _ _ _ _); [cbn; auto|].
    pose proof (tinv_insert M m k v Hv). unfold spec_ins. rewrite Hv. destruct (m !! k); cbn; rewrite from_enc by done; auto.
  - cbn. rewrite Hv. pose proof (tinv_delete M m k Hv). split; [auto|]. split; [auto|]. split; [|done]. by rewrite decode_enc.
Qed.
Lemma tother_kwp cfg c M m : tinv M m -> through_tstore ck cv tid c -> (forall o, c <> CTyped tid o) ->
  kwp cfg (call_prog cfg c) (fun M' => tinv M' m) (fun _ M' => tinv M' m) (fun _ M' => tinv M' m) M.
Proof.
  intros Hv Ht Hc.
  assert (Hs : forall M', same_outside (call_keys cfg c) M M' -> tinv M' m).
  { intros M' HM k. rewrite <- Hv. apply HM. intros Hk. apply call_keys_typed in Hk as (t' & o & -> & E).
    destruct Ht as [Ht _]. apply typed_key_inj in E as [-> _]; [|done|done]. by apply (Hc o). }
  eapply kwp_mono; [| | |eapply (kwp_frame cfg (call_keys cfg c) _ anyv M); [apply call_writes|by intros ? ?]].
  - exact Hs.
  - intros a M' _. apply Hs.
  - intros a M' _. apply Hs.
Qed.
(** The method is determined by the call. *)
Lemma small_call tc tc' : small tc -> tstore_call ck cv tid tc = tstore_call ck cv tid tc' -> tc = tc'.
Proof.
  intros Hs E.
  assert (forall o o' : option V, enc cv <$> o = enc cv <$> o' -> o = o') as Ho.
  { intros [a|] [b|] Eo; try done. cbn in Eo. apply (inj Some) in Eo. by apply (enc_inj cv HV) in Eo as ->. }
  destruct tc, tc'; try done; cbn in E; try discriminate E;
    repeat match goal with
    | E : CTyped _ ?a = CTyped _ ?b |- _ => assert (a = b) by congruence; clear E
    | E : OContains ?a = OContains ?b |- _ => assert (a = b) by congruence; clear E
    | E : OGet ?a = OGet ?b |- _ => assert (a = b) by congruence; clear E
    | E : ORemove ?a = ORemove ?b |- _ => assert (a = b) by congruence; clear E
    | E : OSet ?a ?x = OSet ?b ?y |- _ => assert (a = b) by congruence; assert (x = y) by congruence; clear E
    | E : OGetOrCreate ?a ?x = OGetOrCreate ?b ?y |- _ => assert (a = b) by congruence; assert (x = y) by congruence; clear E
    | E : OReplace ?a ?x ?p = OReplace ?b ?y ?q |- _ => assert (a = b) by congruence; assert (x = y) by congruence; assert (p = q) by congruence; clear E
    | E : enc ck _ = enc ck _ |- _ => apply (enc_inj ck HK) in E as ->
    | E : enc cv _ = enc cv _ |- _ => apply (enc_inj cv HV) in E as ->
    | E : enc cv <$> _ = enc cv <$> _ |- _ => apply Ho in E as ->
    end; done.
Qed.

Lemma tstore_lifts : lifts (fun _ M m => tinv M m) (tstore_step ck cv tid) (tstore_guard ck cv tid).
Proof.
  assert (Hcase : forall c, through_tstore ck cv tid c -> (forall o, c <> CTyped tid o) \/ exists tc, small tc /\ c = tstore_call ck cv tid tc).
  { intros c Hc. destruct c as [o|tid' o|lk c|qk c|b c]; try (left; done). destruct Hc as [_ Hc].
    destruct (decide (tid' = tid)) as [->|Hne]; [right; by apply Hc|left; congruence]. }
  assert (Hsame : forall cfg c r m, (forall o, c <> CTyped tid o) -> tstore_step ck cv tid cfg m (ECall c r) cfg m).
  { intros cfg c r m Hc. destruct c as [o|tid' o|lk c|qk c|b c]; try done. cbn. destruct (N.eqb_spec tid' tid) as [->|]; [by destruct (Hc o)|done]. }
  assert (Hsame2 : forall cfg c cfg' m, (forall o, c <> CTyped tid o) -> tstore_step ck cv tid cfg m (ECrash (ACall c)) cfg' m).
  { intros cfg c r m Hc. destruct c as [o|tid' o|lk c|qk c|b c]; try done. cbn. destruct (N.eqb_spec tid' tid) as [->|]; [by destruct (Hc o)|done]. }
  assert (Hsmall : forall tc, small tc -> exists o, tstore_call ck cv tid tc = CTyped tid o).
  { intros tc Hs. destruct tc; try done; by eexists. }
  constructor.
  - done.
  - intros cfg s e [Hf _]. exact Hf.
  - intros cfg s x M m c r HI Hv [_ Hg]. exists (fun _ => True). destruct (Hcase c Hg) as [Hc|(tc & Hs & ->)].
    + eapply kwp_mono; [| | |by apply (tother_kwp cfg c M m)]; [done| |]; intros y M' _ Hv'; exists m; (split; [by apply Hsame|done]).
    + eapply kwp_mono; [| | |by apply (typed_kwp cfg tc M m)]; [done| |].
      * intros y M' _ [H1 H2]. eexists. split; [|exact H2]. destruct (Hsmall tc Hs) as [o Eo]. rewrite Eo. cbn. rewrite N.eqb_refl.
        intros c Hc Ec. rewrite Ec in Eo. symmetry in Eo. apply small_call in Eo as ->; [|done]. done.
      * intros y M' _ [H1 H2]. eexists. split; [|exact H2]. destruct (Hsmall tc Hs) as [o Eo]. rewrite Eo. cbn. rewrite N.eqb_refl.
        intros c Hc Ec. rewrite Ec in Eo. symmetry in Eo. apply small_call in Eo as ->; [|done]. done.
  - intros cfg s x M m c HI Hv [_ Hg]. destruct (Hcase c Hg) as [Hc|(tc & Hs & ->)].
    + eapply kwp_mono; [| | |by apply (tother_kwp cfg c M m)]; [|done|done]. intros M' Hv'. exists m. split; [|done]. intros cfg' _. by apply Hsame2.
    + eapply kwp_mono; [| | |by apply (typed_kwp cfg tc M m)]; [|done|done].
      assert (forall m', m' = m \/ m' = fst (tspec ck cv cfg m tc) -> forall cfg', tstore_step ck cv tid cfg m (ECrash (ACall (tstore_call ck cv tid tc))) cfg' m') as Hst.
      { intros m' Hm' cfg'. destruct (Hsmall tc Hs) as [o Eo]. rewrite Eo. cbn. rewrite N.eqb_refl.
        intros c Hc Ec. rewrite Ec in Eo. symmetry in Eo. apply small_call in Eo as ->; [|done]. done. }
      intros M' [Hv'|Hv']; eexists; (split; [|exact Hv']); intros cfg' _; apply Hst; auto.
  - intros cfg s x M m e HI Hv _ He. exists m. split; [|done]. intros cfg' _. destruct e as [c r|mt| | |[|c|mt]]; done.
  - intros cfg s x M m HI Hv _. exists ∅. split; [done|]. intros k. by rewrite !lookup_empty.
Qed.
End store.

(** ** From untyped to typed traces *)
Lemma trace_sim {A B} (T : config -> A -> event -> config -> A -> Prop) (T' : config -> B -> event -> config -> B -> Prop)
    (R : A -> B -> Prop) (P : event -> Prop) :
  (forall cfg a e cfg' a' b, R a b -> P e -> T cfg a e cfg' a' -> exists b', T' cfg b e cfg' b' /\ R a' b') ->
  forall cfg a es cfg' a' b, R a b -> Forall P es -> trace T cfg a es cfg' a' -> exists b', trace T' cfg b es cfg' b' /\ R a' b'.
Proof.
  intros HT cfg a es cfg' a' b HR HP Htr. revert b HR HP.
  induction Htr as [|cfg a e cfg1 a1 es cfg' a' Hcf Hst Htr IH]; intros b HR HP; [exists b; split; [constructor|done]|].
  apply Forall_cons in HP as [HP1 HP2]. destruct (HT _ _ _ _ _ _ HR HP1 Hst) as (b1 & H1 & H2).
  destruct (IH b1 H2 HP2) as (b' & H3 & H4). exists b'. split; [by econstructor|done].
Qed.
Lemma hist_mono (G G' : config -> store -> event -> Prop) cfg s es cfg' s' : (forall cfg s e, G cfg s e -> G' cfg s e) ->
  hist G cfg s es cfg' s' -> hist G' cfg s es cfg' s'.
Proof. intros HG. induction 1; econstructor; eauto. Qed.
Lemma hist_events (G : config -> store -> event -> Prop) (P : event -> Prop) cfg s es cfg' s' : (forall cfg s e, G cfg s e -> P e) ->
  hist G cfg s es cfg' s' -> Forall P es.
Proof. intros HG. induction 1; constructor; eauto. Qed.

Section big.
Context {K V : Type} `{Countable K} (ck : codec K) (cv : codec V) (tid : N).
Context (HK : round_trips ck) (HV : round_trips cv) (Htid : tid < 2 ^ 32).
Definition big_through (k : K) (e : event) : Prop :=
  match e with ECall (CBig kb b) _ => kb = big_key ck tid k -> exists c : tcall K V, CBig kb b = tstore_call ck cv tid c | _ => True end.
Lemma big_sim k cfg (m : option bytes) e cfg' m' (mv : option V) : m = enc cv <$> mv -> big_through k e ->
  big_step (big_key ck tid k) cfg m e cfg' m' -> exists mv', tbig_step ck cv tid k cfg mv e cfg' mv' /\ m' = enc cv <$> mv'.
Proof.
  intros -> HP HT. destruct e as [[o|tid' o|lk c|qk c|kb b] r|mt| | |act]; cbn [big_step tbig_step] in *; try (exists mv; done); [|by exists None].
  case_bool_decide as E; [|by exists mv]. destruct (HP E) as [c0 Ec0]. destruct HT as (y & -> & HS). clear HP.
  destruct b as [v| |]; cbn [big_spec] in HS; destruct HS as [-> ->].
  - destruct c0 as [| | | | | | |k' v'|]; try done. cbn in Ec0. assert (v = enc cv v') as -> by congruence.
    exists (Some v'). split; [|done]. intros c Ec. destruct c as [| | | | | | |k2 v2|]; try done. cbn in Ec.
    assert (enc cv v' = enc cv v2) as Ev by congruence. apply (enc_inj cv HV) in Ev as <-.
    cbn [tstore_reply tstore_decode tbig_spec]. eexists. split; [done|]. split; [|done]. f_equal. apply bool_decide_ext. by rewrite fmap_is_Some.
  - exists mv. split; [|done]. intros c Ec. destruct c; try done. cbn [tstore_reply tstore_decode tbig_spec]. rewrite decode_enc by done. by eexists.
  - exists None. split; [|done]. intros c Ec. destruct c; try done. cbn [tstore_reply tstore_decode tbig_spec]. eexists. split; [done|]. split; [|done].
    f_equal. apply bool_decide_ext. by rewrite fmap_is_Some.
Qed.
End big.

Section list.
Context {K V : Type} `{EqDecision K} (ck : codec K) (cv : codec V).
Context (HK : round_trips ck) (HV : round_trips cv).
Implicit Types (l : list (K * V)) (ik : K).
Definition enc_item (x : K * V) : kv := (enc ck (fst x), enc cv (snd x)).
Definition enc_items l : items := map enc_item l.
Lemma enc_eq_b (a b : K) : bool_decide (enc ck a = enc ck b) = bool_decide (a = b).
Proof. apply bool_decide_ext. split; [apply (enc_inj ck HK)|by intros ->]. Qed.
Lemma sim_get l ik : l_get (enc_items l) (enc ck ik) = enc cv <$> tl_get l ik.
Proof.
  unfold l_get, tl_get. induction l as [|x l IH]; [done|]. cbn [enc_items map List.find enc_item fst]. rewrite enc_eq_b.
  case_bool_decide; [done|]. exact IH.
Qed.
Lemma sim_update l ik v : l_update (enc_items l) (enc ck ik) (enc cv v) = enc_items (tl_update l ik v).
Proof.
  unfold l_update, tl_update, enc_items. rewrite !map_map. apply map_ext. intros x. cbn [enc_item fst]. rewrite enc_eq_b. by case_bool_decide.
Qed.
Lemma sim_remove l ik : l_remove (enc_items l) (enc ck ik) = enc_items (tl_remove l ik).
Proof.
  unfold l_remove, tl_remove. induction l as [|x l IH]; [done|]. cbn [enc_items map List.filter enc_item fst]. rewrite enc_eq_b.
  case_bool_decide; cbn [negb]; [exact IH|]. cbn [enc_items map]. f_equal. exact IH.
Qed.
Lemma sim_app l x : enc_items l ++ [enc_item x] = enc_items (l ++ [x]).
Proof. unfold enc_items. by rewrite map_app. Qed.
Lemma sim_set l ik v : l_set (enc_items l) (enc ck ik) (enc cv v) = enc_items (tl_set l ik v).
Proof.
  unfold l_set, tl_set. rewrite sim_get. destruct (tl_get l ik); cbn; [apply sim_update|]. apply (sim_app l (ik, v)).
Qed.
Lemma sim_direct fwd l : direct fwd (enc_items l) = enc_items (tl_direct fwd l).
Proof. destruct fwd; [done|]. unfold direct, tl_direct, enc_items. by rewrite map_rev. Qed.
Lemma sim_first l : first (enc_items l) = enc_item <$> head l.
Proof. by destruct l. Qed.
Lemma dec_item x : decode_item ck cv (enc_item x) = Ok x.
Proof. unfold decode_item. cbn. rewrite !from_enc by done. by destruct x. Qed.
Lemma dec_items l : decode_items ck cv (enc_items l) = Ok l.
Proof. induction l as [|x l IH]; [done|]. cbn [enc_items map decode_items]. rewrite dec_item. cbn. unfold enc_items in IH. by rewrite IH. Qed.
Lemma tl_update_absent l ik v : tl_get l ik = None -> tl_update l ik v = l.
Proof.
  unfold tl_get, tl_update. induction l as [|x l IH]; [done|]. cbn [List.find map]. case_bool_decide; [done|]. intros Hn. f_equal. by apply IH.
Qed.

Definition list_through (lk : bytes) (e : event) : Prop :=
  match e with ECall (CList lk' b) _ => lk' = lk -> exists c : tlcall K V, b = tlist_call ck cv c | _ => True end.
(** One call. *)
Lemma sim_call l (c0 : tlcall K V) y (l' : items) : list_spec (enc_items l) (tlist_call ck cv c0) y l' ->
  exists lt', l' = enc_items lt' /\ exists y', tlist_decode ck cv c0 y = Ok y' /\ tl_spec cv l c0 y' lt'.
Proof.
  destruct c0 as [ik|ik|ik v|ik v|ik v|ik v ex|ik|fwd| |few n|fwd|fwd|]; cbn [tlist_call list_spec tl_spec]; rewrite ?sim_get.
  - intros [-> ->]. exists l. split; [done|]. cbn. eexists. split; [done|]. split; [done|]. by destruct (tl_get l ik).
  - intros [-> ->]. exists l. split; [done|]. cbn [tlist_decode]. rewrite decode_enc by done. by eexists.
  - intros [-> ->]. rewrite sim_set. exists (tl_set l ik v). split; [done|]. destruct (tl_get l ik); cbn; [rewrite from_enc by done|]; by eexists.
  - intros [-> ->]. rewrite sim_remove. exists (tl_remove l ik ++ [(ik, v)]). split; [apply (sim_app _ (ik, v))|]. by eexists.
  - destruct (tl_get l ik) as [old|]; cbn [fmap option_fmap option_map].
    + intros [-> ->]. exists l. split; [done|]. cbn. rewrite from_enc by done. by eexists.
    + intros [-> ->]. exists (l ++ [(ik, v)]). split; [apply (sim_app _ (ik, v))|]. cbn. rewrite from_enc by done. by eexists.
  - destruct ex as [ex|]; cbn [fmap option_fmap option_map].
    + destruct (tl_get l ik) as [old|] eqn:Eg; cbn [fmap option_fmap option_map].
      * intros [(H1 & -> & ->)|[-> ->]].
        -- exists (tl_update l ik v). split; [apply sim_update|]. cbn. rewrite from_enc by done. eexists. split; [done|]. by left.
        -- exists l. split; [done|]. eexists. split; [done|]. by right.
      * intros [-> ->]. exists l. split; [done|]. eexists. split; [done|]. by right.
    + destruct (tl_get l ik) as [old|] eqn:Eg; cbn [fmap option_fmap option_map].
      * intros [-> ->]. exists (tl_update l ik v). split; [apply sim_update|]. cbn. rewrite from_enc by done. by eexists.
      * intros [-> ->]. exists l. split; [done|]. eexists. split; [done|]. split; [done|]. by rewrite tl_update_absent.
  - intros [-> ->]. rewrite sim_remove. exists (tl_remove l ik). split; [done|]. cbn [tlist_decode]. rewrite decode_enc by done. by eexists.
  - intros [-> ->]. exists l. split; [done|]. cbn [tlist_decode]. rewrite sim_direct, dec_items. by eexists.
  - intros [-> (b & -> & Hb)]. exists []. split; [done|]. eexists. split; [done|]. split; [done|]. exists b. split; [done|]. intros Hl. apply Hb. by destruct l.
  - intros [-> (b & ->)]. exists l. split; [done|]. eexists. split; [done|]. split; [done|]. by exists b.
  - rewrite sim_direct, sim_first. intros [-> H1]. destruct (head (tl_direct fwd l)) as [[ik v]|]; cbn [fmap option_fmap option_map enc_item fst snd] in *.
    + subst l'. rewrite sim_remove. exists (tl_remove l ik). split; [done|]. cbn [tlist_decode]. exists (TLItem (Some (ik, v))). split; [|done]. change (enc ck ik, enc cv v) with (enc_item (ik, v)). by rewrite dec_item.
    + subst l'. exists l. split; [done|]. by eexists.
  - rewrite sim_direct, sim_first. intros [-> ->]. exists l. split; [done|]. destruct (head (tl_direct fwd l)) as [x|]; cbn [fmap option_fmap option_map tlist_decode].
    + rewrite dec_item. by eexists.
    + by eexists.
  - intros [-> ->]. exists l. split; [done|]. eexists. split; [done|]. split; [done|]. unfold enc_items, len. by rewrite map_length.
Qed.
(** Two methods that make the same call have the same effect. *)
Lemma tlist_call_inj (c c' : tlcall K V) : tlist_call ck cv c = tlist_call ck cv c' ->
  c = c' \/ exists ik, (c = TLContains ik /\ c' = TLGet ik) \/ (c = TLGet ik /\ c' = TLContains ik).
Proof.
  intros E.
  assert (forall o o' : option V, enc cv <$> o = enc cv <$> o' -> o = o') as Ho.
  { intros [a|] [b|] Eo; try done. cbn in Eo. apply (inj Some) in Eo. by apply (enc_inj cv HV) in Eo as ->. }
  destruct c, c'; try done; cbn in E; try discriminate E;
    repeat match goal with
    | E : LGet ?a = LGet ?b |- _ => assert (a = b) by congruence; clear E
    | E : LRemove ?a = LRemove ?b |- _ => assert (a = b) by congruence; clear E
    | E : LSet ?a ?x = LSet ?b ?y |- _ => assert (a = b) by congruence; assert (x = y) by congruence; clear E
    | E : LSetPromoting ?a ?x = LSetPromoting ?b ?y |- _ => assert (a = b) by congruence; assert (x = y) by congruence; clear E
    | E : LGetOrCreate ?a ?x = LGetOrCreate ?b ?y |- _ => assert (a = b) by congruence; assert (x = y) by congruence; clear E
    | E : LReplace ?a ?x ?p = LReplace ?b ?y ?q |- _ => assert (a = b) by congruence; assert (x = y) by congruence; assert (p = q) by congruence; clear E
    | E : enc ck _ = enc ck _ |- _ => apply (enc_inj ck HK) in E as ->
    | E : enc cv _ = enc cv _ |- _ => apply (enc_inj cv HV) in E as ->
    | E : enc cv <$> _ = enc cv <$> _ |- _ => apply Ho in E as ->
    end; try (left; reflexivity); try (left; congruence); try (right; eexists; auto).
Qed.
Lemma list_sim lk cfg (l : items) e cfg' (l' : items) (lt : list (K * V)) : l = enc_items lt -> list_through lk e ->
  list_step lk cfg l e cfg' l' -> exists lt', tlist_step ck cv lk cfg lt e cfg' lt' /\ l' = enc_items lt'.
Proof.
  intros -> HP HT. destruct e as [[o|tid' o|lk' b|qk c|kb b] r|mt| | |act]; cbn [list_step tlist_step] in *; try (exists lt; done); [|by exists []].
  case_bool_decide as E; [|by exists lt]. destruct (HP E) as [c0 ->]. destruct HT as (y & -> & HS). clear HP.
  destruct (sim_call lt c0 y l' HS) as (lt' & -> & y' & Hy & Hs). exists lt'. split; [|done]. intros c Ec.
  apply tlist_call_inj in Ec as [<-|(ik & [[-> ->]|[-> ->]])].
  - by exists y'.
  - cbn [tlist_call list_spec] in HS. destruct HS as [E1 ->]. destruct Hs as [-> ->]. rewrite sim_get. cbn [tlist_reply tlist_decode]. rewrite decode_enc by done. by eexists.
  - cbn [tlist_call list_spec] in HS. destruct HS as [E1 ->]. destruct Hs as [-> ->]. rewrite sim_get. cbn [tlist_reply tlist_decode]. eexists. split; [done|]. split; [done|]. by destruct (tl_get lt ik).
Qed.
End list.

Section deque.
Context {V : Type} (cv : codec V) (HV : round_trips cv).
Implicit Types (q : list (N * V)).
Definition enc_elem (x : N * V) : N * bytes := (fst x, enc cv (snd x)).
Definition enc_elems q : elems := map enc_elem q.
Lemma dec_elems q : decode_elems cv (enc_elems q) = Ok q.
Proof. induction q as [|[i v] q IH]; [done|]. cbn [enc_elems map decode_elems enc_elem fst snd]. rewrite HV. unfold enc_elems in IH. by rewrite IH. Qed.
Lemma sim_end h q : q_end h (enc_elems q) = enc_elem <$> tq_end h q.
Proof. destruct h; cbn [q_end tq_end]; [by destruct q|]. unfold enc_elems. by rewrite <- fmap_last. Qed.
Lemma sim_rest h q : q_rest h (enc_elems q) = enc_elems (tq_rest h q).
Proof.
  destruct h; cbn [q_rest tq_rest]; [by destruct q|]. unfold enc_elems. induction q as [|x q IH]; [done|]. cbn [map removelast].
  destruct q; [done|]. cbn [map] in *. by rewrite IH.
Qed.
Definition queue_through (qk : bytes) (e : event) : Prop :=
  match e with ECall (CQueue qk' b) _ => qk' = qk -> exists c : tqcall V, b = tqueue_call cv c | _ => True end.
Lemma sim_qcall q (c0 : tqcall V) y (q' : elems) : queue_spec (enc_elems q) (tqueue_call cv c0) y q' ->
  exists qt', q' = enc_elems qt' /\ exists y', tqueue_decode cv c0 y = Ok y' /\ tq_spec q c0 y' qt'.
Proof.
  destruct c0 as [h v|h|f|f| |]; cbn [tqueue_call queue_spec tq_spec].
  - intros (i & -> & _ & ->). exists (if h then (i, v) :: q else q ++ [(i, v)]). split.
    + destruct h; [done|]. unfold enc_elems. cbn. by rewrite map_app.
    + eexists. split; [done|]. split; [done|]. by exists i.
  - intros [-> ->]. exists (tq_rest h q). split; [apply sim_rest|]. rewrite sim_end. destruct (tq_end h q) as [[i v]|]; cbn; [rewrite from_enc by done|]; by eexists.
  - intros [-> ->]. exists q. split; [done|]. rewrite sim_end. destruct (tq_end f q) as [[i v]|]; cbn; [rewrite from_enc by done|]; by eexists.
  - intros [-> ->]. exists q. split; [done|]. cbn [tqueue_decode].
    replace (if f then enc_elems q else rev (enc_elems q)) with (enc_elems (if f then q else rev q)) by (destruct f; [done|unfold enc_elems; by rewrite map_rev]).
    rewrite dec_elems. by eexists.
  - intros [-> ->]. exists q. split; [done|]. eexists. split; [done|]. split; [done|]. unfold enc_elems, len. by rewrite map_length.
  - intros [-> (a & b & -> & Hab)]. exists q. split; [done|]. eexists. split; [done|]. split; [done|]. exists a, b. split; [done|].
    exact (proj1 (List.Forall_map _ _ _) Hab).
Qed.
Lemma tqueue_call_inj (c c' : tqcall V) : tqueue_call cv c = tqueue_call cv c' -> c = c'.
Proof.
  intros E. destruct c, c'; try done; cbn in E; try discriminate E; try congruence.
  assert (enc cv v = enc cv v0) as Ev by congruence. apply (enc_inj cv HV) in Ev as ->. congruence.
Qed.
Lemma queue_sim qk cfg (q : elems) e cfg' (q' : elems) (qt : list (N * V)) : q = enc_elems qt -> queue_through qk e ->
  queue_step qk cfg q e cfg' q' -> exists qt', tqueue_step cv qk cfg qt e cfg' qt' /\ q' = enc_elems qt'.
Proof.
  intros -> HP HT. destruct e as [[o|tid' o|lk' b|qk' b|kb b] r|mt| | |act]; cbn [queue_step tqueue_step] in *; try (exists qt; done); [|by exists []].
  case_bool_decide as E; [|by exists qt]. destruct (HP E) as [c0 ->]. destruct HT as (y & -> & HS). clear HP.
  destruct (sim_qcall qt c0 y q' HS) as (qt' & -> & y' & Hy & Hs). exists qt'. split; [|done]. intros c Ec.
  apply tqueue_call_inj in Ec as <-. by exists y'.
Qed.
End deque.
