(** Invariants tying a shard / a tree of shards to the abstract map, while running
    ([leaf_ok], [run_span]) and on disk at any crash point ([disk_shard], [disk_span]). *)
From Verif Require Import Base Hashing HashingProofs Fs Shard Router RouterPure Wpc Spec FileRep RowOps Compact.

(** The keys belonging to row [r] of the shard [s, e). *)
Definition home (cfg : config) (s e : N) (r : nat) (k : bytes) : Prop :=
  s <= ph_selector (hashk cfg k) < e /\ ph_row (hashk cfg k) = r.
Definition in_span (cfg : config) (s e : N) (k : bytes) : Prop :=
  s <= ph_selector (hashk cfg k) < e.

(** Well-formed directory. *)
Record wf (w : fs) : Prop := Wf {
  wf_inj : forall a b i, fs_dir w !! a = Some i -> fs_dir w !! b = Some i -> a = b;
  wf_file : forall a i, fs_dir w !! a = Some i -> is_Some (fs_files w !! i);
  wf_next : forall a i, fs_dir w !! a = Some i -> i < fs_next w;
  wf_names : forall a b, is_Some (fs_dir w !! FShard a b) \/ is_Some (fs_dir w !! FCompact a b) ->
               a < b /\ b <= END_OF_SHARDS
}.

Definition all_hold (cfg : config) (m : kvmap) (s e : N) (L : rows_t) : Prop :=
  forall r, (r < NUM_ROWS)%nat -> holds m (home cfg s e r) (entries (L r)).

Definition leaf_ok (cfg : config) (x : bool) (m : kvmap) (w : fs) (sh : shard) : Prop :=
  let s := sh_start sh in let e := sh_end sh in
  exists f L,
    fs_dir w !! FShard s e = Some (sh_ino sh) /\ fs_files w !! sh_ino sh = Some f /\
    hdr_ok f /\ file_rep cfg f L /\ acct x f L /\ f_woff f < 2 ^ 32 /\
    match sh_tgt sh with
    | None => fs_dir w !! FCompact s e = None /\ all_hold cfg m s e L
    | Some (t, _) =>
      fs_dir w !! FCompact s e = Some t /\
      exists ft Lt, fs_files w !! t = Some ft /\ hdr_ok ft /\ comp cfg x m (home cfg s e) L ft Lt 0
    end.

Definition disk_shard (cfg : config) (x : bool) (m : kvmap) (w : fs) (r : range) : Prop :=
  let '(s, e) := r in
  exists i f L,
    fs_dir w !! FShard s e = Some i /\ fs_files w !! i = Some f /\
    hdr_ok f /\ file_rep cfg f L /\ acct x f L /\ f_woff f < 2 ^ 32 /\
    match fs_dir w !! FCompact s e with
    | None => all_hold cfg m s e L
    | Some t =>
      exists ft Lt j, fs_files w !! t = Some ft /\ dcomp cfg x m (home cfg s e) L ft Lt j /\
                      (x = true -> j = 0%nat)
    end.

(** Half-open intervals overlap. *)
Definition overlap (a b s e : N) : Prop := a < e /\ s < b.

Definition disk_names (w : fs) (s e : N) (rs : list range) : Prop :=
  (forall a b, is_Some (fs_dir w !! FShard a b) -> overlap a b s e ->
     exists r, r ∈ rs /\ contained (a, b) r) /\
  (forall a b, is_Some (fs_dir w !! FCompact a b) -> overlap a b s e -> (a, b) ∈ rs).

Definition disk_span (cfg : config) (x : bool) (m : kvmap) (w : fs) (s : N) (n : nat) : Prop :=
  exists rs, dyadic s n rs /\ Forall (disk_shard cfg x m w) rs /\ disk_names w s (s + 2 ^ N.of_nat n) rs.

Definition run_names (w : fs) (s e : N) (rs : list range) : Prop :=
  (forall a b, is_Some (fs_dir w !! FShard a b) -> overlap a b s e -> (a, b) ∈ rs) /\
  (forall a b, is_Some (fs_dir w !! FCompact a b) -> overlap a b s e -> (a, b) ∈ rs).

Definition run_span (cfg : config) (x : bool) (m : kvmap) (w : fs) (r : router) (s : N) (n : nat) : Prop :=
  tree_ok r s n /\ Forall (leaf_ok cfg x m w) (leaves r) /\
  run_names w s (s + 2 ^ N.of_nat n) (map span_of (leaves r)).

(** The invariant of a running store, and of the directory of a store at any crash point.
    Both allow any bottom_, top_ and merge_ files (left by a failed split or merge). *)
Definition Inv (cfg : config) (x : bool) (m : kvmap) (r : router) (w : fs) : Prop :=
  wf w /\ run_span cfg x m w r 0 16.
Definition DiskInv (cfg : config) (x : bool) (m : kvmap) (w : fs) : Prop :=
  wf w /\ disk_span cfg x m w 0 16.

(** ** Dyadic lists *)
Lemma dyadic_bounds s n rs a b :
  dyadic s n rs -> (a, b) ∈ rs -> s <= a /\ a < b /\ b <= s + 2 ^ N.of_nat n.
Proof.
  intros H. induction H as [s n|s n l1 l2 H1 IH1 H2 IH2]; intros Hin.
  - apply elem_of_list_singleton in Hin. injection Hin as -> ->. pose proof (pow2_pos n). lia.
  - rewrite pow2_succ. apply elem_of_app in Hin as [Hin|Hin].
    + specialize (IH1 Hin). lia.
    + specialize (IH2 Hin). lia.
Qed.
Lemma dyadic_overlap s n rs a b c d :
  dyadic s n rs -> (a, b) ∈ rs -> (c, d) ∈ rs -> overlap a b c d -> (a, b) = (c, d).
Proof.
  intros H. induction H as [s n|s n l1 l2 H1 IH1 H2 IH2]; intros Ha Hc Ho.
  - apply elem_of_list_singleton in Ha, Hc. congruence.
  - unfold overlap in *. apply elem_of_app in Ha as [Ha|Ha], Hc as [Hc|Hc]; auto.
    + pose proof (dyadic_bounds _ _ _ _ _ H1 Ha). pose proof (dyadic_bounds _ _ _ _ _ H2 Hc). lia.
    + pose proof (dyadic_bounds _ _ _ _ _ H2 Ha). pose proof (dyadic_bounds _ _ _ _ _ H1 Hc). lia.
Qed.

(** ** From running to disk *)
Lemma leaf_disk cfg x m w sh : leaf_ok cfg x m w sh -> disk_shard cfg x m w (span_of sh).
Proof.
  intros (f & L & H1 & H2 & H3 & H4 & H5 & H6 & H7). unfold span_of, disk_shard.
  exists (sh_ino sh), f, L. repeat (split; [done|]).
  destruct (sh_tgt sh) as [[t b]|].
  - destruct H7 as (-> & ft & Lt & T1 & T2 & T3). exists ft, Lt, 0%nat. split; [done|].
    split; [by apply comp_dcomp|done].
  - destruct H7 as (-> & H7). done.
Qed.
Lemma run_disk cfg x m w r s n : run_span cfg x m w r s n -> disk_span cfg x m w s n.
Proof.
  intros (H1 & H2 & H3 & H4). exists (map span_of (leaves r)). split; [by apply tree_ok_dyadic|]. split.
  - apply Forall_fmap. eapply Forall_impl; [exact H2|]. apply leaf_disk.
  - split; [|done]. intros a b Ha Ho. exists (a, b). split; [auto|]. unfold contained. simpl. lia.
Qed.
Lemma acct_false x f L : acct x f L -> acct false f L.
Proof. apply acct_weaken. Qed.
Lemma disk_shard_weaken cfg x m w r : disk_shard cfg x m w r -> disk_shard cfg false m w r.
Proof.
  destruct r as [s e]. intros (i & f & L & H1 & H2 & H3 & H4 & H5 & H6 & H7).
  exists i, f, L. repeat (split; [done|]). split; [by eapply acct_weaken|]. split; [done|].
  destruct (fs_dir w !! FCompact s e); [|done].
  destruct H7 as (ft & Lt & j & T1 & T2 & T3). exists ft, Lt, j. split; [done|].
  split; [by eapply dcomp_weaken|done].
Qed.
Lemma disk_span_weaken cfg x m w s n : disk_span cfg x m w s n -> disk_span cfg false m w s n.
Proof.
  intros (rs & H1 & H2 & H3). exists rs. split; [done|]. split; [|done].
  eapply Forall_impl; [exact H2|]. intros r. apply disk_shard_weaken.
Qed.
Lemma run_disk' cfg x m w r s n : run_span cfg x m w r s n -> disk_span cfg false m w s n.
Proof. intros H. by eapply disk_span_weaken, run_disk. Qed.

(** ** Frames *)
Definition name_span (n : fname) : option range :=
  match n with FShard a b | FCompact a b => Some (a, b) | _ => None end.
Definition outside (s e : N) (n : fname) : Prop :=
  match name_span n with Some (a, b) => a < b /\ (b <= s \/ e <= a) | None => False end.
(** Everything belonging to shards outside [s, e) is the same in [w] and [w']. *)
Definition outside_same (s e : N) (w w' : fs) : Prop :=
  forall n, outside s e n ->
    fs_dir w' !! n = fs_dir w !! n /\
    forall i, fs_dir w !! n = Some i -> fs_files w' !! i = fs_files w !! i.

Lemma outside_same_refl s e w : outside_same s e w w.
Proof. done. Qed.
Lemma outside_same_trans s e w1 w2 w3 :
  outside_same s e w1 w2 -> outside_same s e w2 w3 -> outside_same s e w1 w3.
Proof.
  intros H1 H2 n Hn. destruct (H1 n Hn) as [A1 A2], (H2 n Hn) as [B1 B2]. split; [congruence|].
  intros i Hi. rewrite B2 by congruence. by apply A2.
Qed.
Lemma outside_same_mono s e s' e' w w' :
  s' <= s -> e <= e' -> outside_same s e w w' -> outside_same s' e' w w'.
Proof.
  intros Hs He H n Hn. apply H. unfold outside in *. destruct (name_span n) as [[a b]|]; [|done]. lia.
Qed.

Lemma holds_home_ext cfg m m' s e r es :
  (forall k, in_span cfg s e k -> m !! k = m' !! k) ->
  holds m (home cfg s e r) es -> holds m' (home cfg s e r) es.
Proof. intros Hm. apply holds_ext; [done|]. intros k [Hk _]. by apply Hm. Qed.
Lemma all_hold_ext cfg m m' s e L :
  (forall k, in_span cfg s e k -> m !! k = m' !! k) -> all_hold cfg m s e L -> all_hold cfg m' s e L.
Proof. intros Hm H r Hr. eapply holds_home_ext; eauto. Qed.
Lemma comp_ext cfg x m m' s e Ls ft Lt j :
  (forall k, in_span cfg s e k -> m !! k = m' !! k) ->
  comp cfg x m (home cfg s e) Ls ft Lt j -> comp cfg x m' (home cfg s e) Ls ft Lt j.
Proof.
  intros Hm []. split; auto.
  - intros r Hr. eapply holds_home_ext; eauto.
  - intros r Hr. eapply holds_home_ext; eauto.
Qed.
Lemma dcomp_ext cfg x m m' s e Ls ft Lt j :
  (forall k, in_span cfg s e k -> m !! k = m' !! k) ->
  dcomp cfg x m (home cfg s e) Ls ft Lt j -> dcomp cfg x m' (home cfg s e) Ls ft Lt j.
Proof.
  intros Hm []. split; auto.
  - intros r Hr. eapply holds_home_ext; eauto.
  - intros r Hr. eapply holds_home_ext; eauto.
Qed.

Lemma leaf_frame cfg x m m' w w' s e sh :
  outside_same s e w w' -> sh_start sh < sh_end sh -> sh_end sh <= s \/ e <= sh_start sh ->
  (forall k, in_span cfg (sh_start sh) (sh_end sh) k -> m !! k = m' !! k) ->
  leaf_ok cfg x m w sh -> leaf_ok cfg x m' w' sh.
Proof.
  intros Ho Hlt Hout Hm (f & L & H1 & H2 & H3 & H4 & H5 & H6 & H7).
  destruct (Ho (FShard (sh_start sh) (sh_end sh))) as [A1 A2]; [done|].
  destruct (Ho (FCompact (sh_start sh) (sh_end sh))) as [B1 B2]; [done|].
  exists f, L. rewrite A1, B1, A2 by done. repeat (split; [done|]).
  destruct (sh_tgt sh) as [[t b]|].
  - destruct H7 as (T0 & ft & Lt & T1 & T2 & T3). split; [done|]. exists ft, Lt.
    rewrite B2 by done. repeat (split; [done|]). by eapply comp_ext.
  - destruct H7 as (T0 & T1). split; [done|]. by eapply all_hold_ext.
Qed.
Lemma disk_frame cfg x m m' w w' s e a b :
  outside_same s e w w' -> a < b -> b <= s \/ e <= a ->
  (forall k, in_span cfg a b k -> m !! k = m' !! k) ->
  disk_shard cfg x m w (a, b) -> disk_shard cfg x m' w' (a, b).
Proof.
  intros Ho Hlt Hout Hm (i & f & L & H1 & H2 & H3 & H4 & H5 & H6 & H7).
  destruct (Ho (FShard a b)) as [A1 A2]; [done|].
  destruct (Ho (FCompact a b)) as [B1 B2]; [done|].
  exists i, f, L. rewrite A1, B1, A2 by done. repeat (split; [done|]).
  destruct (fs_dir w !! FCompact a b) as [t|].
  - destruct H7 as (ft & Lt & j & T1 & T2 & T3). exists ft, Lt, j.
    rewrite B2 by done. repeat (split; [done|]). split; [by eapply dcomp_ext|done].
  - by eapply all_hold_ext.
Qed.

Lemma run_span_frame cfg x m m' w w' r s n s1 e1 :
  outside_same s1 e1 w w' -> s + 2 ^ N.of_nat n <= s1 \/ e1 <= s ->
  (forall k, in_span cfg s (s + 2 ^ N.of_nat n) k -> m !! k = m' !! k) ->
  wf w' ->
  (forall a b, is_Some (fs_dir w' !! FShard a b) \/ is_Some (fs_dir w' !! FCompact a b) ->
     overlap a b s1 e1 -> s1 <= a /\ b <= e1) ->
  run_span cfg x m w r s n -> run_span cfg x m' w' r s n.
Proof.
  intros Ho Hout Hm Hwf Hnames (H1 & H2 & H3 & H4). split; [done|]. split; [|split].
  - rewrite Forall_forall in *. intros sh Hsh. apply elem_of_list_In in Hsh as Hin.
    pose proof (leaves_bounds _ _ _ _ H1 Hin).
    eapply leaf_frame; [exact Ho|lia|lia| |by apply H2].
    intros k Hk. apply Hm. unfold in_span in *. lia.
  - intros a b Ha Hov. destruct (wf_names _ Hwf a b) as [Hab _]; [auto|].
    destruct (Ho (FShard a b)) as [A1 _].
    { cbn. split; [done|]. destruct (decide (overlap a b s1 e1)) as [Hx|Hx].
      - apply Hnames in Hx; [|auto]. unfold overlap in *. lia.
      - unfold overlap in *. lia. }
    rewrite A1 in Ha. by apply H3.
  - intros a b Ha Hov. destruct (wf_names _ Hwf a b) as [Hab _]; [auto|].
    destruct (Ho (FCompact a b)) as [A1 _].
    { cbn. split; [done|]. destruct (decide (overlap a b s1 e1)) as [Hx|Hx].
      - apply Hnames in Hx; [|auto]. unfold overlap in *. lia.
      - unfold overlap in *. lia. }
    rewrite A1 in Ha. by apply H4.
Qed.

Lemma disk_names_inside w s n rs a b :
  dyadic s n rs -> disk_names w s (s + 2 ^ N.of_nat n) rs ->
  is_Some (fs_dir w !! FShard a b) \/ is_Some (fs_dir w !! FCompact a b) ->
  overlap a b s (s + 2 ^ N.of_nat n) -> s <= a /\ b <= s + 2 ^ N.of_nat n.
Proof.
  intros Hd [H1 H2] [Hs|Hs] Ho.
  - destruct (H1 a b Hs Ho) as ([c d] & Hin & Hc). pose proof (dyadic_bounds _ _ _ _ _ Hd Hin).
    unfold contained in Hc. simpl in Hc. lia.
  - pose proof (dyadic_bounds _ _ _ _ _ Hd (H2 a b Hs Ho)). lia.
Qed.
Lemma disk_span_inside cfg x m w s n a b :
  disk_span cfg x m w s n ->
  is_Some (fs_dir w !! FShard a b) \/ is_Some (fs_dir w !! FCompact a b) ->
  overlap a b s (s + 2 ^ N.of_nat n) -> s <= a /\ b <= s + 2 ^ N.of_nat n.
Proof. intros (rs & H1 & H2 & H3). by eapply disk_names_inside. Qed.

(** Gluing two halves. *)
Lemma disk_span_join cfg x m w s n :
  wf w -> disk_span cfg x m w s n -> disk_span cfg x m w (s + 2 ^ N.of_nat n) n -> disk_span cfg x m w s (S n).
Proof.
  intros Hwf (l1 & A1 & A2 & A3 & A4) (l2 & B1 & B2 & B3 & B4). exists (l1 ++ l2).
  split; [by constructor|]. split; [by apply Forall_app|]. rewrite pow2_succ. split.
  - intros a b Ha Ho. destruct (wf_names _ Hwf a b) as [Hab _]; [auto|]. destruct (decide (overlap a b s (s + 2 ^ N.of_nat n))) as [Hx|Hx].
    + destruct (A3 a b Ha Hx) as (r & ? & ?). exists r. split; [|done]. apply elem_of_app. auto.
    + destruct (B3 a b Ha) as (r & ? & ?); [unfold overlap in *; lia|].
      exists r. split; [|done]. apply elem_of_app. auto.
  - intros a b Ha Ho. apply elem_of_app. destruct (wf_names _ Hwf a b) as [Hab _]; [auto|]. destruct (decide (overlap a b s (s + 2 ^ N.of_nat n))) as [Hx|Hx].
    + left. auto.
    + right. apply B4; [done|]. unfold overlap in *; lia.
Qed.
Lemma run_span_join cfg x m w b t s n :
  wf w -> run_span cfg x m w b s n -> run_span cfg x m w t (s + 2 ^ N.of_nat n) n ->
  run_span cfg x m w (RVertex b t) s (S n).
Proof.
  intros Hwf (A1 & A2 & A3 & A4) (B1 & B2 & B3 & B4). split; [done|]. cbn [leaves].
  split; [by apply Forall_app|]. rewrite pow2_succ, map_app. split.
  - intros a c Ha Ho. apply elem_of_app. destruct (wf_names _ Hwf a c) as [Hab _]; [auto|]. destruct (decide (overlap a c s (s + 2 ^ N.of_nat n))) as [Hx|Hx].
    + left. auto.
    + right. apply B3; [done|]. unfold overlap in *; lia.
  - intros a c Ha Ho. apply elem_of_app. destruct (wf_names _ Hwf a c) as [Hab _]; [auto|]. destruct (decide (overlap a c s (s + 2 ^ N.of_nat n))) as [Hx|Hx].
    + left. auto.
    + right. apply B4; [done|]. unfold overlap in *; lia.
Qed.
Lemma tree_span_bounds r s n a b :
  tree_ok r s n -> (a, b) ∈ map span_of (leaves r) -> s <= a /\ a < b /\ b <= s + 2 ^ N.of_nat n.
Proof. intros H. apply dyadic_bounds. by apply tree_ok_dyadic. Qed.
Lemma run_span_split cfg x m w b t s n :
  wf w -> run_span cfg x m w (RVertex b t) s (S n) ->
  run_span cfg x m w b s n /\ run_span cfg x m w t (s + 2 ^ N.of_nat n) n.
Proof.
  intros Hwf (H1 & H2 & H3 & H4). cbn [tree_ok leaves] in *. destruct H1 as [Hb Ht].
  apply Forall_app in H2 as [F1 F2]. rewrite pow2_succ, map_app in *.
  assert (forall a c, (a, c) ∈ map span_of (leaves b) -> s <= a /\ a < c /\ c <= s + 2 ^ N.of_nat n) as Bb.
  { intros. by eapply tree_span_bounds. }
  assert (forall a c, (a, c) ∈ map span_of (leaves t) ->
     s + 2 ^ N.of_nat n <= a /\ a < c /\ c <= s + 2 ^ N.of_nat n + 2 ^ N.of_nat n) as Bt.
  { intros. by eapply tree_span_bounds. }
  split; (split; [done|]; split; [done|]; split); intros a c Ha Ho.
  - assert (overlap a c s (s + (2 ^ N.of_nat n + 2 ^ N.of_nat n))) as Ho' by (unfold overlap in *; lia).
    pose proof (H3 a c Ha Ho') as Hin. apply elem_of_app in Hin as [Hin|Hin]; [done|].
    specialize (Bt _ _ Hin). unfold overlap in *. lia.
  - assert (overlap a c s (s + (2 ^ N.of_nat n + 2 ^ N.of_nat n))) as Ho' by (unfold overlap in *; lia).
    pose proof (H4 a c Ha Ho') as Hin. apply elem_of_app in Hin as [Hin|Hin]; [done|].
    specialize (Bt _ _ Hin). unfold overlap in *. lia.
  - assert (overlap a c s (s + (2 ^ N.of_nat n + 2 ^ N.of_nat n))) as Ho' by (unfold overlap in *; lia).
    pose proof (H3 a c Ha Ho') as Hin. apply elem_of_app in Hin as [Hin|Hin]; [|done].
    specialize (Bb _ _ Hin). unfold overlap in *. lia.
  - assert (overlap a c s (s + (2 ^ N.of_nat n + 2 ^ N.of_nat n))) as Ho' by (unfold overlap in *; lia).
    pose proof (H4 a c Ha Ho') as Hin. apply elem_of_app in Hin as [Hin|Hin]; [|done].
    specialize (Bb _ _ Hin). unfold overlap in *. lia.
Qed.

(** ** Changing one file *)
Lemma wf_set_file w i f : wf w -> is_Some (fs_files w !! i) -> wf (set_file i f w).
Proof.
  intros [H1 H2 H3 H4] Hi. split; simpl; auto.
  intros a j Hj. destruct (decide (i = j)) as [<-|].
  - rewrite lookup_insert. eauto.
  - rewrite lookup_insert_ne by done. eauto.
Qed.
Lemma outside_same_set_file s e w i f n :
  wf w -> fs_dir w !! n = Some i -> ~ outside s e n -> outside_same s e w (set_file i f w).
Proof.
  intros Hwf Hn Hout n' Hn'. split; [done|]. intros j Hj. apply set_file_ne. intros <-.
  assert (n = n') as -> by (by eapply wf_inj). done.
Qed.
Lemma outside_self s e : ~ outside s e (FShard s e).
Proof. unfold outside. simpl. lia. Qed.
Lemma outside_self_c s e : ~ outside s e (FCompact s e).
Proof. unfold outside. simpl. lia. Qed.
