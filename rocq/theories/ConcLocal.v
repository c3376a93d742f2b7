(** What a thread may do in a section under a row lock, effect by effect, and that the sections
    of the raw operations and of the compaction worker do only that. *)
From Verif Require Import Base Hashing HashingProofs Fs Shard Router Limits Wpc Spec FileRep RowOps Compact Inv Conc ConcSpec.

(** What a thread in a section knows and owns: a row of a file (its slots and the entries they
    hold), a region of the data area it has allocated and is writing (offset, size, bytes written
    so far), the number of bytes it has still to account for, and the number of insertions and
    removals it has still to count. *)
Record own := Own {
  o_ino : ino; o_r : nat; o_w : bool; o_row : list slot; o_l : row_t;
  o_pend : option (N * N * bytes); o_debt : N; o_ci : N; o_cr : N
}.

Definition own_ok (cfg : config) (f : file) (ow : own) : Prop :=
  row_of f (o_r ow) = o_row ow /\ Forall2 (slot_ok cfg f (o_r ow)) (o_row ow) (o_l ow) /\
  match o_pend ow with
  | None => True
  | Some (off, n, bs) =>
    len bs <= n /\ read_bytes (f_data f) off (length bs) = bs /\
    (bs <> [] -> HEADER_SIZE + off + len bs <= f_len f)
  end.

(** A full region holds the entry (k, v). *)
Definition full (pend : option (N * N * bytes)) (off : N) (k v : bytes) : Prop :=
  pend = Some (off, len k + len v, k ++ v) /\ off + (len k + len v) < 2 ^ 32 /\
  len k < 16384 /\ len v < 65536 /\ k <> [].

Inductive ustep (cfg : config) (i : ino) (r : nat) : own -> fupd -> own -> Prop :=
| us_put row l off n bs d ci cr b :
    len bs < n ->
    ustep cfg i r (Own i r true row l (Some (off, n, bs)) d ci cr) (UPut (off + len bs) b)
                  (Own i r true row l (Some (off, n, bs ++ [b])) d ci cr)
| us_desc_free row l p d ci cr c ds :
    l !! c = Some None ->
    ustep cfg i r (Own i r true row l p d ci cr) (UDesc r c ds)
                  (Own i r true (alter (fun s => Slot (s_sig s) ds) c row) l p d ci cr)
| us_desc_repl row l p d ci cr c k old v off :
    l !! c = Some (Some (k, old)) -> full p off k v -> len k + len v <= d ->
    ustep cfg i r (Own i r true row l p d ci cr) (UDesc r c (pack_desc (len k) (len v) off))
                  (Own i r true (alter (fun s => Slot (s_sig s) (pack_desc (len k) (len v) off)) c row)
                       (<[c := Some (k, v)]> l) None (d - (len k + len v) + (len k + len old)) ci cr)
| us_sig_add row l p d ci cr c s k v off :
    l !! c = Some None -> row !! c = Some s -> s_desc s = pack_desc (len k) (len v) off ->
    full p off k v -> len k + len v <= d -> ph_row (hashk cfg k) = r ->
    ustep cfg i r (Own i r true row l p d ci cr) (USig r c (ph_sig (hashk cfg k)))
                  (Own i r true (alter (fun s => Slot (ph_sig (hashk cfg k)) (s_desc s)) c row)
                       (<[c := Some (k, v)]> l) None (d - (len k + len v)) (ci + 1) cr)
| us_sig_del row l p d ci cr c k old :
    l !! c = Some (Some (k, old)) ->
    ustep cfg i r (Own i r true row l p d ci cr) (USig r c INVALID_SIG)
                  (Own i r true (alter (fun s => Slot INVALID_SIG (s_desc s)) c row)
                       (<[c := None]> l) p (d + (len k + len old)) ci (cr + 1))
| us_ins row l p d ci cr :
    ustep cfg i r (Own i r true row l p d (ci + 1) cr) UIns (Own i r true row l p d ci cr)
| us_rem row l p d ci cr :
    ustep cfg i r (Own i r true row l p d ci (cr + 1)) URem (Own i r true row l p d ci cr)
| us_waste row l p d ci cr n :
    ustep cfg i r (Own i r true row l p (d + n) ci cr) (UWaste n) (Own i r true row l p d ci cr).

Section lsafe.
  Context (cfg : config) {G : Type}.
  Context (K : fs -> own -> Prop) (gstep : G -> row_t -> G -> row_t -> Prop).

  (** [lsafe post p ow g]: whatever the other threads do, [p] changes only what [ow] owns; the
      ghost state [g] moves along [gstep] as the row changes. *)
  Fixpoint lsafe {A} (post : A -> own -> G -> Prop) (p : prog A) (ow : own) (g : G) : Prop :=
    match p with
    | Ret a => post a ow g
    | Fail _ => False
    | Vis e k =>
      match e in eff X return (X -> prog A) -> Prop with
      | ESnap => fun k => forall w, K w ow ->
          exists g', gstep g (o_l ow) g' (o_l ow) /\ lsafe post (k w) ow g'
      | EAlloc i n => fun k =>
          i = o_ino ow /\ o_w ow = true /\ o_pend ow = None /\ n <= 81920 /\
          forall off, off + n < 2 ^ 32 ->
            lsafe post (k off) (Own i (o_r ow) true (o_row ow) (o_l ow) (Some (off, n, [])) (o_debt ow + n)
                               (o_ci ow) (o_cr ow)) g
      | EUpd i u => fun k =>
          exists ow' g', ustep cfg i (o_r ow) ow u ow' /\ i = o_ino ow /\
            gstep g (o_l ow) g' (o_l ow') /\ lsafe post (k tt) ow' g'
      | _ => fun _ => False
      end k
    end.

  Lemma lsafe_bind {A B} (post : B -> own -> G -> Prop) (p : prog A) (q : A -> prog B) ow g :
    lsafe (fun a ow g => lsafe post (q a) ow g) p ow g -> lsafe post (do! x <- p; q x) ow g.
  Proof.
    revert ow g. induction p as [a|e|X e k IH]; intros ow g; cbn [lsafe pbind]; [done|done|].
    destruct e; try done.
    - intros H w Hw. destruct (H w Hw) as (g' & H1 & H2). exists g'. split; [done|]. by apply IH.
    - intros (H1 & H2 & H3 & H4 & H5). repeat (split; [done|]). intros off Hoff. apply IH. by apply H5.
    - intros (ow' & g' & H1 & H2 & H3 & H4). exists ow', g'. repeat (split; [done|]). by apply IH.
  Qed.
  Lemma lsafe_lift {A B} (post : B -> own -> G -> Prop) (x : res A) a (q : A -> prog B) ow g :
    x = Ok a -> lsafe post (q a) ow g -> lsafe post (do! y <- lift x; q y) ow g.
  Proof. by intros ->. Qed.
  Lemma lsafe_mono {A} (post post' : A -> own -> G -> Prop) (p : prog A) ow g :
    (forall a ow g, post a ow g -> post' a ow g) -> lsafe post p ow g -> lsafe post' p ow g.
  Proof.
    intros Hp. revert ow g. induction p as [a|e|X e k IH]; intros ow g; cbn [lsafe]; [auto|done|].
    destruct e; try done.
    - intros H w Hw. destruct (H w Hw) as (g' & H1 & H2). exists g'. split; [done|]. by apply IH.
    - intros (H1 & H2 & H3 & H4 & H5). repeat (split; [done|]). intros off Hoff. apply IH. by apply H5.
    - intros (ow' & g' & H1 & H2 & H3 & H4). exists ow', g'. repeat (split; [done|]). by apply IH.
  Qed.

  Context (grefl : forall g l, gstep g l g l).

  Lemma lsafe_put {A} (post : A -> own -> G -> Prop) i r row l off n bs d ci cr todo (p : prog A) g :
    len bs + len todo <= n ->
    lsafe post p (Own i r true row l (Some (off, n, bs ++ todo)) d ci cr) g ->
    lsafe post (do! _ <- put_bytes i (off + len bs) todo; p) (Own i r true row l (Some (off, n, bs)) d ci cr) g.
  Proof.
    revert bs. induction todo as [|b todo IH]; intros bs Hn Hp.
    - rewrite app_nil_r in Hp. exact Hp.
    - cbn [put_bytes pbind upd eff1 lsafe]. rewrite len_cons in Hn.
      exists (Own i r true row l (Some (off, n, bs ++ [b])) d ci cr), g. cbn [o_r o_ino o_l].
      split; [apply us_put; lia|]. split; [done|]. split; [apply grefl|].
      replace (off + len bs + 1) with (off + len (bs ++ [b])) by (rewrite len_app, len_cons, len_nil; lia).
      apply IH.
      + rewrite len_app, len_cons, len_nil. lia.
      + rewrite <- app_assoc. exact Hp.
  Qed.

  Lemma lsafe_write_kv {A} (post : A -> own -> G -> Prop) i r row l d ci cr k v (q : N -> prog A) g :
    len k < 16384 -> len v < 65536 -> k <> [] ->
    (forall off p, full p off k v ->
       lsafe post (q (pack_desc (len k) (len v) off)) (Own i r true row l p (d + (len k + len v)) ci cr) g) ->
    lsafe post (do! ds <- write_kv i k v; q ds) (Own i r true row l None d ci cr) g.
  Proof.
    intros Hk Hv Hne Hq. unfold write_kv. apply lsafe_bind. cbn [eff1 pbind lsafe].
    cbn [o_ino o_w o_pend o_r o_row o_l o_debt o_ci o_cr].
    split; [done|]. split; [done|]. split; [done|]. split; [lia|]. intros off Hoff.
    replace off with (off + len (@nil byte)) at 1 by (rewrite len_nil; lia).
    apply lsafe_put; [rewrite len_nil, len_app; lia|]. cbn [app lsafe].
    apply Hq. split; [done|]. done.
  Qed.
End lsafe.

(** ** The raw operations, on a row and on the map *)
Definition rspec (cfg : config) (m : kvmap) (o : rop) (m' : kvmap) (v : rval) : Prop :=
  match o with
  | RoGet k => m' = m /\ v = VOpt (m !! k)
  | RoIns k x mode => m' = fst (spec_ins m k x mode) /\ v = VIns (snd (spec_ins m k x mode))
  | RoRem k => m' = delete k m /\ v = VOpt (m !! k)
  | RoByHash ph => m' = m /\ exists l, byhash_spec cfg m ph l /\ v = VList l
  end.
Definition rop_ok (cfg : config) (o : rop) : Prop :=
  match o with
  | RoIns k v _ => ins_err cfg k v = None /\ k <> []
  | RoByHash ph => ph_sig ph <> INVALID_SIG
  | _ => True
  end.
Definition rop_row (cfg : config) (o : rop) : nat := ph_row (rop_hash cfg o).

(** The operation [o] with result [v] takes the row content [l] of the shard [s, e) to [l']. *)
Definition oprow (cfg : config) (s e : N) (o : rop) (l l' : row_t) (v : rval) : Prop :=
  forall m : kvmap, holds m (home cfg s e (rop_row cfg o)) (entries l) ->
    exists m' : kvmap, rspec cfg m o m' v /\ holds m' (home cfg s e (rop_row cfg o)) (entries l').

Inductive gop (cfg : config) (s e : N) (o : rop) : option rval -> row_t -> option rval -> row_t -> Prop :=
| gop_id g l : gop cfg s e o g l g l
| gop_do l l' v : v <> VIns SSplit -> oprow cfg s e o l l' v -> gop cfg s e o None l (Some v) l'.

Definition clean (ow : own) : Prop := o_pend ow = None /\ o_debt ow = 0 /\ o_ci ow = 0 /\ o_cr ow = 0.
Definition cpost (va : rval * option N) (ow : own) (g : option rval) : Prop :=
  clean ow /\ (g = Some (fst va) /\ fst va <> VIns SSplit \/ g = None /\ fst va = VIns SSplit).
Definition cK (cfg : config) (sh : shard) (r : nat) (w : fs) (ow : own) : Prop :=
  exists f, row_file w sh r = Ok (o_ino ow, f) /\ own_ok cfg f ow.

Lemma holds_in m P l c k v : holds m P (entries l) -> l !! c = Some (Some (k, v)) -> m !! k = Some v.
Proof. intros Hh Hl. apply Hh. apply elem_of_entries. by eapply elem_of_list_lookup_2. Qed.
Lemma holds_out m (P : bytes -> Prop) l k : holds m P (entries l) -> P k -> (forall v, (k, v) ∉ entries l) -> m !! k = None.
Proof. intros Hh HP Hn. destruct (m !! k) as [v|] eqn:E; [|done]. exfalso. apply (Hn v). apply Hh. done. Qed.

Lemma ins_err_sizes cfg k v : ins_err cfg k v = None -> len k < 16384 /\ len v < 65536.
Proof.
  unfold ins_err. destruct (N.ltb_spec MAX_TOTAL_KEY_SIZE (len k)); [done|].
  destruct (N.ltb_spec MAX_TOTAL_VALUE_SIZE (len v)); [done|]. intros _.
  unfold MAX_TOTAL_KEY_SIZE, MAX_TOTAL_VALUE_SIZE in *. lia.
Qed.

Lemma oprow_ins cfg s e k v mode l l' st :
  s <= ph_selector (hashk cfg k) < e -> row_ins l k v mode l' st -> st <> SSplit ->
  oprow cfg s e (RoIns k v mode) l l' (VIns st).
Proof.
  intros Hin Hi Hst m Hh. pose proof (row_ins_holds m _ k v mode l l' st Hi (conj Hin eq_refl) Hh) as H.
  rewrite decide_False in H by done. destruct H as [H1 H2].
  exists (fst (spec_ins m k v mode)). split; [|exact H1]. cbn. by rewrite H2.
Qed.

Lemma sect_safe cfg sh o ow :
  rop_ok cfg o -> sh_start sh <= ph_selector (rop_hash cfg o) < sh_end sh ->
  o_r ow = rop_row cfg o -> o_w ow = rop_write o -> clean ow ->
  lsafe cfg (cK cfg sh (rop_row cfg o)) (gop cfg (sh_start sh) (sh_end sh) o) cpost (sect cfg sh o) ow None.
Proof.
  intros Hok Hin Hr Hw Hcl. set (s := sh_start sh) in *. set (e := sh_end sh) in *.
  assert (grefl : forall g l, gop cfg s e o g l g l) by (intros; apply gop_id).
  destruct o as [k|k v mode|k|ph]; unfold rop_row in *; cbn [rop_hash rop_write sect] in *.
  - (* get *)
    cbn [snap eff1 pbind lsafe]. intros w (f & Hf & Hrow & Hl & _). rewrite Hr in Hl, Hrow.
    unfold shard_get. rewrite Hf. cbn [rbind]. rewrite Hrow.
    destruct (scan_row_spec cfg f _ _ _ k 0 false Hl) as [(c & v & b & E1 & Hc)|(b & E1 & Hn)]; rewrite E1; cbn [rbind lift pbind].
    + exists (Some (VOpt (Some v))). split; [|by split; [|left]].
      apply gop_do; [done|]. intros m Hm. exists m. split; [|done]. split; [done|].
      by rewrite (holds_in _ _ _ _ _ _ Hm Hc).
    + exists (Some (VOpt None)). split; [|by split; [|left]].
      apply gop_do; [done|]. intros m Hm. exists m. split; [|done]. split; [done|].
      rewrite (holds_out _ _ _ k Hm); [done| |done]. split; [exact Hin|done].
  - (* insert *)
    destruct Hok as [Herr Hne]. destruct (ins_err_sizes _ _ _ Herr) as [Hk Hv].
    destruct ow as [i r wr row l pe d ci cr]. destruct Hcl as (C1 & C2 & C3 & C4). cbn in C1, C2, C3, C4, Hr, Hw. subst pe d ci cr r wr.
    set (r := ph_row (hashk cfg k)) in *.
    unfold insert_sect. apply lsafe_bind. cbn [snap eff1 pbind lsafe].
    intros w (f & Hf & Hrow & Hl & _). cbn [o_r o_l o_row o_ino] in *.
    unfold rop_row in Hf. cbn [rop_hash] in Hf. fold r in Hf. fold r. rewrite Hf. cbn [lift pbind].
    set (K := cK cfg sh (rop_row cfg (RoIns k v mode))). set (gs := gop cfg s e (RoIns k v mode)).
    set (goal := fun c : option N => fun st (ow : own) g => lsafe cfg K gs cpost (Ret (VIns st, c)) ow g).
    assert (Hmain : forall aft, exists g', gs None l g' l /\
      lsafe cfg K gs (goal aft) (insert_row i f (hashk cfg k) k v mode) (Own i r true row l None 0 0 0) g').
    { intros aft. unfold insert_row. fold r. rewrite Hrow.
      assert (Hret : forall st, st <> SSplit -> row_ins l k v mode l st ->
         exists g', gs None l g' l /\ lsafe cfg K gs (goal aft) (Ret st) (Own i r true row l None 0 0 0) g').
      { intros st Hst Hi. exists (Some (VIns st)). split.
        - apply gop_do; [congruence|]. by eapply oprow_ins.
        - split; [done|]. left. split; [done|]. cbn. congruence. }
      destruct (scan_row_spec cfg f r _ _ k 0 false Hl) as [(c & old & b & E1 & Hc)|(b & E1 & Hn)]; rewrite E1; cbn [lift pbind].
      - assert (Hrep : mode = MSet \/ mode = MReplace None \/ mode = MReplace (Some old) ->
          exists g', gs None l g' l /\ lsafe cfg K gs (goal aft)
            (if bool_decide (v = old) then Ret (SReplaced old)
             else do! d <- write_kv i k v; do! _ <- upd i (UDesc r (0 + c) d);
                  do! _ <- upd i (UWaste (len k + len old)); Ret (SReplaced old))
            (Own i r true row l None 0 0 0) g').
        { intros Hm. pose proof (ri_replace l k v c old mode Hc Hm) as Hi.
          destruct (bool_decide_reflect (v = old)) as [->|Hvo].
          { apply Hret; [done|]. rewrite <- (list_insert_id _ _ _ Hc) at 2. done. }
          exists None. split; [apply gop_id|]. apply lsafe_write_kv; [done..|].
          intros off p Hp. cbn [Nat.add upd eff1 pbind lsafe].
          eexists _, (Some (VIns (SReplaced old))). split; [|split; [done|split]].
          - eapply (us_desc_repl cfg i r row l p _ 0 0 c k old v off); [exact Hc|exact Hp|lia].
          - cbn [o_l]. apply gop_do; [done|]. by eapply oprow_ins.
          - eexists _, _. split; [|split; [done|split]].
            + cbn [o_r]. replace (0 + (len k + len v) - (len k + len v) + (len k + len old)) with (0 + (len k + len old)) by lia.
              apply us_waste.
            + apply gop_id.
            + split; [done|]. left. done. }
        destruct mode as [|[ex|]|].
        + apply Hrep; auto.
        + destruct (bool_decide_reflect (ex = old)) as [->|Hex].
          * apply Hrep; auto.
          * apply Hret; [done|]. by eapply ri_wrong.
        + apply Hrep; auto.
        + apply Hret; [done|]. by eapply ri_exists.
      - assert (Hadd : mode = MSet \/ mode = MGetOrCreate -> exists g', gs None l g' l /\ lsafe cfg K gs (goal aft)
            (match find_free 0 row with
             | Some c => do! d <- write_kv i k v; do! _ <- upd i (UDesc r c d);
                         do! _ <- upd i (USig r c (ph_sig (hashk cfg k))); do! _ <- upd i UIns; Ret SAdded
             | None => Ret SSplit
             end) (Own i r true row l None 0 0 0) g').
        { intros Hm. pose proof (find_free_spec cfg f r row l 0 Hl) as Hff.
          destruct (find_free 0 row) as [c|].
          - destruct Hff as (c' & -> & Hc). cbn [Nat.add].
            exists None. split; [apply gop_id|]. apply lsafe_write_kv; [done..|].
            intros off p Hp. cbn [upd eff1 pbind lsafe].
            eexists _, None. split; [by apply us_desc_free|]. split; [done|]. split; [apply gop_id|]. cbn [o_r].
            assert (exists sl, row !! c' = Some sl) as [sl Hsl].
            { destruct (Forall2_lookup_r _ _ _ _ _ Hl Hc) as (sl & ? & _). eauto. }
            eexists _, (Some (VIns SAdded)). split; [|split; [done|split]].
            + eapply us_sig_add; [exact Hc|rewrite list_lookup_alter, Hsl; reflexivity|reflexivity|exact Hp|lia|done].
            + cbn [o_l]. apply gop_do; [done|]. eapply oprow_ins; [done| |done].
              by apply ri_added.
            + cbn [o_r]. eexists _, _. split; [apply us_ins|]. split; [done|]. split; [apply gop_id|].
              split; [|left; done]. split; [done|]. split; [cbn; lia|]. done.
          - exists None. split; [apply gop_id|]. split; [done|]. right. done. }
        destruct mode as [|ex|].
        + apply Hadd; auto.
        + apply Hret; [done|]. by apply ri_nokey.
        + apply Hadd; auto. }
    assert (Hfin : forall aft, exists g', gs None l g' l /\
      lsafe cfg K gs (fun a ow g => lsafe cfg K gs cpost (let '(st, c) := a in Ret (VIns st, c)) ow g)
        (do! st <- insert_row i f (hashk cfg k) k v mode; Ret (st, aft)) (Own i r true row l None 0 0 0) g').
    { intros aft. destruct (Hmain aft) as (g' & H1 & H2). exists g'. split; [done|]. apply lsafe_bind.
      eapply lsafe_mono; [|exact H2]. intros st ow g H. exact H. }
    destruct (sh_tgt sh); [apply Hfin|].
    destruct (_ <=? _); [apply Hfin|].
    destruct (_ <? _); [|apply Hfin].
    exists None. split; [apply gop_id|]. cbn [lsafe]. split; [done|]. right. done.
  - (* remove *)
    destruct ow as [i r wr row l pe d ci cr]. destruct Hcl as (C1 & C2 & C3 & C4). cbn in C1, C2, C3, C4, Hr, Hw. subst pe d ci cr r wr.
    set (r := ph_row (hashk cfg k)) in *.
    unfold shard_remove. apply lsafe_bind. cbn [snap eff1 pbind lsafe].
    intros w (f & Hf & Hrow & Hl & _). cbn [o_r o_l o_row o_ino] in *.
    unfold rop_row in Hf. cbn [rop_hash] in Hf. fold r in Hf. fold r. rewrite Hf. cbn [lift pbind]. rewrite Hrow.
    destruct (scan_row_spec cfg f r _ _ k 0 false Hl) as [(c & old & b & E1 & Hc)|(b & E1 & Hn)]; rewrite E1; cbn [lift pbind].
    + exists None. split; [apply gop_id|]. cbn [Nat.add upd eff1 pbind lsafe].
      eexists _, (Some (VOpt (Some old))). split; [by eapply us_sig_del|]. split; [done|]. split.
      { cbn [o_l]. apply gop_do; [done|]. intros m Hm. exists (delete k m). cbn [rspec].
        rewrite (holds_in _ _ _ _ _ _ Hm Hc). split; [done|].
        rewrite entries_insert by eauto. rewrite (entries_split _ _ _ Hc) in Hm. exact (holds_del _ _ _ _ _ Hm). }
      eexists _, _. cbn [o_r o_ino o_l]. split; [apply us_rem|]. split; [done|]. split; [apply gop_id|].
      eexists _, _. cbn [o_r o_ino o_l]. split; [apply us_waste|]. split; [done|]. split; [apply gop_id|].
      split; [done|]. left. done.
    + exists (Some (VOpt None)). split; [|split; [done|left; done]].
      apply gop_do; [done|]. intros m Hm. exists m. split; [|done].
      assert (m !! k = None) as Ek by (eapply holds_out; [exact Hm| |done]; split; [exact Hin|done]).
      cbn [rspec]. rewrite Ek, delete_notin by done. done.
  - (* get_by_hash *)
    cbn [snap eff1 pbind lsafe]. intros w (f & Hf & Hrow & Hl & _). rewrite Hr in Hl, Hrow.
    unfold shard_get_by_hash. rewrite Hf. cbn [rbind]. rewrite Hrow.
    rewrite (collect_sig_spec _ _ _ _ _ _ Hl Hok). cbn [lift pbind].
    eexists (Some _). split; [|split; [done|left; done]].
    apply gop_do; [done|]. intros m Hm. exists m. split; [|done]. split; [done|]. eexists. split; [|done].
    pose proof (holds_filter m (home cfg s e (ph_row ph)) (fun k => ph_sig (hashk cfg k) = ph_sig ph) _ Hm) as [N1 N2].
    split; [exact N1|]. split.
    + intros k v Hkv. apply N2 in Hkv as (A1 & [_ A2] & A3). done.
    + intros k v Hkv Ep. apply N2. split; [done|]. rewrite Ep. unfold home. rewrite Ep. split; [|done]. split; [exact Hin|done].
Qed.

(** ** Copying a row *)
(** The worker copies the entries [ES] of a source row: [j] of them are done. *)
Definition gbg (ES : list kv) (j : nat) (l : row_t) (j' : nat) (l' : row_t) : Prop :=
  (j' = j /\ l' = l) \/
  (j' = S j /\ (j < length ES)%nat /\ l = padded (take j ES) /\ l' = padded (take (S j) ES)).
Definition bpost (ES : list kv) (_ : unit) (ow : own) (j : nat) : Prop := clean ow /\ j = length ES.
Definition bK (cfg : config) (src : ino) (r : nat) (srow : list slot) (ls : row_t) (w : fs) (ow : own) : Prop :=
  (exists fs, fs_files w !! src = Some fs /\ row_of fs r = srow /\ Forall2 (slot_ok cfg fs r) srow ls) /\
  (exists ft, fs_files w !! o_ino ow = Some ft /\ own_ok cfg ft ow).

Lemma compact_slots_safe cfg src t r srow ls (ES := entries ls) fsrc first row l trow col :
  Forall2 (slot_ok cfg fsrc r) row l -> entries l = drop col ES -> (col <= length ES)%nat ->
  (length ES <= ROW_WIDTH)%nat ->
  lsafe cfg (bK cfg src r srow ls) (gbg ES) (bpost ES) (compact_slots cfg fsrc t r first col row)
    (Own t r true trow (padded (take col ES)) None 0 0 0) col.
Proof.
  intros H. revert col trow. induction H as [|sl o row l Hs H IH]; intros col trow Hes Hcol HES; cbn [compact_slots].
  - cbn [lsafe]. split; [done|]. change (entries []) with (@nil kv) in Hes.
    assert (length (drop col ES) = 0)%nat as E0 by by rewrite <- Hes.
    rewrite drop_length in E0. lia.
  - destruct o as [[k v]|].
    2:{ cbn in Hs. rewrite Hs. cbn [N.eqb INVALID_SIG]. rewrite entries_cons in Hes. by apply IH. }
    pose proof Hs as (Hne & Hsig & Hrow & Hread & _). rewrite Hsig.
    destruct (N.eqb_spec (ph_sig (hashk cfg k)) INVALID_SIG) as [Ez|_]; [by apply hashk_sig in Ez|].
    rewrite entries_cons in Hes. change (option_list (Some (k, v)) ++ entries l) with ((k, v) :: entries l) in Hes.
    assert (ES !! col = Some (k, v)) as Hc.
    { rewrite <- (Nat.add_0_r col), <- lookup_drop, <- Hes. done. }
    pose proof (lookup_lt_Some _ _ _ Hc) as Hclt.
    assert (entries l = drop (S col) ES) as Hes'.
    { rewrite <- Nat.add_1_r, <- drop_drop, <- Hes. done. }
    pose proof (read_kv_bounds _ _ _ _ Hread) as [Hk Hv].
    eapply lsafe_lift; [exact Hread|].
    unfold get_file. apply lsafe_bind. cbn [snap eff1 pbind lsafe].
    intros w (_ & (ft & Hft & Hrt & Hlt & _)). cbn [o_ino o_r o_row o_l] in *. rewrite Hft. cbn [lift pbind lsafe].
    exists col. split; [by left|].
    assert (padded (take col ES) !! col = Some None) as Hpad.
    { rewrite padded_lookup by lia. by rewrite decide_True. }
    destruct (Forall2_lookup_r _ _ _ _ _ Hlt Hpad) as (st & Hst & Hok). cbn in Hok.
    rewrite Hrt, Hst, Hok. replace (INVALID_SIG =? INVALID_SIG) with true by done. rewrite orb_true_r. cbn [assert_p pbind].
    replace (ph_row (hashk cfg k) =? r)%nat with true by (symmetry; by apply Nat.eqb_eq). cbn [assert_p pbind].
    replace (col <? ROW_WIDTH)%nat with true by (symmetry; apply Nat.ltb_lt; lia).
    apply lsafe_write_kv; [intros; by left|done..|].
    intros off p Hp. cbn [assert_p upd eff1 pbind lsafe].
    eexists _, col. split; [by apply us_desc_free|]. split; [done|]. split; [by left|]. cbn [o_r o_l].
    eexists _, (S col). split; [|split; [done|split]].
    + eapply us_sig_add; [exact Hpad|rewrite list_lookup_alter, Hst; reflexivity|reflexivity|exact Hp|lia|done].
    + cbn [o_l]. right. split; [done|]. split; [done|]. split; [done|].
      rewrite padded_insert by (auto; lia). by rewrite Nat.max_r by lia.
    + eexists _, (S col). cbn [o_r o_ino o_l]. split; [apply us_ins|]. split; [done|]. split; [by left|].
      rewrite padded_insert by (auto; lia). rewrite Nat.max_r by lia.
      replace (0 + (len k + len v) - (len k + len v)) with 0 by lia. apply IH; [done|lia|done].
Qed.

Lemma bg_sect_safe cfg src t first r srow ls trow :
  (length ls <= ROW_WIDTH)%nat ->
  lsafe cfg (bK cfg src r srow ls) (gbg (entries ls)) (bpost (entries ls)) (bg_sect cfg src t first r)
    (Own t r true trow (padded []) None 0 0 0) 0%nat.
Proof.
  intros Hl. unfold bg_sect, get_file. cbn [snap eff1 pbind lsafe].
  intros w ((fsrc & Hfs & Hrow & Hf2) & _). rewrite Hfs. cbn [lift pbind]. exists 0%nat. split; [by left|].
  rewrite Hrow. rewrite <- (take_0 (entries ls)). apply (compact_slots_safe cfg src t r srow ls fsrc first srow ls); auto.
  - lia.
  - pose proof (entries_length ls). lia.
Qed.
