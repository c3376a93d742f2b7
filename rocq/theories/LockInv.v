(** Every lock is taken in an order, whatever happens: the invariant of Locking.v. *)
From Verif Require Import Base Hashing Fs Shard Router Store Kv Api ConcLock Locking LockSpec.

(** ** The order of the locks *)
Definition rlt (x y : N * N) : Prop := x.1 < y.1 \/ (x.1 = y.1 /\ x.2 < y.2).
Lemma rlt_trans x y z : rlt x y -> rlt y z -> rlt x z.
Proof. unfold rlt. lia. Qed.
Lemma rlt_irrefl x : ~ rlt x x.
Proof. unfold rlt. lia. Qed.
Definition lrank (l : lock) : N * N :=
  match l with
  | LKeyed _ => (0, 0)
  | LNode d t _ => (1, 2 * N.of_nat d + (if t then 1 else 0))
  | LHandle _ => (2, 0)
  | LFiles s => (4, s.1)
  | LRow _ _ => (5, 0)
  | LAgg _ => (5, 1)
  | LStats _ => (6, 0)
  end.
Notation held := (list (lock * lmode)).
Definition below (h : held) (x : N * N) : Prop := Forall (fun y => rlt (lrank y.1) x) h.
Lemma below_cons l m h x : rlt (lrank l) x -> below h (lrank l) -> below ((l, m) :: h) x.
Proof.
  intros Hl Hb. constructor; [done|]. eapply Forall_impl; [exact Hb|]. cbn. intros y Hy. by eapply rlt_trans.
Qed.
Lemma below_mono h x y : below h x -> rlt x y -> below h y.
Proof. intros Hb Hr. eapply Forall_impl; [exact Hb|]. cbn. intros z Hz. by eapply rlt_trans. Qed.
Lemma below_in h x l m : below h x -> (l, m) ∈ h -> rlt (lrank l) x.
Proof. intros Hb Hin. unfold below in Hb. rewrite Forall_forall in Hb. by specialize (Hb _ Hin). Qed.

(** ** Programs that respect it *)
Fixpoint wr (h : held) (p : lprog) : Prop :=
  match p with
  | PEnd => h = []
  | PAcq l m k => below h (lrank l) /\ wr ((l, m) :: h) k
  | PRel l k => match h with (l', _) :: h' => l' = l /\ wr h' k | [] => False end
  | @PChoice X k => (exists x : X, True) /\ forall x, wr h (k x)
  | PTake _ k => below h (3, 0) /\ wr h k
  | PBegin s k1 k2 => (LFiles s, Ex) ∈ h /\ wr h k1 /\ match k2 with PSubmit s' k => s' = s /\ wr h k | _ => False end
  | _ => False
  end.
(** ... and where a client can be in it. *)
Definition cst (h : held) (p : lprog) : Prop :=
  match p with
  | PWait _ k => below h (3, 0) /\ wr h k
  | PWaitPast _ k => match k with PSubmit s k => (LFiles s, Ex) ∈ h /\ wr h k | _ => False end
  | PSubmit s k => (LFiles s, Ex) ∈ h /\ wr h k
  | _ => wr h p
  end.
Lemma wr_cst h p : wr h p -> cst h p.
Proof. by destruct p. Qed.
(** A job in the middle. *)
Fixpoint jr (j : nat) (s : sid) (h : held) (p : lprog) : Prop :=
  match p with
  | PAcq l m k => 4 <= (lrank l).1 /\ below h (lrank l) /\ jr j s ((l, m) :: h) k
  | PRel l k => match h with
                | [(l', _)] => l' = l /\ k = PDone j
                | (l', _) :: h' => l' = l /\ jr j s h' k
                | [] => False end
  | PUp l k => 4 <= (lrank l).1 /\ match h with (l', Upg) :: h' => l' = l /\ below h' (lrank l) /\ jr j s ((l, Ex) :: h') k | _ => False end
  | PDown l k => match h with (l', Ex) :: h' => l' = l /\ jr j s ((l, Upg) :: h') k | _ => False end
  | @PChoice X k => (exists x : X, True) /\ forall x, jr j s h (k x)
  | PClear s' k => s' = s /\ jr j s h k
  | _ => False
  end.
Definition jobst (j : nat) (s : sid) (h : held) (p : lprog) : Prop :=
  (h = [] /\ p = job_prog s j) \/ (exists h' m, h = h' ++ [(LFiles s, m)] /\ jr j s h p) \/ (h = [] /\ p = PDone j).

Lemma jr_rows s j n : jr j s [(LFiles s, Upg)] (job_rows s j n).
Proof.
  assert (below [(LFiles s, Upg)] (5, 0)) as B5 by (repeat constructor; unfold rlt; cbn [lrank fst snd]; lia).
  assert (below [(LFiles s, Upg)] (6, 0)) as B6 by (repeat constructor; unfold rlt; cbn [lrank fst snd]; lia).
  induction n as [|n IH]; cbn [job_rows jr].
  - split; [by exists true|]. intros [|]; cbn [jr]; [done|]. cbn [lrank fst]. repeat split; try done; try lia; constructor.
  - split; [by exists true|]. intros [|]; cbn [jr]; [done|]. cbn [lrank fst]. repeat split; try done; lia.
Qed.
Lemma jobst_start s j : jobst j s [] (job_prog s j).
Proof. by left. Qed.

(** ** The operations respect it *)
Lemma wr_read s r h k : below h (4, s.1) -> wr h k -> wr h (read_row s r k).
Proof.
  intros Hb Hk. cbn. repeat split; try done. apply below_cons; [|done]. unfold rlt; cbn [lrank fst snd]. lia.
Qed.
Lemma wr_write s r h k : below h (4, s.1) -> wr h k -> wr h (write_row false s r k).
Proof.
  intros Hb Hk. cbn. repeat split; try done. apply below_cons; [|done]. unfold rlt; cbn [lrank fst snd]. lia.
Qed.
Lemma wr_begin s h k : below h (2, 0) -> wr h k -> wr h (begin_prog s k).
Proof.
  intros Hb Hk. unfold begin_prog. cbn [wr]. split; [done|]. split.
  - apply below_cons; [|done]. unfold rlt; cbn [lrank fst snd]. lia.
  - split; [by exists true|]. intros [|]; cbn [wr]; [done|].
    assert ((LFiles s, Ex) ∈ (LFiles s, Ex) :: (LHandle s, Ex) :: h) by apply elem_of_list_here.
    split; [done|]. split; [done|]. split; done.
Qed.
Lemma wr_waitc s h k : below h (2, 0) -> wr h k -> wr h (wait_compaction s k).
Proof.
  intros Hb Hk. cbn. repeat split; try done. apply below_cons; [|done]. unfold rlt; cbn [lrank fst snd]. lia.
Qed.
Lemma wr_get_stats s h k : below h (2, 0) -> wr h k -> wr h (get_stats_prog s k).
Proof.
  intros Hb Hk. apply wr_waitc; [done|]. cbn. repeat split; try done.
  eapply below_mono; [done|]. unfold rlt; cbn [lrank fst snd]; lia.
Qed.
Lemma wr_split s h k : below h (2, 0) -> wr h k -> wr h (split_prog s k).
Proof.
  intros Hb Hk. cbn. repeat split; try done.
  - apply below_cons; [|done]. unfold rlt; cbn [lrank fst snd]. lia.
  - apply below_cons; [|done]. unfold rlt; cbn [lrank fst snd]. lia.
  - repeat (apply below_cons; [unfold rlt; cbn [lrank fst snd]; lia|]). done.
  - apply below_cons; [|done]. unfold rlt; cbn [lrank fst snd]. lia.
Qed.
Lemma wr_both_stats h k : below h (6, 0) -> wr h k -> wr h (both_stats k).
Proof. intros Hb Hk. cbn. repeat split; done. Qed.
Lemma wr_drop_all l : forall h k, below h (2, 0) -> wr h k -> wr h (drop_all l k).
Proof. induction l as [|s l IH]; intros h k Hb Hk; [done|]. cbn [drop_all]. apply wr_waitc; [done|]. by apply IH. Qed.

Fixpoint path_held (d : nat) (p : lpath) (h : held) : held :=
  match p with [] => h | (t, i) :: p => path_held (S d) p ((LNode d t i, Sh) :: h) end.
Lemma rank_deep d t t' i i' : rlt (lrank (LNode d t i)) (lrank (LNode (S d) t' i')).
Proof. unfold rlt. cbn [lrank fst snd]. destruct t, t'; lia. Qed.
(** Everything held is above the nodes of depth [d]. *)
Definition above_depth (d : nat) (h : held) : Prop := below h (1, 2 * N.of_nat d).
Lemma above_node d t i h : above_depth d h -> below h (lrank (LNode d t i)).
Proof. 
  intros H. eapply Forall_impl; [exact H|]. intros x Hx. unfold rlt in *. cbn [lrank fst snd] in *. destruct t; lia.
Qed.
Lemma above_cons d t i m h : above_depth d h -> above_depth (S d) ((LNode d t i, m) :: h).
Proof.
  intros H. constructor.
  - unfold rlt. cbn [lrank fst snd]. destruct t; lia.
  - eapply Forall_impl; [exact H|]. intros x Hx. unfold rlt in *. cbn [lrank fst snd] in *. lia.
Qed.
Lemma above_below d h x : above_depth d h -> rlt (1, 2 * N.of_nat d) x -> below h x.
Proof. intros H Hr. by eapply below_mono. Qed.
Lemma above_two d h : above_depth d h -> below h (2, 0).
Proof. intros H. eapply above_below; [done|]. unfold rlt; cbn [lrank fst snd]; lia. Qed.
Lemma above_four d h (s : N) : above_depth d h -> below h (4, s).
Proof. intros H. eapply above_below; [done|]. unfold rlt; cbn [lrank fst snd]; lia. Qed.
Lemma above_nil d : above_depth d [].
Proof. constructor. Qed.
Lemma path_above p : forall d h, above_depth d h -> above_depth (d + length p) (path_held d p h).
Proof.
  induction p as [|[t i] p IH]; intros d h H; cbn [path_held length]; [by rewrite Nat.add_0_r|].
  rewrite Nat.add_succ_r. apply (IH (S d)). by apply above_cons.
Qed.
Lemma wr_down p : forall d h k, above_depth d h -> wr (path_held d p h) k -> wr h (down d p k).
Proof.
  induction p as [|[t i] p IH]; intros d h k H Hk; [done|]. cbn [down wr]. split; [by apply above_node|].
  apply IH; [by apply above_cons|done].
Qed.
Lemma wr_up p : forall d h k, wr h k -> wr (path_held d p h) (up d p k).
Proof.
  induction p as [|[t i] p IH]; intros d h k Hk; [done|]. cbn [path_held up]. apply IH. done.
Qed.
Lemma wr_shared p f h k : above_depth 0 h ->
  (forall h k, above_depth (length p) h -> wr h k -> wr h (f k)) -> wr h k -> wr h (shared_prog p f k).
Proof.
  intros H Hf Hk. unfold shared_prog. apply wr_down; [done|]. apply Hf; [|by apply wr_up].
  apply (path_above p 0 h H).
Qed.
Lemma wr_ins r : forall d top id h k, above_depth d h -> wr h k -> wr h (ins_prog false d top id r k).
Proof.
  induction r as [s row c|top' id' r IH|s row c al r IH]; intros d top id h k H Hk; cbn [ins_prog].
  - assert (above_depth (S d) ((LNode d top id, Sh) :: h)) as H' by by apply above_cons.
    cbn [wr]. split; [by apply above_node|]. apply wr_write; [by eapply above_four|].
    destruct c; [apply wr_begin; [by eapply above_two|]|]; done.
  - cbn [wr]. split; [by apply above_node|]. apply IH; [by apply above_cons|]. done.
  - assert (above_depth (S d) ((LNode d top id, Sh) :: h)) as H' by by apply above_cons.
    assert (above_depth (S d) ((LNode d top id, Ex) :: h)) as H'' by by apply above_cons.
    cbn [wr]. split; [by apply above_node|]. apply wr_write; [by eapply above_four|].
    assert (wr ((LNode d top id, Sh) :: h)
      (PRel (LNode d top id) (PAcq (LNode d top id) Ex ((if al then fun k => k else split_prog s)
         (PRel (LNode d top id) (ins_prog false d top id r k)))))) as Hw.
    { cbn [wr]. split; [done|]. split; [by apply above_node|].
      destruct al; [|apply wr_split; [by eapply above_two|]]; (split; [done|]; by apply IH). }
    destruct c; [apply wr_begin; [by eapply above_two|]|]; done.
Qed.

Definition keyed_held (h : option N) : held := match h with Some i => [(LKeyed i, Ex)] | None => [] end.
Lemma keyed_above h : above_depth 0 (keyed_held h).
Proof. destruct h; repeat constructor. Qed.
Lemma wr_fail h : wr (keyed_held h) (fail_prog h).
Proof. by destruct h. Qed.
Lemma wr_tr {A} (p : kprog A) : forall h, wl h p None -> wr (keyed_held h) (tr false h p).
Proof.
  induction p as [a|e|X o k IH]; intros h Hw; cbn [tr wl] in *.
  - subst h. done.
  - apply wr_fail.
  - assert (forall Y (kk : Y -> kprog A), (forall x h, wl h (kk x) None -> wr (keyed_held h) (tr false h (kk x))) ->
      (forall x, wl h (kk x) None) ->
      wr (keyed_held h) (PChoice (fun y => match y with Some y => tr false h (kk y) | None => fail_prog h end))) as Hres.
    { intros Y kk IHk Hwk. cbn [wr]. split; [by exists None|]. intros [y|]; [by apply IHk|apply wr_fail]. }
    destruct o as [key|key v mode|key|ph|i|i]; cbn [wr].
    + split; [by exists ([], (0, 0), 0%nat)|]. intros [[p s] r]. apply wr_shared; [apply keyed_above| |by apply Hres].
      intros h' k' Ha Hk'. apply wr_read; [by eapply above_four|done].
    + split; [by exists (0, ILeaf (0, 0) 0 false)|]. intros [id r]. apply wr_ins; [apply keyed_above|by apply Hres].
    + split; [by exists ([], (0, 0), 0%nat)|]. intros [[p s] r]. apply wr_shared; [apply keyed_above| |by apply Hres].
      intros h' k' Ha Hk'. apply wr_write; [by eapply above_four|done].
    + split; [by exists ([], (0, 0), 0%nat)|]. intros [[p s] r]. apply wr_shared; [apply keyed_above| |by apply Hres].
      intros h' k' Ha Hk'. apply wr_read; [by eapply above_four|done].
    + destruct Hw as [-> Hw]. split; [constructor|]. apply (IH tt (Some i)). done.
    + destruct Hw as [-> Hw]. cbn. split; [done|]. apply (IH tt None). done.
Qed.
Lemma wr_read_rows s rs : forall h k d, above_depth d h -> wr h k -> wr h (read_rows s rs k).
Proof.
  induction rs as [|r rs IH]; intros h k d Ha Hk; [done|]. cbn [read_rows]. apply wr_read; [by eapply above_four|].
  by eapply IH.
Qed.
Lemma wr_next l : forall k, wr [] k -> wr [] (next_prog l k).
Proof.
  induction l as [|[[p s] rs] l IH]; intros k Hk; [done|]. cbn [next_prog].
  apply wr_shared; [apply above_nil| |by apply IH]. intros h k' Ha Hk'. by eapply wr_read_rows.
Qed.
Lemma wr_on_all f x : (forall s d h k, above_depth d h -> wr h k -> wr h (f s k)) ->
  forall d top h k, above_depth d h -> wr h k -> wr h (on_all f d top x k).
Proof.
  intros Hf. induction x as [id s|id b IHb t IHt]; intros d top h k Ha Hk; cbn [on_all wr].
  - split; [by apply above_node|]. eapply Hf; [by apply above_cons|]. done.
  - split; [by apply above_node|]. apply IHb; [by apply above_cons|]. apply IHt; [by apply above_cons|]. done.
Qed.
Lemma wr_flush x : wr [] (flush_prog x).
Proof.
  unfold flush_prog. apply wr_on_all; [|apply above_nil|done]. intros s d h k Ha Hk. cbn. repeat split; try done. by eapply above_four.
Qed.
Lemma wr_gs s d h k : above_depth d h -> wr h k -> wr h (get_stats_prog s k).
Proof. intros Ha Hk. apply wr_get_stats; [by eapply above_two|done]. Qed.
Lemma wr_stats x : wr [] (stats_prog x).
Proof.
  unfold stats_prog. apply wr_on_all; [|apply above_nil|].
  - intros s d h k Ha Hk. by eapply wr_gs.
  - apply wr_both_stats; [constructor|done].
Qed.
Lemma wr_clear id old : wr [] (clear_prog id old).
Proof.
  unfold clear_prog. cbn [wr]. split; [constructor|].
  assert (above_depth 1 [(LNode 0 false id, Ex)]) as H by apply above_cons, above_nil.
  apply wr_drop_all; [by eapply above_two|]. cbn [wr]. split; [done|]. apply wr_both_stats; [constructor|done].
Qed.

Lemma wr_merge r : forall d h k, mok r -> above_depth d h -> wr h k -> wr h (merge_prog d r k).
Proof.
  assert (forall d bid tid h, above_depth d h ->
    below h (lrank (LNode d false bid)) /\ below ((LNode d false bid, Ex) :: h) (lrank (LNode d true tid)) /\
    above_depth (S d) ((LNode d true tid, Ex) :: (LNode d false bid, Ex) :: h)) as Hboth.
  { intros d bid tid h Ha. assert (below h (lrank (LNode d false bid))) as H1 by by apply above_node.
    assert (below ((LNode d false bid, Ex) :: h) (lrank (LNode d true tid))) as H2.
    { apply below_cons; [unfold rlt; cbn [lrank fst snd]; lia|done]. }
    split; [done|]. split; [done|]. constructor; [unfold rlt; cbn [lrank fst snd]; lia|by apply above_cons]. }
  induction r as [|bid tid b t o|bid tid r IH z|bid tid r IH z|bid tid r1 IH1 r2 IH2 z o]; intros d h k Hm Ha Hk;
    cbn [merge_prog mok] in *; [done|..]; cbn [wr];
    destruct (Hboth d bid tid h Ha) as (H1 & H2 & H3); (split; [done|]; split; [done|]);
    assert (wr ((LNode d true tid, Ex) :: (LNode d false bid, Ex) :: h)
              (PRel (LNode d true tid) (PRel (LNode d false bid) k))) as Hr by done.
  - apply wr_get_stats; [by eapply above_two|].
    assert (wr ((LNode d true tid, Ex) :: (LNode d false bid, Ex) :: h)
       (PAcq (LFiles b) Ex (PAcq (LFiles t) Ex (PRel (LFiles t) (PRel (LFiles b) (PRel (LNode d true tid) (PRel (LNode d false bid) k))))))) as Hf.
    { cbn [wr]. repeat split; try done; [by eapply above_four|].
      apply below_cons; [|by eapply above_four]. right. cbn. done. }
    destruct o; try done; (apply wr_get_stats; [by eapply above_two|]); done.
  - destruct Hm as [Hm Hz]. apply IH; [done|done|]. destruct (merged r); [|done]. by rewrite (Hz eq_refl).
  - destruct Hm as [Hm Hz]. apply IH; [done|done|]. destruct (merged r); [|done]. by rewrite (Hz eq_refl).
  - destruct Hm as (Hm1 & Hm2 & Hz). apply IH1; [done|done|]. apply IH2; [done|done|].
    destruct (merged r1), (merged r2); try done; by rewrite Hz.
Qed.
Lemma wr_op cfg p : op_prog false cfg mok p -> wr [] p.
Proof.
  intros [c|l|x|x|id old|x id old y|x id r old y Hm].
  - apply (wr_tr _ None), call_wl.
  - by apply wr_next.
  - apply wr_flush.
  - apply wr_stats.
  - apply wr_clear.
  - unfold merge_small_prog. apply wr_on_all; [|apply above_nil|done]. intros; by eapply wr_gs.
  - unfold merge_small_prog. apply wr_on_all; [intros; by eapply wr_gs|apply above_nil|].
    assert (above_depth 1 [(LNode 0 false id, Ex)]) as H by apply above_cons, above_nil.
    cbn [wr]. split; [constructor|]. apply wr_merge; [done|done|]. apply wr_drop_all; [by eapply above_two|].
    cbn [wr]. split; [done|]. apply wr_on_all; [done|apply above_nil|done].
Qed.
