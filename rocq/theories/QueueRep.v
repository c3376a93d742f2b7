(** How a queue is represented in the raw map, and what every queue program does to it. *)
From Coq Require Import Sorted.
From Verif Require Import Base Hashing HashingProofs Fs Shard Router RouterPure Wpc Spec FileRep RowOps
  Compact Inv ShardOps Split Insert Open Merge Create Store Limits StoreRefine Kv Lists Queues Api Hist KvSpec
  HistInv KeySpace ListSpec ListRep ListProg QueueSpec.
Implicit Types (M : kvmap) (q : elems) (i j h t lost : N) (v : bytes).
Local Arguments u64_bytes : simpl never.
Local Arguments enc_rec : simpl never.

(** ** Lists of labelled elements *)
Lemma q_get_cons x q i : q_get (x :: q) i = if fst x =? i then Some (snd x) else q_get q i.
Proof. unfold q_get. cbn [List.find]. by destruct (fst x =? i). Qed.
Lemma q_get_None q i : Forall (fun x : N * bytes => fst x <> i) q -> q_get q i = None.
Proof.
  induction q as [|x q IH]; intros H; [done|]. apply Forall_cons in H as [H1 H2]. rewrite q_get_cons.
  destruct (N.eqb_spec (fst x) i); [done|]. by apply IH.
Qed.
Lemma q_get_app q q' i : q_get (q ++ q') i = match q_get q i with Some v => Some v | None => q_get q' i end.
Proof. induction q as [|x q IH]; [done|]. cbn [app]. rewrite !q_get_cons. by destruct (fst x =? i). Qed.
Lemma q_get_in q i v : StronglySorted N.lt (map fst q) -> (i, v) ∈ q -> q_get q i = Some v.
Proof.
  induction q as [|x q IH]; intros Hs Hin; [by apply elem_of_nil in Hin|]. cbn in Hs. apply StronglySorted_inv in Hs as [Hs Hf].
  rewrite q_get_cons. apply elem_of_cons in Hin as [<-|Hin]; [cbn; by rewrite N.eqb_refl|].
  destruct (N.eqb_spec (fst x) i) as [E|_]; [|by apply IH]. exfalso. rewrite Forall_forall in Hf.
  assert (fst x < i); [|lia]. apply Hf. apply elem_of_list_fmap. by exists (i, v).
Qed.
Lemma q_get_Some q i v : q_get q i = Some v -> (i, v) ∈ q.
Proof.
  induction q as [|x q IH]; [done|]. rewrite q_get_cons. destruct (N.eqb_spec (fst x) i) as [<-|_].
  - intros [= <-]. destruct x. left.
  - intros H. right. by apply IH.
Qed.
Lemma q_remove_in q i x : x ∈ q_remove q i <-> x ∈ q /\ fst x <> i.
Proof.
  unfold q_remove. rewrite !elem_of_list_In, filter_In, negb_true_iff, N.eqb_neq. done.
Qed.
Lemma q_remove_same q i : q_get q i = None -> q_remove q i = q.
Proof.
  unfold q_remove. induction q as [|x q IH]; [done|]. rewrite q_get_cons. cbn. destruct (fst x =? i); [done|]. cbn. intros H. f_equal. by apply IH.
Qed.
Lemma q_get_remove q i j : q_get (q_remove q i) j = if i =? j then None else q_get q j.
Proof.
  unfold q_remove. induction q as [|x q IH]; cbn [List.filter]; [by destruct (i =? j)|].
  destruct (N.eqb_spec (fst x) i) as [E|E]; cbn [negb].
  - rewrite IH, q_get_cons. destruct (N.eqb_spec i j) as [E2|E2]; [done|]. destruct (N.eqb_spec (fst x) j); [congruence|done].
  - rewrite !q_get_cons, IH. destruct (N.eqb_spec i j) as [E2|E2]; [|done]. destruct (N.eqb_spec (fst x) j); [congruence|done].
Qed.
Lemma q_remove_sorted q i : StronglySorted N.lt (map fst q) -> StronglySorted N.lt (map fst (q_remove q i)).
Proof.
  induction q as [|x q IH]; intros Hs; [done|]. cbn in Hs. apply StronglySorted_inv in Hs as [Hs Hf].
  unfold q_remove. cbn [List.filter]. fold (q_remove q i). destruct (negb (fst x =? i)); [|by apply IH].
  cbn [map]. constructor; [by apply IH|]. rewrite Forall_forall in Hf; apply Forall_forall. intros y Hy. apply Hf.
  apply elem_of_list_fmap in Hy as (z & -> & Hz). apply q_remove_in in Hz as [Hz _]. apply elem_of_list_fmap. by exists z.
Qed.
Lemma q_remove_len q i v : StronglySorted N.lt (map fst q) -> q_get q i = Some v -> len q = len (q_remove q i) + 1.
Proof.
  induction q as [|x q IH]; intros Hs Hg; [done|]. cbn in Hs. apply StronglySorted_inv in Hs as [Hs Hf]. rewrite q_get_cons in Hg.
  unfold q_remove. cbn [List.filter]. fold (q_remove q i). destruct (N.eqb_spec (fst x) i) as [E|E]; cbn [negb].
  - rewrite q_remove_same; [unfold len; cbn [length]; lia|]. apply q_get_None. rewrite Forall_forall in Hf; apply Forall_forall. intros y Hy E2.
    assert (fst x < fst y); [|lia]. apply Hf. apply elem_of_list_fmap. by exists y.
  - specialize (IH Hs Hg). unfold len in *. cbn [length]. lia.
Qed.
Lemma number_fst vs : forall i, map fst (number i vs) = map (fun k => i + N.of_nat k) (seq 0 (length vs)).
Proof.
  induction vs as [|v vs IH]; intros i; [done|]. cbn [number map length fst]. rewrite (idx_seq_S i). by rewrite <- IH.
Qed.
Lemma number_in vs : forall i x, x ∈ number i vs -> i <= fst x < i + len vs.
Proof.
  induction vs as [|v vs IH]; intros i x Hx; cbn [number] in Hx; [by apply elem_of_nil in Hx|].
  unfold len. cbn [length]. apply elem_of_cons in Hx as [->|Hx]; [cbn; lia|]. apply IH in Hx. unfold len in Hx. lia.
Qed.
Lemma number_snd vs : forall i, map snd (number i vs) = vs.
Proof. induction vs as [|v vs IH]; intros i; [done|]. cbn. by rewrite IH. Qed.
Lemma number_len vs i : len (number i vs) = len vs.
Proof. unfold len. by rewrite <- (number_snd vs i) at 2; rewrite map_length. Qed.

Definition q_elem (q : elems) (i : N) : option (N * bytes) := (fun v => (i, v)) <$> q_get q i.
Lemma omap_ext_in {A B} (f g : A -> option B) (l : list A) : (forall a : A, a ∈ l -> f a = g a) -> omap f l = omap g l.
Proof.
  intros He. induction l as [|a l IHl]; [done|]. cbn. rewrite (He a) by left. rewrite IHl; [done|]. intros b Hb. apply He. by right.
Qed.
Lemma enum_elems n : forall h q, StronglySorted N.lt (map fst q) ->
  Forall (fun x : N * bytes => h <= fst x < h + N.of_nat n) q ->
  omap (q_elem q) (map (fun k => h + N.of_nat k) (seq 0 n)) = q.
Proof.
  induction n as [|n IH]; intros h q Hs Hf.
  - destruct q as [|x q]; [done|]. apply Forall_cons in Hf as [H _]. lia.
  - rewrite idx_seq_S. cbn [omap list_omap]. destruct q as [|[k v] q].
    + cbn. specialize (IH (h + 1) [] (SSorted_nil _) (Forall_nil_2 _)). exact IH.
    + cbn in Hs. apply StronglySorted_inv in Hs as [Hs Hlt]. apply Forall_cons in Hf as [Hk Hf]. cbn in Hk.
      assert (Hlt' : forall y, y ∈ q -> k < fst y).
      { intros y Hy. rewrite Forall_forall in Hlt. apply Hlt. apply elem_of_list_fmap. by exists y. }
      unfold q_elem at 1. rewrite q_get_cons. cbn [fst snd].
      destruct (N.eqb_spec k h) as [->|Hne].
      * cbn [fmap option_fmap option_map]. f_equal. rewrite (omap_ext_in _ (q_elem q)).
        -- apply IH; [done|]. rewrite Forall_forall in Hf; apply Forall_forall. intros x Hx. pose proof (Hf x Hx). pose proof (Hlt' x Hx). cbn beta in *. lia.
        -- intros i Hi. unfold q_elem. rewrite q_get_cons. cbn [fst].
           destruct (N.eqb_spec h i) as [->|_]; [|done]. exfalso. apply elem_of_list_fmap in Hi as (z & Hz & _). lia.
      * rewrite q_get_None.
        -- cbn [fmap option_fmap option_map]. apply (IH (h + 1)); [by constructor|]. constructor; [cbn; lia|].
           rewrite Forall_forall in Hf; apply Forall_forall. intros x Hx. pose proof (Hf x Hx). pose proof (Hlt' x Hx). cbn beta in *. lia.
        -- apply Forall_forall. intros x Hx. pose proof (Hlt' x Hx). cbn. lia.
Qed.
Lemma enum_qorder fwd h t q : StronglySorted N.lt (map fst q) -> Forall (fun x : N * bytes => h <= fst x < t) q ->
  omap (q_elem q) (idx_order fwd h t) = if fwd then q else rev q.
Proof.
  intros Hs Hf. assert (omap (q_elem q) (idx_seq h t) = q) as E.
  { apply enum_elems; [done|]. eapply Forall_impl; [exact Hf|]. intros x Hx. cbn beta in *. lia. }
  destruct fwd; cbn [idx_order]; [done|].
  assert (forall l : list N, omap (q_elem q) (rev l) = rev (omap (q_elem q) l)) as H; [|by rewrite H, E].
  induction l as [|i l IH]; [done|]. cbn [rev]. rewrite omap_app, IH. cbn. destruct (q_elem q i); cbn; [done|by rewrite app_nil_r].
Qed.

(** ** The representation *)
Section rep.
Context (cfg : config) (qk : bytes).
Record qcore (M : kvmap) (q : elems) : Prop := QCore {
  qc_items : forall i, i < U64 -> M !! qitem_key qk i = q_get q i;
  qc_sorted : StronglySorted N.lt (map fst q);
  qc_bound : Forall (fun x : N * bytes => fst x < U64) q
}.
(** [rng] is the range in the record of the queue, if there is one. *)
Definition qrep (M : kvmap) (q : elems) (lost : N) (rng : option (N * N)) : Prop :=
  qcore M q /\
  match rng with
  | None => M !! queue_key qk = None /\ q = [] /\ lost = 0
  | Some (h, t) => M !! queue_key qk = Some (enc_rec (LRec h t (len q + lost))) /\ h <= t /\ t < U64 /\
      Forall (fun x : N * bytes => h <= fst x < t) q /\ len q + lost < U64
  end.
Lemma qcore_ext M M' q : (forall i, M' !! qitem_key qk i = M !! qitem_key qk i) -> qcore M q -> qcore M' q.
Proof. intros H [A B C]. constructor; try done. intros i Hi. rewrite H. by apply A. Qed.
Lemma qcore_rec M q b : qcore M q -> qcore (<[queue_key qk := b]> M) q.
Proof. apply qcore_ext; intros i; by rewrite lookup_insert_ne by kdiff. Qed.
Lemma qcore_unrec M q : qcore M q -> qcore (delete (queue_key qk) M) q.
Proof. apply qcore_ext; intros i; by rewrite lookup_delete_ne by kdiff. Qed.
Lemma qcore_empty M : (forall i, M !! qitem_key qk i = None) -> qcore M [].
Proof. intros H. constructor; [|constructor|constructor]. intros i _. by rewrite H. Qed.
Lemma qcore_push M q at_head i v : qcore M q -> i < U64 -> beyond at_head i q ->
  qcore (<[qitem_key qk i := v]> M) (q_push at_head (i, v) q).
Proof.
  intros [A B C] Hi Hb.
  assert (q_get q i = None) as Hn.
  { apply q_get_None. eapply Forall_impl; [exact Hb|]. intros x Hx. cbn beta in *. destruct at_head; lia. }
  constructor.
  - intros j Hj. destruct (N.eq_dec i j) as [->|Hne].
    + rewrite lookup_insert. destruct at_head; cbn [q_push].
      * rewrite q_get_cons. cbn. by rewrite N.eqb_refl.
      * rewrite q_get_app, Hn, q_get_cons. cbn. by rewrite N.eqb_refl.
    + rewrite lookup_insert_ne by (intros E; by apply qitem_key_inj in E). rewrite A by done. destruct at_head; cbn [q_push].
      * rewrite q_get_cons. cbn. by destruct (N.eqb_spec i j).
      * rewrite q_get_app. destruct (q_get q j); [done|]. rewrite q_get_cons. cbn. by destruct (N.eqb_spec i j).
  - destruct at_head; cbn [q_push].
    + cbn. constructor; [done|]. apply List.Forall_map. exact Hb.
    + rewrite map_app. apply sorted_snoc; [done|]. apply List.Forall_map. exact Hb.
  - destruct at_head; cbn [q_push]; [by constructor|]. apply Forall_app. split; [done|]. by constructor.
Qed.
Lemma qcore_remove M q i : qcore M q -> i < U64 -> qcore (delete (qitem_key qk i) M) (q_remove q i).
Proof.
  intros [A B C] Hi. constructor.
  - intros j Hj. rewrite q_get_remove. destruct (N.eqb_spec i j) as [->|Hne]; [by rewrite lookup_delete|].
    rewrite lookup_delete_ne by (intros E; by apply qitem_key_inj in E). by apply A.
  - by apply q_remove_sorted.
  - rewrite Forall_forall in C; apply Forall_forall. intros x Hx. apply q_remove_in in Hx as [Hx _]. by apply C.
Qed.
End rep.
