(** The pieces into which Conc.v cuts the operations of a shard are the whole operations. *)
From Verif Require Import Base Hashing Fs Shard Router Store Kv Limits Api Conc.

(** Two programs with the same effects, in the same order, and the same results. *)
Inductive peq {A} : prog A -> prog A -> Prop :=
| peq_ret a : peq (Ret a) (Ret a)
| peq_fail e : peq (Fail e) (Fail e)
| peq_vis {X} (e : eff X) k k' : (forall x, peq (k x) (k' x)) -> peq (Vis e k) (Vis e k').
Lemma peq_refl {A} (p : prog A) : peq p p.
Proof. induction p; by constructor. Qed.
Lemma peq_assoc {A B C} (p : prog A) (f : A -> prog B) (g : B -> prog C) :
  peq (pbind (pbind p f) g) (pbind p (fun a => pbind (f a) g)).
Proof. induction p as [a|e|X e k IH]; cbn [pbind]; [apply peq_refl|constructor|constructor; apply IH]. Qed.
Lemma peq_bind {A B} (p : prog A) (f f' : A -> prog B) : (forall a, peq (f a) (f' a)) -> peq (pbind p f) (pbind p f').
Proof. intros H. induction p as [a|e|X e k IH]; cbn [pbind]; [apply H|constructor|constructor; apply IH]. Qed.
Lemma peq_sym {A} (p q : prog A) : peq p q -> peq q p.
Proof. induction 1; constructor; auto. Qed.
(** They behave in the same way, whether they end or die on the way. *)
Lemma peq_run {A} (p q : prog A) : peq p q -> forall w, run p w = run q w.
Proof. induction 1 as [| |X e k k' H IH]; intros w; cbn [run]; [done|done|]. destruct (run_eff e w) as [w' x]. apply IH. Qed.
Lemma peq_crash {A} (p q : prog A) : peq p q -> forall n w, crash_at n p w = crash_at n q w.
Proof.
  induction 1 as [| |X e k k' H IH]; intros n w; destruct n as [|n]; cbn [crash_at]; try done.
  destruct (run_eff e w) as [w' x]. apply IH.
Qed.

(** [insert] is the section under the row lock followed by [begin_compaction]. *)
Definition insert_pieces (cfg : config) (sh : shard) (ph : phash) (k v : bytes) (mode : ins_mode) : prog (shard * ins_status) :=
  do! (st, c) <- insert_sect cfg sh ph k v mode;
  match c with
  | None => Ret (sh, st)
  | Some woff => do! sh' <- begin_compaction cfg sh woff; Ret (sh', st)
  end.
Theorem shard_insert_pieces cfg sh ph k v mode : peq (shard_insert cfg sh ph k v mode) (insert_pieces cfg sh ph k v mode).
Proof.
  unfold shard_insert, insert_pieces, insert_sect. apply peq_sym.
  unfold snap. cbn [pbind]. constructor. intros w.
  destruct (row_file w sh (ph_row ph)) as [[i f]|e]; cbn [lift pbind]; [|constructor].
  destruct (sh_tgt sh).
  - apply (peq_assoc (insert_row i f ph k v mode)).
  - destruct (c_min_compact cfg <=? f_wasted f).
    + apply (peq_assoc (insert_row i f ph k v mode)).
    + destruct (c_max_shard cfg <? f_woff f + (len k + len v)); [apply peq_refl|].
      apply (peq_assoc (insert_row i f ph k v mode)).
Qed.
(** Copying a row is the section under the row lock followed by advancing the counter. *)
Theorem compact_row_pieces cfg src t first r :
  peq (compact_row cfg src t first r) (do! _ <- bg_sect cfg src t first r; upd t UCut).
Proof.
  unfold compact_row, bg_sect, get_file. cbn [pbind snap]. apply peq_sym.
  apply peq_assoc.
Qed.
