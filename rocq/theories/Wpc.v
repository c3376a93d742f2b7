(** A crash-Hoare logic for [prog]: [wpc p C Q E w] says that, started in [w], the program
    [p] stays in states satisfying [C] at every micro step, ends normally in [Q] or with an
    error allowed by [E]. *)
From Verif Require Import Base Fs.

Fixpoint wpc {A} (p : prog A) (C : fs -> Prop) (Q : A -> fs -> Prop) (E : err -> Prop) (w : fs) : Prop :=
  C w /\
  match p with
  | Ret a => Q a w
  | Fail e => E e
  | Vis e k => wpc (k (snd (run_eff e w))) C Q E (fst (run_eff e w))
  end.

Definition no_err : err -> Prop := fun _ => False.

Lemma wpc_C {A} (p : prog A) C Q E w : wpc p C Q E w -> C w.
Proof. destruct p; simpl; tauto. Qed.

Lemma wpc_sound {A} (p : prog A) C Q E w :
  wpc p C Q E w ->
  (forall n, C (crash_at n p w)) /\
  match run p w with
  | (w', Ok a) => C w' /\ Q a w'
  | (w', Err e) => C w' /\ E e
  end.
Proof.
  revert w; induction p as [a|e|X e k IH]; intros w H.
  - destruct H as [HC HQ]. split; [by intros []|simpl; auto].
  - destruct H as [HC HQ]. split; [by intros []|simpl; auto].
  - cbn [wpc] in H. destruct H as [HC H]. specialize (IH _ _ H) as [IH1 IH2].
    cbn [crash_at run]. destruct (run_eff e w) as [w' x] eqn:Ee. simpl in *. split.
    + intros [|n]; [done|]. cbn [crash_at]. rewrite Ee. apply IH1.
    + done.
Qed.

Lemma wpc_bind {A B} (p : prog A) (f : A -> prog B) C Q E w :
  wpc p C (fun a => wpc (f a) C Q E) E w -> wpc (pbind p f) C Q E w.
Proof.
  revert w; induction p as [a|e|X e k IH]; intros w H.
  - cbn [pbind]. destruct H as [HC H]. done.
  - exact H.
  - cbn [pbind wpc] in *. destruct H as [HC H]. split; [done|]. by apply IH.
Qed.

Lemma wpc_mono {A} (p : prog A) (C C' : fs -> Prop) (Q Q' : A -> fs -> Prop) (E E' : err -> Prop) w :
  (forall w, C w -> C' w) -> (forall a w, C w -> Q a w -> Q' a w) -> (forall e, E e -> E' e) ->
  wpc p C Q E w -> wpc p C' Q' E' w.
Proof.
  intros HC HQ HE. revert w; induction p as [a|e|X e k IH]; intros w H; cbn [wpc] in *.
  - destruct H. eauto.
  - destruct H. eauto.
  - destruct H. eauto.
Qed.

Lemma wpc_ret {A} (a : A) (C : fs -> Prop) (Q : A -> fs -> Prop) E w : C w -> Q a w -> wpc (Ret a) C Q E w.
Proof. simpl. auto. Qed.
Lemma wpc_lift_ok {A} (a : A) (r : res A) (C : fs -> Prop) (Q : A -> fs -> Prop) E w :
  r = Ok a -> C w -> Q a w -> wpc (lift r) C Q E w.
Proof. intros ->. simpl. auto. Qed.
Lemma wpc_assert b (C : fs -> Prop) (Q : unit -> fs -> Prop) E w :
  b = true -> C w -> Q tt w -> wpc (assert_p b) C Q E w.
Proof. intros ->. simpl. auto. Qed.
Lemma wpc_check b e (C : fs -> Prop) (Q : unit -> fs -> Prop) E w :
  b = true -> C w -> Q tt w -> wpc (check b e) C Q E w.
Proof. intros ->. simpl. auto. Qed.
Lemma wpc_eff {X} (e : eff X) (C : fs -> Prop) (Q : X -> fs -> Prop) E w :
  C w -> C (fst (run_eff e w)) -> Q (snd (run_eff e w)) (fst (run_eff e w)) -> wpc (eff1 e) C Q E w.
Proof. simpl. auto. Qed.
Lemma wpc_snap (C : fs -> Prop) (Q : fs -> fs -> Prop) E w : C w -> Q w w -> wpc snap C Q E w.
Proof. simpl. auto. Qed.
Lemma wpc_get_file i f (C : fs -> Prop) (Q : file -> fs -> Prop) E w :
  fs_files w !! i = Some f -> C w -> Q f w -> wpc (get_file i) C Q E w.
Proof. intros Hf HC HQ. unfold get_file. simpl. rewrite Hf. simpl. auto. Qed.

(** ** States that differ in one file *)
Definition set_file (i : ino) (f : file) (w : fs) : fs :=
  Fs (fs_dir w) (<[i := f]> (fs_files w)) (fs_next w).

Lemma set_file_get i f w : fs_files (set_file i f w) !! i = Some f.
Proof. apply lookup_insert. Qed.
Lemma set_file_ne i j f w : i <> j -> fs_files (set_file i f w) !! j = fs_files w !! j.
Proof. intros. by apply lookup_insert_ne. Qed.
Lemma set_file_set i f f' w : set_file i f' (set_file i f w) = set_file i f' w.
Proof. unfold set_file. simpl. by rewrite insert_insert. Qed.
Lemma set_file_id i f w : fs_files w !! i = Some f -> set_file i f w = w.
Proof. intros H. unfold set_file. rewrite insert_id by done. by destruct w. Qed.
Lemma set_file_comm i j f g w : i <> j ->
  set_file i f (set_file j g w) = set_file j g (set_file i f w).
Proof. intros H. unfold set_file. simpl. by rewrite insert_commute. Qed.

Lemma run_upd i u w f :
  fs_files w !! i = Some f ->
  run_eff (EUpd i u) w = (set_file i (apply_fupd u f) w, tt).
Proof.
  intros H. simpl. unfold set_file. f_equal. f_equal. apply map_eq. intros j.
  destruct (decide (i = j)) as [<-|Hne].
  - by rewrite lookup_alter, lookup_insert, H.
  - by rewrite lookup_alter_ne, lookup_insert_ne.
Qed.
Lemma run_alloc i n w f :
  fs_files w !! i = Some f ->
  run_eff (EAlloc i n) w = (set_file i (alloc_file n f) w, f_woff f).
Proof. intros H. simpl. by rewrite H. Qed.

Lemma wpc_upd i u f (C : fs -> Prop) (Q : unit -> fs -> Prop) E w :
  fs_files w !! i = Some f -> C w -> C (set_file i (apply_fupd u f) w) ->
  Q tt (set_file i (apply_fupd u f) w) -> wpc (upd i u) C Q E w.
Proof. intros Hf HC HC' HQ. apply wpc_eff; rewrite ?(run_upd _ _ _ _ Hf); auto. Qed.
Lemma wpc_alloc i n f (C : fs -> Prop) (Q : N -> fs -> Prop) E w :
  fs_files w !! i = Some f -> C w -> C (set_file i (alloc_file n f) w) ->
  Q (f_woff f) (set_file i (alloc_file n f) w) -> wpc (eff1 (EAlloc i n)) C Q E w.
Proof. intros Hf HC HC' HQ. apply wpc_eff; rewrite ?(run_alloc _ _ _ _ Hf); auto. Qed.

(** The same rules when the state is already of the form [set_file i f w]. *)
Lemma wpc_upd' i u f (C : fs -> Prop) (Q : unit -> fs -> Prop) E w :
  C (set_file i f w) -> C (set_file i (apply_fupd u f) w) ->
  Q tt (set_file i (apply_fupd u f) w) -> wpc (upd i u) C Q E (set_file i f w).
Proof.
  intros HC HC' HQ. eapply wpc_upd; [apply set_file_get|done|..]; by rewrite set_file_set.
Qed.
Lemma wpc_alloc' i n f (C : fs -> Prop) (Q : N -> fs -> Prop) E w :
  C (set_file i f w) -> C (set_file i (alloc_file n f) w) ->
  Q (f_woff f) (set_file i (alloc_file n f) w) -> wpc (eff1 (EAlloc i n)) C Q E (set_file i f w).
Proof.
  intros HC HC' HQ. eapply wpc_alloc; [apply set_file_get|done|..]; by rewrite set_file_set.
Qed.

(** ** Directory operations *)
Lemma wpc_rename a b i (C : fs -> Prop) (Q : unit -> fs -> Prop) E w :
  fs_dir w !! a = Some i ->
  let w' := Fs (<[b := i]> (delete a (fs_dir w))) (fs_files w) (fs_next w) in
  C w -> C w' -> Q tt w' -> wpc (rename a b) C Q E w.
Proof.
  intros Ha w' HC HC' HQ. unfold rename. apply wpc_bind. apply wpc_eff; simpl; rewrite ?Ha; simpl; auto.
Qed.
Lemma wpc_remove a i (C : fs -> Prop) (Q : unit -> fs -> Prop) E w :
  fs_dir w !! a = Some i ->
  let w' := Fs (delete a (fs_dir w)) (fs_files w) (fs_next w) in
  C w -> C w' -> Q tt w' -> wpc (remove_file a) C Q E w.
Proof.
  intros Ha w' HC HC' HQ. unfold remove_file. apply wpc_bind. apply wpc_eff; simpl; rewrite ?Ha; simpl; auto.
Qed.
