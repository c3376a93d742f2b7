(** [src/stats.rs]: the ring of recent events and the histogram of entry sizes. *)
From Verif Require Import Base.

(** ** [CyclicArr<T, N>], stats.rs:79-107 *)
Section ring.
  Context {T : Type} (dflt : T) (cap : nat).
  Record ring := Ring { r_idx : nat; r_arr : list T }.
  (** stats.rs:84-91 *)
  Definition ring_default : ring := Ring 0 (replicate cap dflt).
  (** stats.rs:93-96 *)
  Definition ring_push (r : ring) (x : T) : ring :=
    Ring (S (r_idx r)) (<[(r_idx r mod cap)%nat := x]> (r_arr r)).
  (** stats.rs:97-102 *)
  Definition ring_clear (r : ring) : ring := ring_default.
  (** stats.rs:103-105: the range [idx.checked_sub(N).unwrap_or(0) .. idx] *)
  Definition ring_iter (r : ring) : list T :=
    omap (fun i => r_arr r !! (i mod cap)%nat) (seq (r_idx r - cap) (r_idx r - (r_idx r - cap))).

  (** The last [cap] elements of the list of all pushed elements. *)
  Definition last_n (l : list T) : list T := drop (length l - cap) l.

  Definition ring_ok (r : ring) (l : list T) : Prop :=
    r_idx r = length l /\ length (r_arr r) = cap /\
    forall i, (length l - cap <= i < length l)%nat -> r_arr r !! (i mod cap)%nat = l !! i.
  Lemma ring_default_ok : ring_ok ring_default [].
  Proof. split; [done|]. split; [apply replicate_length|]. cbn. lia. Qed.
  Lemma ring_push_ok r l x : (0 < cap)%nat -> ring_ok r l -> ring_ok (ring_push r x) (l ++ [x]).
  Proof.
    intros Hc (H1 & H2 & H3). unfold ring_push. split; [cbn; rewrite app_length; cbn; lia|].
    split; [cbn; by rewrite insert_length|]. cbn. rewrite app_length. cbn [length]. intros i Hi.
    pose proof (Nat.mod_upper_bound (r_idx r) cap ltac:(lia)) as Hm.
    destruct (decide (i = length l)) as [->|Hne].
    - rewrite H1, list_lookup_insert by lia. by rewrite list_lookup_middle.
    - rewrite list_lookup_insert_ne.
      + rewrite H3 by lia. by rewrite lookup_app_l by lia.
      + rewrite H1. intros E. apply Hne.
        pose proof (Nat.div_mod (length l) cap ltac:(lia)) as D1. pose proof (Nat.div_mod i cap ltac:(lia)) as D2.
        assert (length l - i < cap)%nat as D3 by lia. assert (i <= length l)%nat as D4 by lia.
        assert (cap * (length l / cap) - cap * (i / cap) < cap)%nat as D5 by lia.
        assert (cap * (i / cap) <= cap * (length l / cap))%nat as D6 by lia.
        assert (i / cap = length l / cap)%nat as D7 by nia. rewrite D2, D1, E, D7. done.
  Qed.
  Lemma ring_iter_ok r l : ring_ok r l -> ring_iter r = last_n l.
  Proof.
    intros (H1 & H2 & H3). unfold ring_iter, last_n. rewrite H1.
    assert (forall c s, (length l - cap <= s)%nat -> (s + c = length l)%nat ->
      omap (fun i => r_arr r !! (i mod cap)%nat) (seq s c) = drop s l) as H.
    { induction c as [|c IH]; intros s Hs1 Hs2; cbn [seq].
      - cbn. symmetry. apply drop_ge. lia.
      - cbn [omap list_omap]. rewrite H3 by lia. destruct (lookup_lt_is_Some_2 l s) as [y Hy]; [lia|].
        rewrite Hy. erewrite drop_S by exact Hy. f_equal. apply IH; lia. }
    apply H; lia.
  Qed.
  Lemma ring_pushes l : (0 < cap)%nat -> ring_iter (fold_left ring_push l ring_default) = last_n l.
  Proof.
    intros Hc. apply ring_iter_ok.
    assert (forall l' r, ring_ok r l' -> ring_ok (fold_left ring_push l r) (l' ++ l)) as H.
    { induction l as [|x l IH]; intros l' r Hr; cbn; [by rewrite app_nil_r|].
      change (x :: l) with ([x] ++ l). rewrite app_assoc. apply IH. by apply ring_push_ok. }
    apply (H [] _ ring_default_ok).
  Qed.
End ring.

(** ** [InternalStats::add_entry], stats.rs:159-171 *)
Record hist5 := Hist5 { h_128 : N; h_1k : N; h_8k : N; h_32k : N; h_over : N; h_wops : N; h_wbytes : N }.
Definition hist5_0 : hist5 := Hist5 0 0 0 0 0 0 0.
Definition add_entry (h : hist5) (sz : N) : hist5 :=
  match h with
  | Hist5 a b c d e ops by_ =>
    let ops := ops + 1 in
    let by_ := by_ + sz in
    if sz <? 128 then Hist5 (a + 1) b c d e ops by_
    else if sz <? 1024 then Hist5 a (b + 1) c d e ops by_
    else if sz <? 8192 then Hist5 a b (c + 1) d e ops by_
    else if sz <? 32768 then Hist5 a b c (d + 1) e ops by_
    else Hist5 a b c d (e + 1) ops by_
  end.
Definition count_in (lo hi : N) (l : list N) : N := len (List.filter (fun x => (lo <=? x) && (x <? hi)) l).
Lemma count_in_cons lo hi x l : count_in lo hi (x :: l) = (if (lo <=? x) && (x <? hi) then 1 else 0) + count_in lo hi l.
Proof.
  unfold count_in. cbn. destruct ((lo <=? x) && (x <? hi)); [|done]. unfold len. cbn [length]. lia.
Qed.

(** ** [InternalStats] as a state machine: report_split, report_compaction (stats.rs:173-188),
    add_entry, fill_stats (stats.rs:216-247, the parts about these fields; it empties both
    rings) and clear (stats.rs:190-214).  [ev] is (duration, size, size). *)
Definition ev := (N * N * N)%type.
Definition RING : nat := 8. (* stats.rs:140-141 *)
Record istats := IStats { i_nsplit : N; i_ncomp : N; i_split : @ring ev; i_comp : @ring ev; i_hist : hist5 }.
Definition istats0 : istats := IStats 0 0 (ring_default (0, 0, 0) RING) (ring_default (0, 0, 0) RING) hist5_0.
Inductive iop := ISplit (x : ev) | ICompaction (x : ev) | IEntry (sz : N) | IStatsCall | IClear.
Record report := Report { rp_nsplit : N; rp_ncomp : N; rp_split : list ev; rp_comp : list ev; rp_hist : hist5 }.
Definition istep (s : istats) (o : iop) : istats * option report :=
  match s with
  | IStats ns nc rs rc h =>
    match o with
    | ISplit x => (IStats (ns + 1) nc (ring_push RING rs x) rc h, None)
    | ICompaction x => (IStats ns (nc + 1) rs (ring_push RING rc x) h, None)
    | IEntry sz => (IStats ns nc rs rc (add_entry h sz), None)
    | IStatsCall =>
      (IStats ns nc (ring_clear (0, 0, 0) RING rs) (ring_clear (0, 0, 0) RING rc) h,
       Some (Report ns nc (ring_iter RING rs) (ring_iter RING rc) h))
    | IClear => (istats0, None)
    end
  end.
Definition irun (os : list iop) : istats := fold_left (fun s o => fst (istep s o)) os istats0.

(** The part of a history after the last event satisfying [p]. *)
Definition since (p : iop -> bool) (os : list iop) : list iop :=
  fold_left (fun acc o => if p o then [] else acc ++ [o]) os [].
Definition is_clear (o : iop) : bool := match o with IClear => true | _ => false end.
Definition is_query (o : iop) : bool := match o with IClear | IStatsCall => true | _ => false end.
Definition splits (os : list iop) : list ev := omap (fun o => match o with ISplit x => Some x | _ => None end) os.
Definition compactions (os : list iop) : list ev := omap (fun o => match o with ICompaction x => Some x | _ => None end) os.
Definition entries (os : list iop) : list N := omap (fun o => match o with IEntry x => Some x | _ => None end) os.
Definition sumN (l : list N) : N := foldr N.add 0 l.

Definition hist_of (l : list N) (h : hist5) : Prop :=
  h_128 h = count_in 0 128 l /\ h_1k h = count_in 128 1024 l /\ h_8k h = count_in 1024 8192 l /\
  h_32k h = count_in 8192 32768 l /\ h_over h + h_128 h + h_1k h + h_8k h + h_32k h = len l /\
  (forall M, (forall x, x ∈ l -> x < M) -> h_over h = count_in 32768 M l) /\
  h_wops h = len l /\ h_wbytes h = sumN l.
Lemma count_in_snoc lo hi x l : count_in lo hi (l ++ [x]) = count_in lo hi l + (if (lo <=? x) && (x <? hi) then 1 else 0).
Proof.
  unfold count_in. rewrite List.filter_app, len_app. f_equal. cbn. by destruct ((lo <=? x) && (x <? hi)).
Qed.
Lemma sumN_snoc l x : sumN (l ++ [x]) = sumN l + x.
Proof. unfold sumN. induction l as [|y l IH]; cbn; [lia|]. rewrite IH. lia. Qed.
Ltac cmp x :=
  repeat match goal with
  | |- context [?u <=? x] => destruct (N.leb_spec u x)
  | |- context [x <? ?v] => destruct (N.ltb_spec x v)
  end; cbn [andb]; lia.
Lemma add_entry_ok l h x : hist_of l h -> hist_of (l ++ [x]) (add_entry h x).
Proof.
  intros (H1 & H2 & H3 & H4 & H5 & H6 & H7 & H8). destruct h as [a b c d e ops by_]. cbn in *.
  assert (H6' : forall M, (forall y, y ∈ l ++ [x] -> y < M) -> e = count_in 32768 M l /\ x < M).
  { intros M HM. split; [apply H6|apply HM]; [intros y Hy; apply HM|]; set_solver. }
  unfold hist_of. rewrite !count_in_snoc, sumN_snoc, len_app. change (len [x]) with 1.
  destruct (N.ltb_spec x 128) as [L1|L1]; [|destruct (N.ltb_spec x 1024) as [L2|L2]; [|destruct (N.ltb_spec x 8192) as [L3|L3]; [|destruct (N.ltb_spec x 32768) as [L4|L4]]]];
    cbn [h_128 h_1k h_8k h_32k h_over h_wops h_wbytes];
    (split; [cmp x|]); (split; [cmp x|]); (split; [cmp x|]); (split; [cmp x|]); (split; [lia|]); (split; [|split; lia]);
    intros M HM; rewrite count_in_snoc; destruct (H6' M HM) as [E1 E2]; rewrite <- E1;
    destruct (N.leb_spec 32768 x); destruct (N.ltb_spec x M); cbn [andb]; lia.
Qed.

Lemma since_snoc p os o : since p (os ++ [o]) = if p o then [] else since p os ++ [o].
Proof. unfold since. by rewrite fold_left_app. Qed.
Lemma irun_snoc os o : irun (os ++ [o]) = fst (istep (irun os) o).
Proof. unfold irun. by rewrite fold_left_app. Qed.
Lemma omap_snoc {A B} (f : A -> option B) l x : omap f (l ++ [x]) = omap f l ++ match f x with Some y => [y] | None => [] end.
Proof. rewrite omap_app. cbn. by destruct (f x). Qed.

Definition iinv (os : list iop) (s : istats) : Prop :=
  i_nsplit s = len (splits (since is_clear os)) /\ i_ncomp s = len (compactions (since is_clear os)) /\
  ring_ok RING (i_split s) (splits (since is_query os)) /\ ring_ok RING (i_comp s) (compactions (since is_query os)) /\
  hist_of (entries (since is_clear os)) (i_hist s).
Lemma iinv_run os : iinv os (irun os).
Proof.
  assert (hist_of [] hist5_0) as H0 by (unfold hist_of; cbn; auto 10).
  induction os as [|o os IH] using rev_ind.
  - split; [done|]. split; [done|]. split; [apply ring_default_ok|]. split; [apply ring_default_ok|exact H0].
  - rewrite irun_snoc. destruct IH as (H1 & H2 & H3 & H4 & H5). destruct (irun os) as [ns nc rs rc h]. cbn in H1, H2, H3, H4, H5.
    unfold iinv. rewrite !since_snoc. destruct o as [x|x|sz| |]; cbn [is_clear is_query istep fst i_nsplit i_ncomp i_split i_comp i_hist];
      unfold splits, compactions, entries in *; rewrite ?omap_snoc; cbn [app]; rewrite ?app_nil_r.
    + rewrite len_app. change (len [x]) with 1. split; [lia|]. split; [done|]. split; [apply ring_push_ok; [unfold RING; lia|done]|]. split; done.
    + rewrite len_app. change (len [x]) with 1. split; [lia|]. split; [lia|]. split; [done|]. split; [apply ring_push_ok; [unfold RING; lia|done]|done].
    + split; [done|]. split; [done|]. split; [done|]. split; [done|]. by apply add_entry_ok.
    + split; [done|]. split; [done|]. split; [apply ring_default_ok|]. split; [apply ring_default_ok|done].
    + split; [done|]. split; [done|]. split; [apply ring_default_ok|]. split; [apply ring_default_ok|exact H0].
Qed.
