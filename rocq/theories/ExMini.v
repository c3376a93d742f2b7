(** C74: an example that meets the hypotheses of the theorem, and what goes wrong outside them. *)
From Verif Require Import Base Mini MiniShard ThmMini.

Definition key2 (i : nat) : bytes := le_bytes 2 (N.of_nat i).
(** A hash that spreads the keys of two bytes over the first shards, all in the same row. *)
Definition spread (k : bytes) : N := (le_N k mod 2 ^ 16) * 2 ^ 48 + le_N k mod 2 ^ 32.
Definition xmini : list mcall :=
  map (fun i => MSet (key2 i) (key2 (i + 1))) (seq 0 600)
  ++ map (fun i => MRemove (key2 (3 * i))) (seq 0 100)
  ++ [MSet (key2 7) (key2 9); MGet (key2 7); MGet (key2 6); MIter].

Lemma spread_lt k : spread k < 2 ^ 64.
Proof.
  unfold spread. pose proof (N.mod_lt (le_N k) (2 ^ 16)). pose proof (N.mod_lt (le_N k) (2 ^ 32)).
  change (2 ^ 64) with (2 ^ 16 * 2 ^ 48). change (2 ^ 48) with 281474976710656.
  change (2 ^ 16) with 65536 in *. change (2 ^ 32) with 4294967296 in *. lia.
Qed.
Lemma spread_sel k : length k = 2%nat -> mini_sel spread k = le_N k.
Proof.
  intros H. pose proof (le_N_bound k) as B. unfold len in B. rewrite H in B. change (256 ^ N.of_nat 2) with 65536 in B.
  unfold mini_sel, spread. rewrite N.div_add_l by done. rewrite (N.mod_small (le_N k)) by (change (2 ^ 16) with 65536; lia).
  rewrite N.div_small; [lia|]. pose proof (N.mod_lt (le_N k) (2 ^ 32)).
  change (2 ^ 48) with 281474976710656. change (2 ^ 32) with 4294967296 in *. lia.
Qed.
(** The keys of the content were given to [set]. *)
Lemma content_keys cs : forall m k v, foldl mini_content m cs !! k = Some v -> is_Some (m !! k) \/ exists w, MSet k w ∈ cs.
Proof.
  induction cs as [|c cs IH]; intros m k v; cbn [foldl]; [by left|]. intros H.
  destruct (IH _ k v H) as [[w Hw]|[w Hw]]; [|right; exists w; by right].
  destruct c as [k1 v1|k1|k1|]; cbn [mini_content] in Hw.
  - apply lookup_insert_Some in Hw as [[-> ->]|[_ Hw]]; [right; exists w; by left|left; by exists w].
  - left; by exists w.
  - apply lookup_delete_Some in Hw as [_ Hw]. left; by exists w.
  - left; by exists w.
Qed.
(** Keys with different selectors are never too many. *)
Lemma spread_roomy (m : gmap bytes bytes) : (forall k v, m !! k = Some v -> length k = 2%nat) -> mini_roomy spread m.
Proof.
  intros H sel row. etrans; [|apply le_n_S, Nat.le_0_l].
  apply le_S_n. unfold size, map_size.
  set (f := filter (fun x : kv => (spread x.1 / 2 ^ 48 = sel /\ (spread x.1 / 2 ^ 32) mod 64 = row)%N) m).
  assert (Hf : forall x y, x ∈ map_to_list f -> y ∈ map_to_list f -> x = y).
  { intros [k v] [k' v']. unfold f. rewrite !elem_of_map_to_list, !map_filter_lookup_Some. cbn.
    intros (A & B & _) (A' & B' & _). pose proof (H _ _ A) as L. pose proof (H _ _ A') as L'.
    change (mini_sel spread k = sel) in B. change (mini_sel spread k' = sel) in B'. rewrite spread_sel in B, B' by done. assert (k = k') as <-; [|congruence].
    rewrite <- (le_bytes_le_N k), <- (le_bytes_le_N k'). congruence. }
  pose proof (NoDup_map_to_list f) as Hnd. destruct (map_to_list f) as [|x [|y l]]; cbn [length]; [lia|lia|].
  exfalso. apply NoDup_cons in Hnd as [Hx _]. apply Hx. rewrite (Hf x y); [by left|by left|by right; left].
Qed.
Definition len2 (c : mcall) : bool :=
  match c with MSet k v => (length k =? 2)%nat && (length v =? 2)%nat | _ => true end.

(** 600 keys, all in one row, 100 of them removed again: the shard was split. *)
Definition xmini_right (x : res (mini * list mreply)) : bool :=
  match x with
  | Ok (s, rs) =>
    bool_decide (map (fun sh => (ms_start sh, ms_end sh)) s =
      [(0, 512); (512, 1024); (1024, 2048); (2048, 4096); (4096, 8192); (8192, 16384); (16384, 32768); (32768, 65536)]) &&
    match drop 701 rs with
    | [MVal a; MVal b; MPairs l] => bool_decide (a = Some (key2 9)) && bool_decide (b = None) && (length l =? 500)%nat
    | _ => false
    end
  | Err _ => false
  end.
Lemma len2_sized cs : forallb len2 cs = true -> Forall mini_sized cs.
Proof.
  intros H2. rewrite forallb_forall in H2.
  apply Forall_forall. intros c Hc. apply elem_of_list_In, H2 in Hc. destruct c as [k v| | |]; [|done..].
  cbn [len2] in Hc. apply andb_true_iff in Hc as [A B]. apply Nat.eqb_eq in A, B. unfold mini_sized, len. rewrite A, B. done.
Qed.
Lemma len2_roomy cs : forallb len2 cs = true ->
  forall pre post, cs = pre ++ post -> mini_roomy spread (foldl mini_content ∅ pre).
Proof.
  intros H2. rewrite forallb_forall in H2.
  intros pre post E. apply spread_roomy. intros k v H. apply content_keys in H as [[w H]|[w H]]; [by rewrite lookup_empty in H|].
  assert (Hin : In (MSet k w) cs) by (rewrite E; apply in_or_app; left; by apply elem_of_list_In).
  apply H2 in Hin. cbn [len2] in Hin. apply andb_true_iff in Hin as [A _]. by apply Nat.eqb_eq in A.
Qed.
Theorem C74_example :
  (forall k, spread k < 2 ^ 64) /\ Forall mini_sized xmini /\ MINI_HEADER + total_bytes xmini < 2 ^ 32 /\
  (forall pre post, xmini = pre ++ post -> mini_roomy spread (foldl mini_content ∅ pre)) /\
  xmini_right (mini_run spread store_open xmini) = true.
Proof.
  assert (H2 : forallb len2 xmini = true) by vm_cast_no_check (eq_refl true).
  split; [exact spread_lt|]. split; [exact (len2_sized _ H2)|]. split; [|split; [exact (len2_roomy _ H2)|]].
  - apply N.ltb_lt. vm_cast_no_check (eq_refl true).
  - vm_cast_no_check (eq_refl true).
Qed.

(** A value of 64 KiB is accepted; it comes back empty (main.rs:116: [val.len() as u16]). *)
Definition long : bytes := replicate (N.to_nat 65536) x01.
Definition only_reply (x : res (mini * list mreply)) : list (option (option bytes)) :=
  match x with
  | Ok (_, rs) => map (fun r => match r with MVal v => Some v | _ => None end) rs
  | Err _ => []
  end.
Theorem C74_long_value_refuted : exists (h : bytes -> N) k v, (forall k, h k < 2 ^ 64) /\ len v = 2 ^ 16 /\
  exists s, mini_run h store_open [MSet k v; MGet k] = Ok (s, [MBool true; MVal (Some [])]).
Proof.
  exists (fun _ => 0), [x01], long. split; [done|]. split; [unfold long, len; rewrite replicate_length, N2Nat.id; done|].
  assert (E : match mini_run (fun _ => 0) store_open [MSet [x01] long; MGet [x01]] with
    | Ok (_, [MBool true; MVal (Some [])]) => true | _ => false end = true) by vm_cast_no_check (eq_refl true).
  destruct (mini_run _ _ _) as [[s rs]|e]; [|discriminate E]. exists s.
  destruct rs as [|[[|]| |] [|[|[[|]|]|] [|]]]; try discriminate E. reflexivity.
Qed.

(** 513 keys with the same 22 bits: the shard is split until its span is one selector; splitting that
    gives an empty span and the same span again ([mid] = [start]), so the new file is opened,
    and truncated, under the name of the file being split.  Every [set] returned true; of
    513 keys only the last one is left. *)
Definition crowd : list mcall := map (fun i => MSet (key2 i) (key2 i)) (seq 0 513).
Definition same22 (k : bytes) : N := le_N k mod 2 ^ 32.
Lemma same22_lt k : same22 k < 2 ^ 64.
Proof. unfold same22. pose proof (N.mod_lt (le_N k) (2 ^ 32)). change (2 ^ 32) with 4294967296 in *. change (2 ^ 64) with 18446744073709551616. lia. Qed.
Theorem C74_crowded_refuted : exists (h : bytes -> N), (forall k, h k < 2 ^ 64) /\
  exists s rs l, mini_run h store_open (crowd ++ [MGet (key2 0); MIter]) = Ok (s, rs ++ [MVal None; MPairs l]) /\
    Forall (eq (MBool true)) rs /\ l = [Ok (key2 512, key2 512)].
Proof.
  exists same22. split; [exact same22_lt|].
  assert (E : match mini_run same22 store_open (crowd ++ [MGet (key2 0); MIter]) with
    | Ok (_, rs) => forallb (fun r => match r with MBool true => true | _ => false end) (take 513 rs) &&
      match drop 513 rs with [MVal None; MPairs [Ok x]] => bool_decide (x = (key2 512, key2 512)) | _ => false end
    | _ => false end = true) by vm_cast_no_check (eq_refl true).
  destruct (mini_run _ _ _) as [[s rs]|e]; [|discriminate E].
  apply andb_true_iff in E as [E1 E2]. exists s, (take 513 rs).
  destruct (drop 513 rs) as [|[| [|] |] [|[| |[|[x|] [|]]] [|]]] eqn:D; try discriminate E2.
  apply bool_decide_eq_true in E2. subst x. exists [Ok (key2 512, key2 512)].
  split; [by rewrite <- D, take_drop|]. split; [|done].
  apply Forall_forall. intros r Hr. rewrite forallb_forall in E1. apply elem_of_list_In, E1 in Hr.
  destruct r as [[|]| |]; done.
Qed.
