(** File names of shards: how they are written and how [load] reads them back. *)
From Verif Require Import Base Hashing Fs Shard Router.

(** ** Writing: format!("shard_{:04x}-{:04x}", start, end), shard.rs:363; the same with
    "compact_" (shard.rs:422, 938), "bottom_", "top_" (shard.rs:551-555), "merge_"
    (shard.rs:639). *)
Definition hex_chars : list byte :=
  [x30;x31;x32;x33;x34;x35;x36;x37;x38;x39;x61;x62;x63;x64;x65;x66]. (* 0-9 a-f *)
Definition hex_char (d : N) : byte := default x30 (hex_chars !! N.to_nat d).
(** Hexadecimal digits of a u32, most significant first, without leading zeros. *)
Fixpoint hex_go (fuel : nat) (n : N) (acc : bytes) : bytes :=
  match fuel with
  | O => acc
  | S f => if n =? 0 then acc else hex_go f (n / 16) (hex_char (n mod 16) :: acc)
  end.
Definition hex (n : N) : bytes := if n =? 0 then [x30] else hex_go 8 n [].
(** {:04x}: padded with zeros to four characters. *)
Definition hex4 (n : N) : bytes := let d := hex n in replicate (4 - length d) x30 ++ d.

Definition s_shard : bytes := [x73;x68;x61;x72;x64;x5f].            (* "shard_" *)
Definition s_compact : bytes := [x63;x6f;x6d;x70;x61;x63;x74;x5f].  (* "compact_" *)
Definition s_bottom : bytes := [x62;x6f;x74;x74;x6f;x6d;x5f].       (* "bottom_" *)
Definition s_top : bytes := [x74;x6f;x70;x5f].                      (* "top_" *)
Definition s_merge : bytes := [x6d;x65;x72;x67;x65;x5f].            (* "merge_" *)
Definition c_dash : byte := x2d.
Definition c_under : byte := x5f.
Definition span_name (prefix : bytes) (s e : N) : bytes := prefix ++ hex4 s ++ c_dash :: hex4 e.

(** The string of each name of Fs.v (for [FOther] see [name_class]). *)
Definition name_string (n : fname) : option bytes :=
  match n with
  | FShard s e => Some (span_name s_shard s e)
  | FCompact s e => Some (span_name s_compact s e)
  | FBottom s e => Some (span_name s_bottom s e)
  | FTop s e => Some (span_name s_top s e)
  | FMerge s e => Some (span_name s_merge s e)
  | FOther _ => None
  end.

(** ** Reading: router.rs:112-134 *)
(** str::starts_with *)
Fixpoint starts_with (p s : bytes) : bool :=
  match p, s with
  | [], _ => true
  | a :: p, b :: s => bool_decide (a = b) && starts_with p s
  | _ :: _, [] => false
  end.
(** str::split_once *)
Fixpoint split_once (c : byte) (s : bytes) : option (bytes * bytes) :=
  match s with
  | [] => None
  | b :: s =>
    if bool_decide (b = c) then Some ([], s)
    else match split_once c s with Some (x, y) => Some (b :: x, y) | None => None end
  end.
(** char::to_digit(16) *)
Definition hex_val (b : byte) : option N :=
  let n := Byte.to_N b in
  if (48 <=? n) && (n <=? 57) then Some (n - 48)
  else if (97 <=? n) && (n <=? 102) then Some (n - 87)
  else if (65 <=? n) && (n <=? 70) then Some (n - 55)
  else None.
Fixpoint hex_parse (acc : N) (s : bytes) : option N :=
  match s with
  | [] => Some acc
  | b :: s =>
    match hex_val b with
    | Some d => let acc := acc * 16 + d in if 2 ^ 32 <=? acc then None else hex_parse acc s
    | None => None
    end
  end.
(** u32::from_str_radix(_, 16): an optional plus sign, at least one digit, no overflow. *)
Definition from_str_radix16 (s : bytes) : option N :=
  match s with
  | [] => None
  | b :: s' =>
    if bool_decide (b = x2b) then (match s' with [] => None | _ => hex_parse 0 s' end)
    else hex_parse 0 s
  end.

(** What [load] does with a file name: delete it, ignore it, take it as a shard, or panic
    ([expect]). *)
Inductive name_class := NDelete | NIgnore | NShard (s e : N) | NPanic.
Definition classify (name : bytes) : name_class :=
  if starts_with s_bottom name || starts_with s_top name || starts_with s_merge name then NDelete
  else if negb (starts_with s_shard name) then NIgnore
  else match split_once c_under name with
  | None => NIgnore
  | Some (_, span) =>
    match split_once c_dash span with
    | None => NIgnore
    | Some (a, b) =>
      match from_str_radix16 a, from_str_radix16 b with
      | Some s, Some e => NShard s e
      | _, _ => NPanic
      end
    end
  end.

(** ** Reading back what was written *)
Lemma hex_digit d : d < 16 -> hex_val (hex_char d) = Some d.
Proof.
  intros H. assert (d ∈ map N.of_nat (seq 0 16)) as Hin.
  { apply elem_of_list_fmap. exists (N.to_nat d). split; [lia|]. apply elem_of_seq. lia. }
  repeat (apply elem_of_cons in Hin as [->|Hin]; [reflexivity|]). by apply elem_of_nil in Hin.
Qed.
(** A hexadecimal digit is not one of the separators. *)
Definition is_hex (b : byte) : Prop := exists d, hex_val b = Some d.
Lemma is_hex_ne b c : is_hex b -> hex_val c = None -> b <> c.
Proof. intros [d H] H' ->. congruence. Qed.
Lemma hex_parse_app s1 s2 : forall acc n, hex_parse acc s1 = Some n -> hex_parse acc (s1 ++ s2) = hex_parse n s2.
Proof.
  induction s1 as [|b s1 IH]; intros acc n H; cbn [hex_parse app] in *; [by simplify_eq|]. destruct (hex_val b) as [d|]; [|done].
  cbv zeta in *. destruct (2 ^ 32 <=? acc * 16 + d); [done|]. by apply IH.
Qed.
Lemma hex_go_parse f : forall n acc m, n < 16 ^ N.of_nat f -> n < 2 ^ 32 -> hex_parse n acc = Some m ->
  hex_parse 0 (hex_go f n acc) = Some m.
Proof.
  induction f as [|f IH]; intros n acc m Hn Hb Hp; cbn [hex_go].
  - change (16 ^ N.of_nat 0) with 1 in Hn. by replace n with 0 in Hp by lia.
  - destruct (N.eqb_spec n 0) as [->|Hne]; [done|].
    assert (16 ^ N.of_nat (S f) = 16 * 16 ^ N.of_nat f) as E by (rewrite Nat2N.inj_succ, N.pow_succ_r by lia; done).
    rewrite E in Hn. pose proof (N.div_mod n 16 ltac:(done)) as Hd. pose proof (N.mod_upper_bound n 16 ltac:(done)) as Hm.
    apply IH.
    + apply N.div_lt_upper_bound; [done|]. exact Hn.
    + lia.
    + cbn [hex_parse]. rewrite hex_digit by done. replace (n / 16 * 16 + n mod 16) with n by lia.
      destruct (N.leb_spec (2 ^ 32) n); [lia|]. done.
Qed.
Lemma hex_go_hex f : forall n acc, Forall is_hex acc -> Forall is_hex (hex_go f n acc).
Proof.
  induction f as [|f IH]; intros n acc H; cbn [hex_go]; [done|]. destruct (n =? 0); [done|]. apply IH. constructor; [|done].
  exists (n mod 16). apply hex_digit. apply N.mod_upper_bound. done.
Qed.
Lemma hex_go_len f : forall n acc, (length acc <= length (hex_go f n acc))%nat /\ (n <> 0 -> f <> 0%nat -> (length acc < length (hex_go f n acc))%nat).
Proof.
  induction f as [|f IH]; intros n acc; cbn [hex_go]; [split; [done|congruence]|].
  destruct (N.eqb_spec n 0) as [->|Hn]; [split; [done|congruence]|]. destruct (IH (n / 16) (hex_char (n mod 16) :: acc)) as [H1 H2].
  cbn in H1. split; lia.
Qed.
Lemma hex_parse_hex n : n < 2 ^ 32 -> hex_parse 0 (hex n) = Some n.
Proof.
  intros H. unfold hex. destruct (N.eqb_spec n 0) as [->|Hn]; [done|].
  apply hex_go_parse; [exact H|done|done].
Qed.
Lemma hex_hex n : Forall is_hex (hex n).
Proof.
  unfold hex. destruct (n =? 0); [|by apply hex_go_hex]. constructor; [by exists 0|done].
Qed.
Lemma hex4_hex n : Forall is_hex (hex4 n).
Proof.
  unfold hex4. apply Forall_app. split; [|apply hex_hex]. apply Forall_replicate. by exists 0.
Qed.
Lemma hex_nonempty n : hex n <> [].
Proof.
  unfold hex. destruct (N.eqb_spec n 0) as [->|Hn]; [done|]. pose proof (proj2 (hex_go_len 8 n []) Hn ltac:(done)) as H.
  intros E. rewrite E in H. cbn in H. lia.
Qed.
Lemma hex_parse_zeros c s : hex_parse 0 (replicate c x30 ++ s) = hex_parse 0 s.
Proof. induction c as [|c IH]; [done|]. cbn [replicate app hex_parse]. exact IH. Qed.
Lemma from_str_hex4 n : n < 2 ^ 32 -> from_str_radix16 (hex4 n) = Some n.
Proof.
  intros H. assert (hex_parse 0 (hex4 n) = Some n) as Hp.
  { unfold hex4. rewrite hex_parse_zeros. by apply hex_parse_hex. }
  pose proof (hex4_hex n) as Hh. unfold from_str_radix16. destruct (hex4 n) as [|b s] eqn:E.
  - unfold hex4 in E. apply app_nil in E as [_ E]. by apply hex_nonempty in E.
  - apply Forall_cons in Hh as [Hb _]. rewrite bool_decide_eq_false_2; [done|]. by apply is_hex_ne.
Qed.
Lemma split_once_hex c s t : Forall is_hex s -> hex_val c = None -> split_once c (s ++ c :: t) = Some (s, t).
Proof.
  intros Hs Hc. induction Hs as [|b s Hb Hs IH]; cbn.
  - by rewrite bool_decide_eq_true_2.
  - rewrite bool_decide_eq_false_2 by (by apply is_hex_ne). by rewrite IH.
Qed.

(** The name written for a span is read back as that span. *)
Lemma classify_shard s e : s < 2 ^ 32 -> e < 2 ^ 32 -> classify (span_name s_shard s e) = NShard s e.
Proof.
  intros Hs He.
  change (classify (span_name s_shard s e)) with
    (match split_once c_dash (hex4 s ++ c_dash :: hex4 e) with
     | None => NIgnore
     | Some (a, b) => match from_str_radix16 a, from_str_radix16 b with Some s, Some e => NShard s e | _, _ => NPanic end
     end).
  rewrite split_once_hex; [|apply hex4_hex|done]. rewrite !from_str_hex4 by done. done.
Qed.
Lemma classify_temp p s e : p = s_bottom \/ p = s_top \/ p = s_merge -> classify (span_name p s e) = NDelete.
Proof. intros [-> |[-> | ->]]; reflexivity. Qed.
Lemma classify_compact s e : classify (span_name s_compact s e) = NIgnore.
Proof. reflexivity. Qed.
Lemma span_name_inj p s e s' e' : s < 2 ^ 32 -> e < 2 ^ 32 -> s' < 2 ^ 32 -> e' < 2 ^ 32 ->
  span_name p s e = span_name p s' e' -> s = s' /\ e = e'.
Proof.
  intros H1 H2 H3 H4 E. unfold span_name in E. apply app_inv_head in E.
  assert (split_once c_dash (hex4 s ++ c_dash :: hex4 e) = split_once c_dash (hex4 s' ++ c_dash :: hex4 e')) as E' by (by rewrite E).
  rewrite !split_once_hex in E' by (apply hex4_hex || done). injection E' as E1 E2.
  assert (from_str_radix16 (hex4 s) = from_str_radix16 (hex4 s')) as E3 by (by rewrite E1).
  assert (from_str_radix16 (hex4 e) = from_str_radix16 (hex4 e')) as E4 by (by rewrite E2).
  rewrite !from_str_hex4 in E3, E4 by done. split; congruence.
Qed.
(** All names used by the store are different strings. *)
Lemma name_string_inj n n' str : (forall s e, n = FShard s e \/ n = FCompact s e \/ n = FBottom s e \/ n = FTop s e \/ n = FMerge s e -> s < 2 ^ 32 /\ e < 2 ^ 32) ->
  (forall s e, n' = FShard s e \/ n' = FCompact s e \/ n' = FBottom s e \/ n' = FTop s e \/ n' = FMerge s e -> s < 2 ^ 32 /\ e < 2 ^ 32) ->
  name_string n = Some str -> name_string n' = Some str -> n = n'.
Proof.
  intros B B' H H'. destruct n as [s e|s e|s e|s e|s e|s], n' as [s' e'|s' e'|s' e'|s' e'|s' e'|s']; cbn [name_string] in *; try done;
    (destruct (B s e) as [B1 B2]; [tauto|]); (destruct (B' s' e') as [B3 B4]; [tauto|]);
    rewrite <- H in H'; apply (inj Some) in H'; clear H; rename H' into E.
  all: first [apply span_name_inj in E as [-> ->]; done | exfalso; discriminate E].
Qed.
