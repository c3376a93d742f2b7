(** Proofs about [src/hashing.rs] and the entry descriptor of [src/shard.rs]. *)
From Verif Require Import Base Bits Hashing Fs Shard.

Definition sig_of_hash (h1 h2 : N) : N :=
  if h1 mod 2 ^ 32 =? 0 then
    if h2 mod 2 ^ 32 =? 0 then
      if (h2 / 2 ^ 32) mod 2 ^ 32 =? 0 then 1616038327 else (h2 / 2 ^ 32) mod 2 ^ 32
    else h2 mod 2 ^ 32
  else h1 mod 2 ^ 32.

Lemma sig_of_hash_bounds h1 h2 : 0 < sig_of_hash h1 h2 < 2 ^ 32.
Proof.
  unfold sig_of_hash.
  pose proof (N.mod_upper_bound h1 (2^32)). pose proof (N.mod_upper_bound h2 (2^32)).
  pose proof (N.mod_upper_bound (h2 / 2^32) (2^32)).
  change (2 ^ 32) with 4294967296 in *.
  destruct (N.eqb_spec (h1 mod 4294967296) 0); [|lia].
  destruct (N.eqb_spec (h2 mod 4294967296) 0); [|lia].
  destruct (N.eqb_spec ((h2 / 4294967296) mod 4294967296) 0); lia.
Qed.

Lemma from_hash_arith h1 h2 :
  from_hash (h1, h2) = ((h1 / 2 ^ 48) mod 2 ^ 16) * 2 ^ 48 + ((h1 / 2 ^ 32) mod 2 ^ 16) * 2 ^ 32
                       + sig_of_hash h1 h2.
Proof.
  unfold from_hash.
  change 18446462598732840960 with (N.shiftl (N.ones 16) 48).
  change 281470681743360 with (N.shiftl (N.ones 16) 32).
  rewrite !land_high_mask.
  match goal with |- N.lor _ ?s = _ => replace s with (sig_of_hash h1 h2) end.
  2:{ unfold sig_of_hash, INVALID_SIG. rewrite !land32, !N.shiftr_div_pow2. reflexivity. }
  pose proof (sig_of_hash_bounds h1 h2).
  rewrite <- N.lor_assoc. rewrite !N.shiftr_div_pow2.
  pose proof (N.mod_upper_bound (h1 / 2 ^ 32) (2 ^ 16)).
  rewrite (lor_shiftl_add ((h1 / 2 ^ 32) mod 2 ^ 16) (sig_of_hash h1 h2) 32) by lia.
  rewrite lor_shiftl_add; [lia|].
  change (2 ^ 32) with 4294967296 in *. change (2^16) with 65536 in *.
  change (2 ^ 48) with 281474976710656. lia.
Qed.

Lemma ph_fields a b s :
  a < 2 ^ 16 -> b < 2 ^ 16 -> s < 2 ^ 32 ->
  let p := a * 2 ^ 48 + b * 2 ^ 32 + s in
  ph_selector p = a /\ ph_row p = N.to_nat (b mod 64) /\ ph_sig p = s /\ p < 2 ^ 64.
Proof.
  intros Ha Hb Hs p. unfold ph_selector, ph_row, ph_sig.
  rewrite !land16, land32, !N.shiftr_div_pow2.
  change (2 ^ 16) with 65536 in *. change (2 ^ 32) with 4294967296 in *.
  change (2 ^ 48) with 281474976710656 in *. change (2^64) with 18446744073709551616.
  change (N.of_nat NUM_ROWS) with 64.
  assert (p / 281474976710656 = a) as E1.
  { symmetry. apply (N.div_unique _ _ _ (b * 4294967296 + s)); lia. }
  assert (p / 4294967296 = a * 65536 + b) as E2.
  { symmetry. apply (N.div_unique _ _ _ s); lia. }
  assert (p mod 4294967296 = s) as E3.
  { symmetry. apply (N.mod_unique _ _ (a * 65536 + b)); lia. }
  rewrite E1, E2, E3.
  assert ((a * 65536 + b) mod 65536 = b) as E4.
  { symmetry. apply (N.mod_unique _ _ a); lia. }
  rewrite E4, N.mod_small by lia. repeat split; lia.
Qed.

Lemma from_hash_fields h1 h2 :
  ph_selector (from_hash (h1, h2)) = (h1 / 2 ^ 48) mod 2 ^ 16 /\
  ph_row (from_hash (h1, h2)) = N.to_nat ((h1 / 2 ^ 32) mod 2 ^ 16 mod 64) /\
  ph_sig (from_hash (h1, h2)) = sig_of_hash h1 h2 /\
  from_hash (h1, h2) < 2 ^ 64.
Proof.
  rewrite from_hash_arith. apply ph_fields.
  - apply N.mod_upper_bound. lia.
  - apply N.mod_upper_bound. lia.
  - apply sig_of_hash_bounds.
Qed.

Lemma hashk_sig cfg k : ph_sig (hashk cfg k) <> INVALID_SIG.
Proof.
  unfold hashk. destruct (c_hash cfg k) as [h1 h2].
  destruct (from_hash_fields h1 h2) as (_ & _ & -> & _).
  pose proof (sig_of_hash_bounds h1 h2). unfold INVALID_SIG. lia.
Qed.
Lemma hashk_sel cfg k : ph_selector (hashk cfg k) < 65536.
Proof.
  unfold hashk. destruct (c_hash cfg k) as [h1 h2].
  destruct (from_hash_fields h1 h2) as (-> & _).
  change 65536 with (2^16). apply N.mod_upper_bound. lia.
Qed.
Lemma ph_row_lt p : (ph_row p < NUM_ROWS)%nat.
Proof.
  unfold ph_row. pose proof (N.mod_upper_bound (N.land (N.shiftr p 32) 65535) (N.of_nat NUM_ROWS)).
  unfold NUM_ROWS in *. lia.
Qed.
Lemma hashk_bound cfg k : hashk cfg k < 2 ^ 64.
Proof.
  unfold hashk. destruct (c_hash cfg k) as [h1 h2].
  by destruct (from_hash_fields h1 h2) as (_ & _ & _ & ?).
Qed.

(** ** Descriptors *)
Lemma pack_desc_fields kl vl off :
  vl < 2 ^ 16 -> off < 2 ^ 32 ->
  desc_klen (pack_desc kl vl off) = kl /\
  desc_vlen (pack_desc kl vl off) = vl /\
  desc_off (pack_desc kl vl off) = off.
Proof.
  intros Hv Ho.
  assert (pack_desc kl vl off = kl * 2 ^ 48 + vl * 2 ^ 32 + off) as ->.
  { unfold pack_desc. rewrite <- N.lor_assoc.
    rewrite (lor_shiftl_add vl off 32) by done.
    rewrite lor_shiftl_add; [lia|].
    change (2 ^ 32) with 4294967296 in *. change (2^16) with 65536 in *.
    change (2 ^ 48) with 281474976710656. lia. }
  unfold desc_klen, desc_vlen, desc_off.
  rewrite land16, land32, !N.shiftr_div_pow2.
  set (p := kl * 2 ^ 48 + vl * 2 ^ 32 + off).
  change (2 ^ 16) with 65536 in *. change (2 ^ 32) with 4294967296 in *.
  change (2 ^ 48) with 281474976710656 in *.
  assert (p / 281474976710656 = kl) as ->.
  { symmetry. apply (N.div_unique _ _ _ (vl * 4294967296 + off)); lia. }
  assert (p / 4294967296 = kl * 65536 + vl) as ->.
  { symmetry. apply (N.div_unique _ _ _ off); lia. }
  assert (p mod 4294967296 = off) as ->.
  { symmetry. apply (N.mod_unique _ _ (kl * 65536 + vl)); lia. }
  repeat split. symmetry. apply (N.mod_unique _ _ kl); lia.
Qed.

(** [hashk] is not to be unfolded by unification (proof performance only). *)
Global Opaque hashk.
