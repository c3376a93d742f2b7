(** Arithmetic of shifts, masks and disjoint [lor] on N. *)
From Verif Require Import Base.

Lemma testbit_small b n m : b < 2 ^ n -> n <= m -> N.testbit b m = false.
Proof.
  intros Hb Hm. rewrite <- (N.mod_small b (2 ^ n)) by done.
  by apply N.mod_pow2_bits_high.
Qed.

Lemma land_shiftl_small a b n : b < 2 ^ n -> N.land (N.shiftl a n) b = 0.
Proof.
  intros Hb. apply N.bits_inj. intros m. rewrite N.land_spec, N.bits_0.
  destruct (N.lt_ge_cases m n) as [Hm|Hm].
  - by rewrite N.shiftl_spec_low.
  - rewrite (testbit_small b n m) by done. apply andb_false_r.
Qed.

Lemma lor_shiftl_add a b n : b < 2 ^ n -> N.lor (N.shiftl a n) b = a * 2 ^ n + b.
Proof.
  intros Hb. rewrite <- N.lxor_lor by by apply land_shiftl_small.
  rewrite <- N.add_nocarry_lxor by by apply land_shiftl_small.
  by rewrite N.shiftl_mul_pow2.
Qed.

Lemma land_ones_mod a n : N.land a (N.ones n) = a mod 2 ^ n.
Proof. apply N.land_ones. Qed.

Lemma land16 a : N.land a 65535 = a mod 65536.
Proof. change 65535 with (N.ones 16). by rewrite N.land_ones. Qed.
Lemma land32 a : N.land a 4294967295 = a mod 4294967296.
Proof. change 4294967295 with (N.ones 32). by rewrite N.land_ones. Qed.

Lemma shiftr_lor a b n : N.shiftr (N.lor a b) n = N.lor (N.shiftr a n) (N.shiftr b n).
Proof. apply N.shiftr_lor. Qed.

(** A mask of the form 2^(n+m) - 2^n keeps the bits n .. n+m-1. *)
Lemma land_high_mask a n m : N.land a (N.shiftl (N.ones m) n) = N.shiftl (N.shiftr a n mod 2 ^ m) n.
Proof.
  rewrite <- N.land_ones. apply N.bits_inj. intros i. rewrite N.land_spec.
  destruct (N.lt_ge_cases i n) as [Hi|Hi].
  - rewrite !N.shiftl_spec_low by done. apply andb_false_r.
  - rewrite !N.shiftl_spec_high' by done. rewrite N.land_spec, N.shiftr_spec'.
    by replace (i - n + n) with i by lia.
Qed.
