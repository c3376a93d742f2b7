(** C14, C65: the floating-point computation of the pre-splitting step.

    Router.v computes the step with exact integer arithmetic; the code (router.rs:167-171) computes it in
    f64. Here the code's computation is written with IEEE 754 binary64 numbers (Flocq) and is proved to
    give the same result for every usize. *)
From Coq Require Import ZArith Reals Lra Lia Psatz.
From Flocq Require Import Core BinarySingleNaN.
From Verif Require Import Base Router.

(** ** The code *)
Definition f64 : Type := binary_float 53 1024.
#[local] Instance prec_f64 : Prec_gt_0 53 := eq_refl.
#[local] Instance emax_f64 : Prec_lt_emax 53 1024 := eq_refl.
(** [z as f64]: rounds to the nearest, ties to even. *)
Definition of_int (z : Z) : f64 := binary_normalize 53 1024 prec_f64 emax_f64 mode_NE z 0 false.
(** [x / y] *)
Definition fdiv (x y : f64) : f64 := Bdiv mode_NE x y.
(** [x.max(y)] of numbers that are not NaN. *)
Definition fmax (x y : f64) : f64 := if Bltb x y then y else x.
(** [x as u32]: towards zero, saturating; infinite values do not occur. *)
Definition to_u32 (x : f64) : N := Z.to_N (Z.min (Btrunc x) (2 ^ 32 - 1)).
(** [calc_step], router.rs:167-171; [ilog2] of 0 panics. *)
Definition calc_step_f64 (num_items : N) : res N :=
  let step := fdiv (of_int (Z.of_N END_OF_SHARDS)) (fmax (fdiv (of_int (Z.of_N num_items)) (of_int (Z.of_N EXPECTED_CAPACITY))) (of_int 1)) in
  if to_u32 step =? 0 then Err EPanic else Ok (2 ^ N.log2 (to_u32 step)).

(** ** Rounding *)
Open Scope R_scope.
Notation fx := (SpecFloat.fexp 53 1024).
Notation rnd := (round radix2 fx ZnearestE).
Notation fmt := (generic_format radix2 fx).

#[local] Instance valid_fx : Valid_exp fx := FLT_exp_valid (3 - 1024 - 53) 53.
Lemma IZR_pow2 (k : Z) : (0 <= k)%Z -> IZR (2 ^ k) = bpow radix2 k.
Proof. intros H. rewrite <- IZR_Zpower by exact H. reflexivity. Qed.
Lemma fmt_F2R (m e : Z) : (Z.abs m < 2 ^ 53)%Z -> (-1074 <= e)%Z -> fmt (IZR m * bpow radix2 e).
Proof.
  intros Hm He. apply (generic_format_FLT radix2 (3 - 1024 - 53) 53).
  refine (FLT_spec _ _ _ _ (Float radix2 m e) _ _ _); [reflexivity|cbn [Fnum]; exact Hm|cbn [Fexp]; exact He].
Qed.
Lemma fmt_int (z : Z) : (Z.abs z < 2 ^ 53)%Z -> fmt (IZR z).
Proof. intros H. rewrite <- (Rmult_1_r (IZR z)). change 1 with (bpow radix2 0). apply fmt_F2R; [exact H|lia]. Qed.
Lemma fmt_pow2 (k : Z) : (0 <= k)%Z -> fmt (IZR (2 ^ k)).
Proof. intros H. rewrite IZR_pow2 by exact H. rewrite <- (Rmult_1_l (bpow radix2 k)). apply (fmt_F2R 1); lia. Qed.
Lemma rnd_le (x y : R) : x <= y -> fmt y -> rnd x <= y.
Proof. intros H Hy. apply round_le_generic; [exact valid_fx|apply valid_rnd_N|exact Hy|exact H]. Qed.
Lemma rnd_ge (x y : R) : y <= x -> fmt y -> y <= rnd x.
Proof. intros H Hy. apply round_ge_generic; [exact valid_fx|apply valid_rnd_N|exact Hy|exact H]. Qed.
Lemma rnd_id (x : R) : fmt x -> rnd x = x.
Proof. intros H. apply round_generic; [apply valid_rnd_N|exact H]. Qed.

Lemma big_bound (x : R) : 0 <= x <= IZR (2 ^ 64) -> 0 <= rnd x <= IZR (2 ^ 64).
Proof.
  assert (fmt (IZR (2 ^ 64))) as H64 by (apply fmt_pow2; lia).
  intros [H1 H2]. split; [apply rnd_ge; [exact H1|apply (fmt_int 0); lia]|apply rnd_le; [exact H2|exact H64]].
Qed.
Lemma no_overflow (x : R) : 0 <= x <= IZR (2 ^ 64) -> Rlt_bool (Rabs (rnd x)) (bpow radix2 1024) = true.
Proof.
  intros H. apply big_bound in H. apply Rlt_bool_true. rewrite Rabs_pos_eq by lra.
  apply Rle_lt_trans with (IZR (2 ^ 64)); [lra|]. rewrite IZR_pow2 by lia. apply bpow_lt. lia.
Qed.
Lemma of_int_ok (z : Z) : (0 <= z < 2 ^ 64)%Z -> B2R (of_int z) = rnd (IZR z) /\ is_finite (of_int z) = true.
Proof.
  intros Hz. pose proof (binary_normalize_correct 53 1024 prec_f64 emax_f64 mode_NE z 0 false) as H. cbv zeta in H.
  assert (F2R (Float radix2 z 0) = IZR z) as E by (unfold F2R; cbn; ring). rewrite E in H. cbn [round_mode] in H.
  rewrite no_overflow in H; [destruct H as (H1 & H2 & _); split; assumption|].
  split; apply IZR_le; lia.
Qed.
Lemma fdiv_ok (x y : f64) : is_finite x = true -> B2R y <> 0 -> 0 <= B2R x / B2R y <= IZR (2 ^ 64) ->
  B2R (fdiv x y) = rnd (B2R x / B2R y) /\ is_finite (fdiv x y) = true.
Proof.
  intros Hx Hy Hb. pose proof (Bdiv_correct 53 1024 prec_f64 emax_f64 mode_NE x y Hy) as H. cbn [round_mode] in H.
  rewrite no_overflow in H by exact Hb. destruct H as (H1 & H2 & _). rewrite Hx in H2. split; assumption.
Qed.
Lemma fmax_ok (x y : f64) : is_finite x = true -> is_finite y = true -> B2R (fmax x y) = Rmax (B2R x) (B2R y) /\ is_finite (fmax x y) = true.
Proof.
  intros Hx Hy. unfold fmax. rewrite Bltb_correct by assumption.
  destruct (Rlt_bool_spec (B2R x) (B2R y)); (split; [|assumption]).
  - rewrite Rmax_right by lra. reflexivity.
  - rewrite Rmax_left by lra. reflexivity.
Qed.

(** ** The comparisons come out right *)

Lemma bpow52 : bpow radix2 (-52) = / 4503599627370496.
Proof. reflexivity. Qed.
Lemma bpow53 : bpow radix2 (-53) = / 9007199254740992.
Proof. reflexivity. Qed.

Lemma div_le (a b c : R) : 0 < b -> a <= c * b -> a / b <= c.
Proof. intros Hb H. apply Rmult_le_reg_r with b; [exact Hb|]. replace (a / b * b) with a by (field; lra). exact H. Qed.
Lemma div_ge (a b c : R) : 0 < b -> c * b <= a -> c <= a / b.
Proof. intros Hb H. apply Rmult_le_reg_r with b; [exact Hb|]. replace (a / b * b) with a by (field; lra). exact H. Qed.

Section step.
  Context (n : Z) (Hn : (0 <= n < 2 ^ 64)%Z).
  Definition quot : R := rnd (rnd (IZR n) / 29491).
  Definition step : R := rnd (65536 / Rmax quot 1).

  Lemma quot_nonneg : 0 <= quot <= IZR (2 ^ 64).
  Proof.
    apply big_bound. assert (0 <= rnd (IZR n) <= IZR (2 ^ 64)) by (apply big_bound; split; apply IZR_le; lia). lra.
  Qed.
  Lemma step_f64_ok : let x := fdiv (of_int 65536) (fmax (fdiv (of_int n) (of_int 29491)) (of_int 1)) in
    B2R x = step /\ is_finite x = true.
  Proof.
    cbv zeta. pose proof quot_nonneg as Hq.
    destruct (of_int_ok n Hn) as [A1 A2]. destruct (of_int_ok 29491 ltac:(lia)) as [B1 B2]. destruct (of_int_ok 1 ltac:(lia)) as [C1 C2].
    destruct (of_int_ok 65536 ltac:(lia)) as [D1 D2].
    rewrite rnd_id in B1 by (apply fmt_int; lia). rewrite rnd_id in C1 by (apply fmt_int; lia). rewrite rnd_id in D1 by (apply fmt_int; lia).
    assert (0 <= rnd (IZR n) <= IZR (2 ^ 64)) as Ha by (apply big_bound; split; apply IZR_le; lia).
    destruct (fdiv_ok (of_int n) (of_int 29491)) as [E1 E2]; [exact A2|rewrite B1; lra|rewrite A1, B1; lra|].
    rewrite A1, B1 in E1. fold quot in E1. destruct (fmax_ok _ _ E2 C2) as [F1 F2]. rewrite E1, C1 in F1.
    assert (1 <= Rmax quot 1) as Hm by apply Rmax_r.
    destruct (fdiv_ok (of_int 65536) (fmax (fdiv (of_int n) (of_int 29491)) (of_int 1))) as [G1 G2].
    - exact D2.
    - rewrite F1. lra.
    - rewrite D1, F1. split; [apply Rmult_le_pos; [lra|left; apply Rinv_0_lt_compat; lra]|].
      apply Rle_trans with 65536; [|apply IZR_le; lia]. apply div_le; [lra|]. nra.
    - rewrite D1, F1 in G1. split; assumption.
  Qed.
  Lemma step_le : 0 <= step <= 65536.
  Proof.
    assert (1 <= Rmax quot 1) as Hm by apply Rmax_r. split.
    - apply rnd_ge; [|apply (fmt_int 0); lia]. apply Rmult_le_pos; [lra|left; apply Rinv_0_lt_compat; lra].
    - apply rnd_le; [|apply fmt_int; lia]. apply div_le; [lra|]. nra.
  Qed.

  (** The step is at least 2^k exactly if the capacity of 2^(16-k) shards suffices. *)
  Lemma step_ge (k : Z) : (0 <= k <= 16)%Z -> (bpow radix2 k <= step <-> (n <= 29491 * 2 ^ (16 - k))%Z).
  Proof.
    intros Hk. set (j := (16 - k)%Z). assert (0 <= j <= 16)%Z as Hj by (unfold j; lia).
    assert (0 < 2 ^ j <= 65536)%Z as Hp.
    { split; [apply Z.pow_pos_nonneg; lia|]. change 65536%Z with (2 ^ 16)%Z. apply Z.pow_le_mono_r; lia. }
    assert (bpow radix2 k * bpow radix2 j = 65536) as Hkj.
    { rewrite <- bpow_plus. unfold j. replace (k + (16 - k))%Z with 16%Z by lia. reflexivity. }
    assert (IZR (2 ^ j) = bpow radix2 j) as Ej by (apply IZR_pow2; lia).
    assert (1 <= bpow radix2 j) as Hj1 by (rewrite <- Ej; apply IZR_le; lia).
    assert (0 < bpow radix2 k) as Hk0 by apply bpow_gt_0.
    assert (1 <= Rmax quot 1) as Hm by apply Rmax_r. split.
    - intros Hs. destruct (Z.le_gt_cases n (29491 * 2 ^ j)) as [|Hlt]; [assumption|exfalso].
      set (m := (29491 * 2 ^ j)%Z) in *.
      (* the quotient is at least the next number after 2^j *)
      set (e := bpow radix2 (-52)). set (d := bpow radix2 (-53)).
      assert (e = 2 * d) as Hed by (unfold e, d; rewrite bpow52, bpow53; lra). assert (0 < d < /1000) as Hd by (unfold d; rewrite bpow53; lra).
      assert (bpow radix2 j * (1 + e) <= quot) as Hq.
      { apply rnd_ge.
        - assert (IZR (m + 1) <= rnd (IZR n)) as Ha.
          { apply rnd_ge; [apply IZR_le; lia|apply fmt_int; unfold m; lia]. }
          rewrite plus_IZR in Ha. unfold m in Ha. rewrite mult_IZR, Ej in Ha.
          assert (29491 * (bpow radix2 j * e) <= 1) as Hs1.
          { assert (bpow radix2 j <= 65536) as Hj2 by (rewrite <- Ej; apply IZR_le; lia).
            assert (e <= / 1099511627776) as He by (unfold e; rewrite bpow52; lra). nra. }
          apply div_ge; [lra|]. nra.
        - replace (bpow radix2 j * (1 + e)) with (IZR (2 ^ 52 + 1) * bpow radix2 (j - 52)).
          + apply fmt_F2R; lia.
          + rewrite plus_IZR, (IZR_pow2 52) by lia. change (j - 52)%Z with (j + (-52))%Z. rewrite bpow_plus. fold e.
            replace ((bpow radix2 52 + 1) * (bpow radix2 j * e)) with (bpow radix2 j * (bpow radix2 52 * e + e)) by ring.
            replace (bpow radix2 52 * e) with 1; [ring|]. unfold e. rewrite <- bpow_plus. reflexivity. }
      assert (step <= bpow radix2 k * (1 - d)) as Hs2.
      { apply rnd_le.
        - assert (bpow radix2 j * (1 + e) <= Rmax quot 1) as Hq2 by (apply Rle_trans with quot; [exact Hq|apply Rmax_l]).
          apply div_le; [lra|].
          apply Rle_trans with (bpow radix2 k * (1 - d) * (bpow radix2 j * (1 + e))).
          + replace (bpow radix2 k * (1 - d) * (bpow radix2 j * (1 + e))) with (bpow radix2 k * bpow radix2 j * ((1 - d) * (1 + e))) by ring.
            rewrite Hkj. rewrite Hed. nra.
          + apply Rmult_le_compat_l; [|exact Hq2]. apply Rmult_le_pos; lra.
        - replace (bpow radix2 k * (1 - d)) with (IZR (2 ^ 53 - 1) * bpow radix2 (k - 53)).
          + apply fmt_F2R; lia.
          + rewrite minus_IZR, (IZR_pow2 53) by lia. change (k - 53)%Z with (k + (-53))%Z. rewrite bpow_plus. fold d.
            replace ((bpow radix2 53 - 1) * (bpow radix2 k * d)) with (bpow radix2 k * (bpow radix2 53 * d - d)) by ring.
            replace (bpow radix2 53 * d) with 1; [ring|]. unfold d. rewrite <- bpow_plus. reflexivity. }
      nra.
    - intros Hle. set (m := (29491 * 2 ^ j)%Z) in *.
      assert (quot <= bpow radix2 j) as Hq.
      { apply rnd_le.
        - assert (rnd (IZR n) <= IZR m) as Ha by (apply rnd_le; [apply IZR_le; exact Hle|apply fmt_int; unfold m; lia]).
          unfold m in Ha. rewrite mult_IZR, Ej in Ha. lra.
        - replace (bpow radix2 j) with (IZR 1 * bpow radix2 j) by ring. apply fmt_F2R; lia. }
      assert (Rmax quot 1 <= bpow radix2 j) as Hq2 by (apply Rmax_lub; assumption).
      apply rnd_ge.
      + apply div_ge; [lra|]. rewrite <- Hkj.
        apply Rmult_le_compat_l; lra.
      + replace (bpow radix2 k) with (IZR 1 * bpow radix2 k) by ring. apply fmt_F2R; lia.
  Qed.
End step.
Close Scope R_scope.

(** ** The two computations agree *)
Lemma log2_same (a b : N) : a < 2 ^ 17 -> b < 2 ^ 17 -> (forall k, k <= 16 -> 2 ^ k <= a <-> 2 ^ k <= b) ->
  (a = 0 <-> b = 0) /\ N.log2 a = N.log2 b.
Proof.
  intros Ha Hb H. assert (a = 0 <-> b = 0) as H0.
  { specialize (H 0 ltac:(lia)). change (2 ^ 0) with 1 in H. lia. }
  split; [exact H0|]. destruct (N.eq_0_gt_0_cases a) as [->|Hpa]; [rewrite (proj1 H0 eq_refl); reflexivity|].
  assert (0 < b) as Hpb by lia.
  assert (forall c d, 0 < c -> 0 < d -> c < 2 ^ 17 -> (forall k, k <= 16 -> 2 ^ k <= c -> 2 ^ k <= d) -> N.log2 c <= N.log2 d) as G.
  { intros c d Hc Hd Hc17 Hk. apply N.log2_le_pow2; [exact Hd|]. apply Hk.
    - apply N.log2_lt_pow2 in Hc17; [lia|exact Hc].
    - apply N.log2_spec. exact Hc. }
  apply N.le_antisymm; apply G; try assumption; intros k Hk; apply (H k Hk).
Qed.

(** The f64 computation of the code gives, for every usize, exactly the step of the model: also where the
    quotients are rounded. *)
Theorem C14_step_in_floating_point : forall num_items, num_items < 2 ^ 64 -> calc_step_f64 num_items = calc_step num_items.
Proof.
  intros n Hn. assert (0 <= Z.of_N n < 2 ^ 64)%Z as Hz by (change (2 ^ 64)%Z with (Z.of_N (2 ^ 64)); lia).
  destruct (step_f64_ok (Z.of_N n) Hz) as [Hs _]. cbv zeta in Hs.
  unfold calc_step_f64, calc_step. change (Z.of_N END_OF_SHARDS) with 65536%Z. change (Z.of_N EXPECTED_CAPACITY) with 29491%Z.
  set (y := fdiv _ _) in *. clearbody y. cbv zeta.
  pose proof (step_le (Z.of_N n)) as [S1 S2]. set (st := step (Z.of_N n)) in *.
  assert (Btrunc y = Zfloor st) as Ht.
  { apply eq_IZR. rewrite (Btrunc_correct 53 1024 emax_f64 y), Hs. rewrite (round_FIX_IZR Ztrunc). f_equal. apply Ztrunc_floor. exact S1. }
  assert (0 <= Zfloor st <= 65536)%Z as Hf.
  { split; [apply Zfloor_lub; exact S1|]. apply le_IZR. apply Rle_trans with st; [apply Zfloor_lb|exact S2]. }
  assert (to_u32 y = Z.to_N (Zfloor st)) as Et.
  { unfold to_u32. rewrite Ht, Z.min_l; [reflexivity|lia]. }
  rewrite Et. set (t := Z.to_N (Zfloor st)). set (q := if n <=? EXPECTED_CAPACITY then _ else _).
  assert (forall k, k <= 16 -> 2 ^ k <= t <-> 2 ^ k <= q) as H.
  { intros k Hk. assert (2 ^ k <= t <-> (Z.of_N n <= 29491 * 2 ^ (16 - Z.of_N k))%Z) as ->.
    { rewrite <- (step_ge (Z.of_N n) Hz (Z.of_N k) ltac:(lia)). fold st. rewrite <- IZR_pow2 by lia. unfold t. split.
      - intros Hle. apply Rle_trans with (IZR (Zfloor st)); [apply IZR_le|apply Zfloor_lb]. change 2%Z with (Z.of_N 2). rewrite <- N2Z.inj_pow. lia.
      - intros Hle. apply Zfloor_lub in Hle. change 2%Z with (Z.of_N 2) in Hle. rewrite <- N2Z.inj_pow in Hle. lia. }
    assert (2 ^ k * 2 ^ (16 - k) = 65536) as Hkj.
    { rewrite <- N.pow_add_r. replace (k + (16 - k)) with 16 by lia. reflexivity. }
    assert ((Z.of_N n <= 29491 * 2 ^ (16 - Z.of_N k))%Z <-> n <= 29491 * 2 ^ (16 - k)) as ->.
    { replace (29491 * 2 ^ (16 - Z.of_N k))%Z with (Z.of_N (29491 * 2 ^ (16 - k))); [lia|].
      rewrite N2Z.inj_mul, N2Z.inj_pow, N2Z.inj_sub by exact Hk. reflexivity. }
    assert (0 < 2 ^ k) as Hk0 by (apply N.neq_0_lt_0, N.pow_nonzero; lia).
    assert (0 < 2 ^ (16 - k)) as Hj0 by (apply N.neq_0_lt_0, N.pow_nonzero; lia).
    unfold q, END_OF_SHARDS, EXPECTED_CAPACITY in *. destruct (N.leb_spec n 29491) as [Hc|Hc].
    - change (2 ^ 16) with 65536. split; intros _; nia.
    - change (2 ^ 16) with 65536. split; intros Hle.
      + apply N.div_le_lower_bound; [lia|]. nia.
      + pose proof (N.mul_div_le (65536 * 29491) n ltac:(lia)) as Hd.
        assert (n * 2 ^ k <= 65536 * 29491) as Hle2 by nia. nia. }
  destruct (log2_same t q) as [H0 Hl].
  - unfold t. change (2 ^ 17) with 131072. lia.
  - unfold q, END_OF_SHARDS, EXPECTED_CAPACITY. change (2 ^ 16) with 65536. change (2 ^ 17) with 131072. destruct (N.leb_spec n 29491); [lia|].
    apply N.le_lt_trans with 65536; [|lia]. apply N.div_le_upper_bound; lia.
  - exact H.
  - rewrite Hl. destruct (N.eqb_spec t 0) as [E|E], (N.eqb_spec q 0) as [E'|E']; [reflexivity|tauto|tauto|reflexivity].
Qed.

(** At, just above and far above the boundaries. *)
Example C14_float_example : map calc_step_f64 [0; 29491; 29492; 1932722175; 1932722176; 1932722177; 2 ^ 53 + 1; 2 ^ 64 - 1] =
  [Ok 65536; Ok 65536; Ok 32768; Ok 1; Ok 1; Err EPanic; Err EPanic; Err EPanic].
Proof. vm_compute. reflexivity. Qed.
