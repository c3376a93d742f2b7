(** SipHash-2-4 with 128-bit output, as in the [siphasher] crate's
    [sip128::SipHasher24] used by [src/hashing.rs:31-33].  Only used as a concrete
    instance in examples and refutations: every general theorem quantifies over
    an arbitrary hash function. *)
From Verif Require Import Base.

Definition w64 (n : N) : N := N.land n 18446744073709551615.
Definition add64 (a b : N) : N := w64 (a + b).
Definition rotl64 (a : N) (r : N) : N :=
  w64 (N.lor (N.shiftl a r) (N.shiftr a (64 - r))).

Definition sipstate := (N * N * N * N)%type.

Definition sipround (st : sipstate) : sipstate :=
  let '(v0, v1, v2, v3) := st in
  let v0 := add64 v0 v1 in
  let v1 := rotl64 v1 13 in
  let v1 := N.lxor v1 v0 in
  let v0 := rotl64 v0 32 in
  let v2 := add64 v2 v3 in
  let v3 := rotl64 v3 16 in
  let v3 := N.lxor v3 v2 in
  let v0 := add64 v0 v3 in
  let v3 := rotl64 v3 21 in
  let v3 := N.lxor v3 v0 in
  let v2 := add64 v2 v1 in
  let v1 := rotl64 v1 17 in
  let v1 := N.lxor v1 v2 in
  let v2 := rotl64 v2 32 in
  (v0, v1, v2, v3).

Definition sip_block (m : N) (st : sipstate) : sipstate :=
  let '(v0, v1, v2, v3) := st in
  let '(v0, v1, v2, v3) := sipround (sipround (v0, v1, v2, N.lxor v3 m)) in
  (N.lxor v0 m, v1, v2, v3).

Fixpoint sip_blocks (fuel : nat) (l : bytes) (st : sipstate) : sipstate * bytes :=
  match fuel with
  | O => (st, l)
  | S f =>
    if (8 <=? length l)%nat
    then sip_blocks f (drop 8 l) (sip_block (le_N (take 8 l)) st)
    else (st, l)
  end.

Definition siphash128 (seed : bytes) (l : bytes) : N * N :=
  let k0 := le_N (take 8 seed) in
  let k1 := le_N (drop 8 seed) in
  let st := (N.lxor k0 8317987319222330741,
             N.lxor (N.lxor k1 7237128888997146477) 238,
             N.lxor k0 7816392313619706465,
             N.lxor k1 8387220255154660723) in
  let '(st, rest) := sip_blocks (length l) l st in
  let b := N.lor (N.shiftl (len l mod 256) 56) (le_N rest) in
  let '(v0, v1, v2, v3) := sip_block b st in
  let st := (v0, v1, N.lxor v2 238, v3) in
  let '(v0, v1, v2, v3) := sipround (sipround (sipround (sipround st))) in
  let h1 := N.lxor (N.lxor v0 v1) (N.lxor v2 v3) in
  let st := (v0, N.lxor v1 221, v2, v3) in
  let '(v0, v1, v2, v3) := sipround (sipround (sipround (sipround st))) in
  let h2 := N.lxor (N.lxor v0 v1) (N.lxor v2 v3) in
  (h1, h2).
