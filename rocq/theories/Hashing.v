(** [src/hashing.rs]: the 64-bit parted hash. *)
From Verif Require Import Base SipHash.

Definition INVALID_SIG : N := 0. (* hashing.rs:25 *)

(** A [PartedHash] is a u64. *)
Definition phash := N.

(** hashing.rs:41-43 *)
Definition ph_selector (p : phash) : N := N.land (N.shiftr p 48) 65535.
(** hashing.rs:46-48, as a row index *)
Definition ph_row (p : phash) : nat :=
  N.to_nat (N.land (N.shiftr p 32) 65535 mod N.of_nat NUM_ROWS).
(** hashing.rs:51-53 *)
Definition ph_sig (p : phash) : N := N.land p 4294967295.

(** hashing.rs:60-79 (without the [whitebox_testing] feature). [h] is the pair of
    u64 halves (h1, h2) of the 128-bit hash. *)
Definition from_hash (h : N * N) : phash :=
  let '(h1, h2) := h in
  let sig := N.land h1 4294967295 in
  let sig := if sig =? INVALID_SIG then
               let sig := N.land h2 4294967295 in
               if sig =? INVALID_SIG then
                 let sig := N.land (N.shiftr h2 32) 4294967295 in
                 if sig =? INVALID_SIG then 1616038327 (* 0x6052_c9b7 *) else sig
               else sig
             else sig in
  let shard := N.land h1 18446462598732840960 (* 0xffff_0000_0000_0000 *) in
  let row := N.land h1 281470681743360 (* 0x0000_ffff_0000_0000 *) in
  N.lor (N.lor shard row) sig.

(** The test vector of hashing.rs:86-87. *)
Definition ascii_bytes (s : list N) : bytes := map byte_of_N s.
Definition seed_aabbccdd : bytes :=
  ascii_bytes [97;97;97;97;98;98;98;98;99;99;99;99;100;100;100;100].
Definition hello_world : bytes :=
  ascii_bytes [104;101;108;108;111;32;119;111;114;108;100].
Example parted_hash_test_vector :
  from_hash (siphash128 seed_aabbccdd hello_world) = 13445180190757400308.
Proof. vm_compute. reflexivity. Qed.
