(** Base definitions shared by the whole model: bytes, results, constants,
    little-endian integers. *)
From Coq Require Export Init.Byte.
From Coq Require Export NArith Lia ZifyBool ZifyNat ZifyN.
From stdpp Require Export base decidable numbers option gmap countable list.
Global Open Scope N_scope.
Global Set Default Goal Selector "!".

(** [lia] compares all propositions of the context up to conversion, which can be very slow
    here; drop the ones that are not arithmetic first. *)
Ltac arith_prop T :=
  lazymatch T with
  | @eq N _ _ => idtac | @eq nat _ _ => idtac | @eq Z _ _ => idtac | @eq bool _ _ => idtac
  | N.lt _ _ => idtac | N.le _ _ => idtac | N.gt _ _ => idtac | N.ge _ _ => idtac
  | Z.lt _ _ => idtac | Z.le _ _ => idtac | Z.gt _ _ => idtac | Z.ge _ _ => idtac
  | lt _ _ => idtac | le _ _ => idtac | gt _ _ => idtac | ge _ _ => idtac
  | ?A /\ ?B => arith_prop A; arith_prop B
  | ?A \/ ?B => arith_prop A; arith_prop B
  | ?A <-> ?B => arith_prop A; arith_prop B
  | ~ ?A => arith_prop A
  | False => idtac | True => idtac
  end.
Ltac arith_only :=
  repeat match goal with
  | H : ?T |- _ =>
    lazymatch type of T with Prop => tryif arith_prop T then fail else clear H end
  end.
Ltac lia := first [ solve [arith_only; Lia.lia] | Lia.lia ].

(** [Vec<u8>] / [&[u8]] everywhere in the code. *)
Definition bytes := list byte.
Notation kv := (bytes * bytes)%type.

Global Instance byte_eq_dec : EqDecision byte := Byte.byte_eq_dec.
Global Program Instance byte_countable : Countable byte :=
  inj_countable Byte.to_N Byte.of_N _.
Next Obligation. apply Byte.of_to_N. Qed.

(** Errors. [src/lib.rs:68-73] plus the other ways a call can end:
    an I/O error, a panic (failed assertion, arithmetic overflow, unwrap),
    a deadlock, or running forever (fuel exhausted in the model). *)
Inductive err :=
| EKeyTooLong (n : N)
| EValueTooLong (n : N)
| ECannotFit (n max : N)
| EBadMagic          (* shard.rs:383-388 *)
| ECorruptSize       (* shard.rs:397 *)
| EBadSpan           (* router.rs:136-139 *)
| EBadArgument       (* router.rs:460 *)
| EDecode            (* typed.rs:45-47 *)
| EIo
| EPanic
| EDeadlock
| EHang.

Global Instance err_eq_dec : EqDecision err.
Proof. solve_decision. Defined.

Inductive res (A : Type) := Ok (a : A) | Err (e : err).
Global Arguments Ok {_} _.
Global Arguments Err {_} _.

Global Instance res_eq_dec {A} `{EqDecision A} : EqDecision (res A).
Proof. solve_decision. Defined.

Definition rbind {A B} (x : res A) (f : A -> res B) : res B :=
  match x with Ok a => f a | Err e => Err e end.
Notation "'dor' x <- a ; b" := (rbind a (fun x => b))
  (at level 200, x pattern, a at level 100, b at level 200, right associativity).

Definition len {A} (l : list A) : N := N.of_nat (length l).

(** Constants: [src/shard.rs:36-37,100-101,121,352], [src/router.rs:79], [src/lib.rs:136-141]. *)
Definition NUM_ROWS : nat := 64.
Definition ROW_WIDTH : nat := 512.
Definition HEADER_SIZE : N := 397312. (* 4096 + 64 * (512*4 + 512*8) *)
Definition SHARD_FILE_MAGIC : bytes :=
  [x43; x61; x6e; x64; x79; x53; x74; x72]. (* "CandyStr" *)
Definition SHARD_FILE_VERSION : N := 11.
Definition EXPECTED_CAPACITY : N := 29491. (* (64*512*9)/10 *)
Definition END_OF_SHARDS : N := 65536.
Definition MAX_TOTAL_KEY_SIZE : N := 16383.   (* 0x3fff *)
Definition MAX_TOTAL_VALUE_SIZE : N := 65535. (* 0xffff *)
Definition MAX_KEY_SIZE : N := 16128.         (* 0x3fff - 0xff *)
Definition MAX_VALUE_SIZE : N := 65280.       (* 0xffff - 0xff *)

Example const_checks :
  HEADER_SIZE = 4096 + 64 * (512 * 4 + 512 * 8) /\
  EXPECTED_CAPACITY = (64 * 512 * 9) / 10 /\
  N.of_nat NUM_ROWS = 64 /\ N.of_nat ROW_WIDTH = 512 /\
  MAX_KEY_SIZE = MAX_TOTAL_KEY_SIZE - 255 /\ MAX_VALUE_SIZE = MAX_TOTAL_VALUE_SIZE - 255.
Proof. vm_compute. repeat split. Qed.

(** Namespaces: [src/store.rs:22-28]. *)
Definition USER_NS : byte := x01.
Definition TYPED_NS : byte := x02.
Definition LIST_NS : byte := x03.
Definition ITEM_NS : byte := x04.
Definition CHAIN_NS : byte := x05.
Definition QUEUE_NS : byte := x06.
Definition QITEM_NS : byte := x07.

(** [u64::to_le_bytes] / bytemuck's [bytes_of] of n little-endian bytes, and back. *)
Definition byte_of_N (n : N) : byte := default x00 (Byte.of_N (n mod 256)).

Fixpoint le_bytes (cnt : nat) (n : N) : bytes :=
  match cnt with
  | O => []
  | S c => byte_of_N n :: le_bytes c (n / 256)
  end.

Fixpoint le_N (l : bytes) : N :=
  match l with
  | [] => 0
  | b :: l => Byte.to_N b + 256 * le_N l
  end.

Definition u64_bytes (n : N) : bytes := le_bytes 8 n.
Definition u32_bytes (n : N) : bytes := le_bytes 4 n.

(** [slice.ends_with(suffix)]. *)
Definition ends_with (s suffix : bytes) : bool :=
  (length suffix <=? length s)%nat &&
  bool_decide (drop (length s - length suffix) s = suffix).

(** [v.truncate(v.len() - n)] and the removed part; underflow is a panic in the code. *)
Definition cut_tail (n : nat) (s : bytes) : res (bytes * bytes) :=
  if (n <=? length s)%nat
  then Ok (take (length s - n) s, drop (length s - n) s)
  else Err EPanic.

(** ** Lemmas *)
Lemma byte_of_N_to_N b : byte_of_N (Byte.to_N b) = b.
Proof.
  unfold byte_of_N. rewrite N.mod_small.
  - by rewrite Byte.of_to_N.
  - pose proof (Byte.to_N_bounded b). lia.
Qed.

Lemma to_N_byte_of_N n : Byte.to_N (byte_of_N n) = n mod 256.
Proof.
  unfold byte_of_N.
  destruct (Byte.of_N (n mod 256)) as [b|] eqn:E.
  - simpl. by apply Byte.to_of_N in E.
  - apply Byte.of_N_None_iff in E.
    pose proof (N.mod_upper_bound n 256). lia.
Qed.

Lemma le_bytes_length c n : length (le_bytes c n) = c.
Proof. revert n; induction c; intros; simpl; auto. Qed.

Lemma le_N_le_bytes c n : n < 256 ^ N.of_nat c -> le_N (le_bytes c n) = n.
Proof.
  revert n; induction c as [|c IH]; intros n Hn.
  - simpl in *. change (256 ^ 0) with 1 in Hn. lia.
  - cbn [le_bytes le_N]. rewrite to_N_byte_of_N.
    rewrite Nat2N.inj_succ, N.pow_succ_r in Hn by lia.
    rewrite IH.
    + pose proof (N.div_mod n 256). lia.
    + apply N.div_lt_upper_bound; lia.
Qed.

Lemma le_bytes_le_N l : le_bytes (length l) (le_N l) = l.
Proof.
  induction l as [|b l IH]; [done|].
  cbn [le_bytes le_N length].
  pose proof (Byte.to_N_bounded b).
  f_equal.
  - rewrite <- (byte_of_N_to_N b) at 2. unfold byte_of_N. f_equal. f_equal.
    rewrite N.mul_comm, N.mod_add by lia. done.
  - rewrite N.mul_comm, N.div_add by lia.
    rewrite N.div_small by lia. rewrite N.add_0_l. done.
Qed.

Lemma le_bytes_inj c a b :
  a < 256 ^ N.of_nat c -> b < 256 ^ N.of_nat c -> le_bytes c a = le_bytes c b -> a = b.
Proof.
  intros Ha Hb E. rewrite <- (le_N_le_bytes c a), <- (le_N_le_bytes c b) by done.
  by rewrite E.
Qed.

Lemma le_N_bound l : le_N l < 256 ^ len l.
Proof.
  unfold len. induction l as [|b l IH]; [done|].
  cbn [le_N length]. rewrite Nat2N.inj_succ, N.pow_succ_r by lia.
  pose proof (Byte.to_N_bounded b). lia.
Qed.

Lemma ends_with_spec s suf : ends_with s suf = true <-> exists p, s = p ++ suf.
Proof.
  unfold ends_with. rewrite andb_true_iff, bool_decide_eq_true, Nat.leb_le. split.
  - intros [Hl E]. exists (take (length s - length suf) s).
    transitivity (take (length s - length suf) s ++ drop (length s - length suf) s);
      [by rewrite take_drop | by rewrite E].
  - intros [p ->]. rewrite app_length. split; [lia|].
    replace (length p + length suf - length suf)%nat with (length p) by lia.
    by rewrite drop_app.
Qed.

Lemma ends_with_app p s : ends_with (p ++ s) s = true.
Proof. apply ends_with_spec. by exists p. Qed.

Lemma cut_tail_app p s : cut_tail (length s) (p ++ s) = Ok (p, s).
Proof.
  unfold cut_tail. rewrite app_length.
  destruct (Nat.leb_spec (length s) (length p + length s)); [|lia].
  replace (length p + length s - length s)%nat with (length p) by lia.
  by rewrite take_app, drop_app.
Qed.

Lemma len_nil {A} : len (@nil A) = 0.
Proof. done. Qed.
Lemma len_app {A} (a b : list A) : len (a ++ b) = len a + len b.
Proof. unfold len. rewrite app_length. lia. Qed.
Lemma len_cons {A} (x : A) a : len (x :: a) = 1 + len a.
Proof. unfold len. simpl. lia. Qed.
