(** C50: 128-bit blocks. *)
From Coq Require Import ZArith List Bool Arith.
From Verif Require Import Spec.Aes Model.Base Model.Block Proofs.BlockProofs.
Import ListNotations.
Local Open Scope Z_scope.

(** Every block converts to an integer below 2^128, to two 64-bit halves and to bytes, and back, without loss. *)
Theorem C50_from_block (b : list Z) : bytes 16 b ->
  0 <= to_u128 b < 2 ^ 128 /\ of_u128 (to_u128 b) = b /\
  of_u64s (fst (to_u64s b)) (snd (to_u64s b)) = b /\ of_u8s (to_u8s b) = b.
Proof. intros H. split; [now apply u128_range|]. split; [now apply u128_block|]. split; [now apply u64s_block|reflexivity]. Qed.
Print Assumptions C50_from_block.

(** Every integer below 2^128 and every pair of 64-bit halves survives the way through a block; the first
    half is the low one. *)
Theorem C50_to_block (x lo hi : Z) : 0 <= x < 2 ^ 128 -> 0 <= lo < 2 ^ 64 -> 0 <= hi < 2 ^ 64 ->
  bytes 16 (of_u128 x) /\ to_u128 (of_u128 x) = x /\
  bytes 16 (of_u64s lo hi) /\ to_u64s (of_u64s lo hi) = (lo, hi) /\ to_u128 (of_u64s lo hi) = lo + 2 ^ 64 * hi.
Proof.
  intros Hx Hl Hh. split; [apply AesProofs.le_bytes_bytes|]. split; [now apply block_u128|].
  split; [apply (AesProofs.app_bytes 8 8); apply AesProofs.le_bytes_bytes|]. split; [now apply block_u64s|now apply u64s_u128].
Qed.
Print Assumptions C50_to_block.

(** The bitwise operators are those of 128-bit integers. *)
Theorem C50_bitwise (a b : list Z) : bytes 16 a -> bytes 16 b ->
  bytes 16 (block_xor a b) /\ to_u128 (block_xor a b) = Z.lxor (to_u128 a) (to_u128 b) /\
  bytes 16 (block_or a b) /\ to_u128 (block_or a b) = Z.lor (to_u128 a) (to_u128 b) /\
  bytes 16 (block_and a b) /\ to_u128 (block_and a b) = Z.land (to_u128 a) (to_u128 b).
Proof.
  intros Ha Hb. destruct (block_xor_ok a b Ha Hb) as [X1 X2]. destruct (block_or_ok a b Ha Hb) as [O1 O2].
  destruct (block_and_ok a b Ha Hb) as [A1 A2]. repeat split; assumption || apply X1 || apply O1 || apply A1.
Qed.
Print Assumptions C50_bitwise.

(** Reading a slice succeeds exactly for 16 bytes and never panics; equality is equality of the bytes;
    the zero block and the default block are the integer 0. *)
Theorem C50_slice_eq (s a b : list Z) : bytes 16 a -> bytes 16 b ->
  try_from_slice s = Some (if (length s =? 16)%nat then Some s else None) /\
  (block_eq a b = true <-> a = b) /\ block_zero = of_u128 0 /\ block_default = of_u128 0.
Proof.
  intros Ha Hb. split; [apply try_from_slice_ok|]. split; [now apply block_eq_iff|]. split; reflexivity.
Qed.
Print Assumptions C50_slice_eq.

Example C50_ex :
  to_u64s (of_u128 (2 ^ 100 + 5)) = (5, 2 ^ 36) /\
  to_u128 (block_xor (of_u128 (2 ^ 100 + 5)) (of_u128 (2 ^ 100 + 6))) = 3 /\
  try_from_slice [1; 2; 3] = Some None /\ block_eq (of_u128 7) (of_u128 8) = false.
Proof. repeat split; vm_compute; reflexivity. Qed.
