(** 128-bit blocks. [algebra/src/utils/block.rs].

    A block is its 16 bytes in memory order; integers are little-endian, as on the two supported
    architectures.  [bytemuck::cast] keeps the bytes. *)
From Coq Require Import ZArith List Bool Arith.
From Verif Require Import Spec.Aes Model.Base.
Import ListNotations.
Local Open Scope Z_scope.

(** [block.rs:40-46] ([ZERO], a transmuted [0u128]). *)
Definition block_zero : list Z := repeat 0 16.
(** [block.rs:48-60]: [_mm_loadu_si128] and [vld1q_u8] load the 16 bytes in order. *)
Definition block_new (bs : list Z) : list Z := bs.
(** [block.rs:62-71]: [None] inside is the [None] returned for a wrong length. *)
Definition try_from_slice (s : list Z) : option (option (list Z)) :=
  if negb (length s =? 16)%nat then Some None
  else let* _ := assert (16 <=? length s)%nat in Some (Some (block_new (firstn 16 s))).
(** [block.rs:94-99,114-119] ([From<Block> for u128], [From<u128> for Block]). *)
Definition to_u128 (b : list Z) : Z := le_value b.
(** [block.rs:114-119] ([From<u128> for Block]). *)
Definition of_u128 (x : Z) : list Z := le_bytes 16 x.
(** [block.rs:73-78]. *)
Definition block_default : list Z := of_u128 0.
(** [block.rs:80-85,101-106] ([[u8; 16]]). *)
Definition to_u8s (b : list Z) : list Z := b.
(** [block.rs:101-106] ([From<[u8; 16]> for Block]). *)
Definition of_u8s (bs : list Z) : list Z := bs.
(** [block.rs:87-92,108-113] ([[u64; 2]]). *)
Definition to_u64s (b : list Z) : Z * Z := (le_value (firstn 8 b), le_value (skipn 8 b)).
(** [block.rs:108-113] ([From<[u64; 2]> for Block]). *)
Definition of_u64s (x y : Z) : list Z := le_bytes 8 x ++ le_bytes 8 y.
(** [block.rs:121-128]. *)
Definition block_eq (a b : list Z) : bool := to_u128 a =? to_u128 b.

(** A lane-wise operation of [_mm_xor_si128]/[veorq_u8] and the like, byte by byte.  [block.rs:164-231]. *)
Fixpoint lanewise (f : Z -> Z -> Z) (a b : list Z) : list Z :=
  match a, b with x :: a', y :: b' => f x y :: lanewise f a' b' | _, _ => [] end.
(** [block.rs:164-185] ([^], [^=]). *)
Definition block_xor := lanewise Z.lxor.
(** [block.rs:187-208] ([|], [|=]). *)
Definition block_or := lanewise Z.lor.
(** [block.rs:210-231] ([&], [&=]). *)
Definition block_and := lanewise Z.land.
