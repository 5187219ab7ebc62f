(** C47: plaintext narrowing never silently truncates. *)
From Coq Require Import ZArith List Lia.
From Verif Require Import Model.Base Model.Plaintext Proofs.LweProofs.
Local Open Scope Z_scope.

(** For every message type ([bool], [u8], [u16], [u32], [u64]) and every [u64] value. *)
Theorem C47_shrink (M : msg_type) (c : Z) : 0 <= c < 2 ^ 64 ->
  (c <= msg_max M -> shrink M c = Some c) /\ (msg_max M < c -> shrink M c = None).
Proof.
  intros Hc. rewrite shrink_correct by exact Hc. destruct (Z.leb_spec c (msg_max M)); split; intros; try lia; reflexivity.
Qed.
Print Assumptions C47_shrink.

(** Decoding into a type agrees with decoding into [u64] when the value fits, else panics. *)
Theorem C47_decode (M : msg_type) (i j c : Z) :
  0 <= i < j -> j <= 63 -> 0 <= c < 2 ^ j ->
  exists m, decode MU64 c (2 ^ i) (2 ^ j) = Some m /\ 0 <= m < 2 ^ i /\
    (m <= msg_max M -> decode M c (2 ^ i) (2 ^ j) = Some m) /\
    (msg_max M < m -> decode M c (2 ^ i) (2 ^ j) = None).
Proof. apply decode_narrow. Qed.
Print Assumptions C47_decode.

Example C47_ex : shrink MBool 1 = Some 1 /\ shrink MBool 2 = None /\ shrink MU8 255 = Some 255 /\
  shrink MU8 256 = None /\ shrink MU32 (2 ^ 32) = None /\
  decode MU16 768 4 1024 = Some 3 /\ decode MBool 768 4 1024 = None.
Proof. vm_compute. auto 10. Qed.
