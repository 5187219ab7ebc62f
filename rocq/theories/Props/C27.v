(** C27: encoding and decoding round-trip with maximal noise tolerance. *)
From Coq Require Import ZArith List Lia.
From Verif Require Import Spec.Basic Model.Base Model.Plaintext Proofs.Arith Proofs.LweProofs.
Local Open Scope Z_scope.

(** [t = 2^i < q = 2^j], and [q] fits in the ciphertext word of [B] bits. *)
Theorem C27_encode (B i j m : Z) :
  0 <= i < j -> j <= 63 -> j <= B -> 0 <= m ->
  (m < 2 ^ i -> encode B m (2 ^ i) (2 ^ j) = Some (m * 2 ^ (j - i))) /\
  (encode B m (2 ^ i) (2 ^ j) = None <-> 2 ^ i <= m).
Proof.
  intros H1 H2 H3 H4. split.
  - intros Hm. rewrite (encode_correct B i j) by lia. rewrite q_div_t by lia. reflexivity.
  - split; intros H.
    + destruct (Z_lt_le_dec m (2 ^ i)); [|assumption]. rewrite (encode_correct B i j) in H by lia. discriminate.
    + apply encode_none; assumption.
Qed.
Print Assumptions C27_encode.

Theorem C27_decode_iff (B i j m e : Z) :
  0 <= i < j -> j <= 63 -> j <= B -> 0 <= m < 2 ^ i -> - 2 ^ j <= 2 * e < 2 ^ j ->
  exists c, encode B m (2 ^ i) (2 ^ j) = Some c /\
    (decode MU64 ((c + e) mod 2 ^ j) (2 ^ i) (2 ^ j) = Some m <->
     - 2 ^ j <= 2 * 2 ^ i * e < 2 ^ j).
Proof.
  intros H1 H2 H3 H4 H5. eexists. split; [apply encode_correct; assumption|].
  rewrite (decode_correct i j) by (try lia; apply Z.mod_pos_bound; apply pow2_pos; lia).
  assert (E : 2 ^ j = 2 * 2 ^ i * 2 ^ (j - i - 1)).
  { replace j with (Z.succ (i + (j - i - 1))) at 1 by lia. rewrite Z.pow_succ_r, Z.pow_add_r by lia. ring. }
  pose proof (pow2_pos i ltac:(lia)).
  cbn [shrink]. split; intros H0.
  - injection H0 as H0. pose proof (decode_exact_iff i j H1 H2 m e H4 H5 H0). nia.
  - f_equal. apply (decode_exact i j H1 H2 m e H4). nia.
Qed.
Print Assumptions C27_decode_iff.

(** Every message type that can hold the message decodes it. *)
Theorem C27_decode_type (B i j m e : Z) (M : msg_type) :
  0 <= i < j -> j <= 63 -> j <= B -> 0 <= m < 2 ^ i -> m <= msg_max M ->
  - 2 ^ j <= 2 * 2 ^ i * e < 2 ^ j ->
  exists c, encode B m (2 ^ i) (2 ^ j) = Some c /\
    decode M ((c + e) mod 2 ^ j) (2 ^ i) (2 ^ j) = Some m.
Proof.
  intros H1 H2 H3 H4 HM H5. eexists. split; [apply encode_correct; assumption|].
  rewrite (decode_correct i j) by (try lia; apply Z.mod_pos_bound; apply pow2_pos; lia).
  assert (E : 2 ^ j = 2 * 2 ^ i * 2 ^ (j - i - 1)).
  { replace j with (Z.succ (i + (j - i - 1))) at 1 by lia. rewrite Z.pow_succ_r, Z.pow_add_r by lia. ring. }
  pose proof (pow2_pos i ltac:(lia)).
  rewrite (decode_exact i j H1 H2 m e H4) by nia.
  assert (2 ^ i <= 2 ^ 63) by (apply Z.pow_le_mono_r; lia).
  rewrite shrink_correct by lia. destruct (Z.leb_spec m (msg_max M)); [reflexivity|lia].
Qed.
Print Assumptions C27_decode_type.

Example C27_ex :
  encode 16 3 4 1024 = Some 768 /\ encode 16 4 4 1024 = None /\
  decode MU8 ((768 + -128) mod 1024) 4 1024 = Some 3 /\
  decode MU8 ((768 + 127) mod 1024) 4 1024 = Some 3 /\
  decode MU8 ((768 + 128) mod 1024) 4 1024 = Some 0 /\
  decode MU8 ((768 + -129) mod 1024) 4 1024 = Some 2.
Proof. vm_compute. auto 10. Qed.
