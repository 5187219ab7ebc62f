(** C16: derived field types implement the prime field F_p. *)
From Coq Require Import ZArith Znumtheory.
From Verif Require Import Spec.Basic Model.Base Model.Barrett Model.Field.
From Verif Require Import Proofs.FieldProofs Proofs.BabyBearProofs.
Local Open Scope Z_scope.

(** The moduli the derive macro accepts. *)
Theorem C16_derive (B p : Z) : wwidth B -> 0 <= p < 2 ^ B ->
  ((exists F, derive_field B p = Some F) <-> 2 <= p < 2 ^ (B - 2)).
Proof. exact (derive_field_iff B p). Qed.
Print Assumptions C16_derive.

Theorem C16_new (B p v : Z) (F : field) :
  wwidth B -> 0 <= p -> derive_field B p = Some F -> 0 <= v < 2 ^ B ->
  f_new F v = Some (v mod p).
Proof.
  intros HB Hp HF Hv. destruct (derive_field_ok B p F HB Hp HF) as (Hok & <- & <-).
  apply f_new_correct; assumption.
Qed.
Print Assumptions C16_new.

Theorem C16_ring_ops (B p a b : Z) (F : field) :
  wwidth B -> 0 <= p -> derive_field B p = Some F -> 0 <= a < p -> 0 <= b < p ->
  f_add F a b = Some ((a + b) mod p) /\ f_sub F a b = Some ((a - b) mod p) /\
  f_sub_assign F a b = Some ((a - b) mod p) /\ f_neg F a = Some ((- a) mod p) /\
  f_mul F a b = Some ((a * b) mod p).
Proof.
  intros HB Hp HF Ha Hb. destruct (derive_field_ok B p F HB Hp HF) as (Hok & <- & <-).
  apply f_ops_spec; assumption.
Qed.
Print Assumptions C16_ring_ops.

Theorem C16_pow (B p a e : Z) (F : field) :
  wwidth B -> 0 <= p -> derive_field B p = Some F -> 0 <= a < p -> 0 <= e ->
  f_pow F a e = Some (a ^ e mod p).
Proof.
  intros HB Hp HF Ha He. destruct (derive_field_ok B p F HB Hp HF) as (Hok & <- & <-).
  apply f_pow_correct; assumption.
Qed.
Print Assumptions C16_pow.

Theorem C16_inv (B p a : Z) (F : field) :
  wwidth B -> prime p -> derive_field B p = Some F -> 0 < a < p ->
  exists r, f_inv F a = Some r /\ 0 <= r < p /\ (r * a) mod p = 1.
Proof.
  intros HB Hp HF Ha. pose proof (prime_ge_2 p Hp).
  destruct (derive_field_ok B p F HB ltac:(auto with zarith) HF) as (Hok & <- & <-).
  apply f_inv_correct; assumption.
Qed.
Print Assumptions C16_inv.

Theorem C16_div (B p a b : Z) (F : field) :
  wwidth B -> prime p -> derive_field B p = Some F -> 0 <= a < p -> 0 < b < p ->
  exists r, f_div F a b = Some r /\ 0 <= r < p /\ (r * b) mod p = a.
Proof.
  intros HB Hp HF Ha Hb. pose proof (prime_ge_2 p Hp).
  destruct (derive_field_ok B p F HB ltac:(auto with zarith) HF) as (Hok & <- & <-).
  apply f_div_correct; assumption.
Qed.
Print Assumptions C16_div.

(** Fused and lazy operations, on arbitrary words. *)
Theorem C16_add_mul (B p a b c : Z) (F : field) :
  wwidth B -> 0 <= p -> derive_field B p = Some F ->
  0 <= a < 2 ^ B -> 0 <= b < 2 ^ B -> 0 <= c < 2 ^ B ->
  f_add_mul F c a b = Some ((c + a * b) mod p) /\
  (exists z, f_mul_fast F a b = Some z /\ 0 <= z < 2 * p /\ cong p z (a * b)) /\
  (exists z, f_add_mul_fast F c a b = Some z /\ 0 <= z < 2 * p /\ cong p z (c + a * b)).
Proof.
  intros HB Hp HF Ha Hb Hc. destruct (derive_field_ok B p F HB Hp HF) as (Hok & <- & <-).
  split; [apply f_add_mul_correct; assumption|].
  split; [apply f_mul_fast_correct; assumption|apply f_add_mul_fast_correct; assumption].
Qed.
Print Assumptions C16_add_mul.

Theorem C16_from_usize (B p v : Z) (F : field) :
  wwidth B -> 0 <= p -> derive_field B p = Some F -> 0 <= v -> f_from_usize F v = v mod p.
Proof.
  intros HB Hp HF Hv. destruct (derive_field_ok B p F HB Hp HF) as (Hok & <- & <-).
  apply f_from_usize_correct; assumption.
Qed.
Print Assumptions C16_from_usize.

Example C16_ex : exists F, derive_field 64 2013265921 = Some F /\ prime 2013265921 /\
  f_new F 18446744073709551615 = Some (18446744073709551615 mod 2013265921) /\
  f_add F 2013265920 5 = Some 4 /\ f_inv F 2 = Some 1006632961 /\ f_div F 1 2 = Some 1006632961 /\
  f_add_mul F 7 2013265920 2013265919 = Some 9.
Proof.
  eexists. split; [vm_compute; reflexivity|]. split; [exact prime_BP|]. vm_compute. auto 10.
Qed.
