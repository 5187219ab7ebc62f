(** C05: modular multiplication and exponentiation are exact for every exponent. *)
From Coq Require Import ZArith.
From Verif Require Import Spec.Basic Model.Base Model.Barrett Proofs.Arith Proofs.BarrettProofs.
Local Open Scope Z_scope.

Theorem C05_mul_reduce (B v : Z) (m : barrett) (a b : Z) :
  wwidth B -> 0 <= v -> barrett_new B v = Some m -> 0 <= a < 2 ^ B -> 0 <= b < 2 ^ B ->
  bmul B m a b = Some ((a * b) mod v) /\
  exists z, lazy_bmul B m a b = Some z /\ 0 <= z < 2 * v /\ cong v z (a * b).
Proof.
  intros HB Hv Hm Ha Hb. apply barrett_new_inv in Hm; [|assumption|assumption].
  destruct Hm as (_ & <- & Hok). split.
  - apply bmul_correct; assumption.
  - apply lazy_bmul_correct; assumption.
Qed.
Print Assumptions C05_mul_reduce.

(** [EB] is the width of the exponent type; the exponent itself is any non-negative integer. *)
Theorem C05_exp_reduce (B EB v : Z) (m : barrett) (a e : Z) :
  wwidth B -> 0 <= EB -> 0 <= v -> barrett_new B v = Some m -> 0 <= a < v -> 0 <= e ->
  bexp B EB m a e = Some (a ^ e mod v).
Proof.
  intros HB HEB Hv Hm Ha He. apply barrett_new_inv in Hm; [|assumption|assumption].
  destruct Hm as (_ & <- & Hok). apply bexp_correct; assumption.
Qed.
Print Assumptions C05_exp_reduce.

Theorem C05_exp_power_of_2 (B v : Z) (m : barrett) (a k : Z) :
  wwidth B -> 0 <= v -> barrett_new B v = Some m -> 0 <= a < v -> 0 <= k ->
  bexp_pow2 B m a k = Some (a ^ (2 ^ k) mod v).
Proof.
  intros HB Hv Hm Ha Hk. apply barrett_new_inv in Hm; [|assumption|assumption].
  destruct Hm as (_ & <- & Hok). apply bexp_pow2_correct; assumption.
Qed.
Print Assumptions C05_exp_power_of_2.

Example C05_ex : exists m, barrett_new 32 12289 = Some m /\
  bmul 32 m 12288 12288 = Some 1 /\ bexp 32 32 m 11 12288 = Some 1 /\ bexp 32 32 m 11 6144 = Some 12288
  /\ bexp 32 32 m 7 0 = Some 1 /\ bexp_pow2 32 m 3 10 = Some (3 ^ 1024 mod 12289).
Proof. eexists. split; [vm_compute; reflexivity|]. vm_compute. auto 10. Qed.
