(** C12: Baby Bear Montgomery arithmetic is a faithful field.
    [to_monty v] is the word standing for the residue of v; every operation is stated through it.
    The exponentiation clause is false of the code for exponent 0 only. *)
From Coq Require Import ZArith List Znumtheory.
From Verif Require Import Spec.Basic Model.Base Model.BabyBear Proofs.Arith Proofs.BabyBearProofs.
Import ListNotations.
Local Open Scope Z_scope.

Theorem C12_prime : prime 2013265921.
Proof. exact prime_BP. Qed.
Print Assumptions C12_prime.

Theorem C12_bijection :
  (forall v, 0 <= v < 2013265921 ->
     0 <= to_monty v < 2013265921 /\ from_monty (to_monty v) = Some v) /\
  (forall x, 0 <= x < 2013265921 ->
     exists v, 0 <= v < 2013265921 /\ to_monty v = x /\ from_monty x = Some v) /\
  (forall v, to_monty v = to_monty (v mod 2013265921)).
Proof. exact bb_bijection. Qed.
Print Assumptions C12_bijection.

Theorem C12_ring_ops (v w : Z) :
  bb_add (to_monty v) (to_monty w) = Some (to_monty (v + w)) /\
  bb_sub (to_monty v) (to_monty w) = Some (to_monty (v - w)) /\
  bb_neg (to_monty v) = Some (to_monty (- v)) /\
  bb_mul (to_monty v) (to_monty w) = Some (to_monty (v * w)).
Proof. exact (bb_ops_spec v w). Qed.
Print Assumptions C12_ring_ops.

(** The named constants: zero, one, two and minus one, on every word standing for a residue. *)
Theorem C12_constants (v : Z) : let x := to_monty v in
  bb_add x MONTY_ZERO = Some x /\ bb_mul x MONTY_ONE = Some x /\ bb_mul x MONTY_TWO = bb_add x x /\ bb_mul x MONTY_NEG_ONE = bb_neg x /\
  bb_add MONTY_ONE MONTY_NEG_ONE = Some MONTY_ZERO.
Proof. exact (bb_constants v). Qed.
Print Assumptions C12_constants.

(** Conversion of 64-bit values and of arrays agrees with the conversion of residues. *)
Theorem C12_conversions (x : Z) (l : list Z) : 0 <= x < 2 ^ 64 ->
  to_monty_64 x = to_monty (x mod 2013265921) /\ to_monty_array l = map to_monty l.
Proof. exact (bb_conversions x l). Qed.
Print Assumptions C12_conversions.

Theorem C12_inverse (v : Z) :
  (v mod 2013265921 <> 0 ->
     exists w, bb_try_inverse (to_monty v) = Some (Some (to_monty w)) /\
               bb_inv (to_monty v) = Some (to_monty w) /\ (w * v) mod 2013265921 = 1) /\
  (v mod 2013265921 = 0 -> bb_try_inverse (to_monty v) = Some None /\ bb_inv (to_monty v) = None).
Proof. exact (bb_inverse_spec v). Qed.
Print Assumptions C12_inverse.

Theorem C12_div (v w : Z) : w mod 2013265921 <> 0 ->
  exists z, bb_div (to_monty v) (to_monty w) = Some (to_monty z) /\ cong 2013265921 (z * w) v.
Proof. exact (bb_div_spec v w). Qed.
Print Assumptions C12_div.

(** Missing from the full statement: exponent 0. *)
Theorem C12_exp_partial (EB v e : Z) : 0 <= EB -> 0 < e ->
  bb_exp EB (to_monty v) e = Some (to_monty (v ^ e)).
Proof. exact (bb_exp_spec EB v e). Qed.
Print Assumptions C12_exp_partial.

Theorem C12_exp_power_of_2 (v k : Z) : 0 <= k ->
  bb_exp_pow2 (to_monty v) k = Some (to_monty (v ^ (2 ^ k))).
Proof. exact (bb_exp_pow2_spec v k). Qed.
Print Assumptions C12_exp_power_of_2.

Theorem C12_exp_zero_refuted : exists v : Z,
  bb_exp 32 (to_monty v) 0 <> Some (to_monty (v ^ 0)).
Proof. exists 3. vm_compute. discriminate. Qed.
Print Assumptions C12_exp_zero_refuted.

Theorem C12_dot_product (x y : list Z) : length x = length y ->
  bb_dot (map to_monty x) (map to_monty y) = Some (to_monty (dotz x y)).
Proof. exact (bb_dot_spec x y). Qed.
Print Assumptions C12_dot_product.

Example C12_ex : to_monty 5 = 1342177270 /\ bb_mul (to_monty 5) (to_monty 7) = Some (to_monty 35) /\
  bb_add (to_monty 2013265920) (to_monty 2) = Some (to_monty 1) /\
  bb_inv (to_monty 2) = Some (to_monty 1006632961) /\ bb_exp 32 (to_monty 31) 2013265920 = Some (to_monty 1) /\
  to_monty_64 (2 ^ 64 - 1) = to_monty 1172168162 /\ to_monty_array [1; 2013265920] = [MONTY_ONE; MONTY_NEG_ONE].
Proof. vm_compute. auto 10. Qed.
