(** C13: Goldilocks arithmetic is exact modulo P = 2^64 - 2^32 + 1.
    Words are 64-bit values, not necessarily below P.  The clauses "reduce is canonical",
    "canonical results for canonical inputs" and "negation of any result" are false of the code. *)
From Coq Require Import ZArith List Znumtheory.
From Verif Require Import Spec.Basic Model.Base Model.Goldilocks Proofs.Arith Proofs.GoldilocksProofs.
Import ListNotations.
Local Open Scope Z_scope.

Theorem C13_prime : prime (2 ^ 64 - 2 ^ 32 + 1).
Proof. exact prime_GP. Qed.
Print Assumptions C13_prime.

Theorem C13_add_sub_mul (a b : Z) : 0 <= a < 2 ^ 64 -> 0 <= b < 2 ^ 64 ->
  (exists z, gl_add a b = Some z /\ 0 <= z < 2 ^ 64 /\ cong (2 ^ 64 - 2 ^ 32 + 1) z (a + b)) /\
  (exists z, gl_sub a b = Some z /\ 0 <= z < 2 ^ 64 /\ cong (2 ^ 64 - 2 ^ 32 + 1) z (a - b)) /\
  (exists z, gl_mul a b = Some z /\ 0 <= z < 2 ^ 64 /\ cong (2 ^ 64 - 2 ^ 32 + 1) z (a * b)).
Proof.
  intros Ha Hb. split; [exact (gl_add_correct a b Ha Hb)|].
  split; [exact (gl_sub_correct a b Ha Hb)|exact (gl_mul_ok a b Ha Hb)].
Qed.
Print Assumptions C13_add_sub_mul.

Theorem C13_reduce128 (x : Z) : 0 <= x < 2 ^ 128 ->
  exists z, reduce128 x = Some z /\ 0 <= z < 2 ^ 64 /\ cong (2 ^ 64 - 2 ^ 32 + 1) z x.
Proof. exact (reduce128_correct x). Qed.
Print Assumptions C13_reduce128.

Theorem C13_reduce96 (lo hi : Z) : 0 <= lo < 2 ^ 64 -> 0 <= hi < 2 ^ 32 ->
  exists z, reduce96 lo hi = Some z /\ 0 <= z < 2 ^ 64 /\
            cong (2 ^ 64 - 2 ^ 32 + 1) z (lo + hi * 2 ^ 64).
Proof. exact (reduce96_correct lo hi). Qed.
Print Assumptions C13_reduce96.

(** The inline assembly of x86-64 computes what the portable code computes, so all of this holds on both. *)
Theorem C13_assembly (x y : Z) : 0 <= x < 2 ^ 64 -> 0 <= y < 2 ^ 64 ->
  add_no_canon_x86 x y = add_no_canon x y /\
  (x + y < 2 ^ 64 + (2 ^ 64 - 2 ^ 32 + 1) ->
   exists z, add_no_canon_x86 x y = Some z /\ 0 <= z < 2 ^ 64 /\ cong (2 ^ 64 - 2 ^ 32 + 1) z (x + y)).
Proof. exact (assembly_spec x y). Qed.
Print Assumptions C13_assembly.

Theorem C13_to_canonical (x : Z) : 0 <= x < 2 ^ 64 ->
  to_canonical x = Some (x mod (2 ^ 64 - 2 ^ 32 + 1)).
Proof. exact (to_canonical_correct x). Qed.
Print Assumptions C13_to_canonical.

(** Missing from the full statement: canonicity at x = P (see the refutation below). *)
Theorem C13_reduce_partial (x : Z) : 0 <= x < 2 ^ 64 ->
  exists z, gl_reduce x = Some z /\ 0 <= z <= 2 ^ 64 - 2 ^ 32 + 1 /\
    cong (2 ^ 64 - 2 ^ 32 + 1) z x /\
    (x <> 2 ^ 64 - 2 ^ 32 + 1 -> z = x mod (2 ^ 64 - 2 ^ 32 + 1)).
Proof. exact (gl_reduce_correct x). Qed.
Print Assumptions C13_reduce_partial.

Theorem C13_reduce_refuted : exists x, 0 <= x < 2 ^ 64 /\
  gl_reduce x <> Some (x mod (2 ^ 64 - 2 ^ 32 + 1)).
Proof. exists (2 ^ 64 - 2 ^ 32 + 1). split; vm_compute; [split; congruence|discriminate]. Qed.
Print Assumptions C13_reduce_refuted.

(** Missing from the full statement: operands above P, on which the code panics. *)
Theorem C13_neg_partial (a : Z) : 0 <= a <= 2 ^ 64 - 2 ^ 32 + 1 ->
  exists z, gl_neg a = Some z /\ 0 <= z < 2 ^ 64 - 2 ^ 32 + 1 /\ cong (2 ^ 64 - 2 ^ 32 + 1) z (- a).
Proof. exact (gl_neg_correct a). Qed.
Print Assumptions C13_neg_partial.

(** Multiplying canonical operands can give a non-canonical word, whose negation panics. *)
Theorem C13_canonical_refuted : exists a b z,
  0 <= a < 2 ^ 64 - 2 ^ 32 + 1 /\ 0 <= b < 2 ^ 64 - 2 ^ 32 + 1 /\
  gl_mul a b = Some z /\ 2 ^ 64 - 2 ^ 32 + 1 <= z /\ gl_neg z = None.
Proof. exists 3, 6148914691236517205, 18446744073709551615. vm_compute. repeat split; congruence. Qed.
Print Assumptions C13_canonical_refuted.

Theorem C13_exp (EB a e : Z) : 0 <= EB -> 0 <= a < 2 ^ 64 - 2 ^ 32 + 1 -> 0 <= e ->
  exists z, gl_exp EB a e = Some z /\ 0 <= z < 2 ^ 64 /\ cong (2 ^ 64 - 2 ^ 32 + 1) z (a ^ e).
Proof. exact (gl_exp_correct EB a e). Qed.
Print Assumptions C13_exp.

Theorem C13_inverse (v : Z) : 0 <= v < 2 ^ 64 -> ~ (2 ^ 64 - 2 ^ 32 + 1 | v) ->
  exists r, gl_try_inverse v = Some (Some r) /\ gl_inv v = Some r /\ 0 <= r < 2 ^ 64 /\
            cong (2 ^ 64 - 2 ^ 32 + 1) (r * v) 1.
Proof. exact (gl_inverse_spec v). Qed.
Print Assumptions C13_inverse.

Theorem C13_div (a b : Z) : 0 <= a < 2 ^ 64 -> 0 <= b < 2 ^ 64 -> ~ (2 ^ 64 - 2 ^ 32 + 1 | b) ->
  exists z, gl_div a b = Some z /\ 0 <= z < 2 ^ 64 /\ cong (2 ^ 64 - 2 ^ 32 + 1) (z * b) a.
Proof. exact (gl_div_correct a b). Qed.
Print Assumptions C13_div.

(** The other representative of zero, P itself, is not rejected. *)
Theorem C13_inverse_of_zero_refuted : exists v r, 0 <= v < 2 ^ 64 /\
  (2 ^ 64 - 2 ^ 32 + 1 | v) /\ gl_try_inverse v = Some (Some r).
Proof.
  exists (2 ^ 64 - 2 ^ 32 + 1), (2 ^ 64 - 2 ^ 32 + 1). split; [vm_compute; split; congruence|].
  split; [apply Z.divide_refl|]. vm_compute. reflexivity.
Qed.
Print Assumptions C13_inverse_of_zero_refuted.

Theorem C13_dot_product (x y : list Z) : length x = length y ->
  Forall (fun a => 0 <= a < 2 ^ 64) x -> Forall (fun a => 0 <= a < 2 ^ 64) y ->
  exists z, gl_dot x y = Some z /\ 0 <= z < 2 ^ 64 /\ cong (2 ^ 64 - 2 ^ 32 + 1) z (dotz x y).
Proof. exact (gl_dot_spec x y). Qed.
Print Assumptions C13_dot_product.

Example C13_ex : gl_add (2 ^ 64 - 1) (2 ^ 64 - 1) = Some 8589934588 /\
  gl_mul (2 ^ 64 - 1) (2 ^ 64 - 1) = Some 18446744056529682436 /\
  (8589934588 - 2 * (2 ^ 64 - 1)) mod (2 ^ 64 - 2 ^ 32 + 1) = 0 /\ gl_inv 2 = Some 9223372034707292161 /\
  gl_exp 64 7 18446744069414584320 = Some (2 ^ 64 - 2 ^ 32 + 2).
Proof. vm_compute. auto 10. Qed.

(** Both branches of the assembly: with and without a carry; and the precondition is needed. *)
Example C13_ex_assembly : add_no_canon_x86 (2 ^ 64 - 2) 3 = Some (2 ^ 32) /\ add_no_canon_x86 5 7 = Some 12 /\
  add_no_canon_x86 (2 ^ 64 - 1) (2 ^ 64 - 1) = None.
Proof. vm_compute. auto. Qed.
