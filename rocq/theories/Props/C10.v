(** C10: power-of-two modulus arithmetic is exact on arbitrary words. *)
From Coq Require Import ZArith List.
From Verif Require Import Spec.Basic Model.Base Model.PowOf2 Proofs.PowOf2Proofs.
Import ListNotations.
Local Open Scope Z_scope.

Theorem C10_new (v mask : Z) : 0 <= v ->
  (p2_new v = Some mask <-> exists k, 1 <= k /\ v = 2 ^ k /\ mask = 2 ^ k - 1).
Proof. exact (p2_new_correct v mask). Qed.
Print Assumptions C10_new.

Theorem C10_ring_ops (B k x y : Z) : 1 <= k <= B ->
  p2_reduce (2 ^ k - 1) x = x mod 2 ^ k /\
  p2_add B (2 ^ k - 1) x y = (x + y) mod 2 ^ k /\
  p2_sub B (2 ^ k - 1) x y = (x - y) mod 2 ^ k /\
  p2_neg B (2 ^ k - 1) x = (- x) mod 2 ^ k /\
  p2_mul B (2 ^ k - 1) x y = (x * y) mod 2 ^ k.
Proof. exact (p2_ops_correct B k x y). Qed.
Print Assumptions C10_ring_ops.

Theorem C10_exp (B EB k a e : Z) : 1 <= k <= B -> 0 <= EB -> 0 <= a < 2 ^ k -> 0 <= e ->
  p2_exp B EB (2 ^ k - 1) a e = Some (a ^ e mod 2 ^ k).
Proof. intros Hk HEB. exact (p2_exp_correct B k Hk EB a e HEB). Qed.
Print Assumptions C10_exp.

Theorem C10_exp_power_of_2 (B k a n : Z) : 1 <= k <= B -> 0 <= a < 2 ^ k -> 0 <= n ->
  p2_exp_pow2 B (2 ^ k - 1) a n = Some (a ^ (2 ^ n) mod 2 ^ k).
Proof. intros Hk. exact (p2_exp_pow2_correct B k Hk a n). Qed.
Print Assumptions C10_exp_power_of_2.

Theorem C10_dot_product (B k : Z) (x y : list Z) : 1 <= k <= B -> length x = length y ->
  p2_dot B (2 ^ k - 1) x y = Some (dotz x y mod 2 ^ k).
Proof. intros Hk. exact (p2_dot_correct B k Hk x y). Qed.
Print Assumptions C10_dot_product.

Example C10_ex : p2_new 1024 = Some 1023 /\ p2_new 1 = None /\ p2_new 12 = None /\
  p2_mul 16 1023 65535 65533 = 3 /\ p2_dot 16 1023 [65535; 2; 3] [7; 1000; 1000] = Some 897 /\
  p2_exp 16 32 1023 3 1000 = Some (3 ^ 1000 mod 1024).
Proof. vm_compute. auto 10. Qed.
