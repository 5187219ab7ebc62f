(** C07: the binary gcd computes the gcd of any two words. *)
From Coq Require Import ZArith Znumtheory.
From Verif Require Import Spec.Basic Model.Base Model.Gcd Proofs.GcdProofs.
Local Open Scope Z_scope.

Theorem C07_gcd (B x y : Z) : 0 <= B -> 0 <= x < 2 ^ B -> 0 <= y < 2 ^ B ->
  gcd B x y = Some (Z.gcd x y).
Proof. exact (gcd_correct B x y). Qed.
Print Assumptions C07_gcd.

Theorem C07_coprime (B x y : Z) :
  0 <= B -> 0 <= x < 2 ^ B -> 0 <= y < 2 ^ B -> x <> 0 \/ y <> 0 ->
  exists c, coprime B x y = Some c /\ (c = true <-> rel_prime x y) /\
            not_coprime B x y = Some (negb c).
Proof. exact (coprime_correct B x y). Qed.
Print Assumptions C07_coprime.

(** The excluded pair: two zeros are reported coprime although their gcd is 0. *)
Theorem C07_coprime_zero (B : Z) : coprime B 0 0 = Some true.
Proof. reflexivity. Qed.
Print Assumptions C07_coprime_zero.

Example C07_ex : gcd 64 18446744073709551615 18446744069414584320 = Some 4294967295 /\
  gcd 8 0 200 = Some 200 /\ coprime 8 77 200 = Some true.
Proof. vm_compute. auto. Qed.
