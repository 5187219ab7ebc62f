(** C14: the primality test never rejects a prime, whatever bases are drawn. *)
From Coq Require Import ZArith Znumtheory.
From Verif Require Import Spec.Basic Model.Base Model.Barrett Model.Prime.
From Verif Require Import Proofs.BarrettProofs Proofs.PrimeProofs Proofs.BabyBearProofs.
Local Open Scope Z_scope.

Theorem C14_prime_accepted (B v : Z) (m : barrett) (rounds : nat) (draw : nat -> Z) :
  wwidth B -> barrett_new B v = Some m -> prime v -> (forall i, 3 <= draw i <= v - 1) ->
  probably_prime B m rounds draw = Some true.
Proof.
  intros HB Hm Hp Hd. pose proof (prime_ge_2 v Hp) as H2.
  apply barrett_new_inv in Hm; [|assumption|apply Z.le_trans with 2; [discriminate|exact H2]].
  destruct Hm as (_ & <- & Hok). apply probably_prime_prime; assumption.
Qed.
Print Assumptions C14_prime_accepted.

(** Below 64 the test ignores the drawn bases and accepts exactly the primes. *)
Theorem C14_small_exact (B v : Z) (m : barrett) (rounds : nat) (draw : nat -> Z) :
  wwidth B -> barrett_new B v = Some m -> 0 <= v < 64 ->
  exists b, probably_prime B m rounds draw = Some b /\ (b = true <-> prime v).
Proof. exact (probably_prime_small B v m rounds draw). Qed.
Print Assumptions C14_small_exact.

Example C14_ex : exists m, barrett_new 64 2013265921 = Some m /\ prime 2013265921 /\
  probably_prime 64 m 3 (fun i => 3 + 1000 * Z.of_nat i) = Some true.
Proof.
  eexists. split; [vm_compute; reflexivity|]. split; [exact prime_BP|]. vm_compute. reflexivity.
Qed.
