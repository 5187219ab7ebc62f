(** What the theorems assume about the external crate behind [Model/Concrete.v].

    The forward transform evaluates, in bit-reversed order; the inverse transform followed by the
    normalisation undoes it; monomials transform like any other polynomial.  The ranges are the ones
    the callers use: canonical coefficients, and values below twice the modulus for the inverse (the
    trait documentation [transformation/mod.rs:74-92] promises at least these). *)
From Coq Require Import ZArith Znumtheory List.
From Verif Require Import Spec.Basic Spec.Poly Model.Base Model.Concrete.
Import ListNotations.
Local Open Scope Z_scope.

(** Values of [a] at the odd powers of [w], in bit-reversed order. *)
Definition evaluations (p w : Z) (k : nat) (a : list Z) : list Z :=
  map (fun i => ev (w ^ (2 * Z.of_nat (bitrev k i) + 1)) a mod p) (seq 0 (2 ^ k)).
(** Values of c X^d at the same points. *)
Definition monomial_values (p w : Z) (k : nat) (c d : Z) : list Z :=
  map (fun i => (c * w ^ ((2 * Z.of_nat (bitrev k i) + 1) * d)) mod p) (seq 0 (2 ^ k)).

(** [P] transforms polynomials of degree below 2^k modulo [p]. *)
Record plan_documented (p : Z) (k : nat) (P : plan) : Prop := {
  pd_root_range : 0 <= pl_root P < p;
  pd_root : primitive_root p (2 * 2 ^ Z.of_nat k) (pl_root P);
  pd_fwd : forall a, length a = (2 ^ k)%nat -> canonical p a ->
    pl_fwd P a = Some (evaluations p (pl_root P) k a);
  pd_inv : forall v, length v = (2 ^ k)%nat -> Forall (fun x => 0 <= x < 2 * p) v ->
    exists u a, pl_inv P v = Some u /\ pl_normalize P u = Some a /\ length a = (2 ^ k)%nat /\ canonical p a /\
      evaluations p (pl_root P) k a = pmod p v;
  pd_monomial : forall c d, 0 <= c < p -> 0 <= d < 2 * 2 ^ Z.of_nat k ->
    pl_fwd_monomial P c d (2 ^ k) = Some (monomial_values p (pl_root P) k c d);
  pd_one : forall d, 0 <= d < 2 * 2 ^ Z.of_nat k ->
    pl_fwd_coeff_one_monomial P d (2 ^ k) = Some (monomial_values p (pl_root P) k 1 d);
  pd_neg_one : forall d, 0 <= d < 2 * 2 ^ Z.of_nat k ->
    pl_fwd_coeff_neg_one_monomial P d (2 ^ k) = Some (monomial_values p (pl_root P) k (-1) d) }.

(** Every plan the crate hands out for a prime modulus does. *)
Definition crate_documented (try_new : plans) : Prop :=
  forall p k P, prime p -> try_new (2 ^ Z.of_nat k) p = Some P -> plan_documented p k P.
(** A build: without the crate, or with one behaving as documented. *)
Definition build_ok (ext : option plans) : Prop :=
  match ext with None => True | Some try_new => crate_documented try_new end.
