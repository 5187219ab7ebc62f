(** Distributions whose moments are at most those of a Gaussian. *)
From Coq Require Import ZArith List.
From Verif Require Import Spec.Moment Spec.Count.
Local Open Scope Z_scope.

(** 1 * 3 * 5 * ... * (2m - 1): the moment of order 2m of a standard Gaussian. *)
Fixpoint odd_product (m : nat) : Z :=
  match m with O => 1 | S m' => (2 * Z.of_nat m' + 1) * odd_product m' end.

(** Weights are nonnegative, odd moments vanish, and the moment of order 2m is at most that of a
    Gaussian of variance [V], namely (2m-1)!! V^m. *)
Definition sub_gaussian (V : Z) (D : dist Z) : Prop :=
  Forall (fun xw => 0 <= snd xw) D /\
  forall m, wsum D (fun x => x ^ Z.of_nat (2 * m + 1)) = 0 /\
            wsum D (fun x => x ^ Z.of_nat (2 * m)) <= odd_product m * V ^ Z.of_nat m * mass D.

(** The centred binomial distribution: half the sum of 2h independent signs. *)
Definition centred_binomial (h : nat) : dist Z :=
  map (fun j => (Z.of_nat j - Z.of_nat h, binomial (2 * h) (Z.of_nat j))) (seq 0 (2 * h + 1)).
