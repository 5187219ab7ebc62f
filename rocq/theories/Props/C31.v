(** C31: monomial rotations of ring ciphertexts. *)
From Coq Require Import ZArith List Arith.
From Verif Require Import Spec.Basic Spec.Poly Spec.Ring Model.Base Model.Field Model.Rlwe.
From Verif Require Import Proofs.FieldProofs Proofs.RlweProofs.
Import ListNotations.
Local Open Scope Z_scope.

(** [monomial n 1 r] is X^r modulo X^n + 1. *)
Theorem C31_sub_one (B p : Z) (F : field) (n r : nat) (x dst : rlwe) :
  wwidth B -> 0 <= p -> derive_field B p = Some F ->
  (0 < n)%nat -> rlwe_wf p n x -> length (ra dst) = n -> length (rb dst) = n -> (r <= 2 * n)%nat ->
  mul_monic_monomial_sub_one F x n r dst =
    Some (mk_rlwe (pmod p (psub (negacyclic n (monomial n 1 r) (ra x)) (ra x)))
                  (pmod p (psub (negacyclic n (monomial n 1 r) (rb x)) (rb x)))).
Proof.
  intros HB Hp HF. destruct (derive_field_ok B p F HB Hp HF) as (Hok & <- & <-). intros Hn Hx L1 L2 Hr.
  apply mono_sub_one_correct; try assumption. split; assumption.
Qed.
Print Assumptions C31_sub_one.

Theorem C31_add_mul (B p : Z) (F : field) (n r : nat) (x y : rlwe) :
  wwidth B -> 0 <= p -> derive_field B p = Some F ->
  (0 < n)%nat -> rlwe_wf p n x -> rlwe_wf p n y -> (r <= 2 * n)%nat ->
  add_assign_rhs_mul_monomial F x y n r =
    Some (mk_rlwe (pmod p (padd (ra x) (negacyclic n (monomial n 1 r) (ra y))))
                  (pmod p (padd (rb x) (negacyclic n (monomial n 1 r) (rb y))))).
Proof.
  intros HB Hp HF. destruct (derive_field_ok B p F HB Hp HF) as (Hok & <- & <-). apply add_mono_correct. exact Hok.
Qed.
Print Assumptions C31_add_mul.

(** Exponents beyond 2n panic. *)
Theorem C31_out_of_range (F : field) (n r : nat) (x y dst : rlwe) : (2 * n < r)%nat ->
  mul_monic_monomial_sub_one F x n r dst = None /\ add_assign_rhs_mul_monomial F x y n r = None.
Proof. apply mono_out_of_range. Qed.
Print Assumptions C31_out_of_range.

Example C31_ex : exists F, derive_field 16 97 = Some F /\
  mul_monic_monomial_sub_one F (mk_rlwe [3; 50; 0; 96] [10; 20; 30; 40]) 4 5 (mk_rlwe [0; 0; 0; 0] [7; 7; 7; 7]) =
    Some (mk_rlwe [93; 44; 47; 1] [30; 67; 47; 27]) /\
  map (fun v => v mod 97) (monomial 4 1 5) = [0; 96; 0; 0] /\
  mul_monic_monomial_sub_one F (mk_rlwe [3; 50; 0; 96] [10; 20; 30; 40]) 4 9 (mk_rlwe [0; 0; 0; 0] [7; 7; 7; 7]) = None.
Proof. eexists. split; [vm_compute; reflexivity|]. vm_compute. auto. Qed.
