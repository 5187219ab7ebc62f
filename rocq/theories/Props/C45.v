(** C45: bit reversal is an involutive permutation of 0..2^k. *)
From Coq Require Import ZArith List Arith Lia.
From Verif Require Import Model.Base Model.NTT.
From Verif Require Import Proofs.PolyMath Proofs.NTTProofs Proofs.NTTTableProofs.
Local Open Scope Z_scope.

Theorem C45_mirror (B k i : Z) : 0 <= k < B -> 0 <= i < 2 ^ k ->
  exists r, reverse_lsbs B i k = Some r /\ 0 <= r < 2 ^ k /\
    (forall j, 0 <= j < k -> Z.testbit r j = Z.testbit i (k - 1 - j)) /\
    reverse_lsbs B r k = Some i.
Proof.
  intros Hk Hi. rewrite <- (Z2Nat.id B), <- (Z2Nat.id k), <- (Z2Nat.id i) in * by lia.
  set (b := Z.to_nat B) in *. set (k' := Z.to_nat k) in *. set (i' := Z.to_nat i) in *.
  rewrite <- pow2_nat in *.
  exists (Z.of_nat (bitrev k' i')). split; [apply reverse_lsbs_correct; lia|].
  split; [pose proof (bitrev_bound k' i'); lia|]. split.
  - intros j Hj. rewrite <- (Z2Nat.id j) by lia. rewrite testbit_bitrev.
    destruct (Nat.ltb_spec (Z.to_nat j) k'); [|lia]. f_equal. lia.
  - rewrite reverse_lsbs_correct by lia. rewrite bitrev_involutive by lia. reflexivity.
Qed.
Print Assumptions C45_mirror.

(** One-to-one and onto. *)
Theorem C45_bijective (B k : Z) : 0 <= k < B ->
  (forall i j, 0 <= i < 2 ^ k -> 0 <= j < 2 ^ k -> reverse_lsbs B i k = reverse_lsbs B j k -> i = j) /\
  (forall r, 0 <= r < 2 ^ k -> exists i, 0 <= i < 2 ^ k /\ reverse_lsbs B i k = Some r).
Proof.
  intros Hk. split.
  - intros i j Hi Hj E. destruct (C45_mirror B k i Hk Hi) as (r & Er & _ & _ & Ei).
    destruct (C45_mirror B k j Hk Hj) as (r' & Er' & _ & _ & Ej). congruence.
  - intros r Hr. destruct (C45_mirror B k r Hk Hr) as (i & _ & Hi & _ & E). exists i. split; assumption.
Qed.
Print Assumptions C45_bijective.

Example C45_ex : reverse_lsbs 64 6 5 = Some 12 /\ reverse_lsbs 64 12 5 = Some 6 /\
  reverse_lsbs 16 1 15 = Some 16384 /\ reverse_lsbs 8 0 0 = Some 0.
Proof. vm_compute. auto. Qed.
