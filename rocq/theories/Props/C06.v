(** C06: modular inversion succeeds exactly on units and returns the inverse. *)
From Coq Require Import ZArith Lia.
From Verif Require Import Spec.Basic Model.Base Model.Gcd Proofs.Arith Proofs.GcdProofs Proofs.GcdWide.
Local Open Scope Z_scope.

Theorem C06_inverse (B m a : Z) :
  2 <= B -> 0 <= a < m -> m < 2 ^ (B - 2) ->
  (a <> 0 /\ Z.gcd m a = 1 ->
     exists r, inv_reduce B a m = Some r /\ try_inv_reduce B a m = Some (Some r) /\
               0 <= r < m /\ (r * a) mod m = 1) /\
  (~ (a <> 0 /\ Z.gcd m a = 1) ->
     inv_reduce B a m = None /\ try_inv_reduce B a m = Some None).
Proof. exact (inv_reduce_spec B a m). Qed.
Print Assumptions C06_inverse.

(** Between a quarter and a half of the word the signed intermediates may overflow (debug builds panic),
    but a value that is returned is the inverse, and an error means that there is none. *)
Theorem C06_below_half (B m a : Z) : 2 <= B -> 0 <= a < m -> m < 2 ^ (B - 1) ->
  (forall r, inv_reduce B a m = Some r -> 0 <= r < m /\ (r * a) mod m = 1 /\ try_inv_reduce B a m = Some (Some r)) /\
  (forall r, try_inv_reduce B a m = Some (Some r) -> inv_reduce B a m = Some r) /\
  (try_inv_reduce B a m = Some None -> a = 0 \/ Z.gcd a m <> 1).
Proof. exact (inv_reduce_wide B a m). Qed.
Print Assumptions C06_below_half.

(** From half of the word on the value returned can be wrong, with nothing reported: the half of 1 modulo
    the largest 64-bit prime comes out as 30. *)
Theorem C06_above_half : exists a m r : Z, 2 ^ 63 <= m < 2 ^ 64 /\ 0 < a < m /\ Z.gcd m a = 1 /\
  inv_reduce 64 a m = Some r /\ try_inv_reduce 64 a m = Some (Some r) /\ (r * a) mod m <> 1.
Proof.
  exists 2, (2 ^ 64 - 59), 30. split; [lia|]. split; [lia|]. split; [vm_compute; reflexivity|].
  split; [vm_compute; reflexivity|]. split; [vm_compute; reflexivity|]. vm_compute. discriminate.
Qed.
Print Assumptions C06_above_half.

Example C06_ex_half : inv_reduce 64 (7 ^ 20) (2 ^ 62 + 1) = Some 2414928180742681866 /\
  (2414928180742681866 * 7 ^ 20) mod (2 ^ 62 + 1) = 1 /\ inv_reduce 64 3 (2 ^ 63 - 25) = None.
Proof. split; [vm_compute; reflexivity|]. split; [vm_compute; reflexivity|]. vm_compute. reflexivity. Qed.

Example C06_ex : inv_reduce 32 12345 1000000513 = Some 379749081 /\
  (379749081 * 12345) mod 1000000513 = 1 /\
  try_inv_reduce 8 6 15 = Some None /\ inv_reduce 8 6 15 = None /\ inv_reduce 8 7 15 = Some 13.
Proof. vm_compute. auto 10. Qed.
