(** C01: word-modulus addition, subtraction and negation are exact. *)
From Coq Require Import ZArith.
From Verif Require Import Spec.Basic Model.Base Model.Reduce Proofs.Arith Proofs.ReduceProofs.
Local Open Scope Z_scope.

Theorem C01_add_reduce (B m a b : Z) :
  0 <= a < m -> 0 <= b < m -> 2 * (m - 1) < 2 ^ B ->
  add_reduce B a b m = Some ((a + b) mod m).
Proof. intros Ha Hb Hm. apply add_reduce_correct; auto with zarith. Qed.
Print Assumptions C01_add_reduce.
Example C01_add_reduce_ex : add_reduce 32 1000000512 5 1000000513 = Some 4.
Proof. vm_compute. reflexivity. Qed.

Theorem C01_sub_reduce (B m a b : Z) :
  m <= 2 ^ B -> 0 <= a < m -> 0 <= b < m ->
  sub_reduce B a b m = Some ((a - b) mod m) /\
  sub_reduce_assign B a b m = Some ((a - b) mod m).
Proof. intros Hm Ha Hb. split; [apply sub_reduce_correct|apply sub_reduce_assign_correct]; assumption. Qed.
Print Assumptions C01_sub_reduce.
Example C01_sub_reduce_ex : sub_reduce 32 3 5 4294967295 = Some 4294967293.
Proof. vm_compute. reflexivity. Qed.

Theorem C01_neg_reduce (m a : Z) : 0 <= a < m -> neg_reduce a m = Some ((- a) mod m).
Proof. exact (neg_reduce_correct a m). Qed.
Print Assumptions C01_neg_reduce.
Example C01_neg_reduce_ex : neg_reduce 5 97 = Some 92 /\ neg_reduce 0 97 = Some 0.
Proof. vm_compute. auto. Qed.

(** The bound on the modulus in [C01_add_reduce] is needed: a full-width modulus overflows. *)
Theorem C01_add_reduce_overflow (B m : Z) :
  1 <= m -> 2 ^ B <= 2 * (m - 1) -> add_reduce B (m - 1) (m - 1) m = None.
Proof. exact (add_reduce_overflow B m). Qed.
Print Assumptions C01_add_reduce_overflow.
Example C01_add_reduce_overflow_ex : add_reduce 8 199 199 200 = None.
Proof. vm_compute. reflexivity. Qed.

(** With the unit modulus "()" the operations are exact modulo 2^B. *)
Theorem C01_unit (B a b : Z) : 0 <= B ->
  add_reduce_unit B a b = (a + b) mod 2 ^ B /\ sub_reduce_unit B a b = (a - b) mod 2 ^ B /\
  neg_reduce_unit B a = (- a) mod 2 ^ B /\ mul_reduce_unit B a b = (a * b) mod 2 ^ B.
Proof. intros HB. repeat split. Qed.
Print Assumptions C01_unit.
Example C01_unit_ex : add_reduce_unit 8 200 100 = 44 /\ sub_reduce_unit 8 3 5 = 254 /\ neg_reduce_unit 8 1 = 255 /\ mul_reduce_unit 8 16 17 = 16.
Proof. vm_compute. auto. Qed.
