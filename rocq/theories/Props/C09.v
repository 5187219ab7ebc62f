(** C09: Shoup multiplication is exact for every multiplicand word. *)
From Coq Require Import ZArith.
From Verif Require Import Spec.Basic Model.Base Model.Shoup Proofs.Arith Proofs.ShoupProofs.
Local Open Scope Z_scope.

Theorem C09_shoup_new (B w m : Z) : 0 <= B -> 0 <= w < m -> m <= 2 ^ B ->
  shoup_new B w m = Some (mk_shoup w ((w * 2 ^ B) / m)).
Proof. exact (shoup_new_correct B w m). Qed.
Print Assumptions C09_shoup_new.

Theorem C09_shoup_mul (B w m x : Z) (s : shoup) :
  1 <= B -> 0 <= w < m -> m <= 2 ^ (B - 1) -> 0 <= x < 2 ^ B ->
  shoup_new B w m = Some s ->
  shoup_mul B s x m = Some ((w * x) mod m) /\
  0 <= shoup_mul_lazy B s x m < 2 * m /\ cong m (shoup_mul_lazy B s x m) (w * x).
Proof. exact (shoup_mul_full B w m x s). Qed.
Print Assumptions C09_shoup_mul.

Theorem C09_shoup_new_panics (B w m : Z) : m <= w -> shoup_new B w m = None.
Proof. exact (shoup_new_panics B w m). Qed.
Print Assumptions C09_shoup_new_panics.

(** Updating a factor gives exactly the freshly built one. *)
Theorem C09_shoup_set (B w m : Z) (s : shoup) : shoup_set B s w m = shoup_new B w m.
Proof. exact (shoup_set_correct B s w m). Qed.
Print Assumptions C09_shoup_set.
Theorem C09_shoup_set_modulus (B w q m : Z) : shoup_set_modulus B (mk_shoup w q) m = shoup_new B w m.
Proof. exact (shoup_set_modulus_correct B (mk_shoup w q) m). Qed.
Print Assumptions C09_shoup_set_modulus.

Example C09_ex : exists s, shoup_new 32 999999999 2147483647 = Some s /\
  shoup_mul 32 s 4294967295 2147483647 = Some ((999999999 * 4294967295) mod 2147483647).
Proof. eexists. split; [vm_compute; reflexivity|]. vm_compute. reflexivity. Qed.
