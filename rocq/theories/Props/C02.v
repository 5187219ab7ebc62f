(** C02: BarrettModulus::new accepts exactly 2 <= m < 2^(BITS-2), with the exact reciprocal. *)
From Coq Require Import ZArith.
From Verif Require Import Spec.Basic Model.Base Model.Barrett Proofs.BarrettProofs.
Local Open Scope Z_scope.

Theorem C02_barrett_new (B v : Z) : wwidth B -> 0 <= v < 2 ^ B ->
  (2 <= v < 2 ^ (B - 2) ->
     exists m, barrett_new B v = Some m /\ bval m = v /\
       0 <= br0 m < 2 ^ B /\ 0 <= br1 m < 2 ^ B /\
       br0 m + br1 m * 2 ^ B = 2 ^ (2 * B) / v) /\
  (~ 2 <= v < 2 ^ (B - 2) -> barrett_new B v = None).
Proof. exact (barrett_new_full B v). Qed.
Print Assumptions C02_barrett_new.

(** The bit count reported for an accepted modulus is its bit length. *)
Theorem C02_bit_count (B v : Z) (m : barrett) : wwidth B -> 0 <= v < 2 ^ B -> barrett_new B v = Some m ->
  2 ^ (bit_count m - 1) <= v < 2 ^ bit_count m.
Proof. exact (bit_count_correct B v m). Qed.
Print Assumptions C02_bit_count.
Example C02_bit_count_ex : bit_count (mk_barrett 12289 3827689952 349496) = 14.
Proof. reflexivity. Qed.

(** 32-bit and 64-bit moduli; one for each internal division path. *)
Example C02_ex32 : wwidth 32 /\
  barrett_new 32 1000000513 = Some (mk_barrett 1000000513 1266865426 4) /\
  barrett_new 32 12289 = Some (mk_barrett 12289 3827689952 349496).
Proof. split; [exists 16; split; [discriminate|reflexivity]|vm_compute; auto]. Qed.
Example C02_ex_reject : barrett_new 8 64 = None /\ barrett_new 8 1 = None /\ barrett_new 8 63 <> None.
Proof. vm_compute. repeat split; discriminate. Qed.
