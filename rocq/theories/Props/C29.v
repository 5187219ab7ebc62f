(** C29: LWE linear operations act exactly on phases. *)
From Coq Require Import ZArith List.
From Verif Require Import Spec.Basic Spec.Lattice Model.Base Model.Barrett Model.Field Model.Lwe Proofs.LweProofs.
Import ListNotations.
Local Open Scope Z_scope.

Theorem C29_add (q : Z) (O : mops) : modulus_ops q O ->
  phase_hom2 q (lwe_add O) Z.add /\ phase_hom2 q (lwe_add_inplace O) Z.add.
Proof.
  intros H. apply modulus_ops_ok in H. split; [apply lwe_add_hom|apply lwe_add_inplace_hom]; assumption.
Qed.
Print Assumptions C29_add.

Theorem C29_sub (q : Z) (O : mops) : modulus_ops q O ->
  phase_hom2 q (lwe_sub O) Z.sub /\ phase_hom2 q (lwe_sub_inplace O) Z.sub.
Proof.
  intros H. apply modulus_ops_ok in H. split; [apply lwe_sub_hom|apply lwe_sub_inplace_hom]; assumption.
Qed.
Print Assumptions C29_sub.

Theorem C29_neg (q : Z) (O : mops) : modulus_ops q O -> phase_hom1 q (lwe_neg O) Z.opp.
Proof. intros H. apply lwe_neg_hom, modulus_ops_ok, H. Qed.
Print Assumptions C29_neg.

Theorem C29_scalar_mul (q : Z) (O : mops) (c : Z) : modulus_ops q O -> 0 <= c < q ->
  phase_hom1 q (fun x => lwe_scalar_mul O x c) (fun u => u * c).
Proof. intros H. apply lwe_scalar_mul_hom, modulus_ops_ok, H. Qed.
Print Assumptions C29_scalar_mul.

Theorem C29_add_scaled (q : Z) (O : mops) (c : Z) : modulus_ops q O -> 0 <= c < q ->
  phase_hom2 q (fun x y => lwe_add_scaled O x y c) (fun u v => u + v * c).
Proof. intros H. apply lwe_add_scaled_hom, modulus_ops_ok, H. Qed.
Print Assumptions C29_add_scaled.

(** Ciphertexts of different dimensions are refused by addition and subtraction. *)
Theorem C29_dimension_mismatch (O : mops) (x y : lwe) : length (la x) <> length (la y) ->
  lwe_add O x y = None /\ lwe_add_inplace O x y = None /\
  lwe_sub O x y = None /\ lwe_sub_inplace O x y = None.
Proof. apply lwe_len_panic. Qed.
Print Assumptions C29_dimension_mismatch.

Example C29_ex :
  modulus_ops 1024 (p2_mops 16 1023) /\
  (exists m, modulus_ops 97 (barrett_mops 16 m)) /\ (exists F, modulus_ops 97 (field_mops F)) /\
  lwe_wf 1024 2 (mk_lwe [1000; 7] 900) /\
  lwe_add (p2_mops 16 1023) (mk_lwe [1000; 7] 900) (mk_lwe [100; 1020] 200) = Some (mk_lwe [76; 3] 76) /\
  lwe_add_scaled (p2_mops 16 1023) (mk_lwe [1000; 7] 900) (mk_lwe [100; 1020] 200) 1023 = Some (mk_lwe [900; 11] 700).
Proof.
  split; [apply (mod_pow2 16 10); split; discriminate|].
  assert (W : wwidth 16) by (exists 8; split; [discriminate|reflexivity]).
  split. { eexists. eapply mod_barrett; [exact W|discriminate|vm_compute; reflexivity]. }
  split. { eexists. eapply mod_field; [exact W|discriminate|vm_compute; reflexivity]. }
  split.
  - split; [reflexivity|]. split; [repeat constructor; discriminate|]. split; [discriminate|reflexivity].
  - vm_compute. auto.
Qed.
