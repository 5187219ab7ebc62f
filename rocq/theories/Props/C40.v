(** C40: the look-up tables of the Boolean gates. *)
From Coq Require Import ZArith List Bool Lia.
From Verif Require Import Spec.Basic Spec.Poly Spec.Blind Spec.Gates Model.Base Model.Field Model.Boolean.
From Verif Require Import Proofs.FieldProofs Proofs.LutProofs Proofs.ExampleTac.
Import ListNotations.
Local Open Scope Z_scope.

(** Every ring dimension N = 2^k >= 4 and LWE modulus q = 2^j >= 8, every field: the step is found,
    and the table of each gate turns a rotation by a phase t on the grid of step [st] into 2*(p/8)
    exactly on the gate's half circle (modulo 2N: nand [-N/4, 3N/4), and/majority [3N/4, 7N/4),
    or [N/4, 5N/4), nor [-3N/4, N/4), xor [N/2, 3N/2), xnor [-N/2, N/2)) and into 0 elsewhere. *)
Theorem C40_tables (B p : Z) (F : field) (k j : Z) :
  wwidth B -> 0 <= p -> derive_field B p = Some F -> 2 <= k < 63 -> 3 <= j ->
  let N := 2 ^ k in let q := 2 ^ j in let n := Z.to_nat N in
  exists st, lut_step N q = Some st /\ 0 < st /\ (st * q = 2 * N \/ (st = 1 /\ 2 * N < q)) /\
  (exists lut, init_nand_lut F N st = Some lut /\ half_circle_table p n st (- (N / 4)) lut) /\
  (exists lut, init_and_majority_lut F N st = Some lut /\ half_circle_table p n st (3 * (N / 4)) lut) /\
  (exists lut, init_or_lut F N st = Some lut /\ half_circle_table p n st (N / 4) lut) /\
  (exists lut, init_nor_lut F N st = Some lut /\ half_circle_table p n st (- (3 * (N / 4))) lut) /\
  (exists lut, init_xor_lut F N st = Some lut /\ half_circle_table p n st (N / 2) lut) /\
  (exists lut, init_xnor_lut F N st = Some lut /\ half_circle_table p n st (- (N / 2)) lut).
Proof.
  intros HB Hp HF Hk Hj N q n. destruct (derive_field_ok B p F HB Hp HF) as (Hok & <- & <-).
  exists (2 ^ Z.max 0 (k + 1 - j)). split; [apply lut_step_correct; lia|]. split; [apply Z.pow_pos_nonneg; lia|]. split.
  - unfold q, N. change 2 with (2 ^ 1) at 3. change 2 with (2 ^ 1) at 6. rewrite <- !Z.pow_add_r by lia.
    destruct (Z_le_gt_dec j (k + 1)); [left; f_equal; lia|right]. rewrite Z.max_l by lia. split; [reflexivity|apply Z.pow_lt_mono_r; lia].
  - exact (tables_correct F Hok k j _ Hk Hj eq_refl).
Qed.
Print Assumptions C40_tables.

(** q >= 8 is needed: with q = 4 (and t = 4, no room for noise) the or table misses a grid point. *)
Theorem C40_smallest_modulus : exists F st lut, derive_field 16 97 = Some F /\
  lut_step 8 4 = Some st /\ init_or_lut F 8 st = Some lut /\ (st | 4) /\
  (nth 0 (negacyclic 8 (xpow 8 (- 4)) lut) 0 + 97 / 8) mod 97 = 97 / 8.
Proof.
  eexists. eexists. eexists. split; [vm_compute; reflexivity|]. split; [vm_compute; reflexivity|]. split; [vm_compute; reflexivity|].
  split; [exists 1; reflexivity|]. vm_compute. reflexivity.
Qed.
Print Assumptions C40_smallest_modulus.

(** N = 8: modulus 8 (every second entry filled) and modulus 32 (all filled). *)
Example C40_ex : exists F, derive_field 16 97 = Some F /\
  lut_step 8 8 = Some 2 /\ init_nand_lut F 8 2 = Some [12; 0; 12; 0; 12; 0; 85; 0] /\
  init_or_lut F 8 2 = Some [85; 0; 12; 0; 12; 0; 12; 0] /\ init_xor_lut F 8 2 = Some [85; 0; 85; 0; 12; 0; 12; 0] /\
  lut_step 8 32 = Some 1 /\ init_nand_lut F 8 1 = Some [12; 12; 12; 12; 12; 12; 85; 85] /\
  nth 0 (negacyclic 8 (xpow 8 (- 14)) [12; 0; 12; 0; 12; 0; 85; 0]) 0 = -85 /\ (-85 + 97 / 8) mod 97 = 2 * (97 / 8).
Proof. eexists. split; [vm_compute; reflexivity|]. vm_compute. auto 10. Qed.
