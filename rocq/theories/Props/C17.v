(** C17: inverting or dividing by zero is rejected by both inv() and /.
    Division panics, but inv() silently returns 0 for every modulus above 2 (and 1 for p = 2):
    the full statement is refuted. *)
From Coq Require Import ZArith Znumtheory.
From Verif Require Import Spec.Basic Model.Base Model.Barrett Model.Field Proofs.FieldProofs.
Local Open Scope Z_scope.

(** Missing from the full statement: rejection by inv(). *)
Theorem C17_div_by_zero_partial (B p a : Z) (F : field) :
  wwidth B -> 0 <= p -> derive_field B p = Some F -> f_div F a 0 = None.
Proof.
  intros HB Hp HF. destruct (derive_field_ok B p F HB Hp HF) as (Hok & _ & _).
  apply f_div_zero; assumption.
Qed.
Print Assumptions C17_div_by_zero_partial.

Theorem C17_inv_zero_refuted (B p : Z) (F : field) :
  wwidth B -> 3 <= p -> derive_field B p = Some F -> f_inv F 0 = Some 0 /\ f_div F 1 0 = None.
Proof.
  intros HB Hp HF.
  destruct (derive_field_ok B p F HB (Z.le_trans 0 3 p ltac:(discriminate) Hp) HF) as (Hok & _ & E).
  split; [apply f_inv_zero; [assumption|rewrite E; assumption]|apply f_div_zero; assumption].
Qed.
Print Assumptions C17_inv_zero_refuted.

Example C17_ex : exists F, derive_field 32 132120577 = Some F /\ f_inv F 0 = Some 0 /\ f_div F 5 0 = None.
Proof. eexists. split; [vm_compute; reflexivity|]. vm_compute. auto. Qed.
