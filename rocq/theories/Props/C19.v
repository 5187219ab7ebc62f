(** C19: decompose_at overwrites its destination with the decomposition.
    False in general: the loop stops at the first zero remainder and leaves the rest of the
    destination untouched.  Proved: the exact result for every destination, and agreement with
    decompose when the destination was zeroed. *)
From Coq Require Import ZArith List Lia.
From Verif Require Import Spec.Basic Model.Base Model.Barrett Model.Field Proofs.FieldProofs.
Import ListNotations.
Local Open Scope Z_scope.

(** Missing from the full statement: destinations with old non-zero contents. *)
Theorem C19_decompose_at_partial (B p bits v : Z) (F : field) (b : basis) :
  wwidth B -> 0 <= p -> derive_field B p = Some F -> 0 <= bits -> basis_new F bits = Some b ->
  0 <= v < p -> f_decompose_at F b v (repeat 0 (bs_len b)) = f_decompose F b v.
Proof.
  intros HB Hp HF H0 Hb Hv. destruct (derive_field_ok B p F HB Hp HF) as (Hok & _ & <-).
  exact (f_decompose_at_zeroed F bits b v Hok Hb H0 Hv).
Qed.
Print Assumptions C19_decompose_at_partial.

(** [k] is the number of significant digits of [v]; the other entries keep their old value. *)
Theorem C19_decompose_at_exact (B p bits v : Z) (F : field) (b : basis) (dest : list Z) :
  wwidth B -> 0 <= p -> derive_field B p = Some F -> 0 <= bits -> basis_new F bits = Some b ->
  0 <= v < p -> length dest = bs_len b ->
  exists d k, f_decompose F b v = Some d /\ (k <= bs_len b)%nat /\
    v < 2 ^ (bits * Z.of_nat k) /\ (forall j, (j < k)%nat -> 2 ^ (bits * Z.of_nat j) <= v) /\
    f_decompose_at F b v dest = Some (firstn k d ++ skipn k dest).
Proof.
  intros HB Hp HF H0 Hb Hv Hl. destruct (derive_field_ok B p F HB Hp HF) as (Hok & _ & <-).
  exact (f_decompose_at_spec F bits b v dest Hok Hb H0 Hv Hl).
Qed.
Print Assumptions C19_decompose_at_exact.

Theorem C19_decompose_at_refuted : exists F b v dest,
  derive_field 32 132120577 = Some F /\ basis_new F 3 = Some b /\ 0 <= v < 132120577 /\
  length dest = bs_len b /\ canonical 132120577 dest /\
  f_decompose_at F b v dest <> f_decompose F b v.
Proof.
  do 2 eexists. exists 9, (repeat 5 9). split; [vm_compute; reflexivity|].
  split; [vm_compute; reflexivity|]. split; [lia|]. split; [reflexivity|].
  split; [repeat constructor; lia|]. vm_compute. discriminate.
Qed.
Print Assumptions C19_decompose_at_refuted.

Example C19_ex : exists F b, derive_field 32 132120577 = Some F /\ basis_new F 3 = Some b /\
  f_decompose_at F b 9 [5; 5; 5; 5; 5; 5; 5; 5; 5] = Some [1; 1; 5; 5; 5; 5; 5; 5; 5].
Proof.
  do 2 eexists. split; [vm_compute; reflexivity|]. split; [vm_compute; reflexivity|].
  vm_compute. reflexivity.
Qed.
