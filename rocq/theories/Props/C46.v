(** C46: polynomial evaluation and ring operations are exact. *)
From Coq Require Import ZArith Znumtheory List Arith Lia.
From Verif Require Import Spec.Basic Spec.Poly Model.Base Model.Field Model.NTT Model.Concrete Model.Poly.
From Verif Require Import Proofs.NumTheory Proofs.FieldProofs Proofs.PolyProofs.
Import ListNotations.
Local Open Scope Z_scope.

Theorem C46_evaluate (B p x : Z) (F : field) (a : list Z) :
  wwidth B -> 0 <= p -> derive_field B p = Some F -> canonical p a -> 0 <= x < p ->
  p_evaluate F a x = Some (ev x a mod p).
Proof.
  intros HB Hp HF. destruct (derive_field_ok B p F HB Hp HF) as (Hok & _ & <-).
  apply (p_evaluate_correct F Hok).
Qed.
Print Assumptions C46_evaluate.

Theorem C46_add (B p : Z) (F : field) (a b d : list Z) :
  wwidth B -> 0 <= p -> derive_field B p = Some F -> canonical p a -> canonical p b ->
  length a = length b -> length d = length a ->
  p_add F a b = Some (pmod p (padd a b)) /\ p_add_assign F a b = Some (pmod p (padd a b)) /\
  p_add_inplace F a b d = Some (pmod p (padd a b)).
Proof.
  intros HB Hp HF Ha Hb Hl Hd. destruct (derive_field_ok B p F HB Hp HF) as (Hok & _ & <-).
  split; [apply p_add_correct|split; [apply p_add_assign_correct|apply p_add_inplace_correct]]; assumption.
Qed.
Print Assumptions C46_add.

Theorem C46_sub (B p : Z) (F : field) (a b d : list Z) :
  wwidth B -> 0 <= p -> derive_field B p = Some F -> canonical p a -> canonical p b ->
  length a = length b -> length d = length a ->
  p_sub F a b = Some (pmod p (psub a b)) /\ p_sub_assign F a b = Some (pmod p (psub a b)) /\
  p_sub_rev F a b = Some (pmod p (psub a b)) /\ p_sub_inplace F a b d = Some (pmod p (psub a b)).
Proof.
  intros HB Hp HF Ha Hb Hl Hd. destruct (derive_field_ok B p F HB Hp HF) as (Hok & _ & <-).
  split; [apply p_sub_correct|split; [apply p_sub_assign_correct|split; [apply p_sub_rev_correct|apply p_sub_inplace_correct]]]; assumption.
Qed.
Print Assumptions C46_sub.

Theorem C46_neg_scale (B p c : Z) (F : field) (a : list Z) :
  wwidth B -> 0 <= p -> derive_field B p = Some F -> canonical p a -> 0 <= c < p ->
  p_neg F a = Some (pmod p (pneg a)) /\ p_mul_scalar F a c = Some (pmod p (pscale c a)).
Proof.
  intros HB Hp HF Ha Hc. destruct (derive_field_ok B p F HB Hp HF) as (Hok & _ & <-).
  split; [apply p_neg_correct|apply p_mul_scalar_correct]; assumption.
Qed.
Print Assumptions C46_neg_scale.

(** Operands of different lengths are rejected rather than truncated. *)
Theorem C46_length_mismatch (F : field) (tbl : tables) (a b : list Z) : length a <> length b ->
  p_add F a b = None /\ p_add_assign F a b = None /\ p_sub F a b = None /\ p_sub_assign F a b = None /\
  p_sub_rev F a b = None /\ p_mul_assign F tbl a b = None /\ n_mul F a b = None.
Proof.
  intros H. assert (E : same_len a b = None).
  { unfold same_len, assert. destruct (Nat.eqb_spec (length a) (length b)); [contradiction|reflexivity]. }
  unfold p_add, p_add_assign, p_sub, p_sub_assign, p_sub_rev, p_mul_assign, n_mul. rewrite E. cbn. auto 10.
Qed.
Print Assumptions C46_length_mismatch.

Example C46_ex : exists F, derive_field 16 97 = Some F /\ p_evaluate F [1; 2; 3] 90 = Some 37 /\
  ev 90 [1; 2; 3] mod 97 = 37 /\ p_add F [90; 1] [10; 96] = Some [3; 0] /\
  p_sub_rev F [5; 1] [10; 96] = Some [92; 2] /\ p_mul_scalar F [50; 3] 2 = Some [3; 6].
Proof. eexists. split; [vm_compute; reflexivity|]. vm_compute. auto 10. Qed.
