(** C23: the monomial transforms agree with the general transform. *)
From Coq Require Import ZArith Znumtheory List Arith Lia.
From Verif Require Import Spec.Basic Spec.Poly Model.Base Model.Field Model.NTT.
From Verif Require Import Proofs.NumTheory Proofs.PolyMain Proofs.MonomialMore.
Import ListNotations.
Local Open Scope Z_scope.

(** The bound on the degree is the condition for (2i+1)*d not to overflow a usize. *)
Theorem C23_monomial_partial (B p : Z) (k : nat) (F : field) (draws : nat -> Z) (T : ntt_table) (c : Z) (d : nat) :
  wwidth B -> prime p -> derive_field B p = Some F -> (forall i, 2 <= draws i <= p - 1) ->
  generate_ntt_table F draws k = Some (Ok T) -> 0 <= c < p ->
  (2 * 2 ^ Z.of_nat k - 1) * Z.of_nat d < 2 ^ 64 ->
  exists v, transform_slice F T (pmod p (monomial (2 ^ k) c d)) = Some v /\
    transform_monomial F T c (Z.of_nat d) (2 ^ k) = Some v.
Proof.
  intros HB Hp HF Hd HT. apply (gen_monomial B p k F T c d).
  exact (gen_facts_intro B p k F draws T HB Hp HF Hd HT).
Qed.
Print Assumptions C23_monomial_partial.

Theorem C23_monomial_one_partial (B p : Z) (k : nat) (F : field) (draws : nat -> Z) (T : ntt_table) (d : nat) :
  wwidth B -> prime p -> derive_field B p = Some F -> (forall i, 2 <= draws i <= p - 1) ->
  generate_ntt_table F draws k = Some (Ok T) ->
  (2 * 2 ^ Z.of_nat k - 1) * Z.of_nat d < 2 ^ 64 ->
  exists v, transform_slice F T (pmod p (monomial (2 ^ k) 1 d)) = Some v /\
    transform_coeff_one_monomial T (Z.of_nat d) (2 ^ k) = Some v.
Proof.
  intros HB Hp HF Hd HT. apply (gen_monomial_one B p k F T d).
  exact (gen_facts_intro B p k F draws T HB Hp HF Hd HT).
Qed.
Print Assumptions C23_monomial_one_partial.

Theorem C23_monomial_neg_one_partial (B p : Z) (k : nat) (F : field) (draws : nat -> Z) (T : ntt_table) (d : nat) :
  wwidth B -> prime p -> derive_field B p = Some F -> (forall i, 2 <= draws i <= p - 1) ->
  generate_ntt_table F draws k = Some (Ok T) ->
  (2 * 2 ^ Z.of_nat k - 1) * Z.of_nat d < 2 ^ 64 ->
  exists v, transform_slice F T (pmod p (monomial (2 ^ k) (-1) d)) = Some v /\
    transform_coeff_neg_one_monomial F T (Z.of_nat d) (2 ^ k) = Some v.
Proof.
  intros HB Hp HF Hd HT. apply (gen_monomial_neg_one B p k F T d).
  exact (gen_facts_intro B p k F draws T HB Hp HF Hd HT).
Qed.
Print Assumptions C23_monomial_neg_one_partial.

(** The bound is exact: from there on every one of the three transforms panics in a checked build,
    for every coefficient but 0.  C71 says what an optimised build does. *)
Theorem C23_wide_degree_partial (B p : Z) (k : nat) (F : field) (draws : nat -> Z) (T : ntt_table) (c d : Z) :
  wwidth B -> prime p -> derive_field B p = Some F -> (forall i, 2 <= draws i <= p - 1) ->
  generate_ntt_table F draws k = Some (Ok T) -> 0 < c < p ->
  2 ^ 64 <= (2 * 2 ^ Z.of_nat k - 1) * d ->
  transform_monomial F T c d (2 ^ k) = None /\
  transform_coeff_one_monomial T d (2 ^ k) = None /\
  transform_coeff_neg_one_monomial F T d (2 ^ k) = None.
Proof.
  intros HB Hp HF Hd HT. apply (gen_monomial_panics B p k F T c d).
  exact (gen_facts_intro B p k F draws T HB Hp HF Hd HT).
Qed.
Print Assumptions C23_wide_degree_partial.

(** So the statement for every degree is false. *)
Theorem C23_every_degree_refuted :
  exists (B p : Z) (F : field) (draws : nat -> Z) (T : ntt_table) (d : Z),
    wwidth B /\ prime p /\ derive_field B p = Some F /\ (forall i, 2 <= draws i <= p - 1) /\
    generate_ntt_table F draws 1 = Some (Ok T) /\ 0 <= d < 2 ^ 64 /\
    transform_coeff_one_monomial T d 2 = None.
Proof.
  exists 16, 97. eexists. exists (fun _ => 5). eexists. exists (2 ^ 63).
  split; [exists 8; lia|]. split; [apply small_prime; vm_compute; reflexivity|].
  split; [vm_compute; reflexivity|]. split; [lia|]. split; [vm_compute; reflexivity|].
  split; [lia|]. vm_compute. reflexivity.
Qed.
Print Assumptions C23_every_degree_refuted.

Example C23_ex : exists F T, prime 97 /\ derive_field 16 97 = Some F /\
  generate_ntt_table F (fun _ => 5) 2 = Some (Ok T) /\
  monomial 4 13 6 = [0; 0; -13; 0] /\
  transform_monomial F T 13 6 4 = Some [5; 5; 92; 92] /\
  transform_slice F T [0; 0; 84; 0] = Some [5; 5; 92; 92].
Proof.
  eexists. eexists. split; [apply small_prime; vm_compute; reflexivity|].
  split; [vm_compute; reflexivity|]. split; [vm_compute; reflexivity|]. vm_compute. auto.
Qed.
