(** C71: the monomial transforms of an optimised build. *)
From Coq Require Import ZArith Znumtheory List Arith Lia.
From Verif Require Import Spec.Basic Spec.Poly Model.Base Model.Field Model.NTT Model.Release.
From Verif Require Import Proofs.NumTheory Proofs.PolyMain Proofs.ReleaseProofs.
Import ListNotations.
Local Open Scope Z_scope.

(** [None] would be an out-of-bounds unchecked read.  For every usize exponent and every destination the call returns;
    the entries it covers are those of the general transform of c*X^d, and when it runs the table it leaves the rest of a
    longer destination alone. *)
Theorem C71_monomial (B p : Z) (k : nat) (F : field) (draws : nat -> Z) (T : ntt_table) (c d : Z) (values : list Z) :
  wwidth B -> prime p -> derive_field B p = Some F -> (forall i, 2 <= draws i <= p - 1) ->
  generate_ntt_table F draws k = Some (Ok T) -> 0 <= c < p -> 0 <= d < 2 ^ 64 ->
  exists v r, transform_slice F T (pmod p (monomial (2 ^ k) c (Z.to_nat d))) = Some v /\
    rel_transform_monomial F T c d values = Some r /\ length r = length values /\
    firstn (2 ^ k) r = firstn (length values) v /\
    (c <> 0 -> d <> 0 -> skipn (2 ^ k) r = skipn (2 ^ k) values).
Proof.
  intros HB Hp HF Hd HT Hc Hd'. pose proof (gen_facts_intro B p k F draws T HB Hp HF Hd HT) as G.
  destruct (gen_rel_monomial B p k F T c d values G Hc ltac:(lia)) as (v & r & E & _ & E' & (R & R') & S).
  exists v, r. auto.
Qed.
Print Assumptions C71_monomial.

(** The two dedicated entry points are that transform for the coefficients 1 and -1. *)
Theorem C71_units (B p : Z) (k : nat) (F : field) (draws : nat -> Z) (T : ntt_table) (d : Z) (values : list Z) :
  wwidth B -> prime p -> derive_field B p = Some F -> (forall i, 2 <= draws i <= p - 1) ->
  generate_ntt_table F draws k = Some (Ok T) ->
  rel_transform_coeff_one_monomial T d values = rel_transform_monomial F T 1 d values /\
  rel_transform_coeff_neg_one_monomial F T d values = rel_transform_monomial F T (p - 1) d values.
Proof.
  intros HB Hp HF Hd HT. pose proof (gen_facts_intro B p k F draws T HB Hp HF Hd HT) as G.
  split; [apply rel_one_eq|]. rewrite (rel_neg_one_eq F T d values);
    [unfold f_neg_one; rewrite (gf_p _ _ _ _ _ G); reflexivity|rewrite (gf_p _ _ _ _ _ G); apply (gf_2 _ _ _ _ _ G)].
Qed.
Print Assumptions C71_units.

(** On a destination of the right length the result is the transform, for every usize exponent (the checked build
    panics on large ones, C23). *)
Theorem C71_every_degree (B p : Z) (k : nat) (F : field) (draws : nat -> Z) (T : ntt_table) (c d : Z) (values : list Z) :
  wwidth B -> prime p -> derive_field B p = Some F -> (forall i, 2 <= draws i <= p - 1) ->
  generate_ntt_table F draws k = Some (Ok T) -> 0 <= c < p -> 0 <= d < 2 ^ 64 -> length values = (2 ^ k)%nat ->
  exists v, transform_slice F T (pmod p (monomial (2 ^ k) c (Z.to_nat d))) = Some v /\
    rel_transform_monomial F T c d values = Some v.
Proof.
  intros HB Hp HF Hd HT Hc Hd' Hl. pose proof (gen_facts_intro B p k F draws T HB Hp HF Hd HT) as G.
  destruct (gen_rel_monomial B p k F T c d values G Hc ltac:(lia)) as (v & r & E & L & E' & R & _).
  exists v. rewrite <- (rel_full _ _ _ _ L Hl R) at 2. auto.
Qed.
Print Assumptions C71_every_degree.

(** Wherever a checked build returns a result, the optimised build returns the same. *)
Theorem C71_agrees (B p : Z) (k : nat) (F : field) (draws : nat -> Z) (T : ntt_table) (c d : Z) (values v : list Z) :
  wwidth B -> prime p -> derive_field B p = Some F -> (forall i, 2 <= draws i <= p - 1) ->
  generate_ntt_table F draws k = Some (Ok T) -> 0 <= d < 2 ^ 64 ->
  transform_monomial F T c d (length values) = Some v -> rel_transform_monomial F T c d values = Some v.
Proof.
  intros HB Hp HF Hd HT Hd'. pose proof (gen_facts_intro B p k F draws T HB Hp HF Hd HT) as G.
  apply (gen_rel_agrees B p k F T c d values v G). lia.
Qed.
Print Assumptions C71_agrees.

Example C71_ex : exists F T, prime 97 /\ derive_field 16 97 = Some F /\
  generate_ntt_table F (fun _ => 5) 2 = Some (Ok T) /\
  transform_monomial F T 13 6 4 = Some [5; 5; 92; 92] /\
  rel_transform_monomial F T 13 6 [1; 2; 3; 4] = Some [5; 5; 92; 92] /\
  transform_monomial F T 13 (2 ^ 64 - 2) 4 = None /\
  rel_transform_monomial F T 13 (2 ^ 64 - 2) [1; 2; 3; 4; 5; 6] = Some [5; 5; 92; 92; 5; 6] /\
  rel_transform_coeff_neg_one_monomial F T (2 ^ 63 + 1) [9; 9] = rel_transform_coeff_neg_one_monomial F T 1 [0; 0].
Proof.
  eexists. eexists. split; [apply small_prime; vm_compute; reflexivity|].
  split; [vm_compute; reflexivity|]. split; [vm_compute; reflexivity|].
  repeat split; vm_compute; reflexivity.
Qed.
