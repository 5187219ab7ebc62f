(** C08: extended_gcd returns a Bezout identity for every pair of words.
    As stated (all pairs) this is false of the code: a zero argument gives (0,0,0) and wide
    arguments overflow the signed coefficients.  It holds for 0 < x, y < 2^(BITS-2); up to 2^(BITS-1) what is
    returned is right; beyond, the gcd is right and the coefficients may be wrong. *)
From Coq Require Import ZArith.
From Verif Require Import Spec.Basic Model.Base Model.Gcd Proofs.GcdProofs Proofs.GcdMore.
Local Open Scope Z_scope.

(** Missing from the full statement: zero operands and operands of the two top bit sizes. *)
Theorem C08_extended_gcd_partial (B x y : Z) :
  2 <= B -> 0 < x < 2 ^ (B - 2) -> 0 < y < 2 ^ (B - 2) ->
  exists c d, extended_gcd B x y = Some (c, d, Z.gcd x y) /\ c * x + d * y = Z.gcd x y /\
    - y <= c <= y /\ - x <= d <= x.
Proof. exact (extended_gcd_correct B x y). Qed.
Print Assumptions C08_extended_gcd_partial.

Example C08_ex : extended_gcd 32 1000000513 12345 <> None /\ extended_gcd 8 63 62 <> None /\
  extended_gcd 8 48 36 = Some (1, -1, 12).
Proof. vm_compute. repeat split; discriminate. Qed.

(** Powers of two common to both operands do not count towards the bound. *)
Theorem C08_shifted_partial (B s x y : Z) : 2 <= B -> 0 <= s -> 0 < x < 2 ^ (B - 2) -> 0 < y < 2 ^ (B - 2) -> x * 2 ^ s < 2 ^ B -> y * 2 ^ s < 2 ^ B ->
  exists c d, extended_gcd B (x * 2 ^ s) (y * 2 ^ s) = Some (c, d, Z.gcd x y * 2 ^ s) /\ c * x + d * y = Z.gcd x y /\
    - y <= c <= y /\ - x <= d <= x.
Proof. exact (extended_gcd_shifted B s x y). Qed.
Print Assumptions C08_shifted_partial.

Example C08_ex_shifted : extended_gcd 8 (60 * 2 ^ 2) (33 * 2 ^ 2) = Some (5, -9, 12) /\ 5 * 60 - 9 * 33 = 3.
Proof. vm_compute. split; reflexivity. Qed.

(** One bit more: a panic or the right triple. *)
Theorem C08_half_words_partial (B x y c d v : Z) :
  2 <= B -> 0 < x < 2 ^ (B - 1) -> 0 < y < 2 ^ (B - 1) -> extended_gcd B x y = Some (c, d, v) ->
  v = Z.gcd x y /\ c * x + d * y = v.
Proof. exact (extended_gcd_bezout B x y c d v). Qed.
Print Assumptions C08_half_words_partial.

(** All words but zero: a panic or the right gcd. *)
Theorem C08_gcd_partial (B x y c d v : Z) :
  0 < B -> 0 < x < 2 ^ B -> 0 < y < 2 ^ B -> extended_gcd B x y = Some (c, d, v) -> v = Z.gcd x y.
Proof. exact (extended_gcd_value B x y c d v). Qed.
Print Assumptions C08_gcd_partial.

Example C08_ex_wide : extended_gcd 64 (2 ^ 62 + 2 ^ 61) (2 ^ 62) = Some (-1, 2, 2 ^ 61) /\ extended_gcd 64 (2 ^ 63) 2 = Some (0, 1, 2).
Proof. vm_compute. split; reflexivity. Qed.

(** Zero operand, in every width: the returned triple is zero, not the gcd. *)
Theorem C08_zero_refuted (B : Z) : 1 <= B -> forall x, 0 < x < 2 ^ B ->
  extended_gcd B 0 x = Some (0, 0, 0) /\ extended_gcd B x 0 = Some (0, 0, 0) /\ Z.gcd 0 x = x /\ Z.gcd x 0 = x.
Proof.
  intros HB x Hx. split; [apply extended_gcd_zero; left; reflexivity|]. split; [apply extended_gcd_zero; right; reflexivity|].
  split; [apply Z.gcd_0_l_nonneg|apply Z.gcd_0_r_nonneg]; apply Z.lt_le_incl, Hx.
Qed.
Print Assumptions C08_zero_refuted.

(** Just above the bound the signed arithmetic overflows (debug builds panic). *)
Theorem C08_overflow_refuted : exists x y : Z, 0 < x < 2 ^ 64 /\ 0 < y < 2 ^ 64 /\
  extended_gcd 64 x y = None.
Proof.
  exists (2 ^ 62 + 1), (2 ^ 62). split; [vm_compute; split; congruence|].
  split; [vm_compute; split; congruence|]. vm_compute. reflexivity.
Qed.
Print Assumptions C08_overflow_refuted.

(** With the top bit set the coefficients may be wrong without a panic. *)
Theorem C08_coefficients_refuted : exists x y c d : Z, 0 < x < 2 ^ 64 /\ 0 < y < 2 ^ 64 /\
  extended_gcd 64 x y = Some (c, d, Z.gcd x y) /\ c * x + d * y <> Z.gcd x y.
Proof.
  exists 1, (3 * 2 ^ 62). eexists. eexists. split; [vm_compute; split; congruence|]. split; [vm_compute; split; congruence|].
  split; [vm_compute; reflexivity|vm_compute; discriminate].
Qed.
Print Assumptions C08_coefficients_refuted.
