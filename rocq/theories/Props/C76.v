(** C76: the optimised build returns what the checked build returns.

    The checked build stops on arithmetic overflow, on shifts by the width or more and on debug
    assertions; the optimised one wraps and does not look.  All other stops are common to both. *)
From Coq Require Import ZArith Znumtheory List Bool Lia.
From Verif Require Import Spec.Basic Spec.Poly Spec.Lattice Spec.Ring Spec.Blind Spec.Switch Spec.Gates Spec.KeyGen Spec.Profiles.
From Verif Require Import Model.Base Model.Reduce Model.Gcd Model.Barrett Model.PowOf2 Model.Shoup Model.Field Model.Prime Model.BabyBear Model.Goldilocks.
From Verif Require Import Model.NTT Model.Concrete Model.Poly Model.DecomposeAt Model.Plaintext Model.Lwe Model.Rlwe Model.Gadget Model.BlindRotation Model.KeySwitch Model.ModSwitch Model.Params Model.Boolean Model.Sample Model.SecretKey.
From Verif Require Import Model.OptArith Model.OptRing Model.OptScheme.
From Verif Require Import Proofs.Refine Proofs.OptArithProofs Proofs.OptRingProofs Proofs.OptSchemeProofs Proofs.OptMain Props.C49.
Import ListNotations.
Local Open Scope Z_scope.

(** The optimised arithmetic on words: modulo the width, shift amounts too; assertions pass. *)
Theorem C76_words (B a b : Z) : 0 < B -> 0 <= a < 2 ^ B -> 0 <= b < 2 ^ B ->
  uadd_o B a b = Some ((a + b) mod 2 ^ B) /\ usub_o B a b = Some ((a - b) mod 2 ^ B) /\
  umul_o B a b = Some ((a * b) mod 2 ^ B) /\ ushl_o B a b = Some ((a * 2 ^ (b mod B)) mod 2 ^ B) /\
  ushr_o B a b = Some (a / 2 ^ (b mod B)) /\ (forall c, debug_assert_o c = Some tt).
Proof. exact (words_o B a b). Qed.

(** Signed words: the result is the representative of the exact one in [-2^(B-1), 2^(B-1)). *)
Theorem C76_signed (B a b : Z) : 0 < B ->
  (exists z, sadd_o B a b = Some z /\ - 2 ^ (B - 1) <= z < 2 ^ (B - 1) /\ cong (2 ^ B) z (a + b)) /\
  (exists z, ssub_o B a b = Some z /\ - 2 ^ (B - 1) <= z < 2 ^ (B - 1) /\ cong (2 ^ B) z (a - b)).
Proof. exact (signed_o B a b). Qed.

(** Operations modulo a word-sized modulus: sums, differences, negation, powers, inverses, greatest common divisors, Barrett reduction and dot products, powers of two, prepared factors, primality. *)
Theorem C76_moduli :
  (forall (B a b m : Z), agrees (add_reduce B a b m) (add_reduce_o B a b m)) /\
  (forall (B a b m : Z), agrees (sub_reduce B a b m) (sub_reduce_o B a b m)) /\
  (forall (B a b m : Z), agrees (sub_reduce_assign B a b m) (sub_reduce_assign_o B a b m)) /\
  (forall (B a m : Z), agrees (neg_reduce a m) (neg_reduce_o B a m)) /\
  (forall (B x y : Z), agrees (gcd B x y) (gcd_o B x y)) /\
  (forall (B x y : Z), agrees (coprime B x y) (coprime_o B x y)) /\
  (forall (B x y : Z), agrees (not_coprime B x y) (not_coprime_o B x y)) /\
  (forall (B x y : Z), agrees (extended_gcd B x y) (extended_gcd_o B x y)) /\
  (forall (B a m : Z), agrees (inv_reduce B a m) (inv_reduce_o B a m)) /\
  (forall (B a m : Z), agrees (try_inv_reduce B a m) (try_inv_reduce_o B a m)) /\
  (forall (B v : Z), agrees (barrett_new B v) (barrett_new_o B v)) /\
  (forall (B : Z) (m : barrett) (x : Z * Z), agrees (lazy_reduce2 B m x) (lazy_reduce2_o B m x)) /\
  (forall (B : Z) (m : barrett) (x : Z * Z), agrees (reduce2 B m x) (reduce2_o B m x)) /\
  (forall (B : Z) (m : barrett) (l : list Z), agrees (lazy_reduce_slice B m l) (lazy_reduce_slice_o B m l)) /\
  (forall (B : Z) (m : barrett) (l : list Z), agrees (reduce_slice B m l) (reduce_slice_o B m l)) /\
  (forall (B : Z) (m : barrett) (a b : Z), agrees (badd B m a b) (badd_o B m a b)) /\
  (forall (B : Z) (m : barrett) (a b : Z), agrees (bsub B m a b) (bsub_o B m a b)) /\
  (forall (B : Z) (m : barrett) (a : Z), agrees (bneg m a) (bneg_o B m a)) /\
  (forall (B : Z) (m : barrett) (a b : Z), agrees (bmul B m a b) (bmul_o B m a b)) /\
  (forall (B : Z) (m : barrett) (a b : Z), agrees (lazy_bmul B m a b) (lazy_bmul_o B m a b)) /\
  (forall (B EB : Z) (m : barrett) (a e : Z), agrees (bexp B EB m a e) (bexp_o B EB m a e)) /\
  (forall (B : Z) (m : barrett) (a k : Z), agrees (bexp_pow2 B m a k) (bexp_pow2_o B m a k)) /\
  (forall (B : Z) (m : barrett) (a : Z), agrees (binv B m a) (binv_o B m a)) /\
  (forall (B : Z) (m : barrett) (a b : Z), agrees (bdiv B m a b) (bdiv_o B m a b)) /\
  (forall (B : Z) (m : barrett) (a b : list Z), agrees (bdot B m a b) (bdot_o B m a b)) /\
  (forall (B EB mask a e : Z), agrees (p2_exp B EB mask a e) (p2_exp_o B EB mask a e)) /\
  (forall (B mask : Z) (a b : list Z), agrees (p2_dot B mask a b) (p2_dot_o B mask a b)) /\
  (forall (B v m : Z), agrees (shoup_new B v m) (shoup_new_o B v m)) /\
  (forall (B : Z) (s : shoup) (m : Z), agrees (shoup_set_modulus B s m) (shoup_set_modulus_o B s m)) /\
  (forall (B : Z) (s : shoup) (v m : Z), agrees (shoup_set B s v m) (shoup_set_o B s v m)) /\
  (forall (B : Z) (m : barrett) (rounds : nat) (draw : (nat -> Z)), agrees (probably_prime B m rounds draw) (probably_prime_o B m rounds draw)).
Proof.
  repeat (apply conj); intros.
  - apply ref_add_reduce.
  - apply ref_sub_reduce.
  - apply ref_sub_reduce_assign.
  - apply ref_neg_reduce.
  - apply ref_gcd.
  - apply ref_coprime.
  - apply ref_not_coprime.
  - apply ref_extended_gcd.
  - apply ref_inv_reduce.
  - apply ref_try_inv_reduce.
  - apply ref_barrett_new.
  - apply ref_lazy_reduce2.
  - apply ref_reduce2.
  - apply ref_lazy_reduce_slice.
  - apply ref_reduce_slice.
  - apply ref_badd.
  - apply ref_bsub.
  - apply ref_bneg.
  - apply ref_bmul.
  - apply ref_lazy_bmul.
  - apply ref_bexp.
  - apply ref_bexp_pow2.
  - apply ref_binv.
  - apply ref_bdiv.
  - apply ref_bdot.
  - apply ref_p2_exp.
  - apply ref_p2_dot.
  - apply ref_shoup_new.
  - apply ref_shoup_set_modulus.
  - apply ref_shoup_set.
  - apply ref_probably_prime.
Qed.

(** Derived fields and the decomposition of their elements. *)
Theorem C76_fields :
  (forall (B p : Z), agrees (derive_field B p) (derive_field_o B p)) /\
  (forall (F : field) (a b : Z), agrees (f_add F a b) (f_add_o F a b)) /\
  (forall (F : field) (a b : Z), agrees (f_sub F a b) (f_sub_o F a b)) /\
  (forall (F : field) (a b : Z), agrees (f_sub_assign F a b) (f_sub_assign_o F a b)) /\
  (forall (F : field) (a b : Z), agrees (f_mul F a b) (f_mul_o F a b)) /\
  (forall (F : field) (a : Z), agrees (f_neg F a) (f_neg_o F a)) /\
  (forall (F : field) (a e : Z), agrees (f_pow F a e) (f_pow_o F a e)) /\
  (forall (F : field) (a b : Z), agrees (f_div F a b) (f_div_o F a b)) /\
  (forall (F : field) (a : Z), agrees (f_inv F a) (f_inv_o F a)) /\
  (forall (F : field) (c a b : Z), agrees (f_add_mul F c a b) (f_add_mul_o F c a b)) /\
  (forall (F : field) (a b : Z), agrees (f_mul_fast F a b) (f_mul_fast_o F a b)) /\
  (forall (F : field) (c a b : Z), agrees (f_add_mul_fast F c a b) (f_add_mul_fast_o F c a b)) /\
  (forall (F : field) (bits : Z), agrees (basis_new F bits) (basis_new_o F bits)) /\
  (forall (F : field) (b : basis) (v : Z), agrees (f_decompose F b v) (f_decompose_o F b v)) /\
  (forall (F : field) (b : basis) (v : Z) (dest : list Z), agrees (f_decompose_at F b v dest) (f_decompose_at_o F b v dest)) /\
  (forall (F : field) (mask bits v : Z), agrees (f_decompose_lsb F mask bits v) (f_decompose_lsb_o F mask bits v)) /\
  (forall (F : field) (mask bits : Z) (a : list Z), agrees (poly_decompose_lsb F mask bits a) (poly_decompose_lsb_o F mask bits a)) /\
  (forall (F : field) (b : basis) (a : list Z), agrees (poly_decompose F b a) (poly_decompose_o F b a)).
Proof.
  repeat (apply conj); intros.
  - apply ref_derive_field.
  - apply ref_f_add.
  - apply ref_f_sub.
  - apply ref_f_sub_assign.
  - apply ref_f_mul.
  - apply ref_f_neg.
  - apply ref_f_pow.
  - apply ref_f_div.
  - apply ref_f_inv.
  - apply ref_f_add_mul.
  - apply ref_f_mul_fast.
  - apply ref_f_add_mul_fast.
  - apply ref_basis_new.
  - apply ref_f_decompose.
  - apply ref_f_decompose_at.
  - apply ref_f_decompose_lsb.
  - apply ref_poly_decompose_lsb.
  - apply ref_poly_decompose.
Qed.

(** The two built-in fields. *)
Theorem C76_special_fields :
  (forall (x : Z), agrees (from_monty x) (from_monty_o x)) /\
  (forall (a b : Z), agrees (bb_add a b) (bb_add_o a b)) /\
  (forall (a b : Z), agrees (bb_mul a b) (bb_mul_o a b)) /\
  (forall (EB a e : Z), agrees (bb_exp EB a e) (bb_exp_o EB a e)) /\
  (forall (a k : Z), agrees (bb_exp_pow2 a k) (bb_exp_pow2_o a k)) /\
  (forall (v : Z), agrees (bb_try_inverse v) (bb_try_inverse_o v)) /\
  (forall (v : Z), agrees (bb_inv v) (bb_inv_o v)) /\
  (forall (a b : Z), agrees (bb_div a b) (bb_div_o a b)) /\
  (forall (a b : list Z), agrees (bb_dot a b) (bb_dot_o a b)) /\
  (forall (a b : Z), agrees (gl_add a b) (gl_add_o a b)) /\
  (forall (a b : Z), agrees (gl_sub a b) (gl_sub_o a b)) /\
  (forall (a : Z), agrees (gl_neg a) (gl_neg_o a)) /\
  (forall (a b : Z), agrees (gl_mul a b) (gl_mul_o a b)) /\
  (forall (EB a e : Z), agrees (gl_exp EB a e) (gl_exp_o EB a e)) /\
  (forall (a k : Z), agrees (gl_exp_pow2 a k) (gl_exp_pow2_o a k)) /\
  (forall (v : Z), agrees (gl_try_inverse v) (gl_try_inverse_o v)) /\
  (forall (v : Z), agrees (gl_inv v) (gl_inv_o v)) /\
  (forall (a b : Z), agrees (gl_div a b) (gl_div_o a b)) /\
  (forall (a b : list Z), agrees (gl_dot a b) (gl_dot_o a b)).
Proof.
  repeat (apply conj); intros.
  - apply ref_from_monty.
  - apply ref_bb_add.
  - apply ref_bb_mul.
  - apply ref_bb_exp.
  - apply ref_bb_exp_pow2.
  - apply ref_bb_try_inverse.
  - apply ref_bb_inv.
  - apply ref_bb_div.
  - apply ref_bb_dot.
  - apply ref_gl_add.
  - apply ref_gl_sub.
  - apply ref_gl_neg.
  - apply ref_gl_mul.
  - apply ref_gl_exp.
  - apply ref_gl_exp_pow2.
  - apply ref_gl_try_inverse.
  - apply ref_gl_inv.
  - apply ref_gl_div.
  - apply ref_gl_dot.
Qed.

(** Roots of unity, tables, transforms, transforms of monomials. *)
Theorem C76_transforms :
  (forall (F : field) (draws : (nat -> Z)) (degree : Z), agrees (try_primitive_root F draws degree) (try_primitive_root_o F draws degree)) /\
  (forall (F : field) (draws : (nat -> Z)) (degree : Z), agrees (try_minimal_primitive_root F draws degree) (try_minimal_primitive_root_o F draws degree)) /\
  (forall (F : field) (ext : option plans) (draws : (nat -> Z)) (logn : nat), agrees (generate_table F ext draws logn) (generate_table_o F ext draws logn)) /\
  (forall (F : field) (t : any_table) (v : list Z), agrees (t_transform_slice F t v) (t_transform_slice_o F t v)) /\
  (forall (F : field) (t : any_table) (v : list Z), agrees (t_inverse_transform_slice F t v) (t_inverse_transform_slice_o F t v)) /\
  (forall (F : field) (t : any_table) (coeff degree : Z) (len : nat), agrees (t_transform_monomial F t coeff degree len) (t_transform_monomial_o F t coeff degree len)) /\
  (forall (t : any_table) (degree : Z) (len : nat), agrees (t_transform_coeff_one_monomial t degree len) (t_transform_coeff_one_monomial_o t degree len)) /\
  (forall (F : field) (t : any_table) (degree : Z) (len : nat), agrees (t_transform_coeff_neg_one_monomial F t degree len) (t_transform_coeff_neg_one_monomial_o F t degree len)) /\
  (forall (F : field) (draws : (nat -> Z)) (degree : Z), agrees (ext_try_minimal_primitive_root F draws degree) (ext_try_minimal_primitive_root_o F draws degree)).
Proof.
  repeat (apply conj); intros.
  - apply ref_try_primitive_root.
  - apply ref_try_minimal_primitive_root.
  - apply ref_generate_table.
  - apply ref_t_transform_slice.
  - apply ref_t_inverse_transform_slice.
  - apply ref_t_transform_monomial.
  - apply ref_t_transform_coeff_one_monomial.
  - apply ref_t_transform_coeff_neg_one_monomial.
  - apply ref_ext_try_minimal_primitive_root.
Qed.

(** Polynomials in coefficient and evaluation form. *)
Theorem C76_polynomials :
  (forall (F : field) (a b : list Z), agrees (p_add_assign F a b) (p_add_assign_o F a b)) /\
  (forall (F : field) (a b : list Z), agrees (p_add F a b) (p_add_o F a b)) /\
  (forall (F : field) (a b dst : list Z), agrees (p_add_inplace F a b dst) (p_add_inplace_o F a b dst)) /\
  (forall (F : field) (a b : list Z), agrees (p_sub_assign F a b) (p_sub_assign_o F a b)) /\
  (forall (F : field) (a b : list Z), agrees (p_sub F a b) (p_sub_o F a b)) /\
  (forall (F : field) (a b : list Z), agrees (p_sub_rev F a b) (p_sub_rev_o F a b)) /\
  (forall (F : field) (a b dst : list Z), agrees (p_sub_inplace F a b dst) (p_sub_inplace_o F a b dst)) /\
  (forall (F : field) (a : list Z), agrees (p_neg F a) (p_neg_o F a)) /\
  (forall (F : field) (a : list Z) (c : Z), agrees (p_mul_scalar F a c) (p_mul_scalar_o F a c)) /\
  (forall (F : field) (a : list Z) (x : Z), agrees (p_evaluate F a x) (p_evaluate_o F a x)) /\
  (forall (F : field) (tbl : tables) (a : list Z), agrees (into_ntt F tbl a) (into_ntt_o F tbl a)) /\
  (forall (F : field) (tbl : tables) (v : list Z), agrees (into_native F tbl v) (into_native_o F tbl v)) /\
  (forall (F : field) (tbl : tables) (a b : list Z), agrees (p_mul_assign F tbl a b) (p_mul_assign_o F tbl a b)) /\
  (forall (F : field) (tbl : tables) (a v : list Z), agrees (p_mul_assign_ntt F tbl a v) (p_mul_assign_ntt_o F tbl a v)) /\
  (forall (F : field) (a b : list Z), agrees (n_mul_assign F a b) (n_mul_assign_o F a b)) /\
  (forall (F : field) (a b : list Z), agrees (n_mul F a b) (n_mul_o F a b)) /\
  (forall (F : field) (a b dst : list Z), agrees (n_mul_inplace F a b dst) (n_mul_inplace_o F a b dst)) /\
  (forall (F : field) (tbl : tables) (v a : list Z), agrees (n_mul_assign_poly F tbl v a) (n_mul_assign_poly_o F tbl v a)) /\
  (forall (F : field) (v : list Z), agrees (n_inv F v) (n_inv_o F v)) /\
  (forall (F : field) (tbl : tables) (a : list Z), agrees (p_inv F tbl a) (p_inv_o F tbl a)) /\
  (forall (F : field) (x y z : list Z), agrees (ntt_add_mul_assign F x y z) (ntt_add_mul_assign_o F x y z)) /\
  (forall (F : field) (x y z des : list Z), agrees (ntt_add_mul_inplace F x y z des) (ntt_add_mul_inplace_o F x y z des)) /\
  (forall (F : field) (x y z : list Z), agrees (ntt_add_mul_assign_fast F x y z) (ntt_add_mul_assign_fast_o F x y z)) /\
  (forall (F : field) (b : basis) (self dest : list Z), agrees (p_lsb_inplace F b self dest) (p_lsb_inplace_o F b self dest)) /\
  (forall (F : field) (b : basis) (self : list Z) (dest : list (list Z)), agrees (p_decompose_inplace F b self dest) (p_decompose_inplace_o F b self dest)).
Proof.
  repeat (apply conj); intros.
  - apply ref_p_add_assign.
  - apply ref_p_add.
  - apply ref_p_add_inplace.
  - apply ref_p_sub_assign.
  - apply ref_p_sub.
  - apply ref_p_sub_rev.
  - apply ref_p_sub_inplace.
  - apply ref_p_neg.
  - apply ref_p_mul_scalar.
  - apply ref_p_evaluate.
  - apply ref_into_ntt.
  - apply ref_into_native.
  - apply ref_p_mul_assign.
  - apply ref_p_mul_assign_ntt.
  - apply ref_n_mul_assign.
  - apply ref_n_mul.
  - apply ref_n_mul_inplace.
  - apply ref_n_mul_assign_poly.
  - apply ref_n_inv.
  - apply ref_p_inv.
  - apply ref_ntt_add_mul_assign.
  - apply ref_ntt_add_mul_inplace.
  - apply ref_ntt_add_mul_assign_fast.
  - apply ref_p_lsb_inplace.
  - apply ref_p_decompose_inplace.
Qed.

(** Encoding, LWE encryption and the operations on LWE ciphertexts, over any modulus whose operations agree. *)
Theorem C76_lwe :
  (forall (B m t q : Z), agrees (encode B m t q) (encode_o B m t q)) /\
  (forall (M : msg_type) (c t q : Z), agrees (decode M c t q) (decode_o M c t q)) /\
  (forall (O O' : mops) (x y : lwe), moduli_agree O O' -> agrees (lwe_add O x y) (lwe_add_o O' x y)) /\
  (forall (O O' : mops) (x y : lwe), moduli_agree O O' -> agrees (lwe_add_inplace O x y) (lwe_add_inplace_o O' x y)) /\
  (forall (O O' : mops) (x y : lwe), moduli_agree O O' -> agrees (lwe_sub O x y) (lwe_sub_o O' x y)) /\
  (forall (O O' : mops) (x y : lwe), moduli_agree O O' -> agrees (lwe_sub_inplace O x y) (lwe_sub_inplace_o O' x y)) /\
  (forall (O O' : mops) (x : lwe) (c : Z), moduli_agree O O' -> agrees (lwe_scalar_mul O x c) (lwe_scalar_mul O' x c)) /\
  (forall (O O' : mops) (x y : lwe) (c : Z), moduli_agree O O' -> agrees (lwe_add_scaled O x y c) (lwe_add_scaled O' x y c)) /\
  (forall (O O' : mops) (x : lwe), moduli_agree O O' -> agrees (lwe_neg O x) (lwe_neg O' x)) /\
  (forall (B mask : Z) (s a : list Z) (e : Z), agrees (lwe_zero_sample B mask s a e) (lwe_zero_sample_o B mask s a e)) /\
  (forall (B t q : Z) (s a : list Z) (e m : Z), agrees (encrypt B t q s a e m) (encrypt_o B t q s a e m)) /\
  (forall (M : msg_type) (B t q : Z) (s : list Z) (ct : lwe), agrees (decrypt M B t q s ct) (decrypt_o M B t q s ct)) /\
  (forall (M : msg_type) (B t q : Z) (s : list Z) (ct : lwe), agrees (decrypt_with_noise M B t q s ct) (decrypt_with_noise_o M B t q s ct)).
Proof.
  repeat (apply conj); intros.
  - apply ref_encode.
  - apply ref_decode.
  - apply ref_lwe_add; apply moduli_le; assumption.
  - apply ref_lwe_add_inplace; apply moduli_le; assumption.
  - apply ref_lwe_sub; apply moduli_le; assumption.
  - apply ref_lwe_sub_inplace; apply moduli_le; assumption.
  - apply ref_lwe_scalar_mul; apply moduli_le; assumption.
  - apply ref_lwe_add_scaled; apply moduli_le; assumption.
  - apply ref_lwe_neg; apply moduli_le; assumption.
  - apply ref_lwe_zero_sample.
  - apply ref_encrypt.
  - apply ref_decrypt.
  - apply ref_decrypt_with_noise.
Qed.

(** Ring ciphertexts: arithmetic, extraction, rotation, sampling. *)
Theorem C76_rlwe :
  (forall (F : field) (x y : rlwe), agrees (rlwe_add_ref F x y) (rlwe_add_ref_o F x y)) /\
  (forall (F : field) (x y : rlwe), agrees (rlwe_add_assign F x y) (rlwe_add_assign_o F x y)) /\
  (forall (F : field) (x y : rlwe), agrees (rlwe_sub_ref F x y) (rlwe_sub_ref_o F x y)) /\
  (forall (F : field) (x y : rlwe), agrees (rlwe_sub_assign F x y) (rlwe_sub_assign_o F x y)) /\
  (forall (F : field) (x y z : rlwe), agrees (rlwe_add_inplace F x y z) (rlwe_add_inplace_o F x y z)) /\
  (forall (F : field) (x y z : rlwe), agrees (rlwe_sub_inplace F x y z) (rlwe_sub_inplace_o F x y z)) /\
  (forall (F : field) (tbl : tables) (x : rlwe), agrees (rlwe_to_ntt F tbl x) (rlwe_to_ntt_o F tbl x)) /\
  (forall (F : field) (tbl : tables) (x : rlwe), agrees (rlwe_from_ntt F tbl x) (rlwe_from_ntt_o F tbl x)) /\
  (forall (F : field) (tbl : tables) (x dst : rlwe), agrees (inverse_transform_inplace F tbl x dst) (inverse_transform_inplace_o F tbl x dst)) /\
  (forall (F : field) (tbl : tables) (x : rlwe) (v : list Z) (dst : rlwe), agrees (rlwe_mul_ntt_poly F tbl x v dst) (rlwe_mul_ntt_poly_o F tbl x v dst)) /\
  (forall (F : field) (x : rlwe) (v : list Z), agrees (nrlwe_mul_assign F x v) (nrlwe_mul_assign_o F x v)) /\
  (forall (F : field) (x : rlwe) (v : list Z) (dst : rlwe), agrees (nrlwe_mul_inplace F x v dst) (nrlwe_mul_inplace_o F x v dst)) /\
  (forall (F : field) (acc g : rlwe) (d : list Z), agrees (nrlwe_add_mul F acc g d) (nrlwe_add_mul_o F acc g d)) /\
  (forall (F : field) (acc g : rlwe) (d : list Z), agrees (nrlwe_add_mul_fast F acc g d) (nrlwe_add_mul_fast_o F acc g d)) /\
  (forall (F : field) (x g : rlwe) (d : list Z) (dst : rlwe), agrees (nrlwe_add_mul_inplace F x g d dst) (nrlwe_add_mul_inplace_o F x g d dst)) /\
  (forall (F : field) (x : rlwe), agrees (extract_lwe F x) (extract_lwe_o F x)) /\
  (forall (F : field) (x : rlwe), agrees (extract_lwe_locally F x) (extract_lwe_locally_o F x)) /\
  (forall (F : field) (x : rlwe) (dim : nat), agrees (extract_partial_lwe_locally F x dim) (extract_partial_lwe_locally_o F x dim)) /\
  (forall (F : field) (x : rlwe) (n r : nat) (dst : rlwe), agrees (mul_monic_monomial_sub_one F x n r dst) (mul_monic_monomial_sub_one_o F x n r dst)) /\
  (forall (F : field) (x rhs : rlwe) (n r : nat), agrees (add_assign_rhs_mul_monomial F x rhs n r) (add_assign_rhs_mul_monomial_o F x rhs n r)) /\
  (forall (F : field) (tbl : tables) (sk a e : list Z), agrees (rlwe_zero_sample F tbl sk a e) (rlwe_zero_sample_o F tbl sk a e)) /\
  (forall (F : field) (tbl : tables) (sk a e : list Z), agrees (nrlwe_zero_sample F tbl sk a e) (nrlwe_zero_sample_o F tbl sk a e)) /\
  (forall (F : field) (tbl : tables) (sk a e : list Z) (value : Z), agrees (nrlwe_value_sample F tbl sk a e value) (nrlwe_value_sample_o F tbl sk a e value)).
Proof.
  repeat (apply conj); intros.
  - apply ref_rlwe_add_ref.
  - apply ref_rlwe_add_assign.
  - apply ref_rlwe_sub_ref.
  - apply ref_rlwe_sub_assign.
  - apply ref_rlwe_add_inplace.
  - apply ref_rlwe_sub_inplace.
  - apply ref_rlwe_to_ntt.
  - apply ref_rlwe_from_ntt.
  - apply ref_inverse_transform_inplace.
  - apply ref_rlwe_mul_ntt_poly.
  - apply ref_nrlwe_mul_assign.
  - apply ref_nrlwe_mul_inplace.
  - apply ref_nrlwe_add_mul.
  - apply ref_nrlwe_add_mul_fast.
  - apply ref_nrlwe_add_mul_inplace.
  - apply ref_extract_lwe.
  - apply ref_extract_lwe_locally.
  - apply ref_extract_partial_lwe_locally.
  - apply ref_mul_monic_monomial_sub_one.
  - apply ref_add_assign_rhs_mul_monomial.
  - apply ref_rlwe_zero_sample.
  - apply ref_nrlwe_zero_sample.
  - apply ref_nrlwe_value_sample.
Qed.

(** Gadget and RGSW ciphertexts: products and sampling. *)
Theorem C76_gadget :
  (forall (F : field) (tbl : tables) (G : gadget), agrees (gadget_to_ntt F tbl G) (gadget_to_ntt_o F tbl G)) /\
  (forall (F : field) (tbl : tables) (G : gadget) (f : list Z), agrees (g_mul_polynomial F tbl G f) (g_mul_polynomial_o F tbl G f)) /\
  (forall (F : field) (tbl : tables) (G : gadget) (f : list Z) (x : rlwe), agrees (g_mul_polynomial_add_rlwe F tbl G f x) (g_mul_polynomial_add_rlwe_o F tbl G f x)) /\
  (forall (F : field) (tbl : tables) (G : gadget) (f : list Z), agrees (ng_mul_polynomial F tbl G f) (ng_mul_polynomial_o F tbl G f)) /\
  (forall (x : field) (y : tables) (z : gadget) (u : list Z) (v w : nat) (r : rlwe), agrees (ng_mul_polynomial_inplace x y z u v w r) (ng_mul_polynomial_inplace_o x y z u v w r)) /\
  (forall (x : field) (y : tables) (z : gadget) (u : list Z) (v w : nat) (r : rlwe), agrees (ng_mul_polynomial_inplace_fast x y z u v w r) (ng_mul_polynomial_inplace_fast_o x y z u v w r)) /\
  (forall (x : field) (y : tables) (z : rlwe) (u : gadget) (v : list Z) (w r : nat), agrees (nrlwe_add_gadget_mul_assign x y z u v w r) (nrlwe_add_gadget_mul_assign_o x y z u v w r)) /\
  (forall (x : field) (y : tables) (z : rlwe) (u : gadget) (v : list Z) (w r : nat), agrees (nrlwe_add_gadget_mul_assign_fast x y z u v w r) (nrlwe_add_gadget_mul_assign_fast_o x y z u v w r)) /\
  (forall (F : field) (tbl : tables) (x : rlwe) (G : gadget) (f : list Z), agrees (nrlwe_add_gadget_mul F tbl x G f) (nrlwe_add_gadget_mul_o F tbl x G f)) /\
  (forall (F : field) (tbl : tables) (x : rlwe) (G : gadget) (f : list Z) (dlen : nat), agrees (nrlwe_add_gadget_mul_inplace_fast F tbl x G f dlen) (nrlwe_add_gadget_mul_inplace_fast_o F tbl x G f dlen)) /\
  (forall (x : field) (y : tables) (z : rlwe) (u : gadget) (v : list Z) (w : nat), agrees (nrlwe_sub_gadget_mul x y z u v w) (nrlwe_sub_gadget_mul_o x y z u v w)) /\
  (forall (x : field) (y : tables) (z : rlwe) (u : gadget) (v : list Z) (w : nat), agrees (nrlwe_sub_gadget_mul_fast x y z u v w) (nrlwe_sub_gadget_mul_fast_o x y z u v w)) /\
  (forall (F : field) (x y : gadget) (v : list Z) (dst : gadget), agrees (gadget_add_mul_inplace F x y v dst) (gadget_add_mul_inplace_o F x y v dst)) /\
  (forall (F : field) (tbl : tables) (sk : list Z) (x : basis) (y : list (list Z * list Z)), agrees (g_zero_sample F tbl sk x y) (g_zero_sample_o F tbl sk x y)) /\
  (forall (F : field) (tbl : tables) (sk : list Z) (x : basis) (y : list (list Z * list Z)), agrees (ng_zero_sample F tbl sk x y) (ng_zero_sample_o F tbl sk x y)) /\
  (forall (F : field) (tbl : tables) (sk : list Z) (b : basis) (rnd : list (list Z * list Z)), agrees (g_one_sample F tbl sk b rnd) (g_one_sample_o F tbl sk b rnd)) /\
  (forall (F : field) (tbl : tables) (sk : list Z) (b : basis) (rnd : list (list Z * list Z)), agrees (g_neg_secret_sample F tbl sk b rnd) (g_neg_secret_sample_o F tbl sk b rnd)) /\
  (forall (F : field) (tbl : tables) (sk : list Z) (b : basis) (rnd : list (list Z * list Z)), agrees (ng_one_sample F tbl sk b rnd) (ng_one_sample_o F tbl sk b rnd)) /\
  (forall (F : field) (tbl : tables) (sk : list Z) (b : basis) (rnd : list (list Z * list Z)), agrees (ng_neg_secret_sample F tbl sk b rnd) (ng_neg_secret_sample_o F tbl sk b rnd)) /\
  (forall (F : field) (tbl : tables) (R : rgsw), agrees (rgsw_to_ntt F tbl R) (rgsw_to_ntt_o F tbl R)) /\
  (forall (F : field) (tbl : tables) (x : rlwe) (R : rgsw), agrees (rlwe_mul_rgsw F tbl x R) (rlwe_mul_rgsw_o F tbl x R)) /\
  (forall (F : field) (tbl : tables) (x : rlwe) (R : rgsw), agrees (rlwe_mul_ntt_rgsw F tbl x R) (rlwe_mul_ntt_rgsw_o F tbl x R)) /\
  (forall (F : field) (tbl : tables) (x : rlwe) (R : rgsw) (dlen plen : nat) (median dst : rlwe), agrees (rlwe_mul_ntt_rgsw_inplace F tbl x R dlen plen median dst) (rlwe_mul_ntt_rgsw_inplace_o F tbl x R dlen plen median dst)) /\
  (forall (F : field) (tbl : tables) (x : rlwe) (R : rgsw) (dlen plen : nat) (median : rlwe), agrees (rlwe_mul_assign_ntt_rgsw F tbl x R dlen plen median) (rlwe_mul_assign_ntt_rgsw_o F tbl x R dlen plen median)) /\
  (forall (F : field) (tbl : tables) (R S : rgsw), agrees (rgsw_mul_small_ntt F tbl R S) (rgsw_mul_small_ntt_o F tbl R S)) /\
  (forall (F : field) (tbl : tables) (R S : rgsw), agrees (rgsw_mul_small F tbl R S) (rgsw_mul_small_o F tbl R S)) /\
  (forall (F : field) (R : rgsw) (v : list Z), agrees (nrgsw_mul_assign F R v) (nrgsw_mul_assign_o F R v)) /\
  (forall (F : field) (R S : rgsw) (v : list Z) (dst : rgsw), agrees (nrgsw_add_mul_inplace F R S v dst) (nrgsw_add_mul_inplace_o F R S v dst)) /\
  (forall (F : field) (tbl : tables) (sk : list Z) (b : basis) (r0 r1 : list (list Z * list Z)), agrees (rgsw_zero_sample F tbl sk b r0 r1) (rgsw_zero_sample_o F tbl sk b r0 r1)) /\
  (forall (F : field) (tbl : tables) (sk : list Z) (b : basis) (r0 r1 : list (list Z * list Z)), agrees (nrgsw_zero_sample F tbl sk b r0 r1) (nrgsw_zero_sample_o F tbl sk b r0 r1)) /\
  (forall (F : field) (tbl : tables) (sk : list Z) (b : basis) (r0 r1 : list (list Z * list Z)), agrees (rgsw_one_sample F tbl sk b r0 r1) (rgsw_one_sample_o F tbl sk b r0 r1)) /\
  (forall (F : field) (tbl : tables) (sk : list Z) (b : basis) (r0 r1 : list (list Z * list Z)), agrees (nrgsw_one_sample F tbl sk b r0 r1) (nrgsw_one_sample_o F tbl sk b r0 r1)).
Proof.
  repeat (apply conj); intros.
  - apply ref_gadget_to_ntt.
  - apply ref_g_mul_polynomial.
  - apply ref_g_mul_polynomial_add_rlwe.
  - apply ref_ng_mul_polynomial.
  - apply ref_ng_mul_polynomial_inplace.
  - apply ref_ng_mul_polynomial_inplace_fast.
  - apply ref_nrlwe_add_gadget_mul_assign.
  - apply ref_nrlwe_add_gadget_mul_assign_fast.
  - apply ref_nrlwe_add_gadget_mul.
  - apply ref_nrlwe_add_gadget_mul_inplace_fast.
  - apply ref_nrlwe_sub_gadget_mul.
  - apply ref_nrlwe_sub_gadget_mul_fast.
  - apply ref_gadget_add_mul_inplace.
  - apply ref_g_zero_sample.
  - apply ref_ng_zero_sample.
  - apply ref_g_one_sample.
  - apply ref_g_neg_secret_sample.
  - apply ref_ng_one_sample.
  - apply ref_ng_neg_secret_sample.
  - apply ref_rgsw_to_ntt.
  - apply ref_rlwe_mul_rgsw.
  - apply ref_rlwe_mul_ntt_rgsw.
  - apply ref_rlwe_mul_ntt_rgsw_inplace.
  - apply ref_rlwe_mul_assign_ntt_rgsw.
  - apply ref_rgsw_mul_small_ntt.
  - apply ref_rgsw_mul_small.
  - apply ref_nrgsw_mul_assign.
  - apply ref_nrgsw_add_mul_inplace.
  - apply ref_rgsw_zero_sample.
  - apply ref_nrgsw_zero_sample.
  - apply ref_rgsw_one_sample.
  - apply ref_nrgsw_one_sample.
Qed.

(** Blind rotation and key switching, with their keys. *)
Theorem C76_switching :
  (forall (F : field) (tbl : tables) (key : br_key) (lut : list Z) (c : lwe) (b : basis), agrees (blind_rotate F tbl key lut c b) (blind_rotate_o F tbl key lut c b)) /\
  (forall (F : field) (tbl : tables) (lwe_sk sk : list Z) (b : basis) (rnd : list rgsw_rnd), agrees (binary_generate F tbl lwe_sk sk b rnd) (binary_generate_o F tbl lwe_sk sk b rnd)) /\
  (forall (F : field) (tbl : tables) (lwe_sk sk : list Z) (b : basis) (rnd : list (rgsw_rnd * rgsw_rnd)), agrees (ternary_generate F tbl lwe_sk sk b rnd) (ternary_generate_o F tbl lwe_sk sk b rnd)) /\
  (forall (B : Z) (K : lwe_ks_key) (ct : lwe), agrees (lks_key_switch B K ct) (lks_key_switch_o B K ct)) /\
  (forall (B q bits : Z) (sk ring_sk : list Z) (rnd : list (list (list (list Z * Z)))), agrees (lks_generate B q bits sk ring_sk rnd) (lks_generate_o B q bits sk ring_sk rnd)) /\
  (forall (F : field) (tbl : tables) (K : rlwe_ks_key) (ct : rlwe), agrees (rks_key_switch_rlwe F tbl K ct) (rks_key_switch_rlwe_o F tbl K ct)) /\
  (forall (F : field) (tbl : tables) (K : rlwe_ks_key) (ct : lwe), agrees (rks_key_switch_lwe F tbl K ct) (rks_key_switch_lwe_o F tbl K ct)) /\
  (forall (F : field) (tbl : tables) (bits : Z) (sk ring_sk ntt_ring_sk : list Z) (rnd : list (list (list Z * list Z))), agrees (rks_generate F tbl bits sk ring_sk ntt_ring_sk rnd) (rks_generate_o F tbl bits sk ring_sk ntt_ring_sk rnd)).
Proof.
  repeat (apply conj); intros.
  - apply ref_blind_rotate.
  - apply ref_binary_generate.
  - apply ref_ternary_generate.
  - apply ref_lks_key_switch.
  - apply ref_lks_generate.
  - apply ref_rks_key_switch_rlwe.
  - apply ref_rks_key_switch_lwe.
  - apply ref_rks_generate.
Qed.

(** Parameters, samplers, key generation, encryption and decryption. *)
Theorem C76_keys :
  (forall (F : field) (c : const_params), agrees (params_new F c) (params_new_o F c)) /\
  (forall (F : field) (len : nat) (words : (nat -> Z)), agrees (sample_ternary_field_vec F len words) (sample_ternary_field_vec_o F len words)) /\
  (forall (F : field) (len : nat) (bytes : (nat -> Z)), agrees (sample_cbd_field_vec F len bytes) (sample_cbd_field_vec_o F len bytes)) /\
  (forall (F : field) (tbl : tables) (P : parameters) (words rwords : (nat -> Z)) (gauss : list Z), agrees (key_pack_new F tbl P words rwords gauss) (key_pack_new_o F tbl P words rwords gauss)) /\
  (forall (B : Z) (F : field) (tbl : tables) (kp : key_pack) (R : key_draws), agrees (eval_key_new B F tbl kp R) (eval_key_new_o B F tbl kp R)) /\
  (forall (B : Z) (kp : key_pack) (a : list Z) (e m : Z), agrees (kp_encrypt B kp a e m) (kp_encrypt_o B kp a e m)) /\
  (forall (M : msg_type) (B : Z) (kp : key_pack) (c : lwe), agrees (kp_decrypt M B kp c) (kp_decrypt_o M B kp c)).
Proof.
  repeat (apply conj); intros.
  - apply ref_params_new.
  - apply ref_sample_ternary_field_vec.
  - apply ref_sample_cbd_field_vec.
  - apply ref_key_pack_new.
  - apply ref_eval_key_new.
  - apply ref_kp_encrypt.
  - apply ref_kp_decrypt.
Qed.

(** The gates. *)
Theorem C76_gates :
  (forall (B : Z) (E : eval_key) (c : lwe), agrees (g_not B E c) (g_not_o B E c)) /\
  (forall (B : Z) (F : field) (tbl : tables) (E : eval_key) (c0 c1 : lwe), agrees (g_nand B F tbl E c0 c1) (g_nand_o B F tbl E c0 c1)) /\
  (forall (B : Z) (F : field) (tbl : tables) (E : eval_key) (c0 c1 : lwe), agrees (g_and B F tbl E c0 c1) (g_and_o B F tbl E c0 c1)) /\
  (forall (B : Z) (F : field) (tbl : tables) (E : eval_key) (c0 c1 : lwe), agrees (g_or B F tbl E c0 c1) (g_or_o B F tbl E c0 c1)) /\
  (forall (B : Z) (F : field) (tbl : tables) (E : eval_key) (c0 c1 : lwe), agrees (g_nor B F tbl E c0 c1) (g_nor_o B F tbl E c0 c1)) /\
  (forall (B : Z) (F : field) (tbl : tables) (E : eval_key) (c0 c1 : lwe), agrees (g_xor B F tbl E c0 c1) (g_xor_o B F tbl E c0 c1)) /\
  (forall (B : Z) (F : field) (tbl : tables) (E : eval_key) (c0 c1 : lwe), agrees (g_xnor B F tbl E c0 c1) (g_xnor_o B F tbl E c0 c1)) /\
  (forall (B : Z) (F : field) (tbl : tables) (E : eval_key) (c0 c1 c2 : lwe), agrees (g_majority B F tbl E c0 c1 c2) (g_majority_o B F tbl E c0 c1 c2)) /\
  (forall (B : Z) (F : field) (tbl : tables) (E : eval_key) (c0 c1 c2 : lwe), agrees (g_mux B F tbl E c0 c1 c2) (g_mux_o B F tbl E c0 c1 c2)).
Proof.
  repeat (apply conj); intros.
  - apply ref_g_not.
  - apply ref_g_nand.
  - apply ref_g_and.
  - apply ref_g_or.
  - apply ref_g_nor.
  - apply ref_g_xor.
  - apply ref_g_xnor.
  - apply ref_g_majority.
  - apply ref_g_mux.
Qed.

(** The moduli the library uses for ciphertexts agree: Barrett, powers of two, the field. *)
Theorem C76_ciphertext_moduli :
  (forall B m, moduli_agree (barrett_mops B m) (barrett_mops_o B m)) /\
  (forall F, moduli_agree (field_mops F) (field_mops_o F)) /\ (forall O, moduli_agree O O).
Proof. exact moduli_o. Qed.

(** Sums and differences of gadget and RGSW ciphertexts, and the Goldilocks reductions not used by the
    operations above. *)
Theorem C76_linear :
  (forall (F : field) (G H D : gadget), agrees (gadget_op_inplace (rlwe_add_inplace F) G H D) (gadget_op_inplace_o (rlwe_add_inplace_o F) G H D)) /\
  (forall (F : field) (G H D : gadget), agrees (gadget_op_inplace (rlwe_sub_inplace F) G H D) (gadget_op_inplace_o (rlwe_sub_inplace_o F) G H D)) /\
  (forall (F : field) (R S D : rgsw), agrees (rgsw_op_inplace (rlwe_add_inplace F) R S D) (rgsw_op_inplace_o (rlwe_add_inplace_o F) R S D)) /\
  (forall (F : field) (R S D : rgsw), agrees (rgsw_op_inplace (rlwe_sub_inplace F) R S D) (rgsw_op_inplace_o (rlwe_sub_inplace_o F) R S D)) /\
  (forall (x y : Z), agrees (add_no_canon_x86 x y) (add_no_canon_x86_o x y)) /\
  (forall (lo hi : Z), agrees (reduce96 lo hi) (reduce96_o lo hi)).
Proof.
  repeat (apply conj); intros.
  - apply ref_gadget_op_inplace. intros. apply ref_rlwe_add_inplace.
  - apply ref_gadget_op_inplace. intros. apply ref_rlwe_sub_inplace.
  - apply ref_rgsw_op_inplace. intros. apply ref_rlwe_add_inplace.
  - apply ref_rgsw_op_inplace. intros. apply ref_rlwe_sub_inplace.
  - apply ref_add_no_canon_x86.
  - apply ref_reduce96.
Qed.

(** Any circuit. *)
Theorem C76_circuits (B : Z) (F : field) (tbl : tables) (K : eval_key) (x : nat -> lwe) (c : circuit) :
  agrees (crun B F tbl K x c) (crun_o B F tbl K x c).
Proof. exact (ref_crun B F tbl K x c). Qed.

(** So the optimised build, on its own, is correct end to end: generate keys, encrypt bits, evaluate any
    circuit, decrypt, all in the optimised build; the result is the value of the circuit on the bits,
    for the parameters and noise of C49. *)
Theorem C76_end_to_end (BF p : Z) (k : nat) (F : field) (tbl : tables) (B j bits : Z) (P : parameters) (words rwords : nat -> Z) (gauss : list Z) (E Ek : Z) (R : key_draws) (D : Z) :
  good_params BF p k F tbl B j bits P -> words32 words -> words32 rwords -> ring_draw p k gauss ->
  0 <= E -> 0 <= Ek -> draws_small F k j P E Ek R ->
  let q := 2 ^ j in let N := Z.of_nat (2 ^ k) in
  key_noise F p k j bits P E Ek N (pp_n P) <= D -> 12 * N * D + 2 * key_first_switch N q (pp_n P) * p < q * N * p ->
  derive_field_o BF p = Some F /\ basis_new_o F bits = Some (pp_basis P) /\
  exists kp K, key_pack_new_o F tbl P words rwords gauss = Some kp /\ eval_key_new_o B F tbl kp R = Some K /\
    forall (v : nat -> bool) (a : nat -> list Z) (e : nat -> Z),
      (forall i, length (a i) = Z.to_nat (pp_n P) /\ canonical q (a i) /\ 2 * p * Z.abs (e i) <= D) ->
      exists x, (forall i, kp_encrypt_o B kp (a i) (e i mod q) (if v i then 1 else 0) = Some (x i)) /\
        forall (c : circuit) (M : msg_type), exists y, crun_o B F tbl K x c = Some y /\
          kp_decrypt_o M B kp y = Some (if cval v c then 1 else 0).
Proof.
  intros H1 H2 H3 H4 H5 H6 H7 q N HD Hb.
  destruct (C49_any_key BF p k F tbl B j bits P words rwords gauss E Ek R D H1 H2 H3 H4 H5 H6 H7 HD Hb) as (kp & K & Hk & HK & H).
  exact (end_to_end_o BF p k F tbl B j bits P words rwords gauss R D kp K H1 Hk HK H).
Qed.

(** The profiles do differ, so the hypothesis that the checked build returns is needed: a sum past the
    width, the negation of a Goldilocks word above the modulus, a power of a base above the modulus, a
    polynomial sum of different lengths. *)
Example C76_ex_differ :
  uadd 8 200 100 = None /\ uadd_o 8 200 100 = Some 44 /\
  gl_neg (2 ^ 64 - 1) = None /\ gl_neg_o (2 ^ 64 - 1) = Some 18446744069414584322 /\
  match derive_field 32 132120577 with
  | Some F => f_pow F 132120578 3 = None /\ f_pow_o F 132120578 3 = Some 1 /\
      p_add F [1; 2] [3] = None /\ p_add_o F [1; 2] [3] = Some [4] /\ p_add_assign_o F [1; 2] [3] = Some [4; 2]
  | None => False
  end.
Proof. vm_compute. repeat split. Qed.

(** The run of C49 in the optimised build. *)
Example C76_run :
  match derive_field_o 32 132120577 with
  | Some F =>
    match generate_table_o F None (fun _ => 5) 3, basis_new_o F 7 with
    | Some (Ok T), Some b =>
      let tbl := fun _ => Some T in
      (let* kp := key_pack_new_o F tbl (C49_par b BrMs) C49_words C49_words [] in
       let* K := eval_key_new_o 16 F tbl kp C49_R in
       let* c := kp_encrypt_o 16 kp [100; 3; 900; 0; 1; 77; 1023; 512] 16382 1 in
       let* y := g_nand_o 16 F tbl K c c in
       let* m := kp_decrypt_o MBool 16 kp y in Some (kp_lwe kp, m)) = Some ([0; 0; 0; 0; 1; 0; 0; 1], 0)
    | _, _ => False
    end
  | None => False
  end.
Proof. vm_compute. reflexivity. Qed.

Print Assumptions C76_words.
Print Assumptions C76_signed.
Print Assumptions C76_moduli.
Print Assumptions C76_fields.
Print Assumptions C76_special_fields.
Print Assumptions C76_transforms.
Print Assumptions C76_polynomials.
Print Assumptions C76_lwe.
Print Assumptions C76_rlwe.
Print Assumptions C76_gadget.
Print Assumptions C76_switching.
Print Assumptions C76_keys.
Print Assumptions C76_gates.
Print Assumptions C76_ciphertext_moduli.
Print Assumptions C76_circuits.
Print Assumptions C76_end_to_end.
Print Assumptions C76_linear.
