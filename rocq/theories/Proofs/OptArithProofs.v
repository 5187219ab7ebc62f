(** Proofs for C76: the optimised build agrees with the checked build wherever that returns (OptArith). *)
From Coq Require Import ZArith List Bool Arith Lia.
From Verif Require Import Model.Base Model.Reduce Model.Gcd Model.Barrett Model.PowOf2 Model.Shoup Model.Field Model.Prime Model.BabyBear Model.Goldilocks Model.OptArith Proofs.Refine.
Import ListNotations.
Local Open Scope Z_scope.


(** * Reduce *)
Lemma ref_add_reduce : forall x0 x1 x2 x3, le (add_reduce x0 x1 x2 x3) (add_reduce_o x0 x1 x2 x3).
Proof. intros. unfold add_reduce, add_reduce_o. ro. Qed.
#[export] Hint Resolve ref_add_reduce : ro.
Lemma ref_sub_reduce : forall x0 x1 x2 x3, le (sub_reduce x0 x1 x2 x3) (sub_reduce_o x0 x1 x2 x3).
Proof. intros. unfold sub_reduce, sub_reduce_o. ro. Qed.
#[export] Hint Resolve ref_sub_reduce : ro.
Lemma ref_sub_reduce_assign : forall x0 x1 x2 x3, le (sub_reduce_assign x0 x1 x2 x3) (sub_reduce_assign_o x0 x1 x2 x3).
Proof. intros. unfold sub_reduce_assign, sub_reduce_assign_o. ro. Qed.
#[export] Hint Resolve ref_sub_reduce_assign : ro.
Lemma ref_neg_reduce B a m : le (neg_reduce a m) (neg_reduce_o B a m).
Proof. unfold neg_reduce, neg_reduce_o. ro. Qed.
#[export] Hint Resolve ref_neg_reduce : ro.
Lemma ref_exp_step : forall x0 y0 x1, (forall z0 z1, le (x0 z0 z1) (y0 z0 z1)) -> le (exp_step x0 x1) (exp_step y0 x1).
Proof. intros. unfold exp_step. ro. Qed.
#[export] Hint Extern 2 (le (exp_step _ _ ) (exp_step _ _ )) => simple apply ref_exp_step : ro.
Lemma ref_exp_generic : forall x0 x1 y1 x2 x3 x4 x5, (forall z0 z1, le (x1 z0 z1) (y1 z0 z1)) -> le (exp_generic x0 x1 x2 x3 x4 x5) (exp_generic_o x0 y1 x2 x3 x4 x5).
Proof. intros. unfold exp_generic, exp_generic_o. ro. Qed.
#[export] Hint Extern 2 (le (exp_generic _ _ _ _ _ _ ) (exp_generic_o _ _ _ _ _ _ )) => simple apply ref_exp_generic : ro.
Lemma ref_exp_pow2_generic : forall x0 y0 x1 x2, (forall z0 z1, le (x0 z0 z1) (y0 z0 z1)) -> le (exp_pow2_generic x0 x1 x2) (exp_pow2_generic y0 x1 x2).
Proof. intros. unfold exp_pow2_generic. ro. Qed.
#[export] Hint Extern 2 (le (exp_pow2_generic _ _ _ ) (exp_pow2_generic _ _ _ )) => simple apply ref_exp_pow2_generic : ro.

(** * Gcd *)
Lemma ref_strip_tz : forall x0 x1, le (strip_tz x0 x1) (strip_tz_o x0 x1).
Proof. intros. unfold strip_tz, strip_tz_o. ro. Qed.
#[export] Hint Resolve ref_strip_tz : ro.
Lemma ref_gcd_loop : forall x0 x1 x2 x3, le (gcd_loop x0 x1 x2 x3) (gcd_loop_o x0 x1 x2 x3).
Proof. intros x0 x1 x2 x3. revert x1 x2 x3. induction x0; intros; cbn [gcd_loop gcd_loop_o]; ro. Qed.
#[export] Hint Resolve ref_gcd_loop : ro.
Lemma ref_gcd : forall x0 x1 x2, le (gcd x0 x1 x2) (gcd_o x0 x1 x2).
Proof. intros. unfold gcd, gcd_o. ro. Qed.
#[export] Hint Resolve ref_gcd : ro.
Lemma ref_coprime : forall x0 x1 x2, le (coprime x0 x1 x2) (coprime_o x0 x1 x2).
Proof. intros. unfold coprime, coprime_o. ro. Qed.
#[export] Hint Resolve ref_coprime : ro.
Lemma ref_not_coprime : forall x0 x1 x2, le (not_coprime x0 x1 x2) (not_coprime_o x0 x1 x2).
Proof. intros. unfold not_coprime, not_coprime_o. ro. Qed.
#[export] Hint Resolve ref_not_coprime : ro.
Lemma ref_halve : forall x0 x1 x2 x3 x4 x5 x6, le (halve x0 x1 x2 x3 x4 x5 x6) (halve_o x0 x1 x2 x3 x4 x5 x6).
Proof. intros x0 x1 x2 x3 x4 x5 x6. revert x1 x2 x3 x4 x5 x6. induction x0; intros; cbn [halve halve_o]; ro. Qed.
#[export] Hint Resolve ref_halve : ro.
Lemma ref_xgcd_loop : forall x0 x1 x2 x3 x4 x5 x6 x7 x8 x9, le (xgcd_loop x0 x1 x2 x3 x4 x5 x6 x7 x8 x9) (xgcd_loop_o x0 x1 x2 x3 x4 x5 x6 x7 x8 x9).
Proof. intros x0 x1 x2 x3 x4 x5 x6 x7 x8 x9. revert x1 x2 x3 x4 x5 x6 x7 x8 x9. induction x0; intros; cbn [xgcd_loop xgcd_loop_o]; ro. Qed.
#[export] Hint Resolve ref_xgcd_loop : ro.
Lemma ref_extended_gcd : forall x0 x1 x2, le (extended_gcd x0 x1 x2) (extended_gcd_o x0 x1 x2).
Proof. intros. unfold extended_gcd, extended_gcd_o. ro. Qed.
#[export] Hint Resolve ref_extended_gcd : ro.
Lemma ref_inv_fix : forall x0 x1 x2, le (inv_fix x0 x1 x2) (inv_fix_o x0 x1 x2).
Proof. intros. unfold inv_fix, inv_fix_o. ro. Qed.
#[export] Hint Resolve ref_inv_fix : ro.
Lemma ref_inv_reduce : forall x0 x1 x2, le (inv_reduce x0 x1 x2) (inv_reduce_o x0 x1 x2).
Proof. intros. unfold inv_reduce, inv_reduce_o. ro. Qed.
#[export] Hint Resolve ref_inv_reduce : ro.
Lemma ref_try_inv_reduce : forall x0 x1 x2, le (try_inv_reduce x0 x1 x2) (try_inv_reduce_o x0 x1 x2).
Proof. intros. unfold try_inv_reduce, try_inv_reduce_o. ro. Qed.
#[export] Hint Resolve ref_try_inv_reduce : ro.

(** * Barrett *)
Lemma ref_div_half : forall x0 x1 x2, le (div_half x0 x1 x2) (div_half_o x0 x1 x2).
Proof. intros. unfold div_half, div_half_o. ro. Qed.
#[export] Hint Resolve ref_div_half : ro.
Lemma ref_div_wide : forall x0 x1 x2, le (div_wide x0 x1 x2) (div_wide_o x0 x1 x2).
Proof. intros. unfold div_wide, div_wide_o. ro. Qed.
#[export] Hint Resolve ref_div_wide : ro.
Lemma ref_div_inplace : forall x0 x1, le (div_inplace x0 x1) (div_inplace_o x0 x1).
Proof. intros. unfold div_inplace, div_inplace_o. ro. Qed.
#[export] Hint Resolve ref_div_inplace : ro.
Lemma ref_barrett_new : forall x0 x1, le (barrett_new x0 x1) (barrett_new_o x0 x1).
Proof. intros. unfold barrett_new, barrett_new_o. ro. Qed.
#[export] Hint Resolve ref_barrett_new : ro.
Lemma ref_lazy_reduce2 : forall x0 x1 x2, le (lazy_reduce2 x0 x1 x2) (lazy_reduce2_o x0 x1 x2).
Proof. intros. unfold lazy_reduce2, lazy_reduce2_o. ro. Qed.
#[export] Hint Resolve ref_lazy_reduce2 : ro.
Lemma ref_reduce2 : forall x0 x1 x2, le (reduce2 x0 x1 x2) (reduce2_o x0 x1 x2).
Proof. intros. unfold reduce2, reduce2_o. ro. Qed.
#[export] Hint Resolve ref_reduce2 : ro.
Lemma ref_rfold_last : forall x0 y0 x1, (forall z0 z1, le (x0 z0 z1) (y0 z0 z1)) -> le (rfold_last x0 x1) (rfold_last y0 x1).
Proof. intros x0 y0 x1 H0. induction x1; intros; cbn [rfold_last]; [ro|]. repeat match goal with p : (_ * _)%type |- _ => destruct p | l : list _ |- _ => is_var l; match goal with |- context [match l with _ => _ end] => destruct l end end; ro. Qed.
#[export] Hint Extern 2 (le (rfold_last _ _ ) (rfold_last _ _ )) => simple apply ref_rfold_last : ro.
Lemma ref_lazy_reduce_slice : forall x0 x1 x2, le (lazy_reduce_slice x0 x1 x2) (lazy_reduce_slice_o x0 x1 x2).
Proof. intros. unfold lazy_reduce_slice, lazy_reduce_slice_o. ro. Qed.
#[export] Hint Resolve ref_lazy_reduce_slice : ro.
Lemma ref_reduce_slice : forall x0 x1 x2, le (reduce_slice x0 x1 x2) (reduce_slice_o x0 x1 x2).
Proof. intros. unfold reduce_slice, reduce_slice_o. ro. Qed.
#[export] Hint Resolve ref_reduce_slice : ro.
Lemma ref_badd : forall x0 x1 x2 x3, le (badd x0 x1 x2 x3) (badd_o x0 x1 x2 x3).
Proof. intros. unfold badd, badd_o. ro. Qed.
#[export] Hint Resolve ref_badd : ro.
Lemma ref_bsub : forall x0 x1 x2 x3, le (bsub x0 x1 x2 x3) (bsub_o x0 x1 x2 x3).
Proof. intros. unfold bsub, bsub_o. ro. Qed.
#[export] Hint Resolve ref_bsub : ro.
Lemma ref_bneg B m a : le (bneg m a) (bneg_o B m a).
Proof. unfold bneg, bneg_o. ro. Qed.
#[export] Hint Resolve ref_bneg : ro.
Lemma ref_bmul : forall x0 x1 x2 x3, le (bmul x0 x1 x2 x3) (bmul_o x0 x1 x2 x3).
Proof. intros. unfold bmul, bmul_o. ro. Qed.
#[export] Hint Resolve ref_bmul : ro.
Lemma ref_lazy_bmul : forall x0 x1 x2 x3, le (lazy_bmul x0 x1 x2 x3) (lazy_bmul_o x0 x1 x2 x3).
Proof. intros. unfold lazy_bmul, lazy_bmul_o. ro. Qed.
#[export] Hint Resolve ref_lazy_bmul : ro.
Lemma ref_bexp : forall x0 x1 x2 x3 x4, le (bexp x0 x1 x2 x3 x4) (bexp_o x0 x1 x2 x3 x4).
Proof. intros. unfold bexp, bexp_o. ro. Qed.
#[export] Hint Resolve ref_bexp : ro.
Lemma ref_bexp_pow2 : forall x0 x1 x2 x3, le (bexp_pow2 x0 x1 x2 x3) (bexp_pow2_o x0 x1 x2 x3).
Proof. intros. unfold bexp_pow2, bexp_pow2_o. ro. Qed.
#[export] Hint Resolve ref_bexp_pow2 : ro.
Lemma ref_binv : forall x0 x1 x2, le (binv x0 x1 x2) (binv_o x0 x1 x2).
Proof. intros. unfold binv, binv_o. ro. Qed.
#[export] Hint Resolve ref_binv : ro.
Lemma ref_bdiv : forall x0 x1 x2 x3, le (bdiv x0 x1 x2 x3) (bdiv_o x0 x1 x2 x3).
Proof. intros. unfold bdiv, bdiv_o. ro. Qed.
#[export] Hint Resolve ref_bdiv : ro.
Lemma ref_dot_chunk : forall x0 x1 x2 x3, le (dot_chunk x0 x1 x2 x3) (dot_chunk_o x0 x1 x2 x3).
Proof. intros. unfold dot_chunk, dot_chunk_o. ro. Qed.
#[export] Hint Resolve ref_dot_chunk : ro.
Lemma ref_dot_chunks : forall x0 x1 x2 x3 x4 x5, le (dot_chunks x0 x1 x2 x3 x4 x5) (dot_chunks_o x0 x1 x2 x3 x4 x5).
Proof. intros x0 x1 x2 x3 x4 x5. revert x0 x1 x3 x4 x5. induction x2; intros; cbn [dot_chunks dot_chunks_o]; ro. Qed.
#[export] Hint Resolve ref_dot_chunks : ro.
Lemma ref_bdot : forall x0 x1 x2 x3, le (bdot x0 x1 x2 x3) (bdot_o x0 x1 x2 x3).
Proof. intros. unfold bdot, bdot_o. ro. Qed.
#[export] Hint Resolve ref_bdot : ro.

(** * PowOf2 *)
Lemma ref_p2_exp : forall x0 x1 x2 x3 x4, le (p2_exp x0 x1 x2 x3 x4) (p2_exp_o x0 x1 x2 x3 x4).
Proof. intros. unfold p2_exp, p2_exp_o. ro. Qed.
#[export] Hint Resolve ref_p2_exp : ro.
Lemma ref_p2_dot : forall x0 x1 x2 x3, le (p2_dot x0 x1 x2 x3) (p2_dot_o x0 x1 x2 x3).
Proof. intros. unfold p2_dot, p2_dot_o. ro. Qed.
#[export] Hint Resolve ref_p2_dot : ro.

(** * Shoup *)
Lemma ref_shoup_new : forall x0 x1 x2, le (shoup_new x0 x1 x2) (shoup_new_o x0 x1 x2).
Proof. intros. unfold shoup_new, shoup_new_o. ro. Qed.
#[export] Hint Resolve ref_shoup_new : ro.
Lemma ref_shoup_set_modulus : forall x0 x1 x2, le (shoup_set_modulus x0 x1 x2) (shoup_set_modulus_o x0 x1 x2).
Proof. intros. unfold shoup_set_modulus, shoup_set_modulus_o. ro. Qed.
#[export] Hint Resolve ref_shoup_set_modulus : ro.
Lemma ref_shoup_set : forall x0 x1 x2 x3, le (shoup_set x0 x1 x2 x3) (shoup_set_o x0 x1 x2 x3).
Proof. intros. unfold shoup_set, shoup_set_o. ro. Qed.
#[export] Hint Resolve ref_shoup_set : ro.

(** * Field *)
Lemma ref_derive_field : forall x0 x1, le (derive_field x0 x1) (derive_field_o x0 x1).
Proof. intros. unfold derive_field, derive_field_o. ro. Qed.
#[export] Hint Resolve ref_derive_field : ro.
Lemma ref_f_add : forall x0 x1 x2, le (f_add x0 x1 x2) (f_add_o x0 x1 x2).
Proof. intros. unfold f_add, f_add_o. ro. Qed.
#[export] Hint Resolve ref_f_add : ro.
Lemma ref_f_sub : forall x0 x1 x2, le (f_sub x0 x1 x2) (f_sub_o x0 x1 x2).
Proof. intros. unfold f_sub, f_sub_o. ro. Qed.
#[export] Hint Resolve ref_f_sub : ro.
Lemma ref_f_sub_assign : forall x0 x1 x2, le (f_sub_assign x0 x1 x2) (f_sub_assign_o x0 x1 x2).
Proof. intros. unfold f_sub_assign, f_sub_assign_o. ro. Qed.
#[export] Hint Resolve ref_f_sub_assign : ro.
Lemma ref_f_mul : forall x0 x1 x2, le (f_mul x0 x1 x2) (f_mul_o x0 x1 x2).
Proof. intros. unfold f_mul, f_mul_o. ro. Qed.
#[export] Hint Resolve ref_f_mul : ro.
Lemma ref_f_neg : forall x0 x1, le (f_neg x0 x1) (f_neg_o x0 x1).
Proof. intros. unfold f_neg, f_neg_o. ro. Qed.
#[export] Hint Resolve ref_f_neg : ro.
Lemma ref_f_pow : forall x0 x1 x2, le (f_pow x0 x1 x2) (f_pow_o x0 x1 x2).
Proof. intros. unfold f_pow, f_pow_o. ro. Qed.
#[export] Hint Resolve ref_f_pow : ro.
Lemma ref_f_div : forall x0 x1 x2, le (f_div x0 x1 x2) (f_div_o x0 x1 x2).
Proof. intros. unfold f_div, f_div_o. ro. Qed.
#[export] Hint Resolve ref_f_div : ro.
Lemma ref_f_inv : forall x0 x1, le (f_inv x0 x1) (f_inv_o x0 x1).
Proof. intros. unfold f_inv, f_inv_o. ro. Qed.
#[export] Hint Resolve ref_f_inv : ro.
Lemma ref_f_add_mul : forall x0 x1 x2 x3, le (f_add_mul x0 x1 x2 x3) (f_add_mul_o x0 x1 x2 x3).
Proof. intros. unfold f_add_mul, f_add_mul_o. ro. Qed.
#[export] Hint Resolve ref_f_add_mul : ro.
Lemma ref_f_mul_fast : forall x0 x1 x2, le (f_mul_fast x0 x1 x2) (f_mul_fast_o x0 x1 x2).
Proof. intros. unfold f_mul_fast, f_mul_fast_o. ro. Qed.
#[export] Hint Resolve ref_f_mul_fast : ro.
Lemma ref_f_add_mul_fast : forall x0 x1 x2 x3, le (f_add_mul_fast x0 x1 x2 x3) (f_add_mul_fast_o x0 x1 x2 x3).
Proof. intros. unfold f_add_mul_fast, f_add_mul_fast_o. ro. Qed.
#[export] Hint Resolve ref_f_add_mul_fast : ro.
Lemma ref_basis_new : forall x0 x1, le (basis_new x0 x1) (basis_new_o x0 x1).
Proof. intros. unfold basis_new, basis_new_o. ro. Qed.
#[export] Hint Resolve ref_basis_new : ro.
Lemma ref_decompose_loop : forall x0 x1 x2 x3 x4, le (decompose_loop x0 x1 x2 x3 x4) (decompose_loop_o x0 x1 x2 x3 x4).
Proof. intros x0 x1 x2 x3 x4. revert x0 x1 x2 x4. induction x3; intros; cbn [decompose_loop decompose_loop_o]; ro. Qed.
#[export] Hint Resolve ref_decompose_loop : ro.
Lemma ref_f_decompose : forall x0 x1 x2, le (f_decompose x0 x1 x2) (f_decompose_o x0 x1 x2).
Proof. intros. unfold f_decompose, f_decompose_o. ro. Qed.
#[export] Hint Resolve ref_f_decompose : ro.
Lemma ref_f_decompose_at : forall x0 x1 x2 x3, le (f_decompose_at x0 x1 x2 x3) (f_decompose_at_o x0 x1 x2 x3).
Proof. intros x0 x1 x2 x3. revert x0 x1 x2. induction x3; intros; cbn [f_decompose_at f_decompose_at_o]; ro. Qed.
#[export] Hint Resolve ref_f_decompose_at : ro.
Lemma ref_f_decompose_lsb : forall x0 x1 x2 x3, le (f_decompose_lsb x0 x1 x2 x3) (f_decompose_lsb_o x0 x1 x2 x3).
Proof. intros. unfold f_decompose_lsb, f_decompose_lsb_o. ro. Qed.
#[export] Hint Resolve ref_f_decompose_lsb : ro.
Lemma ref_poly_decompose_lsb : forall x0 x1 x2 x3, le (poly_decompose_lsb x0 x1 x2 x3) (poly_decompose_lsb_o x0 x1 x2 x3).
Proof. intros x0 x1 x2 x3. revert x0 x1 x2. induction x3; intros; cbn [poly_decompose_lsb poly_decompose_lsb_o]; ro. Qed.
#[export] Hint Resolve ref_poly_decompose_lsb : ro.
Lemma ref_poly_decompose_loop : forall x0 x1 x2 x3 x4, le (poly_decompose_loop x0 x1 x2 x3 x4) (poly_decompose_loop_o x0 x1 x2 x3 x4).
Proof. intros x0 x1 x2 x3 x4. revert x0 x1 x2 x4. induction x3; intros; cbn [poly_decompose_loop poly_decompose_loop_o]; ro. Qed.
#[export] Hint Resolve ref_poly_decompose_loop : ro.
Lemma ref_poly_decompose : forall x0 x1 x2, le (poly_decompose x0 x1 x2) (poly_decompose_o x0 x1 x2).
Proof. intros. unfold poly_decompose, poly_decompose_o. ro. Qed.
#[export] Hint Resolve ref_poly_decompose : ro.

(** * Prime *)
Lemma ref_mr_inner : forall x0 x1 x2 x3, le (mr_inner x0 x1 x2 x3) (mr_inner_o x0 x1 x2 x3).
Proof. intros x0 x1 x2 x3. revert x0 x1 x3. induction x2; intros; cbn [mr_inner mr_inner_o]; ro. Qed.
#[export] Hint Resolve ref_mr_inner : ro.
Lemma ref_mr_rounds : forall x0 x1 x2 x3 x4 x5 x6, le (mr_rounds x0 x1 x2 x3 x4 x5 x6) (mr_rounds_o x0 x1 x2 x3 x4 x5 x6).
Proof. intros x0 x1 x2 x3 x4 x5 x6. revert x0 x1 x2 x3 x4 x6. induction x5; intros; cbn [mr_rounds mr_rounds_o]; ro. Qed.
#[export] Hint Resolve ref_mr_rounds : ro.
Lemma ref_probably_prime : forall x0 x1 x2 x3, le (probably_prime x0 x1 x2 x3) (probably_prime_o x0 x1 x2 x3).
Proof. intros. unfold probably_prime, probably_prime_o. ro. Qed.
#[export] Hint Resolve ref_probably_prime : ro.

(** * BabyBear *)
Lemma ref_monty_reduce : forall x0, le (monty_reduce x0) (monty_reduce_o x0).
Proof. intros. unfold monty_reduce, monty_reduce_o. ro. Qed.
#[export] Hint Resolve ref_monty_reduce : ro.
Lemma ref_from_monty : forall x0, le (from_monty x0) (from_monty_o x0).
Proof. intros. unfold from_monty, from_monty_o. ro. Qed.
#[export] Hint Resolve ref_from_monty : ro.
Lemma ref_bb_add : forall x0 x1, le (bb_add x0 x1) (bb_add_o x0 x1).
Proof. intros. unfold bb_add, bb_add_o. ro. Qed.
#[export] Hint Resolve ref_bb_add : ro.
Lemma ref_bb_mul : forall x0 x1, le (bb_mul x0 x1) (bb_mul_o x0 x1).
Proof. intros. unfold bb_mul, bb_mul_o. ro. Qed.
#[export] Hint Resolve ref_bb_mul : ro.
Lemma ref_bb_exp : forall x0 x1 x2, le (bb_exp x0 x1 x2) (bb_exp_o x0 x1 x2).
Proof. intros. unfold bb_exp, bb_exp_o. ro. Qed.
#[export] Hint Resolve ref_bb_exp : ro.
Lemma ref_bb_exp_pow2 : forall x0 x1, le (bb_exp_pow2 x0 x1) (bb_exp_pow2_o x0 x1).
Proof. intros. unfold bb_exp_pow2, bb_exp_pow2_o. ro. Qed.
#[export] Hint Resolve ref_bb_exp_pow2 : ro.
Lemma ref_bb_try_inverse : forall x0, le (bb_try_inverse x0) (bb_try_inverse_o x0).
Proof. intros. unfold bb_try_inverse, bb_try_inverse_o. ro. Qed.
#[export] Hint Resolve ref_bb_try_inverse : ro.
Lemma ref_bb_inv : forall x0, le (bb_inv x0) (bb_inv_o x0).
Proof. intros. unfold bb_inv, bb_inv_o. ro. Qed.
#[export] Hint Resolve ref_bb_inv : ro.
Lemma ref_bb_div : forall x0 x1, le (bb_div x0 x1) (bb_div_o x0 x1).
Proof. intros. unfold bb_div, bb_div_o. ro. Qed.
#[export] Hint Resolve ref_bb_div : ro.
Lemma ref_bb_dot : forall x0 x1, le (bb_dot x0 x1) (bb_dot_o x0 x1).
Proof. intros. unfold bb_dot, bb_dot_o. ro. Qed.
#[export] Hint Resolve ref_bb_dot : ro.

(** * Goldilocks *)
Lemma ref_add_no_canon_x86 : forall x0 x1, le (add_no_canon_x86 x0 x1) (add_no_canon_x86_o x0 x1).
Proof. intros. unfold add_no_canon_x86, add_no_canon_x86_o. ro. Qed.
#[export] Hint Resolve ref_add_no_canon_x86 : ro.
Lemma ref_add_no_canon : forall x0 x1, le (add_no_canon x0 x1) (add_no_canon_o x0 x1).
Proof. intros. unfold add_no_canon, add_no_canon_o. ro. Qed.
#[export] Hint Resolve ref_add_no_canon : ro.
Lemma ref_reduce96 : forall x0 x1, le (reduce96 x0 x1) (reduce96_o x0 x1).
Proof. intros. unfold reduce96, reduce96_o. ro. Qed.
#[export] Hint Resolve ref_reduce96 : ro.
Lemma ref_reduce128 : forall x0, le (reduce128 x0) (reduce128_o x0).
Proof. intros. unfold reduce128, reduce128_o. ro. Qed.
#[export] Hint Resolve ref_reduce128 : ro.
Lemma ref_gl_add : forall x0 x1, le (gl_add x0 x1) (gl_add_o x0 x1).
Proof. intros. unfold gl_add, gl_add_o. ro. Qed.
#[export] Hint Resolve ref_gl_add : ro.
Lemma ref_gl_sub : forall x0 x1, le (gl_sub x0 x1) (gl_sub_o x0 x1).
Proof. intros. unfold gl_sub, gl_sub_o. ro. Qed.
#[export] Hint Resolve ref_gl_sub : ro.
Lemma ref_gl_neg : forall x0, le (gl_neg x0) (gl_neg_o x0).
Proof. intros. unfold gl_neg, gl_neg_o. ro. Qed.
#[export] Hint Resolve ref_gl_neg : ro.
Lemma ref_gl_mul : forall x0 x1, le (gl_mul x0 x1) (gl_mul_o x0 x1).
Proof. intros. unfold gl_mul, gl_mul_o. ro. Qed.
#[export] Hint Resolve ref_gl_mul : ro.
Lemma ref_gl_exp : forall x0 x1 x2, le (gl_exp x0 x1 x2) (gl_exp_o x0 x1 x2).
Proof. intros. unfold gl_exp, gl_exp_o. ro. Qed.
#[export] Hint Resolve ref_gl_exp : ro.
Lemma ref_gl_exp_pow2 : forall x0 x1, le (gl_exp_pow2 x0 x1) (gl_exp_pow2_o x0 x1).
Proof. intros. unfold gl_exp_pow2, gl_exp_pow2_o. ro. Qed.
#[export] Hint Resolve ref_gl_exp_pow2 : ro.
Lemma ref_gl_exp_acc : forall x0 x1 x2, le (gl_exp_acc x0 x1 x2) (gl_exp_acc_o x0 x1 x2).
Proof. intros. unfold gl_exp_acc, gl_exp_acc_o. ro. Qed.
#[export] Hint Resolve ref_gl_exp_acc : ro.
Lemma ref_gl_try_inverse : forall x0, le (gl_try_inverse x0) (gl_try_inverse_o x0).
Proof. intros. unfold gl_try_inverse, gl_try_inverse_o. ro. Qed.
#[export] Hint Resolve ref_gl_try_inverse : ro.
Lemma ref_gl_inv : forall x0, le (gl_inv x0) (gl_inv_o x0).
Proof. intros. unfold gl_inv, gl_inv_o. ro. Qed.
#[export] Hint Resolve ref_gl_inv : ro.
Lemma ref_gl_div : forall x0 x1, le (gl_div x0 x1) (gl_div_o x0 x1).
Proof. intros. unfold gl_div, gl_div_o. ro. Qed.
#[export] Hint Resolve ref_gl_div : ro.
Lemma ref_gl_dot : forall x0 x1, le (gl_dot x0 x1) (gl_dot_o x0 x1).
Proof. intros. unfold gl_dot, gl_dot_o. ro. Qed.
#[export] Hint Resolve ref_gl_dot : ro.
