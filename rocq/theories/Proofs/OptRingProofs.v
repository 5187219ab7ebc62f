(** Proofs for C76: the optimised build agrees with the checked build wherever that returns (OptRing). *)
From Coq Require Import ZArith List Bool Arith Lia.
From Verif Require Import Model.Base Model.Reduce Model.Gcd Model.Barrett Model.PowOf2 Model.Shoup Model.Field Model.Prime Model.BabyBear Model.Goldilocks Model.NTT Model.Concrete Model.Poly Model.DecomposeAt Model.Plaintext Model.Lwe Model.Rlwe Model.Gadget Model.OptArith Model.OptRing Proofs.Refine Proofs.OptArithProofs.
Import ListNotations.
Local Open Scope Z_scope.


(** * NTT *)
Lemma ref_reverse_lsbs : forall x0 x1 x2, le (reverse_lsbs x0 x1 x2) (reverse_lsbs_o x0 x1 x2).
Proof. intros. unfold reverse_lsbs, reverse_lsbs_o. ro. Qed.
#[export] Hint Resolve ref_reverse_lsbs : ro.
Lemma ref_to_root : forall x0 x1, le (to_root x0 x1) (to_root_o x0 x1).
Proof. intros. unfold to_root, to_root_o. ro. Qed.
#[export] Hint Resolve ref_to_root : ro.
Lemma ref_is_primitive_root : forall x0 x1 x2, le (is_primitive_root x0 x1 x2) (is_primitive_root_o x0 x1 x2).
Proof. intros. unfold is_primitive_root, is_primitive_root_o. ro. Qed.
#[export] Hint Resolve ref_is_primitive_root : ro.
Lemma ref_root_search : forall x0 x1 x2 x3 x4, le (root_search x0 x1 x2 x3 x4) (root_search_o x0 x1 x2 x3 x4).
Proof. intros x0 x1 x2 x3 x4. revert x0 x1 x2 x4. induction x3; intros; cbn [root_search root_search_o]; ro. Qed.
#[export] Hint Resolve ref_root_search : ro.
Lemma ref_try_primitive_root : forall x0 x1 x2, le (try_primitive_root x0 x1 x2) (try_primitive_root_o x0 x1 x2).
Proof. intros. unfold try_primitive_root, try_primitive_root_o. ro. Qed.
#[export] Hint Resolve ref_try_primitive_root : ro.
Lemma ref_try_minimal_primitive_root : forall x0 x1 x2, le (try_minimal_primitive_root x0 x1 x2) (try_minimal_primitive_root_o x0 x1 x2).
Proof. intros. unfold try_minimal_primitive_root, try_minimal_primitive_root_o. ro. Qed.
#[export] Hint Resolve ref_try_minimal_primitive_root : ro.
Lemma ref_ntt_table_new : forall x0 x1 x2 x3, le (ntt_table_new x0 x1 x2 x3) (ntt_table_new_o x0 x1 x2 x3).
Proof. intros. unfold ntt_table_new, ntt_table_new_o. ro. Qed.
#[export] Hint Resolve ref_ntt_table_new : ro.
Lemma ref_ordinal_powers : forall x0 x1 x2 x3, le (ordinal_powers x0 x1 x2 x3) (ordinal_powers_o x0 x1 x2 x3).
Proof. intros x0 x1 x2 x3. revert x0 x1 x3. induction x2; intros; cbn [ordinal_powers ordinal_powers_o]; ro. Qed.
#[export] Hint Resolve ref_ordinal_powers : ro.
Lemma ref_generate_ntt_table : forall x0 x1 x2, le (generate_ntt_table x0 x1 x2) (generate_ntt_table_o x0 x1 x2).
Proof. intros. unfold generate_ntt_table, generate_ntt_table_o. ro. Qed.
#[export] Hint Resolve ref_generate_ntt_table : ro.
Lemma ref_two_p : forall x0, le (two_p x0) (two_p_o x0).
Proof. intros. unfold two_p, two_p_o. ro. Qed.
#[export] Hint Resolve ref_two_p : ro.
Lemma ref_guard : forall x0 x1, le (guard x0 x1) (guard_o x0 x1).
Proof. intros. unfold guard, guard_o. ro. Qed.
#[export] Hint Resolve ref_guard : ro.
Lemma ref_ntt_normalize : forall x0 x1, le (ntt_normalize x0 x1) (ntt_normalize_o x0 x1).
Proof. intros. unfold ntt_normalize, ntt_normalize_o. ro. Qed.
#[export] Hint Resolve ref_ntt_normalize : ro.
Lemma ref_add_no_reduce : forall x0 x1 x2, le (add_no_reduce x0 x1 x2) (add_no_reduce_o x0 x1 x2).
Proof. intros. unfold add_no_reduce, add_no_reduce_o. ro. Qed.
#[export] Hint Resolve ref_add_no_reduce : ro.
Lemma ref_add_fast : forall x0 x1 x2, le (add_fast x0 x1 x2) (add_fast_o x0 x1 x2).
Proof. intros. unfold add_fast, add_fast_o. ro. Qed.
#[export] Hint Resolve ref_add_fast : ro.
Lemma ref_sub_fast : forall x0 x1 x2, le (sub_fast x0 x1 x2) (sub_fast_o x0 x1 x2).
Proof. intros. unfold sub_fast, sub_fast_o. ro. Qed.
#[export] Hint Resolve ref_sub_fast : ro.
Lemma ref_fwd_bfly : forall x0 x1 x2 x3, le (fwd_bfly x0 x1 x2 x3) (fwd_bfly_o x0 x1 x2 x3).
Proof. intros. unfold fwd_bfly, fwd_bfly_o. ro. Qed.
#[export] Hint Resolve ref_fwd_bfly : ro.
Lemma ref_inv_bfly : forall x0 x1 x2 x3, le (inv_bfly x0 x1 x2 x3) (inv_bfly_o x0 x1 x2 x3).
Proof. intros. unfold inv_bfly, inv_bfly_o. ro. Qed.
#[export] Hint Resolve ref_inv_bfly : ro.
Lemma ref_zip_update : forall x0 y0 x1 x2, (forall z0 z1, le (x0 z0 z1) (y0 z0 z1)) -> le (zip_update x0 x1 x2) (zip_update y0 x1 x2).
Proof. intros x0 y0 x1 x2 H0. revert x2. induction x1; intros; cbn [zip_update]; ro. Qed.
#[export] Hint Extern 2 (le (zip_update _ _ _ ) (zip_update _ _ _ )) => simple apply ref_zip_update : ro.
Lemma ref_layer : forall x0 y0 x1 x2 x3 x4, (forall z0 z1 z2, le (x0 z0 z1 z2) (y0 z0 z1 z2)) -> le (layer x0 x1 x2 x3 x4) (layer y0 x1 x2 x3 x4).
Proof. intros x0 y0 x1 x2 x3 x4 H0. revert x1 x3 x4. induction x2; intros; cbn [layer]; ro. Qed.
#[export] Hint Extern 2 (le (layer _ _ _ _ _ ) (layer _ _ _ _ _ )) => simple apply ref_layer : ro.
Lemma ref_fwd_stages : forall x0 x1 x2 x3, le (fwd_stages x0 x1 x2 x3) (fwd_stages_o x0 x1 x2 x3).
Proof. intros x0 x1 x2 x3. revert x0 x2 x3. induction x1; intros; cbn [fwd_stages fwd_stages_o]; ro. Qed.
#[export] Hint Resolve ref_fwd_stages : ro.
Lemma ref_transform_slice : forall x0 x1 x2, le (transform_slice x0 x1 x2) (transform_slice_o x0 x1 x2).
Proof. intros. unfold transform_slice, transform_slice_o. ro. Qed.
#[export] Hint Resolve ref_transform_slice : ro.
Lemma ref_inv_stages : forall x0 x1 x2 x3 x4, le (inv_stages x0 x1 x2 x3 x4) (inv_stages_o x0 x1 x2 x3 x4).
Proof. intros x0 x1 x2 x3 x4. revert x0 x2 x3 x4. induction x1; intros; cbn [inv_stages inv_stages_o]; ro. Qed.
#[export] Hint Resolve ref_inv_stages : ro.
Lemma ref_inv_last_bfly : forall x0 x1 x2 x3 x4, le (inv_last_bfly x0 x1 x2 x3 x4) (inv_last_bfly_o x0 x1 x2 x3 x4).
Proof. intros. unfold inv_last_bfly, inv_last_bfly_o. ro. Qed.
#[export] Hint Resolve ref_inv_last_bfly : ro.
Lemma ref_inverse_transform_slice : forall x0 x1 x2, le (inverse_transform_slice x0 x1 x2) (inverse_transform_slice_o x0 x1 x2).
Proof. intros. unfold inverse_transform_slice, inverse_transform_slice_o. ro. Qed.
#[export] Hint Resolve ref_inverse_transform_slice : ro.
Lemma ref_mono_index : forall x0 x1 x2, le (mono_index x0 x1 x2) (mono_index_o x0 x1 x2).
Proof. intros. unfold mono_index, mono_index_o. ro. Qed.
#[export] Hint Resolve ref_mono_index : ro.
Lemma ref_mono_one : forall x0 x1 x2, le (mono_one x0 x1 x2) (mono_one_o x0 x1 x2).
Proof. intros. unfold mono_one, mono_one_o. ro. Qed.
#[export] Hint Resolve ref_mono_one : ro.
Lemma ref_mono_neg_one : forall x0 x1 x2, le (mono_neg_one x0 x1 x2) (mono_neg_one_o x0 x1 x2).
Proof. intros. unfold mono_neg_one, mono_neg_one_o. ro. Qed.
#[export] Hint Resolve ref_mono_neg_one : ro.
Lemma ref_mono_gen : forall x0 x1 x2 x3 x4, le (mono_gen x0 x1 x2 x3 x4) (mono_gen_o x0 x1 x2 x3 x4).
Proof. intros. unfold mono_gen, mono_gen_o. ro. Qed.
#[export] Hint Resolve ref_mono_gen : ro.
Lemma ref_transform_monomial : forall x0 x1 x2 x3 x4, le (transform_monomial x0 x1 x2 x3 x4) (transform_monomial_o x0 x1 x2 x3 x4).
Proof. intros. unfold transform_monomial, transform_monomial_o. ro. Qed.
#[export] Hint Resolve ref_transform_monomial : ro.
Lemma ref_transform_coeff_one_monomial : forall x0 x1 x2, le (transform_coeff_one_monomial x0 x1 x2) (transform_coeff_one_monomial_o x0 x1 x2).
Proof. intros. unfold transform_coeff_one_monomial, transform_coeff_one_monomial_o. ro. Qed.
#[export] Hint Resolve ref_transform_coeff_one_monomial : ro.
Lemma ref_transform_coeff_neg_one_monomial : forall x0 x1 x2 x3, le (transform_coeff_neg_one_monomial x0 x1 x2 x3) (transform_coeff_neg_one_monomial_o x0 x1 x2 x3).
Proof. intros. unfold transform_coeff_neg_one_monomial, transform_coeff_neg_one_monomial_o. ro. Qed.
#[export] Hint Resolve ref_transform_coeff_neg_one_monomial : ro.

(** * Concrete *)
Lemma ref_concrete_new : forall x0 x1 x2, le (concrete_new x0 x1 x2) (concrete_new_o x0 x1 x2).
Proof. intros. unfold concrete_new, concrete_new_o. ro. Qed.
#[export] Hint Resolve ref_concrete_new : ro.
Lemma ref_t_transform_slice : forall x0 x1 x2, le (t_transform_slice x0 x1 x2) (t_transform_slice_o x0 x1 x2).
Proof. intros. unfold t_transform_slice, t_transform_slice_o. ro. Qed.
#[export] Hint Resolve ref_t_transform_slice : ro.
Lemma ref_t_inverse_transform_slice : forall x0 x1 x2, le (t_inverse_transform_slice x0 x1 x2) (t_inverse_transform_slice_o x0 x1 x2).
Proof. intros. unfold t_inverse_transform_slice, t_inverse_transform_slice_o. ro. Qed.
#[export] Hint Resolve ref_t_inverse_transform_slice : ro.
Lemma ref_t_transform_monomial : forall x0 x1 x2 x3 x4, le (t_transform_monomial x0 x1 x2 x3 x4) (t_transform_monomial_o x0 x1 x2 x3 x4).
Proof. intros. unfold t_transform_monomial, t_transform_monomial_o. ro. Qed.
#[export] Hint Resolve ref_t_transform_monomial : ro.
Lemma ref_t_transform_coeff_one_monomial : forall x0 x1 x2, le (t_transform_coeff_one_monomial x0 x1 x2) (t_transform_coeff_one_monomial_o x0 x1 x2).
Proof. intros. unfold t_transform_coeff_one_monomial, t_transform_coeff_one_monomial_o. ro. Qed.
#[export] Hint Resolve ref_t_transform_coeff_one_monomial : ro.
Lemma ref_t_transform_coeff_neg_one_monomial : forall x0 x1 x2 x3, le (t_transform_coeff_neg_one_monomial x0 x1 x2 x3) (t_transform_coeff_neg_one_monomial_o x0 x1 x2 x3).
Proof. intros. unfold t_transform_coeff_neg_one_monomial, t_transform_coeff_neg_one_monomial_o. ro. Qed.
#[export] Hint Resolve ref_t_transform_coeff_neg_one_monomial : ro.
Lemma ref_generate_table : forall x0 x1 x2 x3, le (generate_table x0 x1 x2 x3) (generate_table_o x0 x1 x2 x3).
Proof. intros. unfold generate_table, generate_table_o. ro. Qed.
#[export] Hint Resolve ref_generate_table : ro.
Lemma ref_ext_mul_root : forall x0 x1 x2, le (ext_mul_root x0 x1 x2) (ext_mul_root_o x0 x1 x2).
Proof. intros. unfold ext_mul_root, ext_mul_root_o. ro. Qed.
#[export] Hint Resolve ref_ext_mul_root : ro.
Lemma ref_ext_min_root_step : forall x0 x1 x2, le (ext_min_root_step x0 x1 x2) (ext_min_root_step_o x0 x1 x2).
Proof. intros. unfold ext_min_root_step, ext_min_root_step_o. ro. Qed.
#[export] Hint Resolve ref_ext_min_root_step : ro.
Lemma ref_ext_try_minimal_primitive_root : forall x0 x1 x2, le (ext_try_minimal_primitive_root x0 x1 x2) (ext_try_minimal_primitive_root_o x0 x1 x2).
Proof. intros. unfold ext_try_minimal_primitive_root, ext_try_minimal_primitive_root_o. ro. Qed.
#[export] Hint Resolve ref_ext_try_minimal_primitive_root : ro.

(** * Poly *)
Lemma ref_zipA : forall x0 y0 x1 x2, (forall z0 z1, le (x0 z0 z1) (y0 z0 z1)) -> le (zipA x0 x1 x2) (zipA y0 x1 x2).
Proof. intros x0 y0 x1 x2 H0. revert x2. induction x1; intros; cbn [zipA]; ro. Qed.
#[export] Hint Extern 2 (le (zipA _ _ _ ) (zipA _ _ _ )) => simple apply ref_zipA : ro.
Lemma ref_zipD : forall x0 y0 x1 x2 x3, (forall z0 z1, le (x0 z0 z1) (y0 z0 z1)) -> le (zipD x0 x1 x2 x3) (zipD y0 x1 x2 x3).
Proof. intros x0 y0 x1 x2 x3 H0. revert x2 x3. induction x1; intros; cbn [zipD]; ro. Qed.
#[export] Hint Extern 2 (le (zipD _ _ _ _ ) (zipD _ _ _ _ )) => simple apply ref_zipD : ro.
Lemma ref_zipA3 : forall x0 y0 x1 x2 x3, (forall z0 z1 z2, le (x0 z0 z1 z2) (y0 z0 z1 z2)) -> le (zipA3 x0 x1 x2 x3) (zipA3 y0 x1 x2 x3).
Proof. intros x0 y0 x1 x2 x3 H0. revert x2 x3. induction x1; intros; cbn [zipA3]; ro. Qed.
#[export] Hint Extern 2 (le (zipA3 _ _ _ _ ) (zipA3 _ _ _ _ )) => simple apply ref_zipA3 : ro.
Lemma ref_zipD3 : forall x0 y0 x1 x2 x3 x4, (forall z0 z1 z2, le (x0 z0 z1 z2) (y0 z0 z1 z2)) -> le (zipD3 x0 x1 x2 x3 x4) (zipD3 y0 x1 x2 x3 x4).
Proof. intros x0 y0 x1 x2 x3 x4 H0. revert x2 x3 x4. induction x1; intros; cbn [zipD3]; ro. Qed.
#[export] Hint Extern 2 (le (zipD3 _ _ _ _ _ ) (zipD3 _ _ _ _ _ )) => simple apply ref_zipD3 : ro.
Lemma ref_same_len : forall x0 x1, le (same_len x0 x1) (same_len_o x0 x1).
Proof. intros. unfold same_len, same_len_o. ro. Qed.
#[export] Hint Resolve ref_same_len : ro.
Lemma ref_p_add_assign : forall x0 x1 x2, le (p_add_assign x0 x1 x2) (p_add_assign_o x0 x1 x2).
Proof. intros. unfold p_add_assign, p_add_assign_o. ro. Qed.
#[export] Hint Resolve ref_p_add_assign : ro.
Lemma ref_p_add : forall x0 x1 x2, le (p_add x0 x1 x2) (p_add_o x0 x1 x2).
Proof. intros. unfold p_add, p_add_o. ro. Qed.
#[export] Hint Resolve ref_p_add : ro.
Lemma ref_p_add_inplace : forall x0 x1 x2 x3, le (p_add_inplace x0 x1 x2 x3) (p_add_inplace_o x0 x1 x2 x3).
Proof. intros. unfold p_add_inplace, p_add_inplace_o. ro. Qed.
#[export] Hint Resolve ref_p_add_inplace : ro.
Lemma ref_p_sub_assign : forall x0 x1 x2, le (p_sub_assign x0 x1 x2) (p_sub_assign_o x0 x1 x2).
Proof. intros. unfold p_sub_assign, p_sub_assign_o. ro. Qed.
#[export] Hint Resolve ref_p_sub_assign : ro.
Lemma ref_p_sub : forall x0 x1 x2, le (p_sub x0 x1 x2) (p_sub_o x0 x1 x2).
Proof. intros. unfold p_sub, p_sub_o. ro. Qed.
#[export] Hint Resolve ref_p_sub : ro.
Lemma ref_p_sub_rev : forall x0 x1 x2, le (p_sub_rev x0 x1 x2) (p_sub_rev_o x0 x1 x2).
Proof. intros. unfold p_sub_rev, p_sub_rev_o. ro. Qed.
#[export] Hint Resolve ref_p_sub_rev : ro.
Lemma ref_p_sub_inplace : forall x0 x1 x2 x3, le (p_sub_inplace x0 x1 x2 x3) (p_sub_inplace_o x0 x1 x2 x3).
Proof. intros. unfold p_sub_inplace, p_sub_inplace_o. ro. Qed.
#[export] Hint Resolve ref_p_sub_inplace : ro.
Lemma ref_p_neg : forall x0 x1, le (p_neg x0 x1) (p_neg_o x0 x1).
Proof. intros. unfold p_neg, p_neg_o. ro. Qed.
#[export] Hint Resolve ref_p_neg : ro.
Lemma ref_p_mul_scalar : forall x0 x1 x2, le (p_mul_scalar x0 x1 x2) (p_mul_scalar_o x0 x1 x2).
Proof. intros. unfold p_mul_scalar, p_mul_scalar_o. ro. Qed.
#[export] Hint Resolve ref_p_mul_scalar : ro.
Lemma ref_p_evaluate : forall x0 x1 x2, le (p_evaluate x0 x1 x2) (p_evaluate_o x0 x1 x2).
Proof. intros. unfold p_evaluate, p_evaluate_o. ro. Qed.
#[export] Hint Resolve ref_p_evaluate : ro.
Lemma ref_len_pow2 : forall x0, le (len_pow2 x0) (len_pow2_o x0).
Proof. intros. unfold len_pow2, len_pow2_o. ro. Qed.
#[export] Hint Resolve ref_len_pow2 : ro.
Lemma ref_into_ntt : forall x0 x1 x2, le (into_ntt x0 x1 x2) (into_ntt_o x0 x1 x2).
Proof. intros. unfold into_ntt, into_ntt_o. ro. Qed.
#[export] Hint Resolve ref_into_ntt : ro.
Lemma ref_into_native : forall x0 x1 x2, le (into_native x0 x1 x2) (into_native_o x0 x1 x2).
Proof. intros. unfold into_native, into_native_o. ro. Qed.
#[export] Hint Resolve ref_into_native : ro.
Lemma ref_ntt_mul_assign_fast : forall x0 x1 x2, le (ntt_mul_assign_fast x0 x1 x2) (ntt_mul_assign_fast_o x0 x1 x2).
Proof. intros. unfold ntt_mul_assign_fast, ntt_mul_assign_fast_o. ro. Qed.
#[export] Hint Resolve ref_ntt_mul_assign_fast : ro.
Lemma ref_p_mul_assign : forall x0 x1 x2 x3, le (p_mul_assign x0 x1 x2 x3) (p_mul_assign_o x0 x1 x2 x3).
Proof. intros. unfold p_mul_assign, p_mul_assign_o. ro. Qed.
#[export] Hint Resolve ref_p_mul_assign : ro.
Lemma ref_p_mul_assign_ntt : forall x0 x1 x2 x3, le (p_mul_assign_ntt x0 x1 x2 x3) (p_mul_assign_ntt_o x0 x1 x2 x3).
Proof. intros. unfold p_mul_assign_ntt, p_mul_assign_ntt_o. ro. Qed.
#[export] Hint Resolve ref_p_mul_assign_ntt : ro.
Lemma ref_n_mul_assign : forall x0 x1 x2, le (n_mul_assign x0 x1 x2) (n_mul_assign_o x0 x1 x2).
Proof. intros. unfold n_mul_assign, n_mul_assign_o. ro. Qed.
#[export] Hint Resolve ref_n_mul_assign : ro.
Lemma ref_n_mul : forall x0 x1 x2, le (n_mul x0 x1 x2) (n_mul_o x0 x1 x2).
Proof. intros. unfold n_mul, n_mul_o. ro. Qed.
#[export] Hint Resolve ref_n_mul : ro.
Lemma ref_n_mul_inplace : forall x0 x1 x2 x3, le (n_mul_inplace x0 x1 x2 x3) (n_mul_inplace_o x0 x1 x2 x3).
Proof. intros. unfold n_mul_inplace, n_mul_inplace_o. ro. Qed.
#[export] Hint Resolve ref_n_mul_inplace : ro.
Lemma ref_n_mul_assign_poly : forall x0 x1 x2 x3, le (n_mul_assign_poly x0 x1 x2 x3) (n_mul_assign_poly_o x0 x1 x2 x3).
Proof. intros. unfold n_mul_assign_poly, n_mul_assign_poly_o. ro. Qed.
#[export] Hint Resolve ref_n_mul_assign_poly : ro.
Lemma ref_n_inv : forall x0 x1, le (n_inv x0 x1) (n_inv_o x0 x1).
Proof. intros. unfold n_inv, n_inv_o. ro. Qed.
#[export] Hint Resolve ref_n_inv : ro.
Lemma ref_p_inv : forall x0 x1 x2, le (p_inv x0 x1 x2) (p_inv_o x0 x1 x2).
Proof. intros. unfold p_inv, p_inv_o. ro. Qed.
#[export] Hint Resolve ref_p_inv : ro.
Lemma ref_ntt_add_mul_assign : forall x0 x1 x2 x3, le (ntt_add_mul_assign x0 x1 x2 x3) (ntt_add_mul_assign_o x0 x1 x2 x3).
Proof. intros. unfold ntt_add_mul_assign, ntt_add_mul_assign_o. ro. Qed.
#[export] Hint Resolve ref_ntt_add_mul_assign : ro.
Lemma ref_ntt_add_mul_inplace : forall x0 x1 x2 x3 x4, le (ntt_add_mul_inplace x0 x1 x2 x3 x4) (ntt_add_mul_inplace_o x0 x1 x2 x3 x4).
Proof. intros. unfold ntt_add_mul_inplace, ntt_add_mul_inplace_o. ro. Qed.
#[export] Hint Resolve ref_ntt_add_mul_inplace : ro.
Lemma ref_ntt_add_mul_assign_fast : forall x0 x1 x2 x3, le (ntt_add_mul_assign_fast x0 x1 x2 x3) (ntt_add_mul_assign_fast_o x0 x1 x2 x3).
Proof. intros. unfold ntt_add_mul_assign_fast, ntt_add_mul_assign_fast_o. ro. Qed.
#[export] Hint Resolve ref_ntt_add_mul_assign_fast : ro.

(** * DecomposeAt *)
Lemma ref_lsb_zip : forall x0 x1 x2 x3 x4, le (lsb_zip x0 x1 x2 x3 x4) (lsb_zip_o x0 x1 x2 x3 x4).
Proof. intros x0 x1 x2 x3 x4. revert x0 x1 x2 x4. induction x3; intros; cbn [lsb_zip lsb_zip_o]; ro. Qed.
#[export] Hint Resolve ref_lsb_zip : ro.
Lemma ref_p_lsb_inplace : forall x0 x1 x2 x3, le (p_lsb_inplace x0 x1 x2 x3) (p_lsb_inplace_o x0 x1 x2 x3).
Proof. intros. unfold p_lsb_inplace, p_lsb_inplace_o. ro. Qed.
#[export] Hint Resolve ref_p_lsb_inplace : ro.
Lemma ref_decompose_rows : forall x0 x1 x2 x3, le (decompose_rows x0 x1 x2 x3) (decompose_rows_o x0 x1 x2 x3).
Proof. intros x0 x1 x2 x3. revert x0 x1 x2. induction x3; intros; cbn [decompose_rows decompose_rows_o]; ro. Qed.
#[export] Hint Resolve ref_decompose_rows : ro.
Lemma ref_p_decompose_inplace : forall x0 x1 x2 x3, le (p_decompose_inplace x0 x1 x2 x3) (p_decompose_inplace_o x0 x1 x2 x3).
Proof. intros. unfold p_decompose_inplace, p_decompose_inplace_o. ro. Qed.
#[export] Hint Resolve ref_p_decompose_inplace : ro.

(** * Plaintext *)
Lemma ref_encode : forall x0 x1 x2 x3, le (encode x0 x1 x2 x3) (encode_o x0 x1 x2 x3).
Proof. intros. unfold encode, encode_o. ro. Qed.
#[export] Hint Resolve ref_encode : ro.
Lemma ref_decode : forall x0 x1 x2 x3, le (decode x0 x1 x2 x3) (decode_o x0 x1 x2 x3).
Proof. intros. unfold decode, decode_o. ro. Qed.
#[export] Hint Resolve ref_decode : ro.

(** * Lwe *)
Lemma ref_barrett_mops B m : le_mops (barrett_mops B m) (barrett_mops_o B m).
Proof. unfold barrett_mops, barrett_mops_o. constructor; intros; cbn [o_add o_sub o_sub_assign o_neg o_mul]; ro. Qed.
#[export] Hint Resolve ref_barrett_mops : ro.
Lemma ref_field_mops F : le_mops (field_mops F) (field_mops_o F).
Proof. unfold field_mops, field_mops_o. constructor; intros; cbn [o_add o_sub o_sub_assign o_neg o_mul]; ro. Qed.
#[export] Hint Resolve ref_field_mops : ro.
Lemma ref_lwe_add : forall x0 y0 x1 x2, le_mops x0 y0 -> le (lwe_add x0 x1 x2) (lwe_add_o y0 x1 x2).
Proof. intros. unfold lwe_add, lwe_add_o. ro. Qed.
#[export] Hint Extern 2 (le (lwe_add _ _ _ ) (lwe_add_o _ _ _ )) => simple apply ref_lwe_add : ro.
Lemma ref_lwe_add_inplace : forall x0 y0 x1 x2, le_mops x0 y0 -> le (lwe_add_inplace x0 x1 x2) (lwe_add_inplace_o y0 x1 x2).
Proof. intros. unfold lwe_add_inplace, lwe_add_inplace_o. ro. Qed.
#[export] Hint Extern 2 (le (lwe_add_inplace _ _ _ ) (lwe_add_inplace_o _ _ _ )) => simple apply ref_lwe_add_inplace : ro.
Lemma ref_lwe_sub : forall x0 y0 x1 x2, le_mops x0 y0 -> le (lwe_sub x0 x1 x2) (lwe_sub_o y0 x1 x2).
Proof. intros. unfold lwe_sub, lwe_sub_o. ro. Qed.
#[export] Hint Extern 2 (le (lwe_sub _ _ _ ) (lwe_sub_o _ _ _ )) => simple apply ref_lwe_sub : ro.
Lemma ref_lwe_sub_inplace : forall x0 y0 x1 x2, le_mops x0 y0 -> le (lwe_sub_inplace x0 x1 x2) (lwe_sub_inplace_o y0 x1 x2).
Proof. intros. unfold lwe_sub_inplace, lwe_sub_inplace_o. ro. Qed.
#[export] Hint Extern 2 (le (lwe_sub_inplace _ _ _ ) (lwe_sub_inplace_o _ _ _ )) => simple apply ref_lwe_sub_inplace : ro.
Lemma ref_lwe_scalar_mul : forall x0 y0 x1 x2, le_mops x0 y0 -> le (lwe_scalar_mul x0 x1 x2) (lwe_scalar_mul y0 x1 x2).
Proof. intros. unfold lwe_scalar_mul. ro. Qed.
#[export] Hint Extern 2 (le (lwe_scalar_mul _ _ _ ) (lwe_scalar_mul _ _ _ )) => simple apply ref_lwe_scalar_mul : ro.
Lemma ref_lwe_add_scaled : forall x0 y0 x1 x2 x3, le_mops x0 y0 -> le (lwe_add_scaled x0 x1 x2 x3) (lwe_add_scaled y0 x1 x2 x3).
Proof. intros. unfold lwe_add_scaled. ro. Qed.
#[export] Hint Extern 2 (le (lwe_add_scaled _ _ _ _ ) (lwe_add_scaled _ _ _ _ )) => simple apply ref_lwe_add_scaled : ro.
Lemma ref_lwe_neg : forall x0 y0 x1, le_mops x0 y0 -> le (lwe_neg x0 x1) (lwe_neg y0 x1).
Proof. intros. unfold lwe_neg. ro. Qed.
#[export] Hint Extern 2 (le (lwe_neg _ _ ) (lwe_neg _ _ )) => simple apply ref_lwe_neg : ro.
Lemma ref_lwe_zero_sample : forall x0 x1 x2 x3 x4, le (lwe_zero_sample x0 x1 x2 x3 x4) (lwe_zero_sample_o x0 x1 x2 x3 x4).
Proof. intros. unfold lwe_zero_sample, lwe_zero_sample_o. ro. Qed.
#[export] Hint Resolve ref_lwe_zero_sample : ro.
Lemma ref_encrypt : forall x0 x1 x2 x3 x4 x5 x6, le (encrypt x0 x1 x2 x3 x4 x5 x6) (encrypt_o x0 x1 x2 x3 x4 x5 x6).
Proof. intros. unfold encrypt, encrypt_o. ro. Qed.
#[export] Hint Resolve ref_encrypt : ro.
Lemma ref_decrypt : forall x0 x1 x2 x3 x4 x5, le (decrypt x0 x1 x2 x3 x4 x5) (decrypt_o x0 x1 x2 x3 x4 x5).
Proof. intros. unfold decrypt, decrypt_o. ro. Qed.
#[export] Hint Resolve ref_decrypt : ro.
Lemma ref_decrypt_with_noise : forall x0 x1 x2 x3 x4 x5, le (decrypt_with_noise x0 x1 x2 x3 x4 x5) (decrypt_with_noise_o x0 x1 x2 x3 x4 x5).
Proof. intros. unfold decrypt_with_noise, decrypt_with_noise_o. ro. Qed.
#[export] Hint Resolve ref_decrypt_with_noise : ro.

(** * Rlwe *)
Lemma ref_on_both : forall x0 y0 x1 x2, (forall z0 z1, le (x0 z0 z1) (y0 z0 z1)) -> le (on_both x0 x1 x2) (on_both y0 x1 x2).
Proof. intros. unfold on_both. ro. Qed.
#[export] Hint Extern 2 (le (on_both _ _ _ ) (on_both _ _ _ )) => simple apply ref_on_both : ro.
Lemma ref_on_both3 : forall x0 y0 x1 x2 x3, (forall z0 z1 z2, le (x0 z0 z1 z2) (y0 z0 z1 z2)) -> le (on_both3 x0 x1 x2 x3) (on_both3 y0 x1 x2 x3).
Proof. intros. unfold on_both3. ro. Qed.
#[export] Hint Extern 2 (le (on_both3 _ _ _ _ ) (on_both3 _ _ _ _ )) => simple apply ref_on_both3 : ro.
Lemma ref_rlwe_add_ref : forall x0 x1 x2, le (rlwe_add_ref x0 x1 x2) (rlwe_add_ref_o x0 x1 x2).
Proof. intros. unfold rlwe_add_ref, rlwe_add_ref_o. ro. Qed.
#[export] Hint Resolve ref_rlwe_add_ref : ro.
Lemma ref_rlwe_add_assign : forall x0 x1 x2, le (rlwe_add_assign x0 x1 x2) (rlwe_add_assign_o x0 x1 x2).
Proof. intros. unfold rlwe_add_assign, rlwe_add_assign_o. ro. Qed.
#[export] Hint Resolve ref_rlwe_add_assign : ro.
Lemma ref_rlwe_sub_ref : forall x0 x1 x2, le (rlwe_sub_ref x0 x1 x2) (rlwe_sub_ref_o x0 x1 x2).
Proof. intros. unfold rlwe_sub_ref, rlwe_sub_ref_o. ro. Qed.
#[export] Hint Resolve ref_rlwe_sub_ref : ro.
Lemma ref_rlwe_sub_assign : forall x0 x1 x2, le (rlwe_sub_assign x0 x1 x2) (rlwe_sub_assign_o x0 x1 x2).
Proof. intros. unfold rlwe_sub_assign, rlwe_sub_assign_o. ro. Qed.
#[export] Hint Resolve ref_rlwe_sub_assign : ro.
Lemma ref_rlwe_add_inplace : forall x0 x1 x2 x3, le (rlwe_add_inplace x0 x1 x2 x3) (rlwe_add_inplace_o x0 x1 x2 x3).
Proof. intros. unfold rlwe_add_inplace, rlwe_add_inplace_o. ro. Qed.
#[export] Hint Resolve ref_rlwe_add_inplace : ro.
Lemma ref_rlwe_sub_inplace : forall x0 x1 x2 x3, le (rlwe_sub_inplace x0 x1 x2 x3) (rlwe_sub_inplace_o x0 x1 x2 x3).
Proof. intros. unfold rlwe_sub_inplace, rlwe_sub_inplace_o. ro. Qed.
#[export] Hint Resolve ref_rlwe_sub_inplace : ro.
Lemma ref_rlwe_to_ntt : forall x0 x1 x2, le (rlwe_to_ntt x0 x1 x2) (rlwe_to_ntt_o x0 x1 x2).
Proof. intros. unfold rlwe_to_ntt, rlwe_to_ntt_o. ro. Qed.
#[export] Hint Resolve ref_rlwe_to_ntt : ro.
Lemma ref_rlwe_from_ntt : forall x0 x1 x2, le (rlwe_from_ntt x0 x1 x2) (rlwe_from_ntt_o x0 x1 x2).
Proof. intros. unfold rlwe_from_ntt, rlwe_from_ntt_o. ro. Qed.
#[export] Hint Resolve ref_rlwe_from_ntt : ro.
Lemma ref_inverse_transform_inplace : forall x0 x1 x2 x3, le (inverse_transform_inplace x0 x1 x2 x3) (inverse_transform_inplace_o x0 x1 x2 x3).
Proof. intros. unfold inverse_transform_inplace, inverse_transform_inplace_o. ro. Qed.
#[export] Hint Resolve ref_inverse_transform_inplace : ro.
Lemma ref_rlwe_mul_ntt_poly : forall x0 x1 x2 x3 x4, le (rlwe_mul_ntt_poly x0 x1 x2 x3 x4) (rlwe_mul_ntt_poly_o x0 x1 x2 x3 x4).
Proof. intros. unfold rlwe_mul_ntt_poly, rlwe_mul_ntt_poly_o. ro. Qed.
#[export] Hint Resolve ref_rlwe_mul_ntt_poly : ro.
Lemma ref_nrlwe_mul_assign : forall x0 x1 x2, le (nrlwe_mul_assign x0 x1 x2) (nrlwe_mul_assign_o x0 x1 x2).
Proof. intros. unfold nrlwe_mul_assign, nrlwe_mul_assign_o. ro. Qed.
#[export] Hint Resolve ref_nrlwe_mul_assign : ro.
Lemma ref_nrlwe_mul_inplace : forall x0 x1 x2 x3, le (nrlwe_mul_inplace x0 x1 x2 x3) (nrlwe_mul_inplace_o x0 x1 x2 x3).
Proof. intros. unfold nrlwe_mul_inplace, nrlwe_mul_inplace_o. ro. Qed.
#[export] Hint Resolve ref_nrlwe_mul_inplace : ro.
Lemma ref_nrlwe_add_mul : forall x0 x1 x2 x3, le (nrlwe_add_mul x0 x1 x2 x3) (nrlwe_add_mul_o x0 x1 x2 x3).
Proof. intros. unfold nrlwe_add_mul, nrlwe_add_mul_o. ro. Qed.
#[export] Hint Resolve ref_nrlwe_add_mul : ro.
Lemma ref_nrlwe_add_mul_fast : forall x0 x1 x2 x3, le (nrlwe_add_mul_fast x0 x1 x2 x3) (nrlwe_add_mul_fast_o x0 x1 x2 x3).
Proof. intros. unfold nrlwe_add_mul_fast, nrlwe_add_mul_fast_o. ro. Qed.
#[export] Hint Resolve ref_nrlwe_add_mul_fast : ro.
Lemma ref_nrlwe_add_mul_inplace : forall x0 x1 x2 x3 x4, le (nrlwe_add_mul_inplace x0 x1 x2 x3 x4) (nrlwe_add_mul_inplace_o x0 x1 x2 x3 x4).
Proof. intros. unfold nrlwe_add_mul_inplace, nrlwe_add_mul_inplace_o. ro. Qed.
#[export] Hint Resolve ref_nrlwe_add_mul_inplace : ro.
Lemma ref_extract_lwe : forall x0 x1, le (extract_lwe x0 x1) (extract_lwe_o x0 x1).
Proof. intros. unfold extract_lwe, extract_lwe_o. ro. Qed.
#[export] Hint Resolve ref_extract_lwe : ro.
Lemma ref_extract_lwe_locally : forall x0 x1, le (extract_lwe_locally x0 x1) (extract_lwe_locally_o x0 x1).
Proof. intros. unfold extract_lwe_locally, extract_lwe_locally_o. ro. Qed.
#[export] Hint Resolve ref_extract_lwe_locally : ro.
Lemma ref_extract_partial_lwe_locally : forall x0 x1 x2, le (extract_partial_lwe_locally x0 x1 x2) (extract_partial_lwe_locally_o x0 x1 x2).
Proof. intros. unfold extract_partial_lwe_locally, extract_partial_lwe_locally_o. ro. Qed.
#[export] Hint Resolve ref_extract_partial_lwe_locally : ro.
Lemma ref_rotate : forall x0 y0 x1 y1 x2 x3 x4 x5, (forall z0 z1, le (x0 z0 z1) (y0 z0 z1)) -> (forall z0 z1, le (x1 z0 z1) (y1 z0 z1)) -> le (rotate x0 x1 x2 x3 x4 x5) (rotate y0 y1 x2 x3 x4 x5).
Proof. intros. unfold rotate. ro. Qed.
#[export] Hint Extern 2 (le (rotate _ _ _ _ _ _ ) (rotate _ _ _ _ _ _ )) => simple apply ref_rotate : ro.
Lemma ref_rotate_sub_low : forall x0 x1 x2 x3 x4, le (rotate_sub_low x0 x1 x2 x3 x4) (rotate_sub_low_o x0 x1 x2 x3 x4).
Proof. intros. unfold rotate_sub_low, rotate_sub_low_o. ro. Qed.
#[export] Hint Resolve ref_rotate_sub_low : ro.
Lemma ref_rotate_sub_high : forall x0 x1 x2 x3 x4, le (rotate_sub_high x0 x1 x2 x3 x4) (rotate_sub_high_o x0 x1 x2 x3 x4).
Proof. intros. unfold rotate_sub_high, rotate_sub_high_o. ro. Qed.
#[export] Hint Resolve ref_rotate_sub_high : ro.
Lemma ref_mul_monic_monomial_sub_one : forall x0 x1 x2 x3 x4, le (mul_monic_monomial_sub_one x0 x1 x2 x3 x4) (mul_monic_monomial_sub_one_o x0 x1 x2 x3 x4).
Proof. intros. unfold mul_monic_monomial_sub_one, mul_monic_monomial_sub_one_o. ro. Qed.
#[export] Hint Resolve ref_mul_monic_monomial_sub_one : ro.
Lemma ref_add_assign_rhs_mul_monomial : forall x0 x1 x2 x3 x4, le (add_assign_rhs_mul_monomial x0 x1 x2 x3 x4) (add_assign_rhs_mul_monomial_o x0 x1 x2 x3 x4).
Proof. intros. unfold add_assign_rhs_mul_monomial, add_assign_rhs_mul_monomial_o. ro. Qed.
#[export] Hint Resolve ref_add_assign_rhs_mul_monomial : ro.
Lemma ref_rlwe_zero_sample : forall x0 x1 x2 x3 x4, le (rlwe_zero_sample x0 x1 x2 x3 x4) (rlwe_zero_sample_o x0 x1 x2 x3 x4).
Proof. intros. unfold rlwe_zero_sample, rlwe_zero_sample_o. ro. Qed.
#[export] Hint Resolve ref_rlwe_zero_sample : ro.
Lemma ref_nrlwe_zero_sample : forall x0 x1 x2 x3 x4, le (nrlwe_zero_sample x0 x1 x2 x3 x4) (nrlwe_zero_sample_o x0 x1 x2 x3 x4).
Proof. intros. unfold nrlwe_zero_sample, nrlwe_zero_sample_o. ro. Qed.
#[export] Hint Resolve ref_nrlwe_zero_sample : ro.
Lemma ref_add_at_0 : forall x0 x1 x2, le (add_at_0 x0 x1 x2) (add_at_0_o x0 x1 x2).
Proof. intros. unfold add_at_0, add_at_0_o. ro. Qed.
#[export] Hint Resolve ref_add_at_0 : ro.
Lemma ref_nrlwe_value_sample : forall x0 x1 x2 x3 x4 x5, le (nrlwe_value_sample x0 x1 x2 x3 x4 x5) (nrlwe_value_sample_o x0 x1 x2 x3 x4 x5).
Proof. intros. unfold nrlwe_value_sample, nrlwe_value_sample_o. ro. Qed.
#[export] Hint Resolve ref_nrlwe_value_sample : ro.

(** * Gadget *)
Lemma ref_gadget_new : forall x0 x1, le (gadget_new x0 x1) (gadget_new_o x0 x1).
Proof. intros. unfold gadget_new, gadget_new_o. ro. Qed.
#[export] Hint Resolve ref_gadget_new : ro.
Lemma ref_gadget_to_ntt : forall x0 x1 x2, le (gadget_to_ntt x0 x1 x2) (gadget_to_ntt_o x0 x1 x2).
Proof. intros. unfold gadget_to_ntt, gadget_to_ntt_o. ro. Qed.
#[export] Hint Resolve ref_gadget_to_ntt : ro.
Lemma ref_gadget_loop : forall x0 x1 x2 y2 x3 x4 x5 x6 x7, (forall z0 z1 z2, le (x2 z0 z1 z2) (y2 z0 z1 z2)) -> le (gadget_loop x0 x1 x2 x3 x4 x5 x6 x7) (gadget_loop_o x0 x1 y2 x3 x4 x5 x6 x7).
Proof. intros x0 x1 x2 y2 x3 x4 x5 x6 x7 H0. revert x0 x1 x3 x4 x6 x7. induction x5; intros; cbn [gadget_loop gadget_loop_o]; ro. Qed.
#[export] Hint Extern 2 (le (gadget_loop _ _ _ _ _ _ _ _ ) (gadget_loop_o _ _ _ _ _ _ _ _ )) => simple apply ref_gadget_loop : ro.
Lemma ref_lookup : forall x0 x1, le (lookup x0 x1) (lookup_o x0 x1).
Proof. intros. unfold lookup, lookup_o. ro. Qed.
#[export] Hint Resolve ref_lookup : ro.
Lemma ref_mul_then_add : forall x0 x1 x2 x3 x4 x5, le (mul_then_add x0 x1 x2 x3 x4 x5) (mul_then_add_o x0 x1 x2 x3 x4 x5).
Proof. intros. unfold mul_then_add, mul_then_add_o. ro. Qed.
#[export] Hint Resolve ref_mul_then_add : ro.
Lemma ref_g_mul_polynomial : forall x0 x1 x2 x3, le (g_mul_polynomial x0 x1 x2 x3) (g_mul_polynomial_o x0 x1 x2 x3).
Proof. intros. unfold g_mul_polynomial, g_mul_polynomial_o. ro. Qed.
#[export] Hint Resolve ref_g_mul_polynomial : ro.
Lemma ref_g_mul_polynomial_add_rlwe : forall x0 x1 x2 x3 x4, le (g_mul_polynomial_add_rlwe x0 x1 x2 x3 x4) (g_mul_polynomial_add_rlwe_o x0 x1 x2 x3 x4).
Proof. intros. unfold g_mul_polynomial_add_rlwe, g_mul_polynomial_add_rlwe_o. ro. Qed.
#[export] Hint Resolve ref_g_mul_polynomial_add_rlwe : ro.
Lemma ref_ng_mul_polynomial : forall x0 x1 x2 x3, le (ng_mul_polynomial x0 x1 x2 x3) (ng_mul_polynomial_o x0 x1 x2 x3).
Proof. intros. unfold ng_mul_polynomial, ng_mul_polynomial_o. ro. Qed.
#[export] Hint Resolve ref_ng_mul_polynomial : ro.
Lemma ref_ng_mul_polynomial_inplace_with : forall x0 y0 x1 x2 x3 x4 x5 x6 x7, (forall z0 z1 z2 z3, le (x0 z0 z1 z2 z3) (y0 z0 z1 z2 z3)) -> le (ng_mul_polynomial_inplace_with x0 x1 x2 x3 x4 x5 x6 x7) (ng_mul_polynomial_inplace_with_o y0 x1 x2 x3 x4 x5 x6 x7).
Proof. intros. unfold ng_mul_polynomial_inplace_with, ng_mul_polynomial_inplace_with_o. ro. Qed.
#[export] Hint Extern 2 (le (ng_mul_polynomial_inplace_with _ _ _ _ _ _ _ _ ) (ng_mul_polynomial_inplace_with_o _ _ _ _ _ _ _ _ )) => simple apply ref_ng_mul_polynomial_inplace_with : ro.
Lemma ref_ng_mul_polynomial_inplace : forall x0 x1 x2 x3 x4 x5 x6, le (ng_mul_polynomial_inplace x0 x1 x2 x3 x4 x5 x6) (ng_mul_polynomial_inplace_o x0 x1 x2 x3 x4 x5 x6).
Proof. intros. unfold ng_mul_polynomial_inplace, ng_mul_polynomial_inplace_o. ro. Qed.
#[export] Hint Resolve ref_ng_mul_polynomial_inplace : ro.
Lemma ref_ng_mul_polynomial_inplace_fast : forall x0 x1 x2 x3 x4 x5 x6, le (ng_mul_polynomial_inplace_fast x0 x1 x2 x3 x4 x5 x6) (ng_mul_polynomial_inplace_fast_o x0 x1 x2 x3 x4 x5 x6).
Proof. intros. unfold ng_mul_polynomial_inplace_fast, ng_mul_polynomial_inplace_fast_o. ro. Qed.
#[export] Hint Resolve ref_ng_mul_polynomial_inplace_fast : ro.
Lemma ref_nrlwe_add_gadget_mul_with : forall x0 y0 x1 x2 x3 x4 x5 x6 x7, (forall z0 z1 z2 z3, le (x0 z0 z1 z2 z3) (y0 z0 z1 z2 z3)) -> le (nrlwe_add_gadget_mul_with x0 x1 x2 x3 x4 x5 x6 x7) (nrlwe_add_gadget_mul_with_o y0 x1 x2 x3 x4 x5 x6 x7).
Proof. intros. unfold nrlwe_add_gadget_mul_with, nrlwe_add_gadget_mul_with_o. ro. Qed.
#[export] Hint Extern 2 (le (nrlwe_add_gadget_mul_with _ _ _ _ _ _ _ _ ) (nrlwe_add_gadget_mul_with_o _ _ _ _ _ _ _ _ )) => simple apply ref_nrlwe_add_gadget_mul_with : ro.
Lemma ref_nrlwe_add_gadget_mul_assign : forall x0 x1 x2 x3 x4 x5 x6, le (nrlwe_add_gadget_mul_assign x0 x1 x2 x3 x4 x5 x6) (nrlwe_add_gadget_mul_assign_o x0 x1 x2 x3 x4 x5 x6).
Proof. intros. unfold nrlwe_add_gadget_mul_assign, nrlwe_add_gadget_mul_assign_o. ro. Qed.
#[export] Hint Resolve ref_nrlwe_add_gadget_mul_assign : ro.
Lemma ref_nrlwe_add_gadget_mul_assign_fast : forall x0 x1 x2 x3 x4 x5 x6, le (nrlwe_add_gadget_mul_assign_fast x0 x1 x2 x3 x4 x5 x6) (nrlwe_add_gadget_mul_assign_fast_o x0 x1 x2 x3 x4 x5 x6).
Proof. intros. unfold nrlwe_add_gadget_mul_assign_fast, nrlwe_add_gadget_mul_assign_fast_o. ro. Qed.
#[export] Hint Resolve ref_nrlwe_add_gadget_mul_assign_fast : ro.
Lemma ref_nrlwe_add_gadget_mul : forall x0 x1 x2 x3 x4, le (nrlwe_add_gadget_mul x0 x1 x2 x3 x4) (nrlwe_add_gadget_mul_o x0 x1 x2 x3 x4).
Proof. intros. unfold nrlwe_add_gadget_mul, nrlwe_add_gadget_mul_o. ro. Qed.
#[export] Hint Resolve ref_nrlwe_add_gadget_mul : ro.
Lemma ref_nrlwe_add_gadget_mul_inplace_fast : forall x0 x1 x2 x3 x4 x5, le (nrlwe_add_gadget_mul_inplace_fast x0 x1 x2 x3 x4 x5) (nrlwe_add_gadget_mul_inplace_fast_o x0 x1 x2 x3 x4 x5).
Proof. intros. unfold nrlwe_add_gadget_mul_inplace_fast, nrlwe_add_gadget_mul_inplace_fast_o. ro. Qed.
#[export] Hint Resolve ref_nrlwe_add_gadget_mul_inplace_fast : ro.
Lemma ref_nrlwe_sub_gadget_mul_with : forall x0 y0 x1 x2 x3 x4 x5 x6, (forall z0 z1 z2 z3, le (x0 z0 z1 z2 z3) (y0 z0 z1 z2 z3)) -> le (nrlwe_sub_gadget_mul_with x0 x1 x2 x3 x4 x5 x6) (nrlwe_sub_gadget_mul_with_o y0 x1 x2 x3 x4 x5 x6).
Proof. intros. unfold nrlwe_sub_gadget_mul_with, nrlwe_sub_gadget_mul_with_o. ro. Qed.
#[export] Hint Extern 2 (le (nrlwe_sub_gadget_mul_with _ _ _ _ _ _ _ ) (nrlwe_sub_gadget_mul_with_o _ _ _ _ _ _ _ )) => simple apply ref_nrlwe_sub_gadget_mul_with : ro.
Lemma ref_nrlwe_sub_gadget_mul : forall x0 x1 x2 x3 x4 x5, le (nrlwe_sub_gadget_mul x0 x1 x2 x3 x4 x5) (nrlwe_sub_gadget_mul_o x0 x1 x2 x3 x4 x5).
Proof. intros. unfold nrlwe_sub_gadget_mul, nrlwe_sub_gadget_mul_o. ro. Qed.
#[export] Hint Resolve ref_nrlwe_sub_gadget_mul : ro.
Lemma ref_nrlwe_sub_gadget_mul_fast : forall x0 x1 x2 x3 x4 x5, le (nrlwe_sub_gadget_mul_fast x0 x1 x2 x3 x4 x5) (nrlwe_sub_gadget_mul_fast_o x0 x1 x2 x3 x4 x5).
Proof. intros. unfold nrlwe_sub_gadget_mul_fast, nrlwe_sub_gadget_mul_fast_o. ro. Qed.
#[export] Hint Resolve ref_nrlwe_sub_gadget_mul_fast : ro.
Lemma ref_ng_add_mul_inplace : forall x0 x1 x2 x3 x4, le (ng_add_mul_inplace x0 x1 x2 x3 x4) (ng_add_mul_inplace_o x0 x1 x2 x3 x4).
Proof. intros x0 x1 x2 x3 x4. revert x0 x2 x3 x4. induction x1; intros; cbn [ng_add_mul_inplace ng_add_mul_inplace_o]; ro. Qed.
#[export] Hint Resolve ref_ng_add_mul_inplace : ro.
Lemma ref_gadget_add_mul_inplace : forall x0 x1 x2 x3 x4, le (gadget_add_mul_inplace x0 x1 x2 x3 x4) (gadget_add_mul_inplace_o x0 x1 x2 x3 x4).
Proof. intros. unfold gadget_add_mul_inplace, gadget_add_mul_inplace_o. ro. Qed.
#[export] Hint Resolve ref_gadget_add_mul_inplace : ro.
Lemma ref_rows_inplace : forall x0 y0 x1 x2 x3, (forall z0 z1 z2, le (x0 z0 z1 z2) (y0 z0 z1 z2)) -> le (rows_inplace x0 x1 x2 x3) (rows_inplace y0 x1 x2 x3).
Proof. intros x0 y0 x1 x2 x3 H0. revert x2 x3. induction x1; intros; cbn [rows_inplace]; ro. Qed.
#[export] Hint Extern 2 (le (rows_inplace _ _ _ _ ) (rows_inplace _ _ _ _ )) => simple apply ref_rows_inplace : ro.
Lemma ref_gadget_op_inplace : forall x0 y0 x1 x2 x3, (forall z0 z1 z2, le (x0 z0 z1 z2) (y0 z0 z1 z2)) -> le (gadget_op_inplace x0 x1 x2 x3) (gadget_op_inplace_o y0 x1 x2 x3).
Proof. intros. unfold gadget_op_inplace, gadget_op_inplace_o. ro. Qed.
#[export] Hint Extern 2 (le (gadget_op_inplace _ _ _ _ ) (gadget_op_inplace_o _ _ _ _ )) => simple apply ref_gadget_op_inplace : ro.
Lemma ref_zero_rows : forall x0 y0 x1 x2, (forall z0 z1, le (x0 z0 z1) (y0 z0 z1)) -> le (zero_rows x0 x1 x2) (zero_rows y0 x1 x2).
Proof. intros. unfold zero_rows. ro. Qed.
#[export] Hint Extern 2 (le (zero_rows _ _ _ ) (zero_rows _ _ _ )) => simple apply ref_zero_rows : ro.
Lemma ref_g_zero_sample : forall x0 x1 x2 x3 x4, le (g_zero_sample x0 x1 x2 x3 x4) (g_zero_sample_o x0 x1 x2 x3 x4).
Proof. intros. unfold g_zero_sample, g_zero_sample_o. ro. Qed.
#[export] Hint Resolve ref_g_zero_sample : ro.
Lemma ref_ng_zero_sample : forall x0 x1 x2 x3 x4, le (ng_zero_sample x0 x1 x2 x3 x4) (ng_zero_sample_o x0 x1 x2 x3 x4).
Proof. intros. unfold ng_zero_sample, ng_zero_sample_o. ro. Qed.
#[export] Hint Resolve ref_ng_zero_sample : ro.
Lemma ref_power_rows : forall x0 x1 y1 x2 x3 x4, (forall z0 z1 z2, le (x1 z0 z1 z2) (y1 z0 z1 z2)) -> le (power_rows x0 x1 x2 x3 x4) (power_rows_o x0 y1 x2 x3 x4).
Proof. intros x0 x1 y1 x2 x3 x4 H0. revert x0 x2 x3. induction x4; intros; cbn [power_rows power_rows_o]; ro. Qed.
#[export] Hint Extern 2 (le (power_rows _ _ _ _ _ ) (power_rows_o _ _ _ _ _ )) => simple apply ref_power_rows : ro.
Lemma ref_power_rows_peeled : forall x0 x1 y1 x2 x3 x4, (forall z0 z1 z2, le (x1 z0 z1 z2) (y1 z0 z1 z2)) -> le (power_rows_peeled x0 x1 x2 x3 x4) (power_rows_peeled_o x0 y1 x2 x3 x4).
Proof. intros x0 x1 y1 x2 x3 x4 H0. revert x0 x2 x3. induction x4; intros; cbn [power_rows_peeled power_rows_peeled_o]; [ro|]. repeat match goal with p : (_ * _)%type |- _ => destruct p | l : list _ |- _ => is_var l; match goal with |- context [match l with _ => _ end] => destruct l end end; ro. Qed.
#[export] Hint Extern 2 (le (power_rows_peeled _ _ _ _ _ ) (power_rows_peeled_o _ _ _ _ _ )) => simple apply ref_power_rows_peeled : ro.
Lemma ref_g_one_sample : forall x0 x1 x2 x3 x4, le (g_one_sample x0 x1 x2 x3 x4) (g_one_sample_o x0 x1 x2 x3 x4).
Proof. intros. unfold g_one_sample, g_one_sample_o. ro. Qed.
#[export] Hint Resolve ref_g_one_sample : ro.
Lemma ref_g_neg_secret_sample : forall x0 x1 x2 x3 x4, le (g_neg_secret_sample x0 x1 x2 x3 x4) (g_neg_secret_sample_o x0 x1 x2 x3 x4).
Proof. intros. unfold g_neg_secret_sample, g_neg_secret_sample_o. ro. Qed.
#[export] Hint Resolve ref_g_neg_secret_sample : ro.
Lemma ref_ng_one_sample : forall x0 x1 x2 x3 x4, le (ng_one_sample x0 x1 x2 x3 x4) (ng_one_sample_o x0 x1 x2 x3 x4).
Proof. intros. unfold ng_one_sample, ng_one_sample_o. ro. Qed.
#[export] Hint Resolve ref_ng_one_sample : ro.
Lemma ref_ng_neg_secret_sample : forall x0 x1 x2 x3 x4, le (ng_neg_secret_sample x0 x1 x2 x3 x4) (ng_neg_secret_sample_o x0 x1 x2 x3 x4).
Proof. intros. unfold ng_neg_secret_sample, ng_neg_secret_sample_o. ro. Qed.
#[export] Hint Resolve ref_ng_neg_secret_sample : ro.
Lemma ref_rgsw_to_ntt : forall x0 x1 x2, le (rgsw_to_ntt x0 x1 x2) (rgsw_to_ntt_o x0 x1 x2).
Proof. intros. unfold rgsw_to_ntt, rgsw_to_ntt_o. ro. Qed.
#[export] Hint Resolve ref_rgsw_to_ntt : ro.
Lemma ref_rlwe_mul_rgsw : forall x0 x1 x2 x3, le (rlwe_mul_rgsw x0 x1 x2 x3) (rlwe_mul_rgsw_o x0 x1 x2 x3).
Proof. intros. unfold rlwe_mul_rgsw, rlwe_mul_rgsw_o. ro. Qed.
#[export] Hint Resolve ref_rlwe_mul_rgsw : ro.
Lemma ref_rlwe_mul_ntt_rgsw : forall x0 x1 x2 x3, le (rlwe_mul_ntt_rgsw x0 x1 x2 x3) (rlwe_mul_ntt_rgsw_o x0 x1 x2 x3).
Proof. intros. unfold rlwe_mul_ntt_rgsw, rlwe_mul_ntt_rgsw_o. ro. Qed.
#[export] Hint Resolve ref_rlwe_mul_ntt_rgsw : ro.
Lemma ref_rlwe_mul_ntt_rgsw_inplace : forall x0 x1 x2 x3 x4 x5 x6 x7, le (rlwe_mul_ntt_rgsw_inplace x0 x1 x2 x3 x4 x5 x6 x7) (rlwe_mul_ntt_rgsw_inplace_o x0 x1 x2 x3 x4 x5 x6 x7).
Proof. intros. unfold rlwe_mul_ntt_rgsw_inplace, rlwe_mul_ntt_rgsw_inplace_o. ro. Qed.
#[export] Hint Resolve ref_rlwe_mul_ntt_rgsw_inplace : ro.
Lemma ref_rlwe_mul_assign_ntt_rgsw : forall x0 x1 x2 x3 x4 x5 x6, le (rlwe_mul_assign_ntt_rgsw x0 x1 x2 x3 x4 x5 x6) (rlwe_mul_assign_ntt_rgsw_o x0 x1 x2 x3 x4 x5 x6).
Proof. intros. unfold rlwe_mul_assign_ntt_rgsw, rlwe_mul_assign_ntt_rgsw_o. ro. Qed.
#[export] Hint Resolve ref_rlwe_mul_assign_ntt_rgsw : ro.
Lemma ref_rgsw_mul_small_ntt : forall x0 x1 x2 x3, le (rgsw_mul_small_ntt x0 x1 x2 x3) (rgsw_mul_small_ntt_o x0 x1 x2 x3).
Proof. intros. unfold rgsw_mul_small_ntt, rgsw_mul_small_ntt_o. ro. Qed.
#[export] Hint Resolve ref_rgsw_mul_small_ntt : ro.
Lemma ref_rgsw_mul_small : forall x0 x1 x2 x3, le (rgsw_mul_small x0 x1 x2 x3) (rgsw_mul_small_o x0 x1 x2 x3).
Proof. intros. unfold rgsw_mul_small, rgsw_mul_small_o. ro. Qed.
#[export] Hint Resolve ref_rgsw_mul_small : ro.
Lemma ref_nrgsw_mul_assign : forall x0 x1 x2, le (nrgsw_mul_assign x0 x1 x2) (nrgsw_mul_assign_o x0 x1 x2).
Proof. intros. unfold nrgsw_mul_assign, nrgsw_mul_assign_o. ro. Qed.
#[export] Hint Resolve ref_nrgsw_mul_assign : ro.
Lemma ref_nrgsw_add_mul_inplace : forall x0 x1 x2 x3 x4, le (nrgsw_add_mul_inplace x0 x1 x2 x3 x4) (nrgsw_add_mul_inplace_o x0 x1 x2 x3 x4).
Proof. intros. unfold nrgsw_add_mul_inplace, nrgsw_add_mul_inplace_o. ro. Qed.
#[export] Hint Resolve ref_nrgsw_add_mul_inplace : ro.
Lemma ref_rgsw_zero_sample : forall x0 x1 x2 x3 x4 x5, le (rgsw_zero_sample x0 x1 x2 x3 x4 x5) (rgsw_zero_sample_o x0 x1 x2 x3 x4 x5).
Proof. intros. unfold rgsw_zero_sample, rgsw_zero_sample_o. ro. Qed.
#[export] Hint Resolve ref_rgsw_zero_sample : ro.
Lemma ref_nrgsw_zero_sample : forall x0 x1 x2 x3 x4 x5, le (nrgsw_zero_sample x0 x1 x2 x3 x4 x5) (nrgsw_zero_sample_o x0 x1 x2 x3 x4 x5).
Proof. intros. unfold nrgsw_zero_sample, nrgsw_zero_sample_o. ro. Qed.
#[export] Hint Resolve ref_nrgsw_zero_sample : ro.
Lemma ref_rgsw_one_sample : forall x0 x1 x2 x3 x4 x5, le (rgsw_one_sample x0 x1 x2 x3 x4 x5) (rgsw_one_sample_o x0 x1 x2 x3 x4 x5).
Proof. intros. unfold rgsw_one_sample, rgsw_one_sample_o. ro. Qed.
#[export] Hint Resolve ref_rgsw_one_sample : ro.
Lemma ref_nrgsw_one_sample : forall x0 x1 x2 x3 x4 x5, le (nrgsw_one_sample x0 x1 x2 x3 x4 x5) (nrgsw_one_sample_o x0 x1 x2 x3 x4 x5).
Proof. intros. unfold nrgsw_one_sample, nrgsw_one_sample_o. ro. Qed.
#[export] Hint Resolve ref_nrgsw_one_sample : ro.
Lemma ref_rgsw_op_inplace : forall x0 y0 x1 x2 x3, (forall z0 z1 z2, le (x0 z0 z1 z2) (y0 z0 z1 z2)) -> le (rgsw_op_inplace x0 x1 x2 x3) (rgsw_op_inplace_o y0 x1 x2 x3).
Proof. intros. unfold rgsw_op_inplace, rgsw_op_inplace_o. ro. Qed.
#[export] Hint Extern 2 (le (rgsw_op_inplace _ _ _ _ ) (rgsw_op_inplace_o _ _ _ _ )) => simple apply ref_rgsw_op_inplace : ro.
