(** Proofs for C76: the optimised build agrees with the checked build wherever that returns (OptScheme). *)
From Coq Require Import ZArith List Bool Arith Lia.
From Verif Require Import Model.Base Model.Reduce Model.Gcd Model.Barrett Model.PowOf2 Model.Shoup Model.Field Model.Prime Model.BabyBear Model.Goldilocks Model.NTT Model.Concrete Model.Poly Model.DecomposeAt Model.Plaintext Model.Lwe Model.Rlwe Model.Gadget Model.BlindRotation Model.KeySwitch Model.ModSwitch Model.Params Model.Boolean Model.Sample Model.SecretKey Model.OptArith Model.OptRing Model.OptScheme Proofs.Refine Proofs.OptArithProofs Proofs.OptRingProofs.
Import ListNotations.
Local Open Scope Z_scope.


(** * BlindRotation *)
Lemma ref_lut_rotate : forall x0 x1 x2, le (lut_rotate x0 x1 x2) (lut_rotate_o x0 x1 x2).
Proof. intros. unfold lut_rotate, lut_rotate_o. ro. Qed.
#[export] Hint Resolve ref_lut_rotate : ro.
Lemma ref_binary_loop : forall x0 x1 x2 x3 x4 x5 x6, le (binary_loop x0 x1 x2 x3 x4 x5 x6) (binary_loop_o x0 x1 x2 x3 x4 x5 x6).
Proof. intros x0 x1 x2 x3 x4 x5 x6. revert x0 x1 x2 x4 x5 x6. induction x3; intros; cbn [binary_loop binary_loop_o]; ro. Qed.
#[export] Hint Resolve ref_binary_loop : ro.
Lemma ref_binary_blind_rotate : forall x0 x1 x2 x3 x4, le (binary_blind_rotate x0 x1 x2 x3 x4) (binary_blind_rotate_o x0 x1 x2 x3 x4).
Proof. intros. unfold binary_blind_rotate, binary_blind_rotate_o. ro. Qed.
#[export] Hint Resolve ref_binary_blind_rotate : ro.
Lemma ref_ternary_loop : forall x0 x1 x2 x3 x4 x5 x6 x7 x8, le (ternary_loop x0 x1 x2 x3 x4 x5 x6 x7 x8) (ternary_loop_o x0 x1 x2 x3 x4 x5 x6 x7 x8).
Proof. intros x0 x1 x2 x3 x4 x5 x6 x7 x8. revert x0 x1 x2 x3 x5 x6 x7 x8. induction x4; intros; cbn [ternary_loop ternary_loop_o]; ro. Qed.
#[export] Hint Resolve ref_ternary_loop : ro.
Lemma ref_ternary_blind_rotate : forall x0 x1 x2 x3 x4 x5, le (ternary_blind_rotate x0 x1 x2 x3 x4 x5) (ternary_blind_rotate_o x0 x1 x2 x3 x4 x5).
Proof. intros. unfold ternary_blind_rotate, ternary_blind_rotate_o. ro. Qed.
#[export] Hint Resolve ref_ternary_blind_rotate : ro.
Lemma ref_blind_rotate : forall x0 x1 x2 x3 x4 x5, le (blind_rotate x0 x1 x2 x3 x4 x5) (blind_rotate_o x0 x1 x2 x3 x4 x5).
Proof. intros. unfold blind_rotate, blind_rotate_o. ro. Qed.
#[export] Hint Resolve ref_blind_rotate : ro.
Lemma ref_binary_generate : forall x0 x1 x2 x3 x4 x5, le (binary_generate x0 x1 x2 x3 x4 x5) (binary_generate_o x0 x1 x2 x3 x4 x5).
Proof. intros. unfold binary_generate, binary_generate_o. ro. Qed.
#[export] Hint Resolve ref_binary_generate : ro.
Lemma ref_ternary_generate : forall x0 x1 x2 x3 x4 x5, le (ternary_generate x0 x1 x2 x3 x4 x5) (ternary_generate_o x0 x1 x2 x3 x4 x5).
Proof. intros. unfold ternary_generate, ternary_generate_o. ro. Qed.
#[export] Hint Resolve ref_ternary_generate : ro.

(** * KeySwitch *)
Lemma ref_wbasis_new : forall x0 x1 x2, le (wbasis_new x0 x1 x2) (wbasis_new_o x0 x1 x2).
Proof. intros. unfold wbasis_new, wbasis_new_o. ro. Qed.
#[export] Hint Resolve ref_wbasis_new : ro.
Lemma ref_decompose_lsb : forall x0 x1 x2, le (decompose_lsb x0 x1 x2) (decompose_lsb_o x0 x1 x2).
Proof. intros. unfold decompose_lsb, decompose_lsb_o. ro. Qed.
#[export] Hint Resolve ref_decompose_lsb : ro.
Lemma ref_lks_row : forall x0 y0 x1 x2 x3, le_mops x0 y0 -> le (lks_row x0 x1 x2 x3) (lks_row_o y0 x1 x2 x3).
Proof. intros x0 y0 x1 x2 x3 H0. revert x2 x3. induction x1; intros; cbn [lks_row lks_row_o]; ro. Qed.
#[export] Hint Extern 2 (le (lks_row _ _ _ _ ) (lks_row_o _ _ _ _ )) => simple apply ref_lks_row : ro.
Lemma ref_lks_loop : forall x0 x1 y1 x2 x3 x4 x5, le_mops x1 y1 -> le (lks_loop x0 x1 x2 x3 x4 x5) (lks_loop_o x0 y1 x2 x3 x4 x5).
Proof. intros x0 x1 y1 x2 x3 x4 x5 H0. revert x0 x2 x4 x5. induction x3; intros; cbn [lks_loop lks_loop_o]; ro. Qed.
#[export] Hint Extern 2 (le (lks_loop _ _ _ _ _ _ ) (lks_loop_o _ _ _ _ _ _ )) => simple apply ref_lks_loop : ro.
Lemma ref_lks_key_switch : forall x0 x1 x2, le (lks_key_switch x0 x1 x2) (lks_key_switch_o x0 x1 x2).
Proof. intros. unfold lks_key_switch, lks_key_switch_o. ro. Qed.
#[export] Hint Resolve ref_lks_key_switch : ro.
Lemma ref_lks_entries : forall x0 x1 x2 x3 x4 x5, le (lks_entries x0 x1 x2 x3 x4 x5) (lks_entries_o x0 x1 x2 x3 x4 x5).
Proof. intros x0 x1 x2 x3 x4 x5. revert x0 x1 x2 x3 x4. induction x5; intros; cbn [lks_entries lks_entries_o]; ro. Qed.
#[export] Hint Resolve ref_lks_entries : ro.
Lemma ref_lks_inner : forall x0 x1 x2 x3 x4 x5, le (lks_inner x0 x1 x2 x3 x4 x5) (lks_inner_o x0 x1 x2 x3 x4 x5).
Proof. intros. unfold lks_inner, lks_inner_o. ro. Qed.
#[export] Hint Resolve ref_lks_inner : ro.
Lemma ref_lks_levels : forall x0 x1 x2 x3 x4 x5, le (lks_levels x0 x1 x2 x3 x4 x5) (lks_levels_o x0 x1 x2 x3 x4 x5).
Proof. intros x0 x1 x2 x3 x4 x5. revert x0 x1 x2 x3 x4. induction x5; intros; cbn [lks_levels lks_levels_o]; ro. Qed.
#[export] Hint Resolve ref_lks_levels : ro.
Lemma ref_lks_generate : forall x0 x1 x2 x3 x4 x5, le (lks_generate x0 x1 x2 x3 x4 x5) (lks_generate_o x0 x1 x2 x3 x4 x5).
Proof. intros. unfold lks_generate, lks_generate_o. ro. Qed.
#[export] Hint Resolve ref_lks_generate : ro.
Lemma ref_neg_head_rev_tail : forall x0 x1, le (neg_head_rev_tail x0 x1) (neg_head_rev_tail_o x0 x1).
Proof. intros. unfold neg_head_rev_tail, neg_head_rev_tail_o. ro. Qed.
#[export] Hint Resolve ref_neg_head_rev_tail : ro.
Lemma ref_rev_neg_tail : forall x0 x1, le (rev_neg_tail x0 x1) (rev_neg_tail_o x0 x1).
Proof. intros. unfold rev_neg_tail, rev_neg_tail_o. ro. Qed.
#[export] Hint Resolve ref_rev_neg_tail : ro.
Lemma ref_rks_loop : forall x0 x1 x2 x3 x4 x5, le (rks_loop x0 x1 x2 x3 x4 x5) (rks_loop_o x0 x1 x2 x3 x4 x5).
Proof. intros x0 x1 x2 x3 x4 x5. revert x0 x1 x2 x4 x5. induction x3; intros; cbn [rks_loop rks_loop_o]; ro. Qed.
#[export] Hint Resolve ref_rks_loop : ro.
Lemma ref_rks_inner : forall x0 x1 x2 x3 x4 x5, le (rks_inner x0 x1 x2 x3 x4 x5) (rks_inner_o x0 x1 x2 x3 x4 x5).
Proof. intros. unfold rks_inner, rks_inner_o. ro. Qed.
#[export] Hint Resolve ref_rks_inner : ro.
Lemma ref_rks_key_switch_rlwe : forall x0 x1 x2 x3, le (rks_key_switch_rlwe x0 x1 x2 x3) (rks_key_switch_rlwe_o x0 x1 x2 x3).
Proof. intros. unfold rks_key_switch_rlwe, rks_key_switch_rlwe_o. ro. Qed.
#[export] Hint Resolve ref_rks_key_switch_rlwe : ro.
Lemma ref_rks_key_switch_lwe : forall x0 x1 x2 x3, le (rks_key_switch_lwe x0 x1 x2 x3) (rks_key_switch_lwe_o x0 x1 x2 x3).
Proof. intros. unfold rks_key_switch_lwe, rks_key_switch_lwe_o. ro. Qed.
#[export] Hint Resolve ref_rks_key_switch_lwe : ro.
Lemma ref_to_field : forall x0 x1, le (to_field x0 x1) (to_field_o x0 x1).
Proof. intros. unfold to_field, to_field_o. ro. Qed.
#[export] Hint Resolve ref_to_field : ro.
Lemma ref_rks_rows : forall x0 x1 x2 x3 x4 x5, le (rks_rows x0 x1 x2 x3 x4 x5) (rks_rows_o x0 x1 x2 x3 x4 x5).
Proof. intros x0 x1 x2 x3 x4 x5. revert x0 x1 x2 x3 x4. induction x5; intros; cbn [rks_rows rks_rows_o]; ro. Qed.
#[export] Hint Resolve ref_rks_rows : ro.
Lemma ref_rks_generate : forall x0 x1 x2 x3 x4 x5 x6, le (rks_generate x0 x1 x2 x3 x4 x5 x6) (rks_generate_o x0 x1 x2 x3 x4 x5 x6).
Proof. intros. unfold rks_generate, rks_generate_o. ro. Qed.
#[export] Hint Resolve ref_rks_generate : ro.

(** * ModSwitch *)

(** * Params *)
Lemma ref_params_new : forall x0 x1, le (params_new x0 x1) (params_new_o x0 x1).
Proof. intros. unfold params_new, params_new_o. ro. Qed.
#[export] Hint Resolve ref_params_new : ro.

(** * Boolean *)
Lemma ref_lut_step : forall x0 x1, le (lut_step x0 x1) (lut_step_o x0 x1).
Proof. intros. unfold lut_step, lut_step_o. ro. Qed.
#[export] Hint Resolve ref_lut_step : ro.
Lemma ref_init_nand_and_majority_lut : forall x0 x1 x2 x3, le (init_nand_and_majority_lut x0 x1 x2 x3) (init_nand_and_majority_lut_o x0 x1 x2 x3).
Proof. intros. unfold init_nand_and_majority_lut, init_nand_and_majority_lut_o. ro. Qed.
#[export] Hint Resolve ref_init_nand_and_majority_lut : ro.
Lemma ref_eighths : forall x0, le (eighths x0) (eighths_o x0).
Proof. intros. unfold eighths, eighths_o. ro. Qed.
#[export] Hint Resolve ref_eighths : ro.
Lemma ref_init_nand_lut : forall x0 x1 x2, le (init_nand_lut x0 x1 x2) (init_nand_lut_o x0 x1 x2).
Proof. intros. unfold init_nand_lut, init_nand_lut_o. ro. Qed.
#[export] Hint Resolve ref_init_nand_lut : ro.
Lemma ref_init_and_majority_lut : forall x0 x1 x2, le (init_and_majority_lut x0 x1 x2) (init_and_majority_lut_o x0 x1 x2).
Proof. intros. unfold init_and_majority_lut, init_and_majority_lut_o. ro. Qed.
#[export] Hint Resolve ref_init_and_majority_lut : ro.
Lemma ref_init_or_lut : forall x0 x1 x2, le (init_or_lut x0 x1 x2) (init_or_lut_o x0 x1 x2).
Proof. intros. unfold init_or_lut, init_or_lut_o. ro. Qed.
#[export] Hint Resolve ref_init_or_lut : ro.
Lemma ref_init_nor_lut : forall x0 x1 x2, le (init_nor_lut x0 x1 x2) (init_nor_lut_o x0 x1 x2).
Proof. intros. unfold init_nor_lut, init_nor_lut_o. ro. Qed.
#[export] Hint Resolve ref_init_nor_lut : ro.
Lemma ref_init_xor_lut : forall x0 x1 x2, le (init_xor_lut x0 x1 x2) (init_xor_lut_o x0 x1 x2).
Proof. intros. unfold init_xor_lut, init_xor_lut_o. ro. Qed.
#[export] Hint Resolve ref_init_xor_lut : ro.
Lemma ref_init_xnor_lut : forall x0 x1 x2, le (init_xnor_lut x0 x1 x2) (init_xnor_lut_o x0 x1 x2).
Proof. intros. unfold init_xnor_lut, init_xnor_lut_o. ro. Qed.
#[export] Hint Resolve ref_init_xnor_lut : ro.
Lemma ref_bootstrap : forall x0 x1 x2 x3 x4 x5, le (bootstrap x0 x1 x2 x3 x4 x5) (bootstrap_o x0 x1 x2 x3 x4 x5).
Proof. intros. unfold bootstrap, bootstrap_o. ro. Qed.
#[export] Hint Resolve ref_bootstrap : ro.
Lemma ref_g_not : forall x0 x1 x2, le (g_not x0 x1 x2) (g_not_o x0 x1 x2).
Proof. intros. unfold g_not, g_not_o. ro. Qed.
#[export] Hint Resolve ref_g_not : ro.
Lemma ref_g_nand : forall x0 x1 x2 x3 x4 x5, le (g_nand x0 x1 x2 x3 x4 x5) (g_nand_o x0 x1 x2 x3 x4 x5).
Proof. intros. unfold g_nand, g_nand_o. ro. Qed.
#[export] Hint Resolve ref_g_nand : ro.
Lemma ref_g_and : forall x0 x1 x2 x3 x4 x5, le (g_and x0 x1 x2 x3 x4 x5) (g_and_o x0 x1 x2 x3 x4 x5).
Proof. intros. unfold g_and, g_and_o. ro. Qed.
#[export] Hint Resolve ref_g_and : ro.
Lemma ref_g_or : forall x0 x1 x2 x3 x4 x5, le (g_or x0 x1 x2 x3 x4 x5) (g_or_o x0 x1 x2 x3 x4 x5).
Proof. intros. unfold g_or, g_or_o. ro. Qed.
#[export] Hint Resolve ref_g_or : ro.
Lemma ref_g_nor : forall x0 x1 x2 x3 x4 x5, le (g_nor x0 x1 x2 x3 x4 x5) (g_nor_o x0 x1 x2 x3 x4 x5).
Proof. intros. unfold g_nor, g_nor_o. ro. Qed.
#[export] Hint Resolve ref_g_nor : ro.
Lemma ref_g_xor : forall x0 x1 x2 x3 x4 x5, le (g_xor x0 x1 x2 x3 x4 x5) (g_xor_o x0 x1 x2 x3 x4 x5).
Proof. intros. unfold g_xor, g_xor_o. ro. Qed.
#[export] Hint Resolve ref_g_xor : ro.
Lemma ref_g_xnor : forall x0 x1 x2 x3 x4 x5, le (g_xnor x0 x1 x2 x3 x4 x5) (g_xnor_o x0 x1 x2 x3 x4 x5).
Proof. intros. unfold g_xnor, g_xnor_o. ro. Qed.
#[export] Hint Resolve ref_g_xnor : ro.
Lemma ref_g_majority : forall x0 x1 x2 x3 x4 x5 x6, le (g_majority x0 x1 x2 x3 x4 x5 x6) (g_majority_o x0 x1 x2 x3 x4 x5 x6).
Proof. intros. unfold g_majority, g_majority_o. ro. Qed.
#[export] Hint Resolve ref_g_majority : ro.
Lemma ref_g_mux : forall x0 x1 x2 x3 x4 x5 x6, le (g_mux x0 x1 x2 x3 x4 x5 x6) (g_mux_o x0 x1 x2 x3 x4 x5 x6).
Proof. intros. unfold g_mux, g_mux_o. ro. Qed.
#[export] Hint Resolve ref_g_mux : ro.

(** * Sample *)
Lemma ref_sample_ternary_field_vec : forall x0 x1 x2, le (sample_ternary_field_vec x0 x1 x2) (sample_ternary_field_vec_o x0 x1 x2).
Proof. intros. unfold sample_ternary_field_vec, sample_ternary_field_vec_o. ro. Qed.
#[export] Hint Resolve ref_sample_ternary_field_vec : ro.
Lemma ref_cbd_value : forall x0 x1 x2 x3 x4 x5 x6, le (cbd_value x0 x1 x2 x3 x4 x5 x6) (cbd_value_o x0 x1 x2 x3 x4 x5 x6).
Proof. intros. unfold cbd_value, cbd_value_o. ro. Qed.
#[export] Hint Resolve ref_cbd_value : ro.
Lemma ref_sample_cbd_field_vec : forall x0 x1 x2, le (sample_cbd_field_vec x0 x1 x2) (sample_cbd_field_vec_o x0 x1 x2).
Proof. intros x0 x1 x2. revert x0 x2. induction x1; intros; cbn [sample_cbd_field_vec sample_cbd_field_vec_o]; ro. Qed.
#[export] Hint Resolve ref_sample_cbd_field_vec : ro.

(** * SecretKey *)
Lemma ref_convert : forall x0 x1, le (convert x0 x1) (convert_o x0 x1).
Proof. intros. unfold convert, convert_o. ro. Qed.
#[export] Hint Resolve ref_convert : ro.
Lemma ref_create_ring_secret_key : forall x0 x1 x2 x3 x4, le (create_ring_secret_key x0 x1 x2 x3 x4) (create_ring_secret_key_o x0 x1 x2 x3 x4).
Proof. intros. unfold create_ring_secret_key, create_ring_secret_key_o. ro. Qed.
#[export] Hint Resolve ref_create_ring_secret_key : ro.
Lemma ref_key_pack_new : forall x0 x1 x2 x3 x4 x5, le (key_pack_new x0 x1 x2 x3 x4 x5) (key_pack_new_o x0 x1 x2 x3 x4 x5).
Proof. intros. unfold key_pack_new, key_pack_new_o. ro. Qed.
#[export] Hint Resolve ref_key_pack_new : ro.
Lemma ref_br_key_generate : forall x0 x1 x2 x3, le (br_key_generate x0 x1 x2 x3) (br_key_generate_o x0 x1 x2 x3).
Proof. intros. unfold br_key_generate, br_key_generate_o. ro. Qed.
#[export] Hint Resolve ref_br_key_generate : ro.
Lemma ref_eval_key_new : forall x0 x1 x2 x3 x4, le (eval_key_new x0 x1 x2 x3 x4) (eval_key_new_o x0 x1 x2 x3 x4).
Proof. intros. unfold eval_key_new, eval_key_new_o. ro. Qed.
#[export] Hint Resolve ref_eval_key_new : ro.
Lemma ref_kp_encrypt : forall x0 x1 x2 x3 x4, le (kp_encrypt x0 x1 x2 x3 x4) (kp_encrypt_o x0 x1 x2 x3 x4).
Proof. intros. unfold kp_encrypt, kp_encrypt_o. ro. Qed.
#[export] Hint Resolve ref_kp_encrypt : ro.
Lemma ref_kp_decrypt : forall x0 x1 x2 x3, le (kp_decrypt x0 x1 x2 x3) (kp_decrypt_o x0 x1 x2 x3).
Proof. intros. unfold kp_decrypt, kp_decrypt_o. ro. Qed.
#[export] Hint Resolve ref_kp_decrypt : ro.
