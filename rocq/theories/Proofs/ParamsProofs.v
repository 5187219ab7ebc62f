(** Parameter validation. *)
From Coq Require Import ZArith Znumtheory List Bool Arith Lia.
From Verif Require Import Spec.Basic Spec.Lattice Spec.Gates Spec.KeyGen.
From Verif Require Import Model.Base Model.Plaintext Model.Field Model.Poly Model.Lwe Model.Params Model.Boolean Model.SecretKey.
From Verif Require Import Proofs.Arith Proofs.FieldProofs Proofs.LweProofs.
Import ListNotations.
Local Open Scope Z_scope.

Lemma pow2_bound a : 0 <= a -> 2 ^ a < 2 ^ 64 -> a <= 63.
Proof. intros H0 H. apply (Z.pow_lt_mono_r_iff 2) in H; lia. Qed.

Lemma twice_63 a : 0 <= a < 63 -> (2 ^ a * 2 ^ 1) mod 2 ^ 64 = 2 * 2 ^ a.
Proof.
  intros Ha. assert (2 ^ a < 2 ^ 63) by (apply Z.pow_lt_mono_r; lia). assert (0 < 2 ^ a) by (apply Z.pow_pos_nonneg; lia).
  rewrite Z.mod_small; [change (2 ^ 1) with 2; ring|]. change (2 ^ 64) with (2 * 2 ^ 63). change (2 ^ 1) with 2. lia.
Qed.

(** What [params_new] returns, case by case. *)
Lemma params_new_cases F c : fok F -> 0 <= cp_N c < 2 ^ 64 -> 0 <= cp_Q c < 2 ^ 64 -> 0 <= cp_bits c ->
  params_new F c =
    if negb (is_pow2 (cp_N c)) then Some None
    else if (cp_N c =? 2 ^ 63) || (cp_Q c =? 0) then None
    else if negb ((cp_Q c - 1) mod (2 * cp_N c) =? 0) then Some None
    else if (cp_t c <=? cp_q c) && (is_pow2 (cp_t c) && is_pow2 (cp_q c)) then
      match basis_new F (cp_bits c) with
      | Some b => Some (Some (mk_parameters (cp_n c) (cp_t c) (cp_q c) (cp_key c) (cp_N c) (cp_Q c) (cp_ring_key c) b (cp_ks_bits c) (cp_steps c)))
      | None => None
      end
    else None.
Proof.
  intros Hok HN HQ Hb. unfold params_new. destruct (is_pow2 (cp_N c)) eqn:E2; cbn [negb]; [|reflexivity].
  apply is_pow2_spec in E2. destruct E2 as (a & Ha & Ea). rewrite Ea in *. pose proof (pow2_bound a Ha (proj2 HN)) as A63.
  unfold ushl. destruct (Z.ltb_spec 1 64); [|lia]. cbn [bind].
  destruct (Z.eq_dec a 63) as [->|].
  { change ((2 ^ 63 * 2 ^ 1) mod 2 ^ 64) with 0. cbn [Z.eqb negb assert bind]. rewrite Z.eqb_refl. reflexivity. }
  assert (A : 2 ^ a < 2 ^ 63) by (apply Z.pow_lt_mono_r; lia). assert (A0 : 0 < 2 ^ a) by (apply Z.pow_pos_nonneg; lia).
  rewrite twice_63 by lia. destruct (Z.eqb_spec (2 * 2 ^ a) 0); [lia|]. cbn [negb assert bind].
  destruct (Z.eqb_spec (2 ^ a) (2 ^ 63)); [lia|]. cbn [orb]. unfold usub.
  destruct (Z.eqb_spec (cp_Q c) 0) as [E0|]. { rewrite E0. reflexivity. }
  destruct (Z.leb_spec 1 (cp_Q c)); [|lia]. cbn [bind]. unfold udiv. destruct (Z.eqb_spec (2 * 2 ^ a) 0); [lia|]. cbn [bind].
  unfold umul. pose proof (Z.div_mod (cp_Q c - 1) (2 * 2 ^ a) ltac:(lia)) as D. pose proof (Z.mod_pos_bound (cp_Q c - 1) (2 * 2 ^ a) ltac:(lia)) as R.
  destruct (Z.ltb_spec ((cp_Q c - 1) / (2 * 2 ^ a) * (2 * 2 ^ a)) (2 ^ 64)); [|lia]. cbn [bind].
  replace ((cp_Q c - 1) / (2 * 2 ^ a) * (2 * 2 ^ a) =? cp_Q c - 1) with ((cp_Q c - 1) mod (2 * 2 ^ a) =? 0).
  2:{ apply eq_true_iff_eq. rewrite !Z.eqb_eq. lia. }
  destruct ((cp_Q c - 1) mod (2 * 2 ^ a) =? 0); cbn [negb]; [|reflexivity].
  destruct (cp_t c <=? cp_q c); cbn [andb assert bind]; [|reflexivity].
  destruct (is_pow2 (cp_t c) && is_pow2 (cp_q c)); cbn [assert bind]; [|reflexivity].
  destruct (basis_new F (cp_bits c)); reflexivity.
Qed.

(** Encryption never fails on a canonical mask, whatever the noise. *)
Lemma encrypt_total B i j s a e m : 0 <= i < j -> j < B <= 64 -> length a = length s -> canonical (2 ^ j) a ->
  0 <= m < 2 ^ i -> exists ct, encrypt B (2 ^ i) (2 ^ j) s a e m = Some ct /\ lwe_wf (2 ^ j) (length s) ct.
Proof.
  intros Hi Hj L C Hm. eexists. split; [apply (encrypt_correct B i j); (lia || assumption)|].
  split; [exact L|]. split; [exact C|]. apply Z.mod_pos_bound. apply Z.pow_pos_nonneg; lia.
Qed.
