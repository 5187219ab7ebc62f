(** From gates in table form to a bound on their failures, for generated keys. *)
From Coq Require Import ZArith Znumtheory List Bool Arith Lia.
From Verif Require Import Spec.Basic Spec.Poly Spec.Lattice Spec.Ring Spec.Blind Spec.Switch Spec.Gates Spec.KeyGen Spec.Count Spec.Moment Spec.Noise Spec.SubGauss Spec.Boot.
From Verif Require Import Model.Base Model.Plaintext Model.Field Model.NTT Model.Concrete Model.Poly Model.Lwe Model.Rlwe Model.Gadget Model.BlindRotation Model.KeySwitch Model.Params Model.Boolean Model.SecretKey.
From Verif Require Import Proofs.NumTheory Proofs.FieldProofs Proofs.PolyMain Proofs.NTTProofs Proofs.PolyProofs Proofs.KeyGenProofs Proofs.GateProofs Proofs.MomentProofs Proofs.SubGaussProofs Proofs.UniformProofs Proofs.NoiseProofs Proofs.GateFormProofs Proofs.RotProofs Proofs.BootTailProofs.
Import ListNotations.
Local Open Scope Z_scope.


Lemma first_switch_weight N q z : 2 < q -> Forall small3 z -> first_switch N q z = key_first_switch N q (weight (map (fun x => x mod q) z)).
Proof. intros Hq Hz. unfold first_switch, key_first_switch. rewrite weight_norm by assumption. reflexivity. Qed.

Section Chance.
Variables (BF p : Z) (k : nat) (F : field) (tbl : tables) (B j bits : Z) (P : parameters).
Hypothesis HG : good_params BF p k F tbl B j bits P.

Lemma setting : (wwidth BF /\ prime p /\ p < 2 ^ 64 /\ derive_field BF p = Some F /\ serves F tbl k /\ (2 <= k <= 31)%nat) /\
  (0 < B <= 64 /\ 3 <= j < B /\ j < 49 /\ 2 * Z.of_nat (2 ^ k) < 2 ^ B /\ (2 ^ j - 1) * (2 * Z.of_nat (2 ^ k)) < 2 ^ 52) /\
  (pp_N P = Z.of_nat (2 ^ k) /\ pp_q P = 2 ^ j /\ True).
Proof. destruct HG as (H1 & H2 & (E1 & E2 & _) & _). auto. Qed.

Lemma new_keys words rwords gauss : words32 words -> words32 rwords -> ring_draw p k gauss ->
  exists kp, key_pack_new F tbl P words rwords gauss = Some kp.
Proof.
  intros Hw Hr Hg. destruct (ctx_ok BF p k F tbl B j bits P HG) as (w & Hok & Ep & C & P2).
  destruct (lwe_key_ok BF p k F tbl B j bits P HG words Hw) as (z & Ez & Lz & Sz & _).
  destruct (ring_key_ok BF p k F tbl B j bits P HG z rwords gauss Sz Lz Hr Hg) as (s & Es & Ls & _).
  unfold key_pack_new. rewrite Ez. cbn [bind]. rewrite Es. cbn [bind]. rewrite (ntt_mod p k F tbl w s C Hok Ep Ls). cbn [bind].
  eexists. reflexivity.
Qed.

Hypothesis HKey : pp_key P = LTernary.
Hypothesis HSteps : pp_steps P = BrKsMs.
Hypothesis HExt : Nat.log2_up (Z.to_nat (pp_n P)) = k.
Hypothesis H52p : (p - 1) * 2 ^ j < 2 ^ 52.
Variables (words rwords : nat -> Z) (gauss : list Z) (kp : key_pack).
Hypothesis Hw : words32 words.
Hypothesis Hr : words32 rwords.
Hypothesis Hg : ring_draw p k gauss.
Hypothesis HK : key_pack_new F tbl P words rwords gauss = Some kp.
Variables (bk : basis).
Hypothesis Hbk : basis_new F (pp_ks_bits P) = Some bk.
Variables (D Dk : dist Z) (V Vk Vp : Z).
Hypothesis HD : sub_gaussian V D.
Hypothesis HDk : sub_gaussian Vk Dk.
Hypothesis HV : 0 <= V.
Hypothesis HVk : 0 <= Vk.
Hypothesis HVp : p * p <= 12 * Vp.

Lemma keys : exists z s w, kp_par kp = P /\ kp_lwe kp = map (fun x => x mod 2 ^ j) z /\ kp_ring kp = s /\ kp_ntt kp = ntt_of F w k s /\
  length s = (2 ^ k)%nat /\ canonical p s /\ length z = Z.to_nat (pp_n P) /\ Forall small3 z /\ fok F /\ fp F = p /\ ctx F tbl k w.
Proof.
  destruct (ctx_ok BF p k F tbl B j bits P HG) as (w & Hok & Ep & C & P2).
  destruct (lwe_key_ok BF p k F tbl B j bits P HG words Hw) as (z & Ez & Lz & Sz & _).
  destruct (ring_key_ok BF p k F tbl B j bits P HG z rwords gauss Sz Lz Hr Hg) as (s & Es & Ls & Cs).
  rewrite HSteps in Cs. pose proof (ntt_mod p k F tbl w s C Hok Ep Ls) as Et.
  assert (Em : map (fun x => x mod p) s = s).
  { clear - Cs. induction Cs as [|x l Hx H IH]; [reflexivity|]. cbn [map]. rewrite IH, Z.mod_small by exact Hx. reflexivity. }
  revert HK. unfold key_pack_new. rewrite Ez. cbn [bind]. rewrite Es. cbn [bind]. rewrite Et. cbn [bind]. rewrite Em. intros E. injection E as <-.
  exists z, s, w. cbn [kp_par kp_lwe kp_ring kp_ntt]. auto 12.
Qed.

Lemma chance (r : nat) (T : Z) (i : nat) (M : msg_type) (z : list Z) :
  kp_lwe kp = map (fun x => x mod 2 ^ j) z -> length z = Z.to_nat (pp_n P) -> Forall small3 z -> forall w, ctx F tbl k w -> fp F = p ->
  let N := Z.of_nat (2 ^ k) in let q := 2 ^ j in
  (1 <= r <= 2 ^ k)%nat -> 0 <= T -> 8 * T + 4 * p * (Z.of_nat r + 1) + 14 * q <= p * q ->
  forall m g, gate_form p k F tbl B j P z w m g ->
  fails_at_most M B F tbl kp (2 ^ k) (bs_len bk) D Dk
    (odd_product i * gate_variance k j bits P (bs_len bk) V Vk Vp (weight (kp_lwe kp)) ^ Z.of_nat i * p ^ Z.of_nat (S r) +
      (N * pp_n P) ^ Z.of_nat (S r) * T ^ Z.of_nat (2 * i))
    (T ^ Z.of_nat (2 * i) * p ^ Z.of_nat (S r)) g m.
Proof.
  intros Ez Lz Sz w C Ep N q Hrr HT HB8 m g (x & lut & start & Hgg & Tb & Al & Wx & Tg).
  destruct keys as (z' & s & w' & KP & Ez' & KR & KN & Ls & _ & Lz' & Sz' & Hok & _ & C').
  assert (HG' := HG). destruct HG' as ((HBF & Hp & Hp64 & HF & Hsv & Hk) & (HB & Hj & Hj49 & HN2 & H52) & (PN & Pq & Pt & Hbits & Hb & Hn0) & HS).
  rewrite HSteps in HS. destruct HS as (Hkb & _ & _).
  assert (Eev : ntt_of F w' k s = ntt_of F w k s).
  { assert (E1 := ntt_mod p k F tbl w s C Hok Ep Ls). assert (E2 := ntt_mod p k F tbl w' s C' Hok Ep Ls). congruence. }
  rewrite Eev in KN.
  assert (Lzk : (length z <= 2 ^ k)%nat).
  { rewrite Lz. assert (HE := HExt). destruct (Z.to_nat (pp_n P)) as [|[|a]]; [lia|pose proof (Nat.pow_nonzero 2 k); lia|].
    rewrite <- HE. apply Nat.log2_up_spec. lia. }
  assert (Hext : next_pow2 (length z) = (2 ^ k)%nat) by (unfold next_pow2; rewrite Lz, HExt; reflexivity).
  subst p.
  pose proof (failure_bound BF F Hok Hp HBF HF Hp64 tbl k w Hsv C Hk (pp_basis P) bits Hb Hbits bk (pp_ks_bits P) Hbk Hkb s Ls z Sz Lzk Hext B j HB Hj Hj49 HN2 H52 H52p P PN Pq eq_refl HSteps
    D V HV HD Dk Vk HVk HDk Vp HVp m x lut start Tb Al Wx Tg kp KP Ez KR KN HKey eq_refl Pt g Hgg M r T i Hrr HT HB8) as H.
  unfold fails_at_most. cbv zeta. rewrite KP. replace (length (kp_lwe kp)) with (length z) by (rewrite Ez, map_length; reflexivity).
  replace (gate_variance k j bits P (bs_len bk) V Vk Vp (weight (kp_lwe kp))) with (wvar k (pp_basis P) bits bk (pp_ks_bits P) z j V Vk Vp).
  { replace (pp_n P) with (Z.of_nat (length z)) by (rewrite Lz; lia). exact H. }
  unfold wvar, gate_variance, rvar, kvar, step_var. cbv zeta. rewrite Ez, weight_norm.
  - rewrite Lz, Z2Nat.id by exact Hn0. reflexivity.
  - apply Z.lt_le_trans with (2 ^ 3); [reflexivity|]. apply Z.pow_le_mono_r; lia.
  - exact Sz.
Qed.
End Chance.

Lemma randomness_nonneg p n l lk len D Dk : nonneg D -> nonneg Dk -> nonneg (key_randomness p n l lk len D Dk).
Proof.
  intros HD HDk. apply nonneg_both; [apply nonneg_each, nonneg_both; apply nonneg_both; apply nonneg_each, nonneg_each, uniform_nonneg|].
  apply nonneg_both; [apply nonneg_each, nonneg_both; apply nonneg_both; apply nonneg_each, nonneg_each, HD|].
  apply nonneg_both; [apply nonneg_each, nonneg_each, uniform_nonneg|apply nonneg_each, nonneg_each, HDk].
Qed.

Lemma fails_weaken M B F tbl kp n lk D Dk num den num' E g m : nonneg D -> nonneg Dk -> 0 < num' -> num <= num' -> num' * E <= den ->
  fails_at_most M B F tbl kp n lk D Dk num den g m -> fails_at_most M B F tbl kp n lk D Dk 1 E g m.
Proof.
  intros HD HDk H0 H1 H2. unfold fails_at_most. cbv zeta. set (DD := key_randomness _ _ _ _ _ _ _). intros H.
  assert (NN : nonneg DD) by (apply randomness_nonneg; assumption).
  pose proof (mass_nonneg DD NN) as M0. set (Wt := wsum DD _) in *.
  assert (W0 : 0 <= Wt).
  { apply Z.le_trans with (wsum DD (fun _ => 0)); [rewrite wsum_const; lia|]. apply wsum_le; [exact NN|]. intros x wt _. unfold gate_fails.
    destruct (bind _ _) as [v|]; [|lia]. destruct (v =? _); lia. }
  clearbody Wt. apply (Z.mul_le_mono_pos_l _ _ num' H0).
  assert (Wt * (num' * E) <= Wt * den) by (apply Z.mul_le_mono_nonneg_l; assumption).
  assert (num * mass DD <= num' * mass DD) by (apply Z.mul_le_mono_nonneg_r; assumption). lia.
Qed.

(** A bound 1/E from small numbers: W c <= T^2. *)
Lemma fails_small M B F tbl kp n lk D Dk W p x r T i E c g m : nonneg D -> nonneg Dk -> 0 <= W -> 0 < c -> W * c <= T * T -> 0 < T -> 0 < x <= p -> 0 < E ->
  odd_product i * (16 * E) <= 15 * c ^ Z.of_nat i -> x ^ Z.of_nat r * (16 * E) <= p ^ Z.of_nat r ->
  fails_at_most M B F tbl kp n lk D Dk (odd_product i * W ^ Z.of_nat i * p ^ Z.of_nat r + x ^ Z.of_nat r * T ^ Z.of_nat (2 * i)) (T ^ Z.of_nat (2 * i) * p ^ Z.of_nat r) g m ->
  fails_at_most M B F tbl kp n lk D Dk 1 E g m.
Proof.
  intros HD HDk HW Hc HT T0 Hx HE H1 H2. 
  apply (fails_weaken _ _ _ _ _ _ _ _ _ _ _ (odd_product i * W ^ Z.of_nat i * p ^ Z.of_nat r + x ^ Z.of_nat r * T ^ Z.of_nat (2 * i))); [exact HD|exact HDk| |lia|].
  - pose proof (odd_product_pos i) as O. assert (0 <= W ^ Z.of_nat i) by (apply Z.pow_nonneg; exact HW). assert (0 < p ^ Z.of_nat r) by (apply Z.pow_pos_nonneg; lia).
    assert (0 < x ^ Z.of_nat r) by (apply Z.pow_pos_nonneg; lia). assert (0 < T ^ Z.of_nat (2 * i)) by (apply Z.pow_pos_nonneg; lia).
    assert (0 <= odd_product i * W ^ Z.of_nat i) by (apply Z.mul_nonneg_nonneg; lia).
    apply Z.add_nonneg_pos; [apply Z.mul_nonneg_nonneg; lia|apply Z.mul_pos_pos; lia].
  - assert (TP : T ^ Z.of_nat (2 * i) = (T * T) ^ Z.of_nat i).
    { replace (Z.of_nat (2 * i)) with (2 * Z.of_nat i) by lia. rewrite Z.pow_mul_r, Z.pow_2_r by lia. reflexivity. }
    assert (HC : W ^ Z.of_nat i * c ^ Z.of_nat i <= (T * T) ^ Z.of_nat i).
    { rewrite <- Z.pow_mul_l. apply Z.pow_le_mono_l. split; [|exact HT]. apply Z.mul_nonneg_nonneg; lia. }
    rewrite TP. assert (T0' : 0 < (T * T) ^ Z.of_nat i) by (apply Z.pow_pos_nonneg; [apply Z.mul_pos_pos|]; lia).
    assert (Wi : 0 <= W ^ Z.of_nat i) by (apply Z.pow_nonneg; exact HW). assert (Pr : 0 < p ^ Z.of_nat r) by (apply Z.pow_pos_nonneg; lia).
    revert H1 H2 HC T0' Wi Pr. generalize (odd_product i) (W ^ Z.of_nat i) (c ^ Z.of_nat i) ((T * T) ^ Z.of_nat i) (p ^ Z.of_nat r) (x ^ Z.of_nat r).
    clear - HE. intros O w c t pr xr H1 H2 HC Ht Hw Hpr.
    assert (A1 : w * (O * (16 * E)) <= w * (15 * c)) by (apply Z.mul_le_mono_nonneg_l; assumption).
    assert (A2 : pr * (w * (O * (16 * E))) <= pr * (15 * t)) by (apply Z.mul_le_mono_nonneg_l; lia).
    assert (A3 : t * (xr * (16 * E)) <= t * pr) by (apply Z.mul_le_mono_nonneg_l; lia). lia.
Qed.
