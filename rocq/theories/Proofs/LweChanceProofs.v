(** From gates in table form to a bound on their failures, for generated keys: modulus switch before the key
    switch, or no key switch. *)
From Coq Require Import ZArith Znumtheory List Bool Arith Lia.
From Verif Require Import Spec.Basic Spec.Poly Spec.Lattice Spec.Ring Spec.Blind Spec.Switch Spec.Gates Spec.KeyGen Spec.Count Spec.Moment Spec.Noise Spec.SubGauss Spec.Boot Spec.BootLwe.
From Verif Require Import Model.Base Model.Plaintext Model.Field Model.NTT Model.Concrete Model.Poly Model.Lwe Model.Rlwe Model.Gadget Model.BlindRotation Model.KeySwitch Model.Params Model.Boolean Model.SecretKey.
From Verif Require Import Proofs.NumTheory Proofs.FieldProofs Proofs.PolyMain Proofs.NTTProofs Proofs.PolyProofs Proofs.KeyGenProofs Proofs.GateProofs Proofs.MomentProofs Proofs.SubGaussProofs Proofs.UniformProofs Proofs.NoiseProofs Proofs.GateFormProofs Proofs.RotProofs Proofs.BootLweProofs.
Import ListNotations.
Local Open Scope Z_scope.

Lemma small_mod q a : 2 < q -> small3 a -> a mod q = if a =? -1 then q - 1 else a.
Proof. intros Hq [->|[->| ->]]; [apply Zmod_0_l|rewrite Z.mod_small by lia; reflexivity|]. symmetry. apply (Z.mod_unique _ _ (-1)); cbn [Z.eqb Pos.eqb]; lia. Qed.
Lemma small_inj q : 2 < q -> forall z z', Forall small3 z -> Forall small3 z' -> map (fun x => x mod q) z = map (fun x => x mod q) z' -> z = z'.
Proof.
  intros Hq. induction z as [|a z IH]; intros [|a' z'] H H' E; try discriminate E; [reflexivity|]. inversion H as [|? ? Ha Hz]; inversion H' as [|? ? Ha' Hz']; subst. cbn [map] in E. injection E as E1 E2.
  f_equal; [|apply IH; assumption]. rewrite !small_mod in E1 by assumption. destruct Ha as [->|[->| ->]], Ha' as [->|[->| ->]]; cbn [Z.eqb Pos.eqb] in E1; lia.
Qed.

Section Chance.
Variables (BF p : Z) (k : nat) (F : field) (tbl : tables) (B j bits : Z) (P : parameters).
Hypothesis HG : good_params BF p k F tbl B j bits P.
Hypothesis HKey : pp_key P = LTernary.
Hypothesis HSteps : pp_steps P <> BrKsMs.
Hypothesis H52p : (p - 1) * 2 ^ j < 2 ^ 52.
Hypothesis Hnp : pp_n P <= p.
Variables (words rwords : nat -> Z) (gauss : list Z) (kp : key_pack).
Hypothesis Hw : words32 words.
Hypothesis Hr : words32 rwords.
Hypothesis Hg : ring_draw p k gauss.
Hypothesis HK : key_pack_new F tbl P words rwords gauss = Some kp.
Variables (D Dk : dist Z) (V Vk Vp : Z).
Hypothesis HD : sub_gaussian V D.
Hypothesis HDk : sub_gaussian Vk Dk.
Hypothesis HV : 0 <= V.
Hypothesis HVk : 0 <= Vk.
Hypothesis HVp : p * p <= 12 * Vp.

Lemma keys : exists z s w, kp_par kp = P /\ kp_lwe kp = map (fun x => x mod 2 ^ j) z /\ kp_ring kp = map (fun x => x mod p) s /\ kp_ntt kp = ntt_of F w k s /\
  length s = (2 ^ k)%nat /\ Forall small3 s /\ ((pp_steps P = BrMsKs /\ 1 <= pp_ks_bits P <= j) \/ (pp_steps P = BrMs /\ s = z)) /\
  length z = Z.to_nat (pp_n P) /\ Forall small3 z /\ fok F /\ fp F = p /\ ctx F tbl k w.
Proof.
  destruct (ctx_ok BF p k F tbl B j bits P HG) as (w & Hok & Ep & C & P2).
  destruct (lwe_key_ok BF p k F tbl B j bits P HG words Hw) as (z & Ez & Lz & Sz & _).
  destruct (ring_key_ok BF p k F tbl B j bits P HG z rwords gauss Sz Lz Hr Hg) as (s & Es & Ls & Cs).
  pose proof (ntt_mod p k F tbl w s C Hok Ep Ls) as Et.
  revert HK. unfold key_pack_new. rewrite Ez. cbn [bind]. rewrite Es. cbn [bind]. rewrite Et. cbn [bind]. intros E. injection E as <-.
  exists z, s, w. cbn [kp_par kp_lwe kp_ring kp_ntt]. destruct HG as (_ & _ & _ & HS).
  split; [reflexivity|]. split; [reflexivity|]. split; [reflexivity|]. split; [reflexivity|]. split; [exact Ls|].
  destruct (pp_steps P); [|contradiction HSteps; reflexivity|].
  - split; [exact Cs|]. split; [left; split; [reflexivity|apply HS]|]. auto 8.
  - split; [subst s; exact Sz|]. split; [right; auto|]. auto 8.
Qed.

Lemma chance (r : nat) (T T' : Z) (i i' : nat) (M : msg_type) (z : list Z) :
  kp_lwe kp = map (fun x => x mod 2 ^ j) z -> length z = Z.to_nat (pp_n P) -> Forall small3 z -> forall w, ctx F tbl k w -> fp F = p ->
  let N := Z.of_nat (2 ^ k) in let q := 2 ^ j in let lk := switch_levels j P in
  (1 <= r <= 2 ^ k)%nat -> 0 <= T -> 0 < T' -> 8 * (T + T') + 4 * p * (Z.of_nat r + 1) + 14 * q <= p * q ->
  let A := odd_product i * lwe_gate_variance p k j bits P lk V Vk ^ Z.of_nat i in
  let A' := odd_product i' * (weight (kp_ring kp) * Vp) ^ Z.of_nat i' in let A'' := (N * pp_n P) ^ Z.of_nat (S r) in
  let X := T ^ Z.of_nat (2 * i) in let X' := T' ^ Z.of_nat (2 * i') in let X'' := p ^ Z.of_nat (S r) in
  forall m g, gate_form p k F tbl B j P z w m g ->
  lwe_fails_at_most M B F tbl kp (2 ^ k) lk D Dk (A * X' * X'' + X * A' * X'' + X * X' * A'') (X * X' * X'') g m.
Proof.
  intros Ez Lz Sz w C Ep N q lk Hrr HT HT' HB8 A A' A'' X X' X'' m g (x & lut & start & Hgg & Tb & Al & Wx & Tg).
  destruct keys as (z' & s & w' & KP & Ez' & KR & KN & Ls & Ss & Hst & Lz' & Sz' & Hok & _ & C').
  assert (HG' := HG). destruct HG' as ((HBF & Hp & Hp64 & HF & Hsv & Hk) & (HB & Hj & Hj49 & HN2 & H52) & (PN & Pq & Pt & Hbits & Hb & Hn0) & _).
  assert (Q2 : 2 < q) by (apply Z.lt_le_trans with (2 ^ 3); [reflexivity|]; apply Z.pow_le_mono_r; lia).
  assert (Ezz : z' = z).
  { apply (small_inj q); [exact Q2|exact Sz'|exact Sz|]. unfold q. congruence. }
  subst z'.
  assert (Eev : ntt_of F w' k s = ntt_of F w k s).
  { assert (E1 := ntt_mod p k F tbl w s C Hok Ep Ls). assert (E2 := ntt_mod p k F tbl w' s C' Hok Ep Ls). congruence. }
  rewrite Eev in KN. subst p.
  assert (Lzp : Z.of_nat (length z) <= fp F) by (rewrite Lz, Z2Nat.id; lia).
  unfold lwe_fails_at_most. cbv zeta. rewrite KP. replace (length (kp_lwe kp)) with (length z) by (rewrite Ez, map_length; reflexivity). rewrite Pq. intros masks HM.
  pose proof (failure_bound BF F Hok Hp HBF HF Hp64 tbl k w Hsv C Hk (pp_basis P) bits Hb Hbits s Ls Ss z Sz Lzp B j HB Hj Hj49 HN2 H52 H52p P PN Pq eq_refl Hst masks HM
    D V HV HD Dk Vk HVk HDk Vp HVp m x lut start Tb Al Wx Tg kp KP Ez KR KN HKey Pt g Hgg M r T T' i i' Hrr HT HT' HB8) as H. cbv zeta in H.
  assert (E1 : kmvar F k (pp_basis P) bits z j P V Vk = lwe_gate_variance (fp F) k j bits P lk V Vk).
  { unfold kmvar, lwe_gate_variance, rvar, step_var. cbv zeta. rewrite Lz, Z2Nat.id, Z.mul_opp_opp by exact Hn0. reflexivity. }
  assert (E2 : weight (kp_ring kp) = norm1 s) by (rewrite KR; apply weight_norm; [apply (ctx_gt2 F tbl k w C)|exact Ss]).
  assert (E3 : Z.of_nat (length z) = pp_n P) by (rewrite Lz; apply Z2Nat.id; exact Hn0).
  rewrite E1, E3 in H. unfold A', A''. rewrite E2. exact H.
Qed.
End Chance.

Lemma lwe_randomness_nonneg p n l lk len base D Dk : nonneg D -> nonneg Dk -> nonneg (lwe_key_randomness p n l lk len base D Dk).
Proof.
  intros HD HDk. apply nonneg_both; [apply nonneg_each, nonneg_both; apply nonneg_both; apply nonneg_each, nonneg_each, uniform_nonneg|].
  apply nonneg_both; [apply nonneg_each, nonneg_both; apply nonneg_both; apply nonneg_each, nonneg_each, HD|]. do 3 apply nonneg_each. exact HDk.
Qed.

Lemma lwe_fails_weaken M B F tbl kp n lk D Dk num den num' E g m : nonneg D -> nonneg Dk -> 0 < num' -> num <= num' -> num' * E <= den ->
  lwe_fails_at_most M B F tbl kp n lk D Dk num den g m -> lwe_fails_at_most M B F tbl kp n lk D Dk 1 E g m.
Proof.
  intros HD HDk H0 H1 H2. unfold lwe_fails_at_most. cbv zeta. set (DD := lwe_key_randomness _ _ _ _ _ _ _ _). intros H masks HM. specialize (H masks HM).
  assert (NN : nonneg DD) by (apply lwe_randomness_nonneg; assumption).
  pose proof (mass_nonneg DD NN) as M0. set (Wt := wsum DD _) in *.
  assert (W0 : 0 <= Wt).
  { apply Z.le_trans with (wsum DD (fun _ => 0)); [rewrite wsum_const; lia|]. apply wsum_le; [exact NN|]. intros x wt _. unfold lwe_gate_fails.
    destruct (bind _ _) as [v|]; [|lia]. destruct (v =? _); lia. }
  clearbody Wt. apply (Z.mul_le_mono_pos_l _ _ num' H0).
  assert (Wt * (num' * E) <= Wt * den) by (apply Z.mul_le_mono_nonneg_l; assumption).
  assert (num * mass DD <= num' * mass DD) by (apply Z.mul_le_mono_nonneg_r; assumption). lia.
Qed.
