(** A bootstrap under a binary key, exactly; follows [BootExactProofs]. *)
From Coq Require Import ZArith Znumtheory List Bool Arith Lia Setoid Morphisms.
From Verif Require Import Spec.Basic Spec.Poly Spec.Ring Spec.Lattice Spec.Blind Spec.Switch Spec.Gates Spec.Moment Spec.Noise Spec.SubGauss Spec.Count Spec.Boot Model.Base Model.Field Model.NTT Model.Concrete Model.Poly Model.Lwe Model.Rlwe Model.Gadget Model.BlindRotation Model.KeySwitch Model.ModSwitch Model.Params Model.Boolean
  Proofs.Arith Proofs.BarrettProofs Proofs.NumTheory Proofs.FieldProofs Proofs.PolyMath Proofs.NTTProofs Proofs.NTTTableProofs
  Proofs.PolyProofs Proofs.MonomialProofs Proofs.RingProofs Proofs.GadgetProofs Proofs.RlweProofs Proofs.GadgetMain Proofs.RgswProofs Proofs.SampleProofs Proofs.BlindProofs Proofs.BlindKeyProofs Proofs.MomentProofs Proofs.SubGaussProofs Proofs.NoiseProofs
  Proofs.UniformProofs Proofs.InterpProofs Proofs.SlotProofs Proofs.DeadProofs Proofs.PotProofs Proofs.AliveProofs Proofs.RingSwitchProofs Proofs.RingSwitchKeyProofs Proofs.RksNoiseProofs Proofs.RotProofs Proofs.LweProofs Proofs.GateProofs Props.C39 Proofs.BootExactProofs Proofs.RotBinProofs.
Import ListNotations.
Local Open Scope Z_scope.

Section Field.
Variables (BF : Z) (F : field).
Hypothesis Hok : fok F.
Local Notation p := (fp F).
Hypothesis Hp : prime p.
Hypothesis HBF : wwidth BF.
Hypothesis HF : derive_field BF p = Some F.
Hypothesis Hp64 : p < 2 ^ 64.
Variables (tbl : tables) (k : nat) (w : Z).
Hypothesis Hsv : serves F tbl k.
Hypothesis C : ctx F tbl k w.
Hypothesis Hk : (2 <= k <= 31)%nat.
Let Hk0 : (0 < k)%nat := Nat.lt_le_trans 0 2 k Nat.lt_0_2 (proj1 Hk).
Local Notation n := (2 ^ k)%nat.
Local Notation N := (Z.of_nat n).
(** The two bases: blind rotation, key switch. *)
Variables (b : basis) (bits : Z).
Hypothesis Hb : basis_new F bits = Some b.
Hypothesis Hbits : 0 <= bits.
Variables (bk : basis) (kbits : Z).
Hypothesis Hbk : basis_new F kbits = Some bk.
Hypothesis Hkbits : 0 <= kbits.
Variable s : list Z.
Hypothesis Ls : length s = n.
Variable z : list Z.
Hypothesis Hzb : Forall binz z.
Let Hz : Forall (fun x => x = 0 \/ x = 1 \/ x = -1) z := bin_ter z Hzb.
Hypothesis Lz : (length z <= n)%nat.
Hypothesis Hext : next_pow2 (length z) = n.
Local Notation ntt := (ntt_of F w k).
Local Notation l := (bs_len b).
Local Notation lk := (bs_len bk).
Local Notation zt := (zt w k).
Let P0 : 0 < p := p0 F tbl k w C.
Let N0 : (0 < n)%nat := nn0 k.
Local Notation good_u := (good_u F k b).
Local Notation good_e := (good_e k b).
Local Notation kmask := (kmask F tbl k w bk kbits).
Local Notation knoise := (knoise F k bk kbits).
Local Notation rot := (rot F tbl k w s b z).
Local Notation rnoise := (rnoise F tbl k w s b bits z).

(** Everything after the first modulus switch. *)
Variables (B j : Z).
Hypothesis HB : 0 < B <= 64.
Hypothesis Hj : 3 <= j < B.
Hypothesis Hj49 : j < 49.
Notation q := (2 ^ j).
Hypothesis HN2 : 2 * N < 2 ^ B.
Hypothesis H52 : (q - 1) * (2 * N) < 2 ^ 52.
Hypothesis H52p : (p - 1) * q < 2 ^ 52.
Variable P : parameters.
Hypothesis PN : pp_N P = N.
Hypothesis Pq : pp_q P = q.
Hypothesis Pb : pp_basis P = b.
Hypothesis Psteps : pp_steps P = BrKsMs.

Local Notation fmask := (fmask F tbl k w bk kbits z).
Local Notation st := (2 ^ Z.max 0 (Z.of_nat k + 1 - j)).

Lemma boot_exact us es vs fs : length us = length z -> length es = length z -> Forall good_u us -> Forall good_e es ->
  good_v F k bk vs -> good_f k bk fs ->
  exists br ks, binary_generate F tbl (map (fun x => x mod q) z) (ntt s) b (draws p us es) = Some br /\
    rks_generate F tbl kbits (map (fun x => x mod q) z) s (ntt s) [combine vs (map (pmod p) fs)] = Some ks /\
  forall lut x c, length lut = n -> canonical p lut -> lwe_wf q (length z) x -> lwe_modulus_switch_assign B q (2 * N) x = Some c -> lwe_wf (2 * N) (length z) c ->
  exists y g, bootstrap B F tbl (mk_eval_key (BrBinary br) (KsRlwe ks) P) x lut = Some y /\ lwe_wf q (length z) y /\ 2 * Z.abs g <= p /\
    let ct := rot lut c us es in
    cong (p * q) (p * phase q z y)
      (q * (nth 0 (negacyclic n (xpow n (- phase (2 * N) z c)) lut) 0 + p / 8 + rnoise lut c us es + knoise ct fs) + g - dotz (map (rho p q) (fmask ct vs)) z).
Proof.
  intros Lu Le Hu He Hv Hf. assert (Hq : 2 < q) by (apply Z.lt_le_trans with (2 ^ 3); [reflexivity|apply Z.pow_le_mono_r; lia]).
  destruct (rot_exact F Hok Hp tbl k w C Hk s Ls b bits Hb Hbits z Hzb us es Lu Le Hu He) as (br & E1 & HR). exists br. rewrite <- (bin_mod q z Hq Hzb) in E1 at 1.
  assert (W0 : rlwe_wf p n (mk_rlwe (repeat 0 n) (repeat 0 n))).
  { assert (C0 : canonical p (repeat 0 n)) by (apply Forall_forall; intros v Hv0; apply repeat_spec in Hv0; lia).
    split; [apply repeat_length|]. split; [apply repeat_length|]. split; exact C0. }
  destruct (rks_exact F Hok Hp tbl k w C Hk0 bk kbits Hbk Hkbits s Ls z Lz Hext q vs fs _ Hq Hz Hv Hf W0) as (ks & E2 & _). exists ks.
  split; [exact E1|]. split; [exact E2|]. intros lut x c Ll Cl Hx Ec Wc.
  destruct (HR lut c Ll Cl Wc) as (Er & Wr & Cr).
  set (ct := rot lut c us es) in *.
  destruct (bump BF p k F tbl HBF Hp HF Hsv ltac:(lia) Hp64 ct s Wr Ls) as (b0 & v & b0' & I1 & I2 & I3 & I4 & Wa' & C1). set (ct' := mk_rlwe (ra ct) (b0' :: tl (rb ct))) in *.
  destruct (rks_exact F Hok Hp tbl k w C Hk0 bk kbits Hbk Hkbits s Ls z Lz Hext q vs fs ct' Hq Hz Hv Hf Wa') as (ks' & E2' & y0 & Ey0 & Wy0 & Ay0 & Py0).
  rewrite E2 in E2'. injection E2' as <-.
  assert (Q1 : 0 < q < 2 ^ B) by (split; [lia|apply Z.pow_lt_mono_r; lia]).
  destruct (C39_ciphertext B p q (length z) y0 c z HB ltac:(lia) Q1 H52p Wy0 (proj1 Wc)) as (y & _ & Ey & _ & Ya & Yb & Wy & _).
  exists y, (rho p q (lb y0)). split; [|split; [exact Wy|split; [apply rho_bound; exact P0|]]].
  - unfold bootstrap. cbn [ek_par ek_br ek_ks]. rewrite PN. unfold ushl. change (1 <? 64) with true. cbn [bind]. change (2 ^ 1) with 2.
    assert (2 ^ B <= 2 ^ 64) by (apply Z.pow_le_mono_r; lia).
    replace (N * 2) with (2 * N) by ring. rewrite Z.mod_small by lia.
    replace (2 * N <? 2 ^ B) with true by (symmetry; apply Z.ltb_lt; lia). cbn [assert bind]. rewrite Pq, Pb, Psteps.
    rewrite Ec. cbn [bind]. rewrite Er. cbn [bind]. rewrite I1. cbn [bind]. rewrite I2. cbn [bind]. rewrite I3. cbn [bind]. rewrite I4. cbn [bind]. fold ct'. rewrite Ey0. cbn [bind]. exact Ey.
  - cbv zeta. 
    assert (D1 : cong (p * q) (p * phase q z y) (p * (lb y - dotz (la y) z))).
    { rewrite (Z.mul_comm p q). apply cong_scale. unfold phase. apply cong_mod. lia. }
    rewrite D1, Ya, Yb, Z.mul_sub_distr_l. rewrite (round_one p q (lb y0) P0 ltac:(lia)), (round_dot p q z P0 ltac:(lia) (la y0)).
    assert (D2 : cong (p * q) (q * (lb y0 - dotz (la y0) z)) (q * (nth 0 (negacyclic n (xpow n (- phase (2 * N) z c)) lut) 0 + p / 8 + rnoise lut c us es + knoise ct fs))).
    { apply cong_scale. rewrite <- (LweProofs.phase_cong p z y0) by lia. rewrite Py0, C1, Cr. apply cong_of_eq. change (knoise ct' fs) with (knoise ct fs). ring. }
    assert (Em : la y0 = fmask ct vs) by (rewrite Ay0; reflexivity).
    replace (q * lb y0 + rho p q (lb y0) - (q * dotz (la y0) z + dotz (map (rho p q) (la y0)) z)) with (q * (lb y0 - dotz (la y0) z) + rho p q (lb y0) - dotz (map (rho p q) (la y0)) z) by ring.
    rewrite D2, Em. reflexivity.
Qed.
End Field.
