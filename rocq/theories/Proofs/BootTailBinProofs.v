(** The chance that a bootstrap under a binary key fails, over the randomness of the evaluation key; follows
    [BootTailProofs]. *)
From Coq Require Import ZArith Znumtheory List Bool Arith Lia Setoid Morphisms.
From Verif Require Import Spec.Basic Spec.Poly Spec.Ring Spec.Lattice Spec.Blind Spec.Switch Spec.Gates Spec.Moment Spec.Noise Spec.SubGauss Spec.Count Spec.Boot Model.Base Model.Field Model.NTT Model.Concrete Model.Poly Model.Lwe Model.Rlwe Model.Gadget Model.BlindRotation Model.KeySwitch Model.ModSwitch Model.Params Model.Boolean Model.SecretKey
  Proofs.Arith Proofs.BarrettProofs Proofs.NumTheory Proofs.FieldProofs Proofs.PolyMath Proofs.NTTProofs Proofs.NTTTableProofs
  Proofs.PolyProofs Proofs.MonomialProofs Proofs.RingProofs Proofs.GadgetProofs Proofs.RlweProofs Proofs.GadgetMain Proofs.RgswProofs Proofs.SampleProofs Proofs.BlindProofs Proofs.BlindKeyProofs Proofs.MomentProofs Proofs.SubGaussProofs Proofs.NoiseProofs
  Proofs.UniformProofs Proofs.InterpProofs Proofs.SlotProofs Proofs.DeadProofs Proofs.PotProofs Proofs.AliveProofs Proofs.RingSwitchProofs Proofs.RingSwitchKeyProofs Proofs.TopProofs Proofs.RksNoiseProofs Proofs.RotProofs Proofs.LweProofs Proofs.GateProofs Proofs.BootExactProofs Proofs.GateFormProofs Spec.BootBin Proofs.RotBinProofs Proofs.BootExactBinProofs.
Import ListNotations.
Local Open Scope Z_scope.

Section Field.
Variables (BF : Z) (F : field).
Hypothesis Hok : fok F.
Local Notation p := (fp F).
Hypothesis Hp : prime p.
Hypothesis HBF : wwidth BF.
Hypothesis HF : derive_field BF p = Some F.
Hypothesis Hp64 : p < 2 ^ 64.
Variables (tbl : tables) (k : nat) (w : Z).
Hypothesis Hsv : serves F tbl k.
Hypothesis C : ctx F tbl k w.
Hypothesis Hk : (2 <= k <= 31)%nat.
Let Hk0 : (0 < k)%nat := Nat.lt_le_trans 0 2 k Nat.lt_0_2 (proj1 Hk).
Local Notation n := (2 ^ k)%nat.
Local Notation N := (Z.of_nat n).
(** The two bases: blind rotation, key switch. *)
Variables (b : basis) (bits : Z).
Hypothesis Hb : basis_new F bits = Some b.
Hypothesis Hbits : 0 <= bits.
Variables (bk : basis) (kbits : Z).
Hypothesis Hbk : basis_new F kbits = Some bk.
Hypothesis Hkbits : 0 <= kbits.
Variable s : list Z.
Hypothesis Ls : length s = n.
Variable z : list Z.
Hypothesis Hzb : Forall binz z.
Let Hz : Forall (fun x => x = 0 \/ x = 1 \/ x = -1) z := bin_ter z Hzb.
Hypothesis Lz : (length z <= n)%nat.
Hypothesis Hext : next_pow2 (length z) = n.
Local Notation ntt := (ntt_of F w k).
Local Notation l := (bs_len b).
Local Notation lk := (bs_len bk).
Local Notation zt := (zt w k).
Let P0 : 0 < p := p0 F tbl k w C.
Let N0 : (0 < n)%nat := nn0 k.
Local Notation good_u := (good_u F k b).
Local Notation good_e := (good_e k b).
Local Notation kmask := (kmask F tbl k w bk kbits).
Local Notation knoise := (knoise F k bk kbits).

(** Everything after the first modulus switch. *)
Variables (B j : Z).
Hypothesis HB : 0 < B <= 64.
Hypothesis Hj : 3 <= j < B.
Hypothesis Hj49 : j < 49.
Notation q := (2 ^ j).
Hypothesis HN2 : 2 * N < 2 ^ B.
Hypothesis H52 : (q - 1) * (2 * N) < 2 ^ 52.
Hypothesis H52p : (p - 1) * q < 2 ^ 52.
Variable P : parameters.
Hypothesis PN : pp_N P = N.
Hypothesis Pq : pp_q P = q.
Hypothesis Pb : pp_basis P = b.
Hypothesis Psteps : pp_steps P = BrKsMs.

Local Notation st := (2 ^ Z.max 0 (Z.of_nat k + 1 - j)).

Local Notation rot := (rot F tbl k w s b z).
Local Notation rnoise := (rnoise F tbl k w s b bits z).
Local Notation acc0 := (acc0 F k).
Local Notation fmask := (fmask F tbl k w bk kbits z).

(** The noise distributions, and the uniform masks. *)
Variables (D : dist Z) (V : Z).
Hypothesis HV : 0 <= V.
Hypothesis HD : sub_gaussian V D.
Local Notation rvar := (rvar k b bits z V).
Variables (Dk : dist Z) (Vk : Z).
Hypothesis HVk : 0 <= Vk.
Hypothesis HDk : sub_gaussian Vk Dk.
Local Notation US := (each (length z) (noise_rows2 n l (uniform p))).
Local Notation ES := (each (length z) (noise_rows2 n l D)).
Local Notation VS := (each lk (each n (uniform p))).
Local Notation FS := (each lk (each n Dk)).

Lemma VS_nonneg : nonneg VS.
Proof. apply nonneg_each, nonneg_each, uniform_nonneg. Qed.
Lemma FS_nonneg : nonneg FS.
Proof. apply nonneg_each, nonneg_each, HDk. Qed.
Lemma VS_good vs wt : In (vs, wt) VS -> good_v F k bk vs.
Proof. intros H. exact (in_masks p n lk vs wt H). Qed.
Lemma FS_good fs wt : In (fs, wt) FS -> good_f k bk fs.
Proof.
  intros H. apply in_each in H. destruct H as (Hl & Hf). split; [exact Hl|]. eapply Forall_impl; [|exact Hf]. intros a (v & Ha).
  apply in_each in Ha. split; [apply Ha|exact I].
Qed.

Definition kvar : Z := Z.of_nat lk * (N * ((2 ^ kbits - 1) * (2 ^ kbits - 1) * Vk)).
Lemma kvar_nonneg : 0 <= kvar.
Proof. unfold kvar. repeat apply Z.mul_nonneg_nonneg; try lia; apply Z.lt_le_pred, Z.pow_pos_nonneg; lia. Qed.

Lemma knoise_sg ct : rlwe_wf p n ct -> sg FS (fun fs => q * knoise ct fs) (q * q * kvar).
Proof.
  intros W. apply (R_lincomb (fun A (D0 : dist A) f B0 => sg D0 (fun x => q * f x) (q * q * B0)) (sgc_calculus q) Dk Vk (2 ^ kbits - 1) (proj1 HDk) (sgc_draw q Dk Vk HVk HDk) HVk).
  - apply Z.lt_le_pred, Z.pow_pos_nonneg; lia.
  - exact N0.
  - rewrite pdigs_length. reflexivity.
  - pose proof (digs_bound k Hk0 bk kbits Hkbits s Ls (kneg F ct)) as HDB. eapply Forall_impl; [|exact HDB]. intros d Hd i. 
    apply (bounded_nth (2 ^ kbits - 1)); [apply Z.lt_le_pred, Z.pow_pos_nonneg; lia|exact Hd].
Qed.

(** The mask rounding error, up to the lowest slots. *)
Definition zhi (r : nat) : list Z := firstn (n - r) (tl (pad n z)).
Lemma pad_len : length (pad n z) = n.
Proof. unfold pad. rewrite app_length, repeat_length. lia. Qed.
Lemma pad_small : Forall (fun y => Z.abs y <= 1) (pad n z).
Proof.
  unfold pad. apply Forall_app. split; [eapply Forall_impl; [|exact Hz]; cbn; intros y [-> | [-> | ->]]; cbn; lia|].
  apply Forall_forall. intros y Hy. apply repeat_spec in Hy. subst y. cbn. lia.
Qed.
Lemma zhi_len r : (1 <= r <= n)%nat -> length (zhi r) = (n - r)%nat.
Proof. intros Hr. unfold zhi. pose proof pad_len as L. destruct (pad n z) as [|y pz]; cbn [length tl] in *; rewrite firstn_length; lia. Qed.
Lemma zhi_small r : Forall (fun y => Z.abs y <= 1) (zhi r).
Proof. unfold zhi. apply Forall_firstn. pose proof pad_small as H. destruct (pad n z); [constructor|inversion H; assumption]. Qed.
Lemma zhi_norm r : norm1 (zhi r) <= norm1 z.
Proof.
  unfold zhi. eapply Z.le_trans; [apply norm1_firstn|]. apply Z.le_trans with (norm1 (pad n z)).
  - destruct (pad n z); cbn; lia.
  - unfold pad. rewrite norm1_app, norm1_zeros. lia.
Qed.
Lemma mask_split ct vs r : (1 <= r <= n)%nat ->
  2 * Z.abs (dotz (map (rho p q) (fmask ct vs)) z - rho_form p q (zhi r) (top F r (kmask ct vs))) <= p * Z.of_nat r.
Proof.
  intros Hr. destruct (kmask_spec F Hok Hp tbl k w C Hk0 bk kbits s Ls z Lz Hext ct vs) as (Lm & _ & _).
  rewrite <- (top_ext F k r _ Hr Lm). set (LA := ext F (kmask ct vs)). assert (LL : length LA = n) by (unfold LA; rewrite ext_len; exact Lm).
  assert (E1 : dotz (map (rho p q) (fmask ct vs)) z = dotz (map (rho p q) LA) (pad n z)).
  { unfold fmask, BootExactProofs.fmask. fold LA. rewrite <- firstn_map, dotz_trunc. unfold pad. rewrite dotz_app_zeros. reflexivity. }
  rewrite E1. unfold rho_form, zhi. assert (RB : Forall (fun x => 2 * Z.abs x <= p) (map (rho p q) LA)).
  { apply Forall_forall. intros x Hx. apply in_map_iff in Hx. destruct Hx as (v & <- & _). apply rho_bound. exact P0. }
  pose proof pad_len as LP. pose proof pad_small as SP. rewrite dotz_comm. destruct (pad n z) as [|y pz]; [cbn [length] in LP; lia|]. destruct LA as [|a LA]; [cbn [length] in LL; lia|].
  cbn [map dotz tl length] in *. inversion RB as [|? ? Ra RB']; subst. inversion SP as [|? ? Sy SP']; subst.
  rewrite (dotz_comm _ (map (rho p q) (firstn (n - r) LA))). rewrite <- firstn_map. rewrite (dotz_comm pz), (dotz_split (n - r) (map (rho p q) LA) pz).
  pose proof (dotz_bound p (skipn (n - r) (map (rho p q) LA)) (skipn (n - r) pz) ltac:(lia) (Forall_skipn _ _ _ RB') (Forall_skipn _ _ _ SP')) as HB'.
  rewrite skipn_length in HB'. set (X := dotz (skipn _ _) _) in *. set (Y := dotz (firstn _ _) _).
  replace (y * rho p q a + (Y + X) - Y) with (y * rho p q a + X) by ring. assert (Z.abs (y * rho p q a) <= Z.abs (rho p q a)) by (apply abs_mul1; exact Sy).
  assert (Er : Z.of_nat (length pz - (n - r)) = Z.of_nat r - 1) by lia. rewrite Er in HB'. lia.
Qed.

Lemma q8 : 8 <= q.
Proof. change 8 with (2 ^ 3). apply Z.pow_le_mono_r; lia. Qed.
(** The part of the error that is a sub-Gaussian form in the draws. *)
Variable Vp : Z.
Hypothesis HVp : p * p <= 12 * Vp.
Definition main (r : nat) lut c us (x : list rows2 * (list (list Z) * list (list Z))) : Z :=
  let ct := rot lut c us (fst x) in
  q * rnoise lut c us (fst x) +
  (if (zeros F k w ct <=? r)%nat then rho_form p q (map Z.opp (zhi r)) (top F r (kmask ct (fst (snd x)))) + q * knoise ct (snd (snd x)) else 0).
Definition wvar : Z := q * q * rvar + (norm1 z * Vp + q * q * kvar).
Lemma Vp_nonneg : 0 <= Vp.
Proof. pose proof (Z.square_nonneg p). lia. Qed.
Lemma main_sg r lut c us wt : (1 <= r <= n)%nat -> length lut = n -> canonical p lut -> lwe_wf (2 * N) (length z) c -> In (us, wt) US ->
  sg (both ES (both VS FS)) (main r lut c us) wvar.
Proof.
  intros Hr Ll Cl Wc Hu. destruct (US_good F k b z us wt Hu) as (Lu & Gu).
  pose proof kvar_nonneg as HK. pose proof Vp_nonneg as HP. pose proof (norm1_nonneg z) as HN1. pose proof (Z.square_nonneg q) as HQ.
  assert (H0 : 0 <= norm1 z * Vp + q * q * kvar) by (apply Z.add_nonneg_nonneg; apply Z.mul_nonneg_nonneg; assumption).
  apply (sg_both ES (both VS FS) (fun es => q * rnoise lut c us es)
    (fun es vf => if (zeros F k w (rot lut c us es) <=? r)%nat then rho_form p q (map Z.opp (zhi r)) (top F r (kmask (rot lut c us es) (fst vf))) + q * knoise (rot lut c us es) (snd vf) else 0)
    _ _ (ES_nonneg k b z D V HD) (nonneg_both _ _ VS_nonneg FS_nonneg)); [apply (rot_sg F tbl k w Hk s Ls b bits Hbits z D V HV HD); [exact Lu|apply Wc]|exact H0|].
  intros es we He. destruct (ES_good k b z D es we He) as (Le & Ge). pose proof (rot_wf F Hok Hp tbl k w C Hk s Ls b bits Hb Hbits z Hzb lut c us es Ll Cl Wc Lu Gu Le Ge) as Wr.
  destruct (Nat.leb_spec (zeros F k w (rot lut c us es)) r) as [Hzr|_].
  2:{ apply (sg_weaken _ _ 0); [apply nonneg_both; [apply VS_nonneg|apply FS_nonneg]|exact H0|apply sg_zero]. }
  set (ct := rot lut c us es) in *.
  apply (sg_both VS FS (fun vs => rho_form p q (map Z.opp (zhi r)) (top F r (kmask ct vs))) (fun _ fs => q * knoise ct fs) _ _ VS_nonneg FS_nonneg);
    [|apply Z.mul_nonneg_nonneg; assumption|intros; apply knoise_sg; exact Wr].
  apply (mask_sg F Hok Hp tbl k w C Hk0 bk kbits Hbk Hkbits s Ls z Lz Hext ct r _ _ Wr Hzr ltac:(lia)).
  destruct (p_odd F Hp tbl k w C Hk) as (h & Eh). pose proof (rho_form_sg p q h Vp (map Z.opp (zhi r)) Eh (q_prime F Hp tbl k w C Hk j ltac:(lia)) HVp) as HS. rewrite map_length, (zhi_len r Hr) in HS.
  eapply sg_weaken; [apply nonneg_each, uniform_nonneg| |exact HS]. apply Z.mul_le_mono_nonneg_r; [exact HP|].
  rewrite dotz_opp, dotz_comm, dotz_opp, Z.opp_involutive. eapply Z.le_trans; [apply dotz_square_le, zhi_small|apply zhi_norm].
Qed.

Lemma pdigs_zero m m' : Forall (fun d => d = repeat 0 m) (pdigs kbits m' (repeat 0 m)).
Proof.
  induction m' as [|m' IH]; cbn [pdigs]; constructor.
  - clear. induction m as [|m IH]; [reflexivity|]. cbn [repeat map]. rewrite Zmod_0_l, IH. reflexivity.
  - replace (map (fun v => v / 2 ^ kbits) (repeat 0 m)) with (repeat 0 m); [exact IH|]. clear. induction m as [|m IH]; [reflexivity|]. cbn [repeat map]. rewrite Zdiv_0_l, <- IH. reflexivity.
Qed.
Lemma negacyclic_zero_l m e : negacyclic m (repeat 0 m) e = repeat 0 m.
Proof.
  unfold negacyclic. assert (H : forall i, negacyclic_coeff m (repeat 0 m) e i = 0).
  { intros i. unfold negacyclic_coeff. assert (Z0 : forall f m', (forall i, f i = 0) -> zsum f m' = 0) by (intros f m' Hf; induction m' as [|m' IH]; cbn [zsum]; [reflexivity|]; rewrite IH, Hf; reflexivity).
    apply Z0. intros i'. rewrite nth_repeat. destruct (_ <=? _)%nat; ring. }
  assert (G : forall (f : nat -> Z) L, (forall i, f i = 0) -> map f L = repeat 0 (length L)) by (intros f L Hf; induction L as [|i L IH]; [reflexivity|]; cbn [map length repeat]; rewrite Hf, IH; reflexivity).
  rewrite (G _ _ H), seq_length. reflexivity.
Qed.
Lemma lincomb_zero m ds : Forall (fun d => d = repeat 0 m) ds -> forall es, lincomb m ds es = repeat 0 m.
Proof.
  induction 1 as [|d ds Hd _ IH]; intros es; [reflexivity|]. destruct es as [|e es]; [reflexivity|]. cbn [lincomb]. rewrite IH, Hd, negacyclic_zero_l.
  clear. induction m as [|m IH]; [reflexivity|]. cbn [repeat]. unfold padd in *. cbn [combine map fst snd]. f_equal. exact IH.
Qed.
Lemma zero_mask ct vs fs : ra ct = repeat 0 n -> knoise ct fs = 0 /\ dotz (map (rho p q) (fmask ct vs)) z = 0.
Proof.
  intros E. assert (Ek : kneg F ct = repeat 0 n).
  { unfold kneg. rewrite E. clear. induction n as [|m IH]; [reflexivity|]. cbn [repeat]. unfold pneg, pmod in *. cbn [map]. rewrite IH. cbn [Z.opp]. rewrite Zmod_0_l. reflexivity. }
  split.
  - unfold RksNoiseProofs.knoise. rewrite Ek, (lincomb_zero n _ (pdigs_zero n lk)), nth_repeat. reflexivity.
  - assert (Em : kmask ct vs = repeat 0 n).
    { symmetry. apply (kmask_unique F Hok Hp tbl k w C Hk0 bk kbits s Ls z Lz Hext); [apply repeat_length|apply Forall_forall; intros v Hv; apply repeat_spec in Hv; lia|].
      intros i Hi. rewrite ev_zeros. apply cong_of_eq. unfold kdig. rewrite Ek. pose proof (pdigs_zero n lk) as HZ. clear - HZ. generalize (col i vs).
      induction HZ as [|d ds Hd _ IH]; intros cl; [reflexivity|]. destruct cl as [|v cl]; [reflexivity|]. cbn [map dotz]. rewrite <- IH, Hd, ev_zeros. ring. }
    unfold BootExactProofs.fmask. rewrite Em. assert (Ex : forall m, Forall (fun v => v = 0) (map (rho p q) (firstn m (ext F (repeat 0 n))))).
    { intros m. rewrite <- firstn_map. apply Forall_firstn. apply Forall_forall. intros v Hv. apply in_map_iff in Hv. destruct Hv as (u & <- & Hu).
      assert (u = 0); [|subst u; unfold rho, round_div; rewrite Z.mul_0_l, Z.mul_0_r, Z.add_0_l, Z.div_small by lia; ring].
      revert Hu. clear - P0. generalize n. intros m. destruct m as [|m]; [intros []|]. cbn [repeat ext]. intros [<-|Hu]; [reflexivity|]. unfold pmod, pneg in Hu. apply in_map_iff in Hu. destruct Hu as (y & <- & Hy).
      apply in_map_iff in Hy. destruct Hy as (y' & <- & Hy). apply in_rev, repeat_spec in Hy. subst y'. apply Zmod_0_l. }
    specialize (Ex (length z)). revert Ex. generalize (map (rho p q) (firstn (length z) (ext F (repeat 0 n)))). intros L HL. clear - HL. generalize z. induction HL as [|v L Hv _ IH]; intros [|y z0]; try reflexivity.
    cbn [dotz]. rewrite IH, Hv. ring.
Qed.

(** The error of the output bit, exactly up to the roundings. *)
Variables (m : bool) (x : lwe) (lut : list Z) (start : Z).
Hypothesis Tb : half_circle_table p n st start lut.
Hypothesis Al : forall i, (i < n)%nat -> ~ (p | ev (zt i) lut).
Hypothesis Wx : lwe_wf q (length z) x.
Hypothesis Tg : forall t e, 2 * Z.abs e <= first_switch N q z -> cong (2 * N * q) (q * t) (2 * N * phase q z x + e) -> ((t - start) mod (2 * N) <? N) = m.

Lemma boot_err : exists c, lwe_wf (2 * N) (length z) c /\
  forall us es vs fs, length us = length z -> length es = length z -> Forall good_u us -> Forall good_e es -> good_v F k bk vs -> good_f k bk fs ->
  exists br ks y e, binary_generate F tbl (map (fun x => x mod q) z) (ntt s) b (draws p us es) = Some br /\
    rks_generate F tbl kbits (map (fun x => x mod q) z) s (ntt s) [combine vs (map (pmod p) fs)] = Some ks /\
    bootstrap B F tbl (mk_eval_key (BrBinary br) (KsRlwe ks) P) x lut = Some y /\ bit_ct q z m e y /\
    (forall r, (1 <= r <= n)%nat -> (zeros F k w (rot lut c us es) <= r)%nat -> 2 * Z.abs (p * e - main r lut c us (es, (vs, fs))) <= p * (Z.of_nat r + 1) + 14 * (q / 4)) /\
    (nonzeros (la c) = 0 -> 2 * Z.abs (p * e) <= p + 14 * (q / 4)).
Proof.
  pose proof q8 as Q8. destruct Tb as (Ll & Cl & Tt).
  assert (EN2 : N = 2 ^ Z.of_nat k) by (rewrite Nat2Z.inj_pow; reflexivity).
  assert (Q1 : 0 < q < 2 ^ 64) by (split; [lia|apply Z.pow_lt_mono_r; lia]).
  assert (Hst : st * q = 2 * N \/ (st = 1 /\ (2 * N) mod q <> 0)).
  { replace (2 * N) with (2 ^ (Z.of_nat k + 1)) by (rewrite EN2, Z.pow_add_r by lia; ring).
    destruct (Z.le_gt_cases j (Z.of_nat k + 1)) as [Hle|Hgt].
    - left. rewrite <- Z.pow_add_r by lia. f_equal. lia.
    - right. rewrite Z.max_l by lia. split; [reflexivity|]. rewrite Z.mod_small; [pose proof (Z.pow_pos_nonneg 2 (Z.of_nat k + 1)); lia|].
      split; [apply Z.pow_nonneg; lia|apply Z.pow_lt_mono_r; lia]. }
  destruct (first_switch_ok B q N (length z) x z HB Q1 ltac:(lia) H52 Wx eq_refl st Hst) as (c & e0 & Ec & Wc & Dt & Be & Ct).
  exists c. split; [exact Wc|]. intros us es vs fs Lu Le Gu Ge Gv Gf.
  destruct (boot_exact BF F Hok Hp HBF HF Hp64 tbl k w Hsv C Hk b bits Hb Hbits bk kbits Hbk Hkbits s Ls z Hzb Lz Hext B j HB Hj HN2 H52 H52p P PN Pq Pb Psteps us es vs fs Lu Le Gu Ge Gv Gf) as (br & ks & E1 & E2 & HX).
  destruct (HX lut x c Ll Cl Wx Ec Wc) as (y & g & Ey & Wy & Bg & Cy). cbv zeta in Cy. exists br, ks, y.
  set (t := phase (2 * N) z c) in *. set (ct := rot lut c us es) in *.
  assert (Ht : 0 <= t < 2 * N) by (apply Z.mod_pos_bound; lia).
  pose proof (Tg t e0 Be Ct) as Em. specialize (Tt t Ht Dt). rewrite Em in Tt.
  set (X := nth 0 (negacyclic n (xpow n (- t)) lut) 0) in *.
  assert (CV : cong p (X + p / 8) (if m then 2 * (p / 8) else 0)) by (rewrite <- Tt; symmetry; apply cong_mod; lia).
  pose proof (Z.mod_pos_bound p 8 ltac:(lia)) as R8. pose proof (Z.div_mod p 8 ltac:(lia)) as E8.
  assert (Eq : q = 4 * (q / 4)).
  { replace q with (2 ^ (j - 2) * 4); [rewrite Z.div_mul by lia; ring|]. change 4 with (2 ^ 2). rewrite <- Z.pow_add_r by lia. f_equal. lia. }
  set (r8 := if m then p mod 8 else 0). set (rn := rnoise lut c us es) in *. set (kn := knoise ct fs) in *. set (dz := dotz (map (rho p q) (fmask ct vs)) z) in *.
  set (G := q * (rn + kn) + g - dz - q / 4 * r8).
  assert (Cg : cong (p * q) (p * phase q z y) (p * (if m then q / 4 else 0) + G)).
  { rewrite Cy. replace (q * (X + p / 8 + rn + kn) + g - dz) with (q * (X + p / 8) + (q * (rn + kn) + g - dz)) by ring. rewrite (cong_scale p q _ _ CV). apply cong_of_eq. unfold G, r8. destruct m; [|ring].
    replace (q * (2 * (p / 8))) with (q / 4 * (8 * (p / 8))) by (transitivity (4 * (q / 4) * (2 * (p / 8))); [ring|rewrite <- Eq; reflexivity]).
    replace (8 * (p / 8)) with (p - p mod 8) by lia. ring. }
  destruct Cg as (v & Cg). set (e' := phase q z y - (if m then q / 4 else 0) - v * q). assert (Eg : p * e' = G) by (unfold e'; lia).
  assert (Hr8 : 0 <= r8 <= 7) by (unfold r8; destruct m; lia). assert (HQ : 0 <= q / 4 * r8 <= q / 4 * 7) by (split; [apply Z.mul_nonneg_nonneg; lia|apply Z.mul_le_mono_nonneg_l; lia]).
  exists e'. split; [exact E1|]. split; [exact E2|]. split; [exact Ey|]. split; [|split].
  - split; [exact Wy|]. unfold e'. replace ((if m then q / 4 else 0) + (phase q z y - (if m then q / 4 else 0) - v * q)) with (phase q z y + (- v) * q) by ring.
    rewrite Z.mod_add by lia. symmetry. apply Z.mod_small. apply Z.mod_pos_bound. lia.
  - intros r Hr Hzr. pose proof (mask_split ct vs r Hr) as MS. rewrite Eg. unfold main. cbn [fst snd]. fold ct rn. fold kn. fold dz in MS.
    replace (zeros F k w ct <=? r)%nat with true by (symmetry; apply Nat.leb_le; exact Hzr).
    assert (Eo : rho_form p q (map Z.opp (zhi r)) (top F r (kmask ct vs)) = - rho_form p q (zhi r) (top F r (kmask ct vs))) by apply dotz_opp. rewrite Eo.
    set (RF := rho_form p q (zhi r) (top F r (kmask ct vs))) in *. unfold G.
    replace (q * (rn + kn) + g - dz - q / 4 * r8 - (q * rn + (- RF + q * kn))) with (g - (dz - RF) - q / 4 * r8) by ring. lia.
  - intros Hnz. rewrite Eg. assert (Er : ra ct = repeat 0 n) by (unfold ct, RotBinProofs.rot; rewrite loop_out_zero by exact Hnz; reflexivity).
    destruct (zero_mask ct vs fs Er) as (K0 & D0). fold kn in K0. fold dz in D0.
    assert (R0 : rn = 0) by (unfold rn, RotBinProofs.rnoise, bin_noise; rewrite loop_noise_zero by exact Hnz; apply nth_repeat).
    unfold G. rewrite K0, D0, R0. replace (q * (0 + 0) + g - 0 - q / 4 * r8) with (g - q / 4 * r8) by ring. lia.
Qed.

(** The chance of failure. *)
Variable kp : key_pack.
Hypothesis KP : kp_par kp = P.
Hypothesis KZ : kp_lwe kp = map (fun x => x mod q) z.
Hypothesis KR : kp_ring kp = s.
Hypothesis KN : kp_ntt kp = ntt s.
Hypothesis Pkey : pp_key P = LBinary.
Hypothesis Pks : pp_ks_bits P = kbits.
Hypothesis Pt : pp_t P = 4.
Variable g : eval_key -> option lwe.
Hypothesis Hg : forall K, ek_par K = P -> g K = bootstrap B F tbl K x lut.
Variable Mt : Plaintext.msg_type.
Local Notation DD := (bin_key_randomness p n l lk (length z) D Dk).

Lemma wsum_le_mul {A : Type} (M : dist A) f (a c : Z) : nonneg M -> (forall u wt, In (u, wt) M -> f u * a <= c) -> wsum M f * a <= c * mass M.
Proof. intros HM H. rewrite Z.mul_comm, <- wsum_scale, <- wsum_const. apply wsum_le; [exact HM|]. intros u wt Hu. rewrite Z.mul_comm. apply (H u wt Hu). Qed.

Lemma failure_bound r T i : (1 <= r <= n)%nat -> 0 <= T -> 8 * T + 4 * p * (Z.of_nat r + 1) + 14 * q <= p * q ->
  wsum DD (bin_gate_fails Mt B F tbl kp g m) * (T ^ Z.of_nat (2 * i) * p ^ Z.of_nat (S r)) <=
    (odd_product i * wvar ^ Z.of_nat i * p ^ Z.of_nat (S r) + (N * Z.of_nat (length z)) ^ Z.of_nat (S r) * T ^ Z.of_nat (2 * i)) * mass DD.
Proof.
  intros Hr HT HB8. pose proof q8 as Q8. destruct boot_err as (c & Wc & HX). pose proof Tb as (Ll & Cl & _).
  set (REST := both ES (both VS FS)). assert (NR : nonneg REST) by (apply nonneg_both; [apply (ES_nonneg k b z D V HD)|apply nonneg_both; [apply VS_nonneg|apply FS_nonneg]]).
  assert (ND : nonneg DD) by (apply nonneg_both; [apply (US_nonneg F k b z)|exact NR]).
  assert (EM : mass DD = mass US * mass REST) by exact (mass_both _ _).
  assert (EW : forall f, wsum DD f = wsum US (fun u => wsum REST (fun y => f (u, y)))) by (intros f; exact (wsum_both US REST f)).
  set (i1 := fun y : bin_randomness => if (S r <=? zeros F k w (rot lut c (fst y) (fst (snd y))))%nat then 1 else 0).
  set (i2 := fun y : bin_randomness => if T <=? Z.abs (main r lut c (fst y) (snd y)) then 1 else 0).
  assert (Bad : forall y wt, In (y, wt) DD -> (nonzeros (la c) = 0 -> bin_gate_fails Mt B F tbl kp g m y = 0) /\ bin_gate_fails Mt B F tbl kp g m y <= i1 y + i2 y).
  { intros [us [es [vs fs]]] wt Hy. unfold bin_key_randomness in Hy. apply in_both in Hy. destruct Hy as ((w1 & H1) & (w2 & H2)).
    apply in_both in H2. destruct H2 as ((w3 & H3) & (w4 & H4)). apply in_both in H4. destruct H4 as ((w5 & H5) & (w6 & H6)). cbn [fst snd] in *.
    destruct (US_good F k b z us w1 H1) as (Lu & Gu). destruct (ES_good k b z D es w3 H3) as (Le & Ge). pose proof (VS_good vs w5 H5) as Gv. pose proof (FS_good fs w6 H6) as Gf.
    destruct (HX us es vs fs Lu Le Gu Ge Gv Gf) as (br & ks & y & e & E1 & E2 & Ey & By & Hm & H0).
    assert (EV : eval_key_new B F tbl kp (bin_draws p (us, (es, (vs, fs)))) = Some (mk_eval_key (BrBinary br) (KsRlwe ks) P)).
    { unfold eval_key_new, br_key_generate, bin_draws. cbn [kd_bin kd_ring]. rewrite KP, Pkey, KZ, KN, KR, Pb, Psteps, Pks, E1. cbn [bind]. rewrite E2. reflexivity. }
    unfold bin_gate_fails. rewrite EV. cbn [bind]. rewrite Hg by reflexivity. rewrite Ey. cbn [bind]. unfold kp_decrypt. rewrite KP, Pt, Pq, KZ.
    assert (Dec : 8 * Z.abs e < q -> decrypt Mt B 4 q (map (fun x => x mod q) z) y = Some (bz m)).
    { apply (decrypt_bit BF p k F tbl B j P z); [|exact By].
      split; [split; [exact HBF|split; [exact Hp|split; [exact Hp64|split; [exact HF|split; [exact Hsv|exact Hk]]]]]|]. split; [split; [exact HB|split; [exact Hj|split; [exact Hj49|split; [exact HN2|exact H52]]]]|].
      split; [exact PN|split; [exact Pq|exact I]]. }
    assert (Bz : (bz m =? (if m then 1 else 0)) = true) by (destruct m; reflexivity).
    assert (E4 : 4 * (q / 4) <= q) by (apply Z.mul_div_le; lia).
    assert (PP : 0 < p) by exact P0.
    assert (Pe : forall X, p * X <= p * q -> X <= q) by (intros X HX0; apply (Z.mul_le_mono_pos_l _ _ p PP); exact HX0).
    split.
    - intros Hnz. specialize (H0 Hnz). rewrite Dec; [rewrite Bz; reflexivity|]. apply (Z.mul_lt_mono_pos_l p); [exact PP|].
      rewrite Z.abs_mul, (Z.abs_eq p) in H0 by lia. assert (4 * p * 2 <= 4 * p * (Z.of_nat r + 1)) by (apply Z.mul_le_mono_nonneg_l; lia). lia.
    - unfold i1, i2. cbn [fst snd]. destruct (Nat.leb_spec (S r) (zeros F k w (rot lut c us es))) as [Hz1|Hz1].
      + destruct (decrypt _ _ _ _ _ _) as [v|]; [destruct (v =? _)|]; destruct (T <=? _); lia.
      + specialize (Hm r Hr ltac:(lia)). destruct (Z.leb_spec T (Z.abs (main r lut c us (es, (vs, fs))))) as [HTm|HTm].
        * destruct (decrypt _ _ _ _ _ _) as [v|]; [destruct (v =? _)|]; lia.
        * rewrite Dec; [rewrite Bz; lia|]. apply (Z.mul_lt_mono_pos_l p); [exact PP|].
          assert (Z.abs (p * e) = p * Z.abs e) by (rewrite Z.abs_mul, (Z.abs_eq p) by lia; reflexivity).
          assert (Z.abs (p * e) <= Z.abs (p * e - main r lut c us (es, (vs, fs))) + Z.abs (main r lut c us (es, (vs, fs)))) by lia. lia. }
  pose proof (mass_nonneg DD ND) as M0. pose proof (odd_product_pos i) as OP.
  assert (PT : 0 <= T ^ Z.of_nat (2 * i)) by (apply Z.pow_nonneg; exact HT). assert (PPr : 0 <= p ^ Z.of_nat (S r)) by (apply Z.pow_nonneg; lia).
  assert (PW : 0 <= wvar ^ Z.of_nat i).
  { apply Z.pow_nonneg. unfold wvar, RotBinProofs.rvar. pose proof kvar_nonneg. pose proof Vp_nonneg. pose proof (norm1_nonneg z). pose proof (Z.square_nonneg q). pose proof (step_var_nonneg k Hk0 b bits s Ls V HV).
    apply Z.add_nonneg_nonneg; [|apply Z.add_nonneg_nonneg]; repeat apply Z.mul_nonneg_nonneg; try assumption; lia. }
  assert (PN' : 0 <= (N * Z.of_nat (length z)) ^ Z.of_nat (S r)) by (apply Z.pow_nonneg, Z.mul_nonneg_nonneg; lia).
  destruct (Z.eq_dec (nonzeros (la c)) 0) as [Hnz|Hnz].
  { assert (E0 : wsum DD (bin_gate_fails Mt B F tbl kp g m) = 0).
    { rewrite (wsum_ext DD _ (fun _ => 0)); [rewrite wsum_const; ring|]. intros y wt Hy. apply (Bad y wt Hy). exact Hnz. }
    rewrite E0, Z.mul_0_l. repeat (apply Z.mul_nonneg_nonneg || apply Z.add_nonneg_nonneg); lia || assumption. }
  assert (Hn0 : 0 < nonzeros (la c)) by (assert (0 <= nonzeros (la c)) by (unfold nonzeros; lia); lia).
  assert (H2 : wsum DD i2 * T ^ Z.of_nat (2 * i) <= odd_product i * wvar ^ Z.of_nat i * mass DD).
  { rewrite EM, EW. rewrite (Z.mul_comm (mass US)), Z.mul_assoc. apply wsum_le_mul; [apply (US_nonneg F k b z)|]. intros us wt Hu.
    apply (markov REST (main r lut c us) (fun y => T <=? Z.abs (main r lut c us y))); [exact NR|exact HT| |].
    - apply sg_moment. exact (main_sg r lut c us wt Hr Ll Cl Wc Hu).
    - intros y wy _ HH. apply Z.leb_le. exact HH. }
  assert (H1 : wsum DD i1 * p ^ Z.of_nat (S r) <= (N * Z.of_nat (length z)) ^ Z.of_nat (S r) * mass DD).
  { rewrite EM, EW, wsum_swap, Z.mul_assoc. apply wsum_le_mul; [exact NR|]. intros [es vf] wt Hy. apply in_both in Hy. destruct Hy as ((w3 & H3) & _).
    destruct (ES_good k b z D es w3 H3) as (Le & Ge). assert (Lzp : Z.of_nat (length z) <= p) by (pose proof (n_lt_p F Hok tbl k w C Hk); lia).
    exact (slot_prob F Hok Hp tbl k w C Hk s Ls b bits Hb Hbits z Hzb lut c es (S r) Ll Cl Wc Le Ge Al Lzp Hn0). }
  assert (H12 : wsum DD (bin_gate_fails Mt B F tbl kp g m) <= wsum DD i1 + wsum DD i2).
  { rewrite <- wsum_add. apply wsum_le; [exact ND|]. intros y wt Hy. apply (Bad y wt Hy). }
  set (f := wsum DD (bin_gate_fails Mt B F tbl kp g m)) in *. set (s1 := wsum DD i1) in *. set (s2 := wsum DD i2) in *. set (TT := T ^ Z.of_nat (2 * i)) in *. set (pr := p ^ Z.of_nat (S r)) in *.
  set (Wi := odd_product i * wvar ^ Z.of_nat i) in *. set (Nr := (N * Z.of_nat (length z)) ^ Z.of_nat (S r)) in *. set (MM := mass DD) in *.
  assert (0 <= TT * pr) by (apply Z.mul_nonneg_nonneg; assumption).
  apply Z.le_trans with ((s1 + s2) * (TT * pr)); [apply Z.mul_le_mono_nonneg_r; assumption|].
  replace ((s1 + s2) * (TT * pr)) with (s1 * pr * TT + s2 * TT * pr) by ring. replace ((Wi * pr + Nr * TT) * MM) with (Nr * MM * TT + Wi * MM * pr) by ring.
  apply Z.add_le_mono; apply Z.mul_le_mono_nonneg_r; assumption.
Qed.
End Field.
