(** The mask of a rotated accumulator: uniform but for a few low coefficients, over the key of the last step
    that moves. *)
From Coq Require Import ZArith Znumtheory List Bool Arith Lia Setoid Morphisms.
From Verif Require Import Spec.Basic Spec.Poly Spec.Ring Spec.Lattice Spec.Blind Spec.Switch Spec.Gates Spec.Moment Spec.Noise Spec.SubGauss Spec.Count Spec.Boot Model.Base Model.Field Model.NTT Model.Concrete Model.Poly Model.Lwe Model.Rlwe Model.Gadget Model.BlindRotation Model.KeySwitch Model.ModSwitch
  Proofs.Arith Proofs.BarrettProofs Proofs.NumTheory Proofs.FieldProofs Proofs.PolyMath Proofs.NTTProofs Proofs.NTTTableProofs
  Proofs.PolyProofs Proofs.MonomialProofs Proofs.RingProofs Proofs.GadgetProofs Proofs.RlweProofs Proofs.GadgetMain Proofs.RgswProofs Proofs.SampleProofs Proofs.BlindProofs Proofs.BlindKeyProofs Proofs.MomentProofs Proofs.SubGaussProofs Proofs.NoiseProofs
  Proofs.UniformProofs Proofs.InterpProofs Proofs.SlotProofs Proofs.DeadProofs Proofs.PotProofs Proofs.AliveProofs Proofs.TopProofs Proofs.RotProofs.
Import ListNotations.
Local Open Scope Z_scope.

Lemma nz_nonneg a : 0 <= nonzeros a. Proof. unfold nonzeros. lia. Qed.

(** The last nonzero entry replaced by zero. *)
Fixpoint unlast (a : list Z) : list Z :=
  match a with [] => [] | a0 :: a' => if nonzeros a' =? 0 then 0 :: a' else a0 :: unlast a' end.
Lemma unlast_length : forall a, length (unlast a) = length a.
Proof. induction a as [|a0 a IH]; [reflexivity|]. cbn [unlast]. destruct (nonzeros a =? 0); cbn [length]; congruence. Qed.
Lemma unlast_forall (Q : Z -> Prop) : Q 0 -> forall a, Forall Q a -> Forall Q (unlast a).
Proof.
  intros Q0. induction 1 as [|a0 a H0 Ha IH]; [constructor|]. cbn [unlast]. destruct (nonzeros a =? 0); constructor; assumption.
Qed.

(** A bound on one step that moves, carried over a loop. *)
Section Chain.
Context {U X : Type}.
Variables (M : dist U) (next1 : Z -> Z -> U -> rlwe -> X -> rlwe) (goodx : X -> Prop) (wf : rlwe -> Prop) (top2 : Z).
Hypothesis HM : nonneg M.
Hypothesis Hwf : forall z0 a0 u wt acc x, goodx x -> 0 < a0 < top2 -> In (u, wt) M -> wf acc -> wf (next1 z0 a0 u acc x).
Variables (G : rlwe -> rlwe -> Z) (K : Z).
Hypothesis Hstep : forall z0 a0 acc x, goodx x -> 0 < a0 < top2 -> wf acc -> wsum M (fun u => G acc (next1 z0 a0 u acc x)) <= K * mass M.
Lemma last_step : forall z a xs acc, length a = length z -> length xs = length z -> Forall goodx xs -> Forall (fun x => 0 <= x < top2) a -> 0 < nonzeros a -> wf acc ->
  wsum (each (length z) M) (fun us => G (loop_out next1 z (unlast a) us acc xs) (loop_out next1 z a us acc xs)) <= K * mass (each (length z) M).
Proof.
  induction z as [|z0 z IH]; intros [|a0 a] [|x xs] acc La Lx Hx Ha Hnz Wacc; try discriminate La; try discriminate Lx; [cbn in Hnz; lia|].
  injection La as La. injection Lx as Lx. inversion Hx as [|? ? Hx0 Hx']; subst. inversion Ha as [|? ? Ha0 Ha']; subst. cbn [length]. rewrite wsum_each_S, mass_each_S.
  assert (H0 : nonneg (each (length z) M)) by (apply nonneg_each; exact HM). pose proof (mass_nonneg _ H0) as H0'. pose proof (mass_nonneg _ HM) as HM'.
  cbn [unlast]. destruct (Z.eqb_spec (nonzeros a) 0) as [Hz|Hz].
  - assert (Hne : a0 <> 0) by (intros ->; rewrite nz_0 in Hnz; lia).
    rewrite (wsum_ext M _ (fun u => mass (each (length z) M) * G acc (next1 z0 a0 u acc x))).
    + rewrite wsum_scale, Z.mul_assoc, (Z.mul_comm (K * mass M)). apply Z.mul_le_mono_nonneg_l; [exact H0'|]. apply Hstep; try assumption. lia.
    + intros u wt _. rewrite (wsum_ext _ _ (fun _ => G acc (next1 z0 a0 u acc x))); [rewrite wsum_const; ring|].
      intros us wt' _. cbn [loop_out]. destruct (Z.eqb_spec a0 0); [contradiction|]. cbn [Z.eqb]. rewrite !loop_out_zero by exact Hz. reflexivity.
  - assert (Hp : 0 < nonzeros a) by (pose proof (nz_nonneg a); lia).
    replace (K * (mass M * mass (each (length z) M))) with (K * mass (each (length z) M) * mass M) by ring. rewrite <- wsum_const. apply wsum_le; [exact HM|]. intros u wt Hu.
    destruct (Z.eqb_spec a0 0) as [->|Hne].
    + apply (IH a xs acc); assumption.
    + rewrite (wsum_ext _ _ (fun us => G (loop_out next1 z (unlast a) us (next1 z0 a0 u acc x) xs) (loop_out next1 z a us (next1 z0 a0 u acc x) xs))).
      * apply IH; try assumption. eapply Hwf; try eassumption. lia.
      * intros us wt' _. cbn [loop_out]. destruct (Z.eqb_spec a0 0); [contradiction|reflexivity].
Qed.
End Chain.

Section Field.
Variable F : field.
Hypothesis Hok : fok F.
Local Notation p := (fp F).
Hypothesis Hp : prime p.
Variables (tbl : tables) (k : nat) (w : Z).
Hypothesis C : ctx F tbl k w.
Hypothesis Hk : (2 <= k <= 31)%nat.
Let Hk0 : (0 < k)%nat := Nat.lt_le_trans 0 2 k Nat.lt_0_2 (proj1 Hk).
Local Notation n := (2 ^ k)%nat.
Local Notation N := (Z.of_nat n).
Variable s : list Z.
Hypothesis Ls : length s = n.
Variables (b : basis) (bits : Z).
Hypothesis Hb : basis_new F bits = Some b.
Hypothesis Hbits : 0 <= bits.
Local Notation l := (bs_len b).
Local Notation zt := (zt w k).
Local Notation stepx := (stepx F k).
Local Notation dcol := (dcol k w b bits).
Local Notation good_u := (good_u F k b).
Local Notation good_uu := (good_uu F k b).
Local Notation good_ee := (good_ee k b).
Local Notation deadb := (deadb F k w).
Local Notation M := (noise_rows2 n l (uniform p)).
Let P0 : 0 < p := p0 F tbl k w C.
Let N0 : (0 < n)%nat := nn0 k.

Definition deads (acc : rlwe) : nat := length (filter (deadb acc) (seq 0 n)).
Lemma deads_zeros acc : (deads acc <= zeros F k w acc)%nat.
Proof.
  unfold deads, zeros. apply filter_length_impl. intros i _ H. unfold PotProofs.deadb in H. apply andb_true_iff in H. apply H.
Qed.

Lemma M_nonneg : nonneg M.
Proof. apply nonneg_rows2, uniform_nonneg. Qed.

Lemma step_mask_sg r (f : list Z -> Z) V acc z0 a0 u1 w1 e : rlwe_wf p n acc -> (deads acc <= r)%nat -> (r <= n)%nat -> 0 < a0 < 2 * N -> In (u1, w1) M -> good_ee e ->
  sg (each (n - r) (uniform p)) f V -> sg M (fun u0 => f (top F r (ra (ter_next1 F tbl k w b s z0 a0 (u0, u1) acc e)))) V.
Proof.
  intros Wacc Hr Hrn Ha H1 Ge Hf. set (nx := fun u0 => ter_next1 F tbl k w b s z0 a0 (u0, u1) acc e). set (d := fun i => dcol i (stepx (Z.to_nat a0) acc)).
  set (c := fun i => ev (zt i) (ra acc) + dotz (d i) (kap b bits (if z0 =? 1 then 1 else 0)) + ev (zt i) (ter_v k a0) * (dotz (d i) (kap b bits (if z0 =? -1 then 1 else 0)) + dotz (d i) (cols2 i u1))).
  assert (Gu1 : good_u u1) by (eapply masks_good; exact H1).
  assert (HN : forall u0, good_u u0 -> rlwe_wf p n (nx u0) /\ forall i, (i < n)%nat -> cong p (ev (zt i) (ra (nx u0))) (c i + dotz (d i) (cols2 i u0))).
  { intros u0 Gu0. split; [apply (ter_step_slot F Hok Hp tbl k w C Hk0 b bits Hb Hbits s Ls z0 a0 (u0, u1) e acc 0%nat (conj Gu0 Gu1) Ge Wacc N0)|].
    intros i Hi. apply (ter_step_slot F Hok Hp tbl k w C Hk0 b bits Hb Hbits s Ls z0 a0 (u0, u1) e acc i (conj Gu0 Gu1) Ge Wacc Hi). }
  apply (sg_law p P0 _ (fun u0 => top F r (ra (nx u0))) (n - r) f V); [apply M_nonneg| | |exact Hf].
  - intros u0 wt Hu. destruct (HN u0 (masks_good F k b u0 wt Hu)) as ((Lm & _) & _). split; [apply (top_length F k); exact Lm|apply pmod_canonical; exact P0].
  - intros t Lt Ct. set (I := filter (fun i => negb (isreg p Hp (d i))) (seq 0 n)).
    assert (HI : forall i, In i I -> (i < n)%nat).
    { intros i Hi. apply filter_In in Hi. destruct Hi as (Hi & _). apply in_seq in Hi. lia. }
    assert (LI : (length I <= r)%nat).
    { eapply Nat.le_trans; [|exact Hr]. unfold deads, I. apply filter_length_impl. intros i Hi Hn. apply negb_true_iff, isreg_false in Hn.
      apply (deadb_true F tbl k w C Hk0 s Ls acc i). apply (irregular_dead F Hok Hp tbl k w C Hk0 b bits Hb Hbits s Ls acc (Z.to_nat a0) i Wacc ltac:(lia) Hn). }
    destruct (interpolate_high p r (map zt I) (rev (pneg t)) Hp) as (Q & LQ & SQ & VQ).
    { apply (zt_incong F Hok tbl k w C); [apply NoDup_filter, seq_NoDup|exact HI]. }
    { rewrite map_length. exact LI. }
    rewrite rev_length, pneg_length, Lt in LQ. replace (r + (n - r))%nat with n in LQ by lia.
    destruct (shift_exists p n Hp (l + l) d (fun i => ev (zt i) Q)) as (sg & Lsg & Fsg & Esg).
    { intros i _. apply dcol_length. }
    { intros i Hi. destruct (isreg p Hp (d i)) eqn:Ei; [left; apply (isreg_true p Hp); exact Ei|right]. apply VQ. apply in_map. apply filter_In. split; [apply in_seq; lia|]. rewrite Ei. reflexivity. }
    set (s0 := firstn l sg). set (s1 := skipn l sg). assert (L0 : length s0 = l) by (unfold s0; rewrite firstn_length; lia). assert (L1 : length s1 = l) by (unfold s1; rewrite skipn_length; lia).
    assert (Esp : sg = s0 ++ s1) by (unfold s0, s1; symmetry; apply firstn_skipn).
    assert (F01 : Forall (fun v => length v = n) s0 /\ Forall (fun v => length v = n) s1) by (apply Forall_app; rewrite <- Esp; exact Fsg).
    destruct F01 as (F0 & F1).
    exists (fun u => (addm p (fst u) s0, addm p (snd u) s1)).
    assert (IN : inv M (fun u => (addm p (fst u) s0, addm p (snd u) s1))).
    { unfold noise_rows2. apply (inv_both _ _ (fun a => addm p a s0) (fun a => addm p a s1)); [rewrite <- L0|rewrite <- L1]; apply inv_addm; assumption. }
    split; [exact IN|]. intros [ua ub] wt Hu. pose proof (masks_good F k b _ wt Hu) as Gu. destruct Gu as ((Ua & Ga) & (Ub & Gb)). cbn [fst snd] in *.
    assert (A0 : Forall (fun a => length a = n) ua) by (eapply Forall_impl; [|exact Ga]; cbn; tauto). assert (A1 : Forall (fun a => length a = n) ub) by (eapply Forall_impl; [|exact Gb]; cbn; tauto).
    assert (AM : forall x y, length x = l -> length y = l -> Forall (fun a => length a = n) x -> Forall (fun a => length a = n) y -> length (addm p x y) = l /\ Forall (fun a => length a = n /\ canonical p a) (addm p x y)).
    { clear - P0. generalize l. intros m x. revert m. induction x as [|v x IH]; intros m [|v' y] Hx Hy Fx Fy; cbn [addm length] in *; try lia; [split; [assumption|constructor]|].
      destruct m as [|m]; [lia|]. inversion Fx; inversion Fy; subst. destruct (IH m y ltac:(lia) ltac:(lia)) as (I1 & I2); try assumption. cbn [addm length]. split; [lia|]. constructor; [|exact I2].
      unfold addv. split; [rewrite pmod_length, padd_length by congruence; congruence|apply pmod_canonical; exact P0]. }
    assert (Gs : good_u (addm p ua s0, addm p ub s1)) by (split; apply AM; assumption).
    destruct (HN (ua, ub) (conj (conj Ua Ga) (conj Ub Gb))) as (W1 & E1). destruct (HN _ Gs) as (W2 & E2).
    destruct W1 as (Lm & _ & Cm & _), W2 as (Lm2 & _ & Cm2 & _).
    rewrite <- (top_shift F tbl k w C r _ Q t Lm LQ SQ). f_equal.
    assert (La : length (addv p (ra (nx (ua, ub))) Q) = n) by (unfold addv; rewrite pmod_length, padd_length by congruence; exact Lm).
    apply (pcong_eq p); [exact Cm2|apply pmod_canonical; exact P0|].
    apply (zt_inj F Hp w k (ctx_gt2 F tbl k w C) (ctx_root F tbl k w C) _ _ Lm2 La). intros i Hi. unfold addv. rewrite ev_pmod by lia. rewrite ev_add by congruence.
    rewrite (E2 i Hi), (E1 i Hi), <- (Esg i Hi), Esp. unfold cols2. cbn [fst snd]. rewrite !col_app.
    rewrite (dotz_cong p (d i) (col i (addm p ua s0) ++ col i (addm p ub s1)) (padd (col i ua ++ col i ub) (col i s0 ++ col i s1))).
    + rewrite dotz_padd by (rewrite !app_length, !col_length; lia). apply cong_of_eq. ring.
    + rewrite (RlweProofs.padd_app (col i ua) (col i s0)) by (rewrite !col_length; lia). apply Forall2_app; apply (col_addm p n Hp); try assumption; congruence.
Qed.

Variable z : list Z.
Local Notation US := (each (length z) (both M M)).
Local Notation rot := (rot F tbl k w s b z).
Definition unl (c : lwe) : lwe := mk_lwe (unlast (la c)) (lb c).
Lemma unl_wf c : lwe_wf (2 * N) (length z) c -> lwe_wf (2 * N) (length z) (unl c).
Proof.
  intros (L & Cc & R). split; [cbn [unl la]; rewrite unlast_length; exact L|]. split; [|exact R]. apply (unlast_forall (fun x => 0 <= x < 2 * N)); [lia|exact Cc].
Qed.

(** Even moments of a form in the top of the mask, while few slots are dead before the last step. *)
Lemma last_moment r (f : list Z -> Z) V lut c es i : (r <= n)%nat -> sg (each (n - r) (uniform p)) f V ->
  length lut = n -> canonical p lut -> lwe_wf (2 * N) (length z) c -> length es = length z -> Forall good_ee es -> 0 < nonzeros (la c) ->
  wsum US (fun us => if (deads (rot lut (unl c) us es) <=? r)%nat then f (top F r (ra (rot lut c us es))) ^ Z.of_nat (2 * i) else 0) <= odd_product i * V ^ Z.of_nat i * mass US.
Proof.
  intros Hrn Hf Ll Cl (Lc & Cc & Bc) Le Ge Hnz. pose proof M_nonneg as HM.
  destruct (acc0_ok F Hp tbl k w C Hk s Ls lut c Ll Cl Bc) as (_ & _ & Wa & _).
  assert (HG : forall u wt, In (u, wt) (both M M) -> good_uu u).
  { intros [u0 u1] wt Hu. apply in_both in Hu. destruct Hu as ((w0 & H0) & (w1 & H1)). split; eapply masks_good; eassumption. }
  assert (V0 : 0 <= V) by apply Hf.
  pose proof (last_step (both M M) (ter_next1 F tbl k w b s) good_ee (rlwe_wf p n) (2 * N) (nonneg_both _ _ HM HM)) as LS.
  specialize (LS ltac:(intros z0 a0 u wt acc x Hx Ha Hu W; apply (ter_step_slot F Hok Hp tbl k w C Hk0 b bits Hb Hbits s Ls z0 a0 u x acc 0%nat (HG u wt Hu) Hx W N0))).
  specialize (LS (fun pre post => if (deads pre <=? r)%nat then f (top F r (ra post)) ^ Z.of_nat (2 * i) else 0) (odd_product i * V ^ Z.of_nat i)).
  apply LS; try assumption. clear LS. intros z0 a0 acc x Hx Ha W. rewrite wsum_both, wsum_swap, mass_both, Z.mul_assoc, <- wsum_const. apply wsum_le; [exact HM|]. intros u1 w1 H1.
  destruct (Nat.leb_spec (deads acc) r) as [Hd|Hd].
  - apply sg_moment. apply (step_mask_sg r f V acc z0 a0 u1 w1 x); assumption.
  - rewrite wsum_const, Z.mul_0_l. pose proof (odd_product_pos i). assert (0 <= V ^ Z.of_nat i) by (apply Z.pow_nonneg; exact V0). pose proof (mass_nonneg _ HM). repeat apply Z.mul_nonneg_nonneg; lia.
Qed.

Lemma dead_prob lut c es r : length lut = n -> canonical p lut -> lwe_wf (2 * N) (length z) c -> length es = length z -> Forall good_ee es ->
  (forall i, (i < n)%nat -> ~ (p | ev (zt i) lut)) -> Z.of_nat (length z) <= p -> (0 < r)%nat ->
  wsum US (fun us => if (r <=? deads (rot lut c us es))%nat then 1 else 0) * p ^ Z.of_nat r <= (N * Z.of_nat (length z)) ^ Z.of_nat r * mass US.
Proof.
  intros Ll Cl Wc Le Ge Al Lzp Hr. assert (HU : nonneg US) by apply US_nonneg. assert (0 <= (N * Z.of_nat (length z)) ^ Z.of_nat r) by (apply Z.pow_nonneg, Z.mul_nonneg_nonneg; lia).
  pose proof (mass_nonneg US HU). pose proof (nz_nonneg (la c)). destruct (Z.eq_dec (nonzeros (la c)) 0) as [Hnz|Hnz].
  - rewrite (wsum_ext US _ (fun _ => 0)).
    + rewrite wsum_const. rewrite !Z.mul_0_l. apply Z.mul_nonneg_nonneg; assumption.
    + intros us wt _. unfold RotProofs.rot. rewrite loop_out_zero by exact Hnz.
      assert (E : deads (acc0 F k lut c) = 0%nat).
      { unfold deads. assert (G : forall L, (forall i, In i L -> (i < n)%nat) -> filter (deadb (acc0 F k lut c)) L = []).
        { induction L as [|i L IH]; intros HL; [reflexivity|]. cbn [filter]. rewrite (acc0_alive F tbl k w C Hk s Ls lut c i Ll Cl (proj2 (proj2 Wc)) (HL i (or_introl eq_refl)) (Al i (HL i (or_introl eq_refl)))).
          apply IH. intros; apply HL; right; assumption. }
        rewrite G; [reflexivity|]. intros i Hi. apply in_seq in Hi. lia. }
      rewrite E. destruct r; [lia|reflexivity].
  - eapply Z.le_trans; [|apply (slot_prob F Hok Hp tbl k w C Hk s Ls b bits Hb Hbits z lut c es r Ll Cl Wc Le Ge Al Lzp ltac:(lia))].
    apply Z.mul_le_mono_nonneg_r; [apply Z.pow_nonneg; lia|]. apply wsum_le; [exact HU|]. intros us wt _. pose proof (deads_zeros (rot lut c us es)).
    destruct (Nat.leb_spec r (deads (rot lut c us es))), (Nat.leb_spec r (zeros F k w (rot lut c us es))); lia.
Qed.
End Field.
