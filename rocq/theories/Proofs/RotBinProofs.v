(** Blind rotation by a binary key: exact output, law of its error, slots where its mask vanishes; follows
    [RotProofs]. *)
From Coq Require Import ZArith Znumtheory List Bool Arith Lia Setoid Morphisms.
From Verif Require Import Spec.Basic Spec.Poly Spec.Ring Spec.Lattice Spec.Blind Spec.Switch Spec.Gates Spec.Moment Spec.Noise Spec.SubGauss Spec.Count Spec.Boot Model.Base Model.Field Model.NTT Model.Concrete Model.Poly Model.Lwe Model.Rlwe Model.Gadget Model.BlindRotation Model.KeySwitch Model.ModSwitch Model.Params Model.Boolean Model.SecretKey
  Proofs.Arith Proofs.BarrettProofs Proofs.NumTheory Proofs.FieldProofs Proofs.PolyMath Proofs.NTTProofs Proofs.NTTTableProofs
  Proofs.PolyProofs Proofs.MonomialProofs Proofs.RingProofs Proofs.GadgetProofs Proofs.RlweProofs Proofs.GadgetMain Proofs.RgswProofs Proofs.SampleProofs Proofs.BlindProofs Proofs.BlindKeyProofs Proofs.MomentProofs Proofs.SubGaussProofs Proofs.NoiseProofs
  Proofs.UniformProofs Proofs.InterpProofs Proofs.SlotProofs Proofs.DeadProofs Proofs.PotProofs Proofs.AliveProofs Proofs.RingSwitchProofs Proofs.RingSwitchKeyProofs Proofs.TopProofs Proofs.LweProofs Proofs.GateProofs Proofs.RotProofs Props.C39.
Import ListNotations.
Local Open Scope Z_scope.

Lemma bin_ter z : Forall binz z -> Forall (fun x => x = 0 \/ x = 1 \/ x = -1) z.
Proof. apply Forall_impl. intros x [->| ->]; tauto. Qed.
Lemma bin_mod q z : 2 < q -> Forall binz z -> map (fun x => x mod q) z = z.
Proof. intros Hq. induction 1 as [|x z Hx _ IH]; [reflexivity|]. cbn [map]. rewrite IH. f_equal. apply Z.mod_small. destruct Hx as [->| ->]; lia. Qed.

Section Field.
Variable F : field.
Hypothesis Hok : fok F.
Local Notation p := (fp F).
Hypothesis Hp : prime p.
Variables (tbl : tables) (k : nat) (w : Z).
Hypothesis C : ctx F tbl k w.
Hypothesis Hk : (2 <= k <= 31)%nat.
Let Hk0 : (0 < k)%nat := Nat.lt_le_trans 0 2 k Nat.lt_0_2 (proj1 Hk).
Local Notation n := (2 ^ k)%nat.
Local Notation N := (Z.of_nat n).
Local Notation zt := (zt w k).
Local Notation ntt := (ntt_of F w k).
Let P0 : 0 < p := p0 F tbl k w C.
Let N0 : (0 < n)%nat := nn0 k.
Variable s : list Z.
Hypothesis Ls : length s = n.
Variables (b : basis) (bits : Z).
Hypothesis Hb : basis_new F bits = Some b.
Hypothesis Hbits : 0 <= bits.
Variable z : list Z.
Hypothesis Hz : Forall binz z.
Local Notation l := (bs_len b).
Local Notation acc0 := (acc0 F k).
Local Notation good_u := (good_u F k b).
Local Notation good_e := (good_e k b).
Definition rot (lut : list Z) (c : lwe) us es : rlwe := loop_out (bin_next1 F tbl k w b s) z (la c) us (acc0 lut c) es.
Definition rnoise (lut : list Z) (c : lwe) us es : Z := nth 0 (bin_noise F tbl k w b bits s z (la c) us (acc0 lut c) es) 0.

Lemma rot_exact us es : length us = length z -> length es = length z -> Forall good_u us -> Forall good_e es ->
  exists key, binary_generate F tbl z (ntt s) b (draws p us es) = Some key /\
  forall lut c, length lut = n -> canonical p lut -> lwe_wf (2 * N) (length z) c ->
  blind_rotate F tbl (BrBinary key) lut c b = Some (rot lut c us es) /\ rlwe_wf p n (rot lut c us es) /\
  cong p (nth 0 (rphase n s (rot lut c us es)) 0) (nth 0 (negacyclic n (xpow n (- phase (2 * N) z c)) lut) 0 + rnoise lut c us es).
Proof.
  intros Lu Le Hu He.
  destruct (binary_loop_exact F Hok Hp tbl k w C Hk0 b bits Hb Hbits s Ls z Hz us es Lu Le Hu He) as (key & EK & HK).
  exists key. split; [exact EK|]. intros lut c Ll Cl (Lx & Hx & Hbx).
  destruct (acc0_ok F Hp tbl k w C Hk s Ls lut c Ll Cl Hbx) as (E1 & E2 & Wa & Pa).
  destruct (HK (la c) Lx Hx (rlwe_zero n) (acc0 lut c) (zero_len k) Wa) as (ct & Ec & Wc & Pc & Eo).
  fold (rot lut c us es) in Eo. subst ct.
  split; [|split; [exact Wc|]].
  - cbn [blind_rotate]. unfold binary_blind_rotate. rewrite Ll, E1. cbn [bind]. rewrite E2. cbn [bind]. exact Ec.
  - assert (Ln : length (bin_noise F tbl k w b bits s z (la c) us (acc0 lut c) es) = n) by apply bin_noise_len.
    assert (H : pcong p (rphase n s (rot lut c us es)) (padd (negacyclic n (xpow n (- lb c + dotz (la c) z)) lut) (padd (repeat 0 n) (bin_noise F tbl k w b bits s z (la c) us (acc0 lut c) es)))).
    { eapply (compose_exact F Hp tbl k w C); [exact Ll| | | |exact Ln| | | |exact Pc].
      - apply rphase_len, (wf_len p), Wa.
      - apply repeat_length with (n := n).
      - apply repeat_length.
      - apply rphase_len, (wf_len p), Wc.
      - eapply pcong_trans; [exact Pa|]. pose proof (xpow_length n) as LX.
        apply (EQ_pcong p w k Hp (Hp2 F tbl k w C) (Hw F tbl k w C)); [len n|len n|]. intros y Hy. rewrite ev_add, ev_zeros by (len n). apply cong_of_eq. ring.
      - intros y Hy. rewrite !ev_zeros. apply cong_of_eq. ring. }
    pose proof (pcong_nth_inv _ _ _ 0%nat H) as Hn. assert (Lr : length (repeat 0 n) = length (bin_noise F tbl k w b bits s z (la c) us (acc0 lut c) es)) by (rewrite repeat_length, Ln; reflexivity).
    rewrite nth_padd in Hn by (rewrite padd_length, negacyclic_length, repeat_length by exact Lr; reflexivity). rewrite (nth_padd _ _ _ Lr), nth_repeat in Hn.
    rewrite (xpow_cong n (- phase (2 * N) z c) (- lb c + dotz (la c) z) N0).
    2:{ unfold phase. assert (Cm : cong (2 * N) ((lb c - dotz (la c) z) mod (2 * N)) (lb c - dotz (la c) z)) by (apply cong_mod; lia). rewrite Cm. apply cong_of_eq. ring. }
    exact Hn.
Qed.

Lemma rot_wf lut c us es : length lut = n -> canonical p lut -> lwe_wf (2 * N) (length z) c -> length us = length z -> Forall good_u us -> length es = length z -> Forall good_e es ->
  rlwe_wf p n (rot lut c us es).
Proof.
  intros Ll Cl Wc Lu Hu Le He. destruct (rot_exact us es Lu Le Hu He) as (key & _ & H).
  apply (H lut c Ll Cl Wc).
Qed.

(** The noise distribution, and the uniform masks. *)
Variables (D : dist Z) (V : Z).
Hypothesis HV : 0 <= V.
Hypothesis HD : sub_gaussian V D.
Local Notation US := (each (length z) (noise_rows2 n l (uniform p))).
Local Notation ES := (each (length z) (noise_rows2 n l D)).
Lemma US_nonneg : nonneg US.
Proof. apply nonneg_each, nonneg_rows2, uniform_nonneg. Qed.
Lemma ES_nonneg : nonneg ES.
Proof. apply nonneg_each, nonneg_rows2, HD. Qed.
Lemma US_good us wt : In (us, wt) US -> length us = length z /\ Forall good_u us.
Proof.
  intros H. apply in_each in H. destruct H as (Hl & Hf). split; [exact Hl|]. eapply Forall_impl; [|exact Hf]. intros u (v & Hu). eapply masks_good; eassumption.
Qed.
Lemma ES_good es wt : In (es, wt) ES -> length es = length z /\ Forall good_e es.
Proof.
  intros H. apply in_each in H. destruct H as (Hl & Hf). split; [exact Hl|]. eapply Forall_impl; [|exact Hf]. intros u (v & Hu). eapply rows_good; eassumption.
Qed.
(** The rotation noise, scaled by q. *)
Definition rvar : Z := Z.of_nat (length z) * (step_var k b bits V).
Lemma rot_sg q lut c us : length us = length z -> length (la c) = length z -> sg ES (fun es => q * rnoise lut c us es) (q * q * rvar).
Proof.
  intros Lu Lc. pose proof (nonneg_rows2 k b D (proj1 HD)) as HN. pose proof (step_var_nonneg k Hk0 b bits s Ls V HV) as HS.
  set (R := fun A (D0 : dist A) f B0 => sg D0 (fun x => q * f x) (q * q * B0)). pose proof (sgc_calculus q) as CR. fold R in CR.
  assert (H : R _ ES (fun es => rnoise lut c us es) (nonzeros (la c) * step_var k b bits V)).
  { unfold rnoise.
    apply (R_loop n (bin_noise1 F k b bits) (bin_next1 F tbl k w b s) ltac:(intros; apply stepnoise_len) R CR _ 0%nat (step_var k b bits V) HN HS); try assumption.
    intros v a0 acc'. unfold bin_noise1. apply (R_stepnoise k Hk0 b bits Hbits s Ls R CR D V (proj1 HD) (sgc_draw q D V HV HD) HV); exact N0. }
  apply (cal_weaken _ CR _ _ _ _ _ ES_nonneg) with (2 := H). unfold rvar. apply Z.mul_le_mono_nonneg_r; [lia|].
  pose proof (NoiseProofs.nonzeros_le (la c)). lia.
Qed.

Lemma slot_prob lut c es r : length lut = n -> canonical p lut -> lwe_wf (2 * N) (length z) c -> length es = length z -> Forall good_e es ->
  (forall i, (i < n)%nat -> ~ (p | ev (zt i) lut)) -> Z.of_nat (length z) <= p -> 0 < nonzeros (la c) ->
  wsum US (fun us => if (r <=? zeros F k w (rot lut c us es))%nat then 1 else 0) * p ^ Z.of_nat r <= (N * Z.of_nat (length z)) ^ Z.of_nat r * mass US.
Proof.
  intros Ll Cl Wc Le Ge Ha Lzp Hnz. destruct Wc as (Lc & Cc & Bc). destruct (acc0_ok F Hp tbl k w C Hk s Ls lut c Ll Cl Bc) as (_ & _ & Wa & _).
  pose proof (NoiseProofs.nonzeros_le (la c)) as NL. pose proof (n_lt_p F Hok tbl k w C Hk) as NP.
  eapply Z.le_trans.
  - apply (bad_slots F tbl k w C Hk0 s Ls US (fun us => rot lut c us es) (nonzeros (la c)) (acc0 lut c) r US_nonneg).
    + intros S0 ND HS0. apply (bin_chain F Hok Hp tbl k w C Hk0 b bits Hb Hbits s Ls S0 z US (la c) es (acc0 lut c) ND HS0 Hz eq_refl); try assumption. split; [exact Hnz|]. rewrite Lc in NL. lia.
    + lia.
    + intros i Hi. apply (acc0_alive F tbl k w C Hk s Ls); auto.
  - apply Z.mul_le_mono_nonneg_r; [apply mass_nonneg, US_nonneg|]. apply Z.pow_le_mono_l. split; [apply Z.mul_nonneg_nonneg; lia|]. apply Z.mul_le_mono_nonneg_l; lia.
Qed.

End Field.
