(** Blind rotation by a ternary key: exact output, law of its error, slots where its mask vanishes. *)
From Coq Require Import ZArith Znumtheory List Bool Arith Lia Setoid Morphisms.
From Verif Require Import Spec.Basic Spec.Poly Spec.Ring Spec.Lattice Spec.Blind Spec.Switch Spec.Gates Spec.Moment Spec.Noise Spec.SubGauss Spec.Count Spec.Boot Model.Base Model.Field Model.NTT Model.Concrete Model.Poly Model.Lwe Model.Rlwe Model.Gadget Model.BlindRotation Model.KeySwitch Model.ModSwitch Model.Params Model.Boolean Model.SecretKey
  Proofs.Arith Proofs.BarrettProofs Proofs.NumTheory Proofs.FieldProofs Proofs.PolyMath Proofs.NTTProofs Proofs.NTTTableProofs
  Proofs.PolyProofs Proofs.MonomialProofs Proofs.RingProofs Proofs.GadgetProofs Proofs.RlweProofs Proofs.GadgetMain Proofs.RgswProofs Proofs.SampleProofs Proofs.BlindProofs Proofs.BlindKeyProofs Proofs.MomentProofs Proofs.SubGaussProofs Proofs.NoiseProofs
  Proofs.UniformProofs Proofs.InterpProofs Proofs.SlotProofs Proofs.DeadProofs Proofs.PotProofs Proofs.AliveProofs Proofs.RingSwitchProofs Proofs.RingSwitchKeyProofs Proofs.TopProofs Proofs.LweProofs Proofs.GateProofs Props.C39.
Import ListNotations.
Local Open Scope Z_scope.

(** Linear forms in the noise, scaled. *)
Lemma sgc_calculus c : calculus (fun A (D : dist A) f B => sg D (fun x => c * f x) (c * c * B)).
Proof.
  pose proof (Z.square_nonneg c) as CC.
  constructor.
  - intros A D f g B H. apply sg_ext. intros x wt Hx. rewrite (H x wt Hx). reflexivity.
  - intros A D f B B' HD HB. apply sg_weaken; [exact HD|]. apply Z.mul_le_mono_nonneg_l; assumption.
  - intros A D. replace (c * c * 0) with 0 by ring. apply (sg_ext D (fun _ => 0)); [intros; ring|apply sg_zero].
  - intros A B D D' f g V V' HD HD' HF HV HG. rewrite Z.mul_add_distr_l.
    apply (sg_ext _ (fun xy => c * f (fst xy) + c * g (fst xy) (snd xy))); [intros; ring|].
    apply (sg_both D D' (fun x => c * f x) (fun x y => c * g x y)); try assumption. apply Z.mul_nonneg_nonneg; assumption.
  - intros A D n f g h V V' HD HF HV HG HE. rewrite Z.mul_add_distr_l.
    apply (sg_each_S D n (fun x => c * f x) (fun x l => c * g x l)); try assumption; [apply Z.mul_nonneg_nonneg; assumption|].
    intros x l. rewrite HE. ring.
Qed.
Lemma sgc_draw c D V : 0 <= V -> sub_gaussian V D -> forall a, sg D (fun x => c * (a * x)) (c * c * (a * a * V)).
Proof.
  intros HV HD a. replace (c * c * (a * a * V)) with (c * a * (c * a) * V) by ring.
  apply (sg_ext D (fun x => c * a * x)); [intros; ring|]. apply sg_scale; assumption.
Qed.

(** Sums over pairs of lists. *)
Lemma dotz_split m : forall a b, dotz a b = dotz (firstn m a) (firstn m b) + dotz (skipn m a) (skipn m b).
Proof.
  induction m as [|m IH]; intros a b; [reflexivity|]. destruct a as [|x a]; [reflexivity|]. destruct b as [|y b]; [cbn; destruct (skipn m a); reflexivity|].
  cbn [firstn skipn dotz]. rewrite (IH a b). ring.
Qed.
Lemma dotz_trunc : forall b a, dotz (firstn (length b) a) b = dotz a b.
Proof. induction b as [|y b IH]; intros a; [destruct a; reflexivity|]. destruct a as [|x a]; [reflexivity|]. cbn [length firstn dotz]. rewrite IH. reflexivity. Qed.
Lemma dotz_comm : forall a b, dotz a b = dotz b a.
Proof. induction a as [|x a IH]; intros [|y b]; try reflexivity. cbn [dotz]. rewrite IH. ring. Qed.
Lemma dotz_opp : forall a b, dotz (map Z.opp a) b = - dotz a b.
Proof. induction a as [|x a IH]; intros [|y b]; try reflexivity. cbn [map dotz]. rewrite IH. ring. Qed.
Lemma abs_mul1 x y : Z.abs y <= 1 -> Z.abs (y * x) <= Z.abs x.
Proof. intros H. rewrite Z.abs_mul. nia. Qed.
Lemma dotz_bound p : forall a b, 0 <= p -> Forall (fun x => 2 * Z.abs x <= p) a -> Forall (fun y => Z.abs y <= 1) b -> 2 * Z.abs (dotz a b) <= p * Z.of_nat (length b).
Proof.
  induction a as [|x a IH]; intros b Hp Ha Hb; [cbn [dotz]; apply Z.mul_nonneg_nonneg; lia|]. destruct b as [|y b]; [cbn; lia|].
  inversion Ha as [|? ? Hx Ha']; subst. inversion Hb as [|? ? Hy Hb']; subst. specialize (IH b Hp Ha' Hb'). cbn [dotz length]. rewrite Nat2Z.inj_succ.
  pose proof (abs_mul1 x y Hy). rewrite (Z.mul_comm x y). lia.
Qed.
Lemma dotz_square_le z : Forall (fun y => Z.abs y <= 1) z -> dotz z z <= norm1 z.
Proof. induction 1 as [|y z Hy _ IH]; [reflexivity|]. cbn [dotz norm1]. assert (y * y <= Z.abs y) by nia. lia. Qed.
Lemma norm1_firstn m : forall z, norm1 (firstn m z) <= norm1 z.
Proof. induction m as [|m IH]; intros [|y z]; cbn; try lia; [pose proof (norm1_nonneg z); lia|]. specialize (IH z). lia. Qed.
Lemma norm1_app z z' : norm1 (z ++ z') = norm1 z + norm1 z'.
Proof. induction z as [|y z IH]; [reflexivity|]. cbn. lia. Qed.
Lemma norm1_zeros m : norm1 (repeat 0 m) = 0.
Proof. induction m as [|m IH]; [reflexivity|]. cbn. lia. Qed.

Lemma Forall_firstn {A : Type} (Q : A -> Prop) m (L : list A) : Forall Q L -> Forall Q (firstn m L).
Proof. intros H. rewrite <- (firstn_skipn m L) in H. apply Forall_app in H. apply H. Qed.
Lemma Forall_skipn {A : Type} (Q : A -> Prop) m (L : list A) : Forall Q L -> Forall Q (skipn m L).
Proof. intros H. rewrite <- (firstn_skipn m L) in H. apply Forall_app in H. apply H. Qed.

(** A ciphertext whose mask vanishes after the first modulus switch is not rotated. *)
Lemma loop_out_zero {U X : Type} (next1 : Z -> Z -> U -> rlwe -> X -> rlwe) : forall z0 a us acc xs, nonzeros a = 0 -> loop_out next1 z0 a us acc xs = acc.
Proof.
  induction z0 as [|v z0 IH]; intros a us acc xs Ha; [reflexivity|]. destruct a as [|a0 a]; [reflexivity|]. destruct us as [|u us]; [reflexivity|]. destruct xs as [|x0 xs]; [reflexivity|].
  cbn [loop_out]. unfold nonzeros in Ha. cbn [filter] in Ha. destruct (a0 =? 0); cbn [negb length] in Ha; [apply IH; exact Ha|lia].
Qed.
Lemma loop_noise_zero {U X : Type} n0 (noise1 : Z -> Z -> rlwe -> X -> list Z) (next1 : Z -> Z -> U -> rlwe -> X -> rlwe) : forall z0 a us acc xs, nonzeros a = 0 -> loop_noise n0 noise1 next1 z0 a us acc xs = repeat 0 n0.
Proof.
  induction z0 as [|v z0 IH]; intros a us acc xs Ha; [reflexivity|]. destruct a as [|a0 a]; [reflexivity|]. destruct us as [|u us]; [reflexivity|]. destruct xs as [|x0 xs]; [reflexivity|].
  cbn [loop_noise]. unfold nonzeros in Ha. cbn [filter] in Ha. destruct (a0 =? 0); cbn [negb length] in Ha; [apply IH; exact Ha|lia].
Qed.

Section Field.
Variable F : field.
Hypothesis Hok : fok F.
Local Notation p := (fp F).
Hypothesis Hp : prime p.
Variables (tbl : tables) (k : nat) (w : Z).
Hypothesis C : ctx F tbl k w.
Hypothesis Hk : (2 <= k <= 31)%nat.
Let Hk0 : (0 < k)%nat := Nat.lt_le_trans 0 2 k Nat.lt_0_2 (proj1 Hk).
Local Notation n := (2 ^ k)%nat.
Local Notation N := (Z.of_nat n).
Local Notation zt := (zt w k).
Local Notation ntt := (ntt_of F w k).
Let P0 : 0 < p := p0 F tbl k w C.
Let N0 : (0 < n)%nat := nn0 k.
Lemma p_odd : exists h, p = 2 * Z.of_nat h + 1.
Proof.
  exists (Z.to_nat (p / 2)). rewrite Z2Nat.id by (apply Z.div_pos; lia). pose proof (ctx_gt2 F tbl k w C) as G2.
  pose proof (Z.div_mod p 2 ltac:(lia)) as E. pose proof (Z.mod_pos_bound p 2 ltac:(lia)) as Rg. destruct (Z.eq_dec (p mod 2) 0) as [H|H]; [exfalso|lia].
  assert (D2 : (2 | p)) by (apply Z.mod_divide; [lia|exact H]). destruct (prime_divisors p Hp 2 D2); lia.
Qed.
Lemma q_prime j : 0 <= j -> rel_prime (2 ^ j) p.
Proof.
  intros Hj. apply rel_prime_sym. apply prime_rel_prime; [exact Hp|]. intros H. pose proof (ctx_gt2 F tbl k w C) as G2.
  assert (G : forall m, (p | 2 ^ Z.of_nat m) -> False).
  { induction m as [|m IH]; intros Hd; [change (2 ^ Z.of_nat 0) with 1 in Hd; apply Z.divide_pos_le in Hd; lia|].
    rewrite Nat2Z.inj_succ, Z.pow_succ_r in Hd by lia. apply prime_mult in Hd; [|exact Hp]. destruct Hd as [Hd|Hd]; [apply Z.divide_pos_le in Hd; lia|auto]. }
  apply (G (Z.to_nat j)). rewrite Z2Nat.id by lia. exact H.
Qed.
Lemma n_lt_p : N <= p.
Proof.
  set (f := fun i => Z.to_nat (zt i mod p)).
  assert (ND : forall L, NoDup L -> (forall i, In i L -> (i < n)%nat) -> NoDup (map f L)).
  { induction L as [|i L IH]; intros HL Hi; [constructor|]. inversion HL as [|? ? Hni HL']; subst. cbn [map]. constructor; [|apply IH; [exact HL'|intros; apply Hi; right; assumption]].
    intros HI. apply in_map_iff in HI. destruct HI as (i' & Ei & Hi'). unfold f in Ei. apply Z2Nat.inj in Ei; [|apply Z.mod_pos_bound; exact P0..].
    assert (i' = i); [|subst; contradiction]. apply (zt_distinct F Hok tbl k w C); [apply Hi; right; exact Hi'|apply Hi; left; reflexivity|]. apply cong_iff; [exact P0|exact Ei]. }
  assert (HL : (length (map f (seq 0 n)) <= length (seq 0 (Z.to_nat p)))%nat).
  { apply NoDup_incl_length; [apply ND; [apply seq_NoDup|intros i Hi; apply in_seq in Hi; lia]|]. intros v Hv. apply in_map_iff in Hv. destruct Hv as (i & <- & _).
    apply in_seq. unfold f. pose proof (Z.mod_pos_bound (zt i) p P0). split; [lia|]. cbn [Nat.add]. apply Z2Nat.inj_lt; lia. }
  rewrite map_length, !seq_length in HL. lia.
Qed.
(** The rotated accumulator and its error. *)
Definition acc0 (lut : list Z) (c : lwe) : rlwe := mk_rlwe (repeat 0 n) (pmod p (negacyclic n (xpow n (- lb c)) lut)).
Variable s : list Z.
Hypothesis Ls : length s = n.
Lemma acc0_ok lut c : length lut = n -> canonical p lut -> 0 <= lb c < 2 * N ->
  lut_rotate F lut (lb c) = Some (rb (acc0 lut c)) /\ rlwe_new (repeat 0 n) (rb (acc0 lut c)) = Some (acc0 lut c) /\ rlwe_wf p n (acc0 lut c) /\
  pcong p (rphase n s (acc0 lut c)) (negacyclic n (xpow n (- lb c)) lut).
Proof.
  intros Ll Cl Hc. destruct (rotated_lut F Hp tbl k w C Hk0 s Ls lut (lb c) Ll Cl Hc) as (acc & lut' & E1 & E2 & W & Pa).
  pose proof (lut_rotate_correct F lut (lb c) ltac:(rewrite Ll; exact N0) Cl ltac:(rewrite Ll; exact Hc)) as E. rewrite Ll in E.
  rewrite E in E1. injection E1 as <-. assert (Ea : acc = acc0 lut c).
  { unfold rlwe_new, same_len in E2. destruct (assert _) as [?|]; [|discriminate E2]. cbn [bind] in E2. injection E2 as <-. reflexivity. }
  subst acc. cbn [acc0 rb]. split; [exact E|]. split; [exact E2|]. split; [exact W|exact Pa].
Qed.

(** Slots where the mask vanishes. *)
Lemma acc0_alive lut c i : length lut = n -> canonical p lut -> 0 <= lb c < 2 * N -> (i < n)%nat -> ~ (p | ev (zt i) lut) -> deadb F k w (acc0 lut c) i = false.
Proof.
  intros Ll Cl Hc Hi Ha. unfold deadb. apply andb_false_intro2. unfold PotProofs.sv. apply Z.eqb_neq. intros H0.
  assert (Hr : cong p (npow (zt i) n) (-1)) by (apply (zt_root F tbl k w C)).
  assert (H1 : (p | ev (zt i) (rb (acc0 lut c)))) by (apply Z.mod_divide; [lia|exact H0]).
  cbn [acc0 rb] in H1. apply cong_0 in H1. rewrite ev_pmod in H1 by lia. rewrite (ev_negacyclic p (zt i) n) in H1 by (try exact Hr; try apply xpow_length; exact Ll).
  rewrite (ev_xpow p (zt i) n (- lb c) N0 Hr) in H1.
  assert (H2 : cong p (zexp (zt i) n (lb c) * (zexp (zt i) n (- lb c) * ev (zt i) lut)) 0) by (rewrite H1; apply cong_of_eq; ring).
  rewrite Z.mul_assoc, <- (zexp_add p (zt i) n _ _ N0 Hr) in H2. replace (lb c + - lb c) with 0 in H2 by ring. rewrite zexp_0, Z.mul_1_l in H2.
  apply Ha. apply cong_0. exact H2.
Qed.

Variables (b : basis) (bits : Z).
Hypothesis Hb : basis_new F bits = Some b.
Hypothesis Hbits : 0 <= bits.
Variable z : list Z.
Hypothesis Hz : Forall (fun x => x = 0 \/ x = 1 \/ x = -1) z.
Local Notation l := (bs_len b).
Local Notation good_uu := (good_uu F k b).
Local Notation good_ee := (good_ee k b).
Definition rot (lut : list Z) (c : lwe) us es : rlwe := loop_out (ter_next1 F tbl k w b s) z (la c) us (acc0 lut c) es.
Definition rnoise (lut : list Z) (c : lwe) us es : Z := nth 0 (ter_noise F tbl k w b bits s z (la c) us (acc0 lut c) es) 0.

Lemma rot_exact q us es : 2 < q -> length us = length z -> length es = length z -> Forall good_uu us -> Forall good_ee es ->
  exists key, ternary_generate F tbl (map (fun x => x mod q) z) (ntt s) b (draws2 p us es) = Some key /\
  forall lut c, length lut = n -> canonical p lut -> lwe_wf (2 * N) (length z) c ->
  blind_rotate F tbl (BrTernary key) lut c b = Some (rot lut c us es) /\ rlwe_wf p n (rot lut c us es) /\
  cong p (nth 0 (rphase n s (rot lut c us es)) 0) (nth 0 (negacyclic n (xpow n (- phase (2 * N) z c)) lut) 0 + rnoise lut c us es).
Proof.
  intros Hq Lu Le Hu He.
  assert (LU : exists lut0, length lut0 = n) by (exists (repeat 0 n); apply repeat_length). destruct LU as (lut0 & L0).
  destruct (lookup_ok F tbl k w C lut0 L0) as (T & ET' & ET & HT).
  destruct (ternary_loop_exact F Hok Hp tbl k w C Hk0 b bits Hb Hbits s Ls q T ltac:(lia) Hq ET HT z Hz us es Lu Le Hu He) as (key & EK & HK).
  exists key. split; [exact EK|]. intros lut c Ll Cl (Lx & Hx & Hbx).
  destruct (acc0_ok lut c Ll Cl Hbx) as (E1 & E2 & Wa & Pa).
  destruct (HK (la c) Lx Hx (rlwe_zero n) (nrgsw_zero n b) (acc0 lut c) (zero_len k) (zero_space k b) Wa) as (ct & Ec & Wc & Pc & Eo).
  fold (rot lut c us es) in Eo. subst ct.
  split; [|split; [exact Wc|]].
  - cbn [blind_rotate]. unfold ternary_blind_rotate. unfold lookup in ET'. rewrite L0 in ET'. rewrite len_pow2_ok in ET'. cbn [bind] in ET'. rewrite Ll, ET'. cbn [bind].
    rewrite E1. cbn [bind]. rewrite E2. cbn [bind]. exact Ec.
  - assert (Ln : length (ter_noise F tbl k w b bits s z (la c) us (acc0 lut c) es) = n) by apply ter_noise_len.
    assert (H : pcong p (rphase n s (rot lut c us es)) (padd (negacyclic n (xpow n (- lb c + dotz (la c) z)) lut) (padd (repeat 0 n) (ter_noise F tbl k w b bits s z (la c) us (acc0 lut c) es)))).
    { eapply (compose_exact F Hp tbl k w C); [exact Ll| | | |exact Ln| | | |exact Pc].
      - apply rphase_len, (wf_len p), Wa.
      - apply repeat_length with (n := n).
      - apply repeat_length.
      - apply rphase_len, (wf_len p), Wc.
      - eapply pcong_trans; [exact Pa|]. pose proof (xpow_length n) as LX.
        apply (EQ_pcong p w k Hp (Hp2 F tbl k w C) (Hw F tbl k w C)); [len n|len n|]. intros y Hy. rewrite ev_add, ev_zeros by (len n). apply cong_of_eq. ring.
      - intros y Hy. rewrite !ev_zeros. apply cong_of_eq. ring. }
    pose proof (pcong_nth_inv _ _ _ 0%nat H) as Hn. assert (Lr : length (repeat 0 n) = length (ter_noise F tbl k w b bits s z (la c) us (acc0 lut c) es)) by (rewrite repeat_length, Ln; reflexivity).
    rewrite nth_padd in Hn by (rewrite padd_length, negacyclic_length, repeat_length by exact Lr; reflexivity). rewrite (nth_padd _ _ _ Lr), nth_repeat in Hn.
    rewrite (xpow_cong n (- phase (2 * N) z c) (- lb c + dotz (la c) z) N0).
    2:{ unfold phase. assert (Cm : cong (2 * N) ((lb c - dotz (la c) z) mod (2 * N)) (lb c - dotz (la c) z)) by (apply cong_mod; lia). rewrite Cm. apply cong_of_eq. ring. }
    exact Hn.
Qed.

Lemma rot_wf lut c us es : length lut = n -> canonical p lut -> lwe_wf (2 * N) (length z) c -> length us = length z -> Forall good_uu us -> length es = length z -> Forall good_ee es ->
  rlwe_wf p n (rot lut c us es).
Proof.
  intros Ll Cl Wc Lu Hu Le He. destruct (rot_exact 3 us es ltac:(lia) Lu Le Hu He) as (key & _ & H).
  apply (H lut c Ll Cl Wc).
Qed.

(** The noise distribution, and the uniform masks. *)
Variables (D : dist Z) (V : Z).
Hypothesis HV : 0 <= V.
Hypothesis HD : sub_gaussian V D.
Local Notation US := (each (length z) (both (noise_rows2 n l (uniform p)) (noise_rows2 n l (uniform p)))).
Local Notation ES := (each (length z) (both (noise_rows2 n l D) (noise_rows2 n l D))).
Lemma US_nonneg : nonneg US.
Proof. apply nonneg_each, nonneg_both; apply nonneg_rows2, uniform_nonneg. Qed.
Lemma ES_nonneg : nonneg ES.
Proof. apply nonneg_each, nonneg_both; apply nonneg_rows2, HD. Qed.
Lemma US_good us wt : In (us, wt) US -> length us = length z /\ Forall good_uu us.
Proof.
  intros H. apply in_each in H. destruct H as (Hl & Hf). split; [exact Hl|]. eapply Forall_impl; [|exact Hf]. intros [u0 u1] (v & Hu).
  apply in_both in Hu. destruct Hu as ((w0 & H0) & (w1 & H1)). split; eapply masks_good; eassumption.
Qed.
Lemma ES_good es wt : In (es, wt) ES -> length es = length z /\ Forall good_ee es.
Proof.
  intros H. apply in_each in H. destruct H as (Hl & Hf). split; [exact Hl|]. eapply Forall_impl; [|exact Hf]. intros [u0 u1] (v & Hu).
  apply in_both in Hu. destruct Hu as ((w0 & H0) & (w1 & H1)). split; eapply rows_good; eassumption.
Qed.
(** The rotation noise, scaled by q. *)
Definition rvar : Z := Z.of_nat (length z) * (2 * step_var k b bits V).
Lemma rot_sg q lut c us : length us = length z -> length (la c) = length z -> sg ES (fun es => q * rnoise lut c us es) (q * q * rvar).
Proof.
  intros Lu Lc. pose proof (nonneg_rows2 k b D (proj1 HD)) as HN. pose proof (nonneg_both _ _ HN HN) as HNN. pose proof (step_var_nonneg k Hk0 b bits s Ls V HV) as HS.
  set (R := fun A (D0 : dist A) f B0 => sg D0 (fun x => q * f x) (q * q * B0)). pose proof (sgc_calculus q) as CR. fold R in CR.
  assert (H : R _ ES (fun es => rnoise lut c us es) (nonzeros (la c) * (2 * step_var k b bits V))).
  { unfold rnoise.
    apply (R_loop n (ter_noise1 F k b bits) (ter_next1 F tbl k w b s) (ter_noise1_len F k b bits) R CR _ 0%nat (2 * step_var k b bits V) HNN ltac:(lia)); try assumption.
    intros v a0 acc'. replace (2 * step_var k b bits V) with (step_var k b bits V + step_var k b bits V) by ring.
    apply (cal_ext _ CR _ _ (fun e => nth 0 (stepnoise k b bits v (stepx F k (Z.to_nat a0) acc') (fst e)) 0 + nth 0 (stepnoise k b bits (v + (Z.of_nat n - a0)) (stepx F k (Z.to_nat a0) acc') (snd e)) 0)).
    { intros e wt _. unfold ter_noise1. symmetry. apply nth_padd. rewrite !stepnoise_len. reflexivity. }
    apply (cal_both _ CR _ _ _ _ (fun e0 => nth 0 (stepnoise k b bits v (stepx F k (Z.to_nat a0) acc') e0) 0) (fun _ e1 => nth 0 (stepnoise k b bits (v + (Z.of_nat n - a0)) (stepx F k (Z.to_nat a0) acc') e1) 0) _ _ HN HN); [|exact HS|].
    + apply (R_stepnoise k Hk0 b bits Hbits s Ls R CR D V (proj1 HD) (sgc_draw q D V HV HD) HV); exact N0.
    + intros _ _ _. apply (R_stepnoise k Hk0 b bits Hbits s Ls R CR D V (proj1 HD) (sgc_draw q D V HV HD) HV); exact N0. }
  apply (cal_weaken _ CR _ _ _ _ _ ES_nonneg) with (2 := H). unfold rvar. apply Z.mul_le_mono_nonneg_r; [lia|].
  pose proof (NoiseProofs.nonzeros_le (la c)). lia.
Qed.

Lemma slot_prob lut c es r : length lut = n -> canonical p lut -> lwe_wf (2 * N) (length z) c -> length es = length z -> Forall good_ee es ->
  (forall i, (i < n)%nat -> ~ (p | ev (zt i) lut)) -> Z.of_nat (length z) <= p -> 0 < nonzeros (la c) ->
  wsum US (fun us => if (r <=? zeros F k w (rot lut c us es))%nat then 1 else 0) * p ^ Z.of_nat r <= (N * Z.of_nat (length z)) ^ Z.of_nat r * mass US.
Proof.
  intros Ll Cl Wc Le Ge Ha Lzp Hnz. destruct Wc as (Lc & Cc & Bc). destruct (acc0_ok lut c Ll Cl Bc) as (_ & _ & Wa & _).
  pose proof (NoiseProofs.nonzeros_le (la c)) as NL. pose proof n_lt_p as NP.
  eapply Z.le_trans.
  - apply (bad_slots F tbl k w C Hk0 s Ls US (fun us => rot lut c us es) (nonzeros (la c)) (acc0 lut c) r US_nonneg).
    + intros S0 ND HS0. apply (ter_chain F Hok Hp tbl k w C Hk0 b bits Hb Hbits s Ls S0 z US (la c) es (acc0 lut c) ND HS0 eq_refl); try assumption. split; [exact Hnz|]. rewrite Lc in NL. lia.
    + lia.
    + intros i Hi. apply acc0_alive; auto.
  - apply Z.mul_le_mono_nonneg_r; [apply mass_nonneg, US_nonneg|]. apply Z.pow_le_mono_l. split; [apply Z.mul_nonneg_nonneg; lia|]. apply Z.mul_le_mono_nonneg_l; lia.
Qed.

End Field.
