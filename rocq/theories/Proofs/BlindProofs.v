(** Blind rotation. *)
From Coq Require Import ZArith Znumtheory List Bool Arith Lia Setoid Morphisms.
From Verif Require Import Spec.Basic Spec.Poly Spec.Ring Spec.Lattice Spec.Blind Model.Base Model.Field Model.NTT Model.Concrete Model.Poly Model.Lwe Model.Rlwe Model.Gadget Model.BlindRotation
  Proofs.Arith Proofs.BarrettProofs Proofs.NumTheory Proofs.FieldProofs Proofs.PolyMath Proofs.NTTProofs Proofs.NTTTableProofs
  Proofs.ConcreteProofs Proofs.PolyProofs Proofs.MonomialProofs Proofs.RingProofs Proofs.GadgetProofs Proofs.RlweProofs Proofs.GadgetMain Proofs.RgswProofs Proofs.SampleProofs.
Import ListNotations.
Local Open Scope Z_scope.

Lemma monomial_length n c d : length (monomial n c d) = n.
Proof. unfold monomial. rewrite map_length, seq_length. reflexivity. Qed.
Lemma xpow_length n e : length (xpow n e) = n. Proof. apply monomial_length. Qed.

Lemma bounded_nth E a : 0 <= E -> (bounded E a <-> forall i, Z.abs (nth i a 0) <= E).
Proof.
  intros HE. split.
  - intros H. induction H; intros [|i]; cbn; try (cbn; lia); auto.
  - intros H. unfold bounded. apply Forall_forall. intros x Hx. destruct (In_nth _ _ 0 Hx) as (i & _ & <-). apply H.
Qed.
Lemma bounded_weaken E E' a : E <= E' -> bounded E a -> bounded E' a.
Proof. intros H. apply Forall_impl. intros. lia. Qed.
Lemma bounded_zeros n : bounded 0 (repeat 0 n).
Proof. unfold bounded. apply Forall_forall. intros x Hx. apply repeat_spec in Hx. subst. cbn. lia. Qed.

Lemma bounded_mono n E d y : (0 < n)%nat -> 0 <= E -> length y = n -> bounded E y -> bounded E (negacyclic n (monomial n 1 d) y).
Proof.
  intros Hn HE Ly H. rewrite bounded_nth in H |- * by exact HE. intros j.
  destruct (Nat.lt_ge_cases j n) as [Hj|Hj]; [|rewrite nth_overflow by (rewrite negacyclic_length; lia); cbn; lia].
  rewrite (nega_mono n (d mod n) y j Ly Hj (Nat.mod_upper_bound d n ltac:(lia)) _ d eq_refl eq_refl).
  destruct (Nat.even (d / n)), (d mod n <=? j)%nat; rewrite ?Z.mul_1_l, ?Z.mul_opp_l, ?Z.mul_1_l, ?Z.abs_opp; apply H.
Qed.
Lemma monomial_neg n d : (0 < n)%nat -> monomial n (-1) d = monomial n 1 (d + n).
Proof.
  intros Hn. unfold monomial. replace (d + n)%nat with (d + 1 * n)%nat by lia. rewrite Nat.mod_add, Nat.div_add by lia.
  rewrite Nat.add_1_r, Nat.even_succ, <- Nat.negb_even. apply map_ext. intros i.
  destruct (i =? d mod n)%nat; [|reflexivity]. destruct (Nat.even (d / n)); reflexivity.
Qed.

Lemma firstn_skipn_rot (l : list Z) r : (r <= length l)%nat ->
  firstn r (skipn (length l - r) l ++ firstn (length l - r) l) = skipn (length l - r) l /\
  skipn r (skipn (length l - r) l ++ firstn (length l - r) l) = firstn (length l - r) l.
Proof.
  intros H. assert (L : length (skipn (length l - r) l) = r) by (rewrite skipn_length; lia).
  split; [rewrite firstn_app|rewrite skipn_app]; rewrite L, Nat.sub_diag; cbn [firstn skipn].
  - rewrite app_nil_r. apply firstn_all2. lia.
  - rewrite skipn_all2 by lia. reflexivity.
Qed.

(** Powers of a root depend on the exponent modulo 2n only. *)
Lemma npow_2n p z n : cong p (npow z n) (-1) -> cong p (npow z (2 * n)) 1.
Proof.
  intros H. rewrite Nat.mul_comm, npow_mul. eapply cong_trans; [apply npow_cong; exact H|]. apply cong_of_eq. reflexivity.
Qed.
Lemma npow_period p z n j d : cong p (npow z n) (-1) -> cong p (npow z (d + j * (2 * n))) (npow z d).
Proof.
  intros H. rewrite npow_add, Nat.mul_comm, npow_mul.
  eapply cong_trans; [apply cong_mul; [apply cong_refl|apply npow_cong, npow_2n; exact H]|]. rewrite npow_one. apply cong_of_eq. ring.
Qed.
Definition zexp (z : Z) (n : nat) (e : Z) : Z := npow z (Z.to_nat (e mod (2 * Z.of_nat n))).
Lemma npow_zexp p z n d : (0 < n)%nat -> cong p (npow z n) (-1) -> cong p (npow z d) (zexp z n (Z.of_nat d)).
Proof.
  intros Hn H. unfold zexp. replace (2 * Z.of_nat n) with (Z.of_nat (2 * n)) by lia. rewrite <- Nat2Z.inj_mod, Nat2Z.id.
  pose proof (Nat.div_mod d (2 * n) ltac:(lia)) as D. rewrite D at 1.
  rewrite Nat.add_comm, (Nat.mul_comm (2 * n)). apply npow_period. exact H.
Qed.
Lemma zexp_add p z n a b : (0 < n)%nat -> cong p (npow z n) (-1) -> cong p (zexp z n (a + b)) (zexp z n a * zexp z n b).
Proof.
  intros Hn H. unfold zexp at 2 3. rewrite <- npow_add. symmetry. eapply cong_trans; [apply (npow_zexp p z n); assumption|].
  apply cong_of_eq. unfold zexp. do 2 f_equal.
  pose proof (Z.mod_pos_bound a (2 * Z.of_nat n) ltac:(lia)). pose proof (Z.mod_pos_bound b (2 * Z.of_nat n) ltac:(lia)).
  rewrite Nat2Z.inj_add, !Z2Nat.id by lia. rewrite <- Z.add_mod by lia. reflexivity.
Qed.
Lemma zexp_0 z n : zexp z n 0 = 1. Proof. unfold zexp. rewrite Zmod_0_l. reflexivity. Qed.
Lemma ev_xpow p z n e : (0 < n)%nat -> cong p (npow z n) (-1) -> cong p (ev z (xpow n e)) (zexp z n e).
Proof.
  intros Hn H. unfold xpow. eapply cong_trans; [apply ev_monomial; [lia|exact H]|]. rewrite Z.mul_1_l. apply cong_refl.
Qed.
Lemma zexp_small z n a : 0 <= a < 2 * Z.of_nat n -> npow z (Z.to_nat a) = zexp z n a.
Proof. intros H. unfold zexp. rewrite Z.mod_small by lia. reflexivity. Qed.

Section Field.
Variable F : field.
Hypothesis Hok : fok F.
Local Notation p := (fp F).

Lemma pmod_app a b : pmod p (a ++ b) = pmod p a ++ pmod p b.
Proof. unfold pmod. apply map_app. Qed.
Lemma pmod_id a : canonical p a -> pmod p a = a.
Proof. intros H. unfold pmod. induction H; cbn; [reflexivity|]. rewrite Z.mod_small by assumption. congruence. Qed.
Lemma canon_firstn a m : canonical p a -> canonical p (firstn m a).
Proof. intros H. unfold canonical. apply Forall_forall. intros x Hx. unfold canonical in H. rewrite Forall_forall in H. apply H. rewrite <- (firstn_skipn m a). apply in_or_app. left. exact Hx. Qed.
Lemma canon_skipn a m : canonical p a -> canonical p (skipn m a).
Proof. intros H. unfold canonical. apply Forall_forall. intros x Hx. unfold canonical in H. rewrite Forall_forall in H. apply H. rewrite <- (firstn_skipn m a). apply in_or_app. right. exact Hx. Qed.

Lemma lut_rotate_correct lut c : (0 < length lut)%nat -> canonical p lut -> 0 <= c < 2 * Z.of_nat (length lut) ->
  lut_rotate F lut c = Some (pmod p (negacyclic (length lut) (xpow (length lut) (- c)) lut)).
Proof.
  intros Hn Hl Hc. set (n := length lut) in *. unfold lut_rotate. fold n. destruct (Z.eqb_spec c 0) as [->|H0].
  - unfold xpow. rewrite Zmod_0_l. change (Z.to_nat 0) with 0%nat.
    rewrite <- (rot_low n 0 lut Hn eq_refl ltac:(lia)). unfold rot. fold n. rewrite Nat.sub_0_r.
    rewrite (skipn_all2 lut) by (fold n; lia). cbn [pneg map app]. rewrite firstn_all2 by (fold n; lia). rewrite pmod_id by exact Hl. reflexivity.
  - unfold usub. replace (c <=? 2 * Z.of_nat n) with true by (symmetry; apply Z.leb_le; lia). cbn [bind].
    replace (xpow n (- c)) with (monomial n 1 (Z.to_nat (2 * Z.of_nat n - c))).
    2:{ unfold xpow. do 2 f_equal. apply (Z.mod_unique _ _ (-1)); lia. }
    set (r := Z.to_nat (2 * Z.of_nat n - c)). assert (Hr : (0 < r < 2 * n)%nat) by lia.
    destruct (Nat.leb_spec r n) as [Hrn|Hrn].
    + unfold rotate_right. fold n. replace (r <=? n)%nat with true by (symmetry; apply Nat.leb_le; lia). cbn [bind].
      destruct (firstn_skipn_rot lut r Hrn) as (E1 & E2). fold n in E1, E2. rewrite E1, E2.
      change (mapM (f_neg F)) with (p_neg F). rewrite (p_neg_correct F) by (apply canon_skipn; exact Hl). cbn [bind].
      rewrite <- (rot_low n r lut Hn eq_refl Hrn). unfold rot. fold n. rewrite pmod_app, (pmod_id (firstn _ _)) by (apply canon_firstn; exact Hl). reflexivity.
    + assert (Hr' : (r - n <= n)%nat) by lia.
      unfold rotate_right. fold n. replace (r - n <=? n)%nat with true by (symmetry; apply Nat.leb_le; lia). cbn [bind].
      destruct (firstn_skipn_rot lut (r - n) Hr') as (E1 & E2). fold n in E1, E2. rewrite E1, E2.
      change (mapM (f_neg F)) with (p_neg F). rewrite (p_neg_correct F) by (apply canon_firstn; exact Hl). cbn [bind].
      pose proof (rot_high n (r - n) lut Hn eq_refl ltac:(lia)) as RH. replace (n + (r - n))%nat with r in RH by lia. rewrite <- RH.
      unfold rot. fold n. rewrite pmod_app, (pmod_id (skipn _ _)) by (apply canon_skipn; exact Hl). reflexivity.
Qed.

Lemma rlwe_add_assign_correct n x y : rlwe_wf p n x -> rlwe_wf p n y -> rlwe_add_assign F x y = Some (rl_mod p (rl_add x y)).
Proof.
  intros (L1 & L2 & H1 & H2) (D1 & D2 & D3 & D4). unfold rlwe_add_assign, on_both.
  rewrite !(p_add_assign_correct F Hok) by (assumption || congruence). reflexivity.
Qed.

Hypothesis Hp : prime p.
Variables (tbl : tables) (k : nat) (w : Z).
Hypothesis C : ctx F tbl k w.
Hypothesis Hk : (0 < k)%nat.
Local Notation n := (2 ^ k)%nat.
Local Notation nform := (nform F k w).
Variables (b : basis) (bits : Z).
Hypothesis Hb : basis_new F bits = Some b.
Hypothesis Hbits : 0 <= bits.
Variable s : list Z.
Hypothesis Ls : length s = n.

Lemma n0 : (0 < n)%nat. Proof. pose proof (Nat.pow_nonzero 2 k). lia. Qed.

(** Noise added by one external product with RGSW noise at most [E]. *)
Definition ep_noise (E : Z) : Z := 2 * (Z.of_nat (bs_len b) * (Z.of_nat n * ((2 ^ bits - 1) * E))).
Lemma base_pos : 1 <= 2 ^ bits. Proof. pose proof (Z.pow_pos_nonneg 2 bits). lia. Qed.
Lemma ep_noise_nonneg E : 0 <= E -> 0 <= ep_noise E.
Proof. intros H. unfold ep_noise. pose proof base_pos. apply Z.mul_nonneg_nonneg; [lia|]. repeat (apply Z.mul_nonneg_nonneg; try lia). Qed.

Lemma enc_lens rows m es E : gadget_encrypts p n s (2 ^ bits) m rows es -> Forall (bounded E) es ->
  Forall (fun e => length e = n /\ bounded E e) es.
Proof.
  intros (L & H) HE. apply Forall_forall. intros e He. split; [|rewrite Forall_forall in HE; apply HE; exact He].
  destruct (In_nth _ _ [] He) as (i & Hi & <-). apply H. lia.
Qed.

(** One controlled rotation: if [m] encodes X^u against X^a, i.e. (X^a - 1) m = X^u - 1. *)
Lemma cmux_correct E m RN acc ext a u :
  0 <= E -> length m = n -> rgsw_of F tbl n b s E m RN -> rlwe_wf p n acc -> rl_len n ext -> (a <= 2 * n)%nat ->
  (forall z, root p k z -> cong p ((npow z a - 1) * ev z m) (zexp z n u - 1)) ->
  exists x1 x2 acc', mul_monic_monomial_sub_one F acc n a ext = Some x1 /\
    rlwe_mul_assign_ntt_rgsw F tbl x1 RN n n (rlwe_zero n) = Some x2 /\ rl_len n x2 /\
    rlwe_add_assign F acc x2 = Some acc' /\ rlwe_wf p n acc' /\
    exists e, length e = n /\ bounded (ep_noise E) e /\
      pcong p (rphase n s acc') (padd (negacyclic n (xpow n u) (rphase n s acc)) e).
Proof.
  intros HE Lm (R & es & es' & HN & WR & HEnc & B0 & B1) Wacc Lext Ha Hm.
  assert (P0 : 0 < p) by exact (p0 F tbl k w C).
  pose proof (wf_len p n acc Wacc) as Lacc.
  exists (rl_mod p (rl_sub (rl_mul n (monomial n 1 a) acc) acc)).
  assert (L1 : rl_len n (rl_sub (rl_mul n (monomial n 1 a) acc) acc)) by (apply rl_sub_len; [apply rl_mul_len|exact Lacc]).
  assert (W1 : rlwe_wf p n (rl_mod p (rl_sub (rl_mul n (monomial n 1 a) acc) acc))) by (apply rl_mod_wf; assumption).
  destruct (external_main F Hok Hp tbl k w C Hk b bits Hb Hbits R _ WR W1) as (RN' & ct & EN & _ & (Wct & da & db & Da & Db & Hct) & _ & Hmed).
  rewrite HN in EN. injection EN as <-. destruct (Hmed (rlwe_zero n) (zero_len k)) as (HM & _).
  exists ct, (rl_mod p (rl_add acc ct)). rewrite (base_eq F Hok b bits Hb Hbits) in HEnc.
  specialize (Hct s m es es' Ls Lm HEnc). destruct HEnc as (HE0 & HE1).
  pose proof (wf_len p n ct Wct) as Lct.
  split; [apply (mono_sub_one_correct F Hok); [apply n0|assumption..]|]. split; [exact HM|]. split; [exact Lct|].
  split; [apply (rlwe_add_assign_correct n); assumption|]. split; [apply rl_mod_wf; [exact P0|apply rl_add_len; assumption]|].
  destruct WR as ((_ & LR0 & _) & (_ & LR1 & _)). rewrite LR0 in Da. rewrite LR1 in Db.
  exists (padd (lincomb n da es) (lincomb n db es')). split; [len n|]. split.
  { unfold ep_noise.
    apply (external_noise_bound n (2 ^ bits) E _ (rl_mod p (rl_sub (rl_mul n (monomial n 1 a) acc) acc))); try assumption.
    - apply base_pos. - apply W1. - apply W1. - destruct HE0 as (L & _). congruence. - destruct HE1 as (L & _). congruence.
    - eapply enc_lens; eassumption. - eapply enc_lens; eassumption. }
  pose proof (monomial_length n 1 a) as LM. pose proof (xpow_length n u) as LX.
  assert (LP : rl_len n (rl_mod p (rl_sub (rl_mul n (monomial n 1 a) acc) acc))) by (apply (wf_len p); exact W1).
  assert (L2 : rl_len n (rl_add acc ct)) by (apply rl_add_len; assumption).
  eapply pcong_trans; [apply (rl_mod_phase F Hp tbl k w C); assumption|].
  pose proof (rl_mod_phase F Hp tbl k w C s _ L1 Ls) as HP1.
  assert (LR : length (rphase n s acc) = n) by (apply rphase_len; exact Lacc).
  assert (LR1' : length (rphase n s (rl_mod p (rl_sub (rl_mul n (monomial n 1 a) acc) acc))) = n) by (apply rphase_len; exact LP).
  apply (EQ_pcong p w k Hp (Hp2 F tbl k w C) (Hw F tbl k w C)); [apply rphase_len; assumption|len n|].
  intros z Hz. pose proof (ev_cong p z z _ _ (cong_refl p z) Hct) as E1. pose proof (ev_cong p z z _ _ (cong_refl p z) HP1) as E2.
  assert (Hz' : cong p (npow z n) (-1)) by exact Hz.
  rewrite (ev_add z (negacyclic n m _)) in E1 by (len n).
  rewrite (ev_negacyclic p z n m _ Lm LR1' Hz') in E1.
  rewrite (ev_rphase p k z) in E1 by assumption.
  rewrite (ev_rphase p k z) in E1 by assumption.
  rewrite (ev_rphase p k z) by assumption. rewrite (ev_add z (negacyclic n (xpow n u) _)) by (len n).
  rewrite (ev_negacyclic p z n _ _ LX LR Hz'). rewrite (ev_xpow p z n u n0 Hz'). rewrite (ev_rphase p k z) by assumption.
  destruct Lacc as (La1 & La2), Lct as (Lc1 & Lc2). cbn [rl_add ra rb]. rewrite !ev_add by (len n).
  rewrite (ev_rphase p k z) in E2 by assumption. rewrite (ev_rphase p k z s (rl_sub _ _) Hz L1 Ls) in E2.
  cbn [rl_sub rl_mul ra rb] in E2. rewrite !ev_sub in E2 by (len n).
  rewrite !(ev_negacyclic p z n) in E2 by assumption. rewrite !(ev_monomial p z n 1 a) in E2 by (try exact Hz'; pose proof n0; lia).
  rewrite E2 in E1. specialize (Hm z Hz).
  set (A := ev z (ra acc)) in *. set (Bb := ev z (rb acc)) in *. set (S := ev z s) in *. set (mm := ev z m) in *. set (za := npow z a) in *.
  set (ee := ev z (padd (lincomb n da es) (lincomb n db es'))) in *.
  transitivity ((Bb - A * S) + (ev z (rb ct) - ev z (ra ct) * S)); [apply cong_of_eq; ring|]. rewrite E1.
  transitivity ((Bb - A * S) + ((za - 1) * mm) * (Bb - A * S) + ee); [apply cong_of_eq; ring|]. rewrite Hm. unfold ee. rewrite (ev_add z (lincomb n da es)) by (len n). apply cong_of_eq. ring.
Qed.

(** Accumulating a step into the rest of the loop. *)
Lemma rot_compose E1 E2 u v P Q e1 : 0 <= E1 -> length P = n -> length Q = n -> length e1 = n -> bounded E1 e1 ->
  pcong p Q (padd (negacyclic n (xpow n u) P) e1) ->
  forall R e2, length e2 = n -> bounded E2 e2 -> length R = n -> pcong p R (padd (negacyclic n (xpow n v) Q) e2) ->
  exists e, length e = n /\ bounded (E1 + E2) e /\ pcong p R (padd (negacyclic n (xpow n (u + v)) P) e).
Proof.
  intros H1 LP LQ Le1 B1 HQ R e2 Le2 B2 LR HR. pose proof (xpow_length n) as LX.
  exists (padd (negacyclic n (xpow n v) e1) e2). split; [len n|]. split.
  { apply bounded_padd; [|exact B2]. apply bounded_mono; [apply n0|assumption..]. }
  eapply pcong_trans; [exact HR|].
  apply (EQ_pcong p w k Hp (Hp2 F tbl k w C) (Hw F tbl k w C)); [len n|len n|]. intros z Hz.
  assert (Hz' : cong p (npow z n) (-1)) by exact Hz. pose proof (ev_cong p z z _ _ (cong_refl p z) HQ) as E.
  rewrite ev_add in E by (len n). rewrite !ev_add by (len n).
  rewrite !(ev_negacyclic p z n) in E by (try assumption; apply LX). rewrite !(ev_negacyclic p z n) by (try assumption; apply LX).
  rewrite E, !(ev_xpow p z n) by (first [apply n0|assumption]).
  rewrite (zexp_add p z n u v n0 Hz'). apply cong_of_eq. ring.
Qed.

Lemma nonzeros_0 a : nonzeros (0 :: a) = nonzeros a. Proof. reflexivity. Qed.
Lemma nonzeros_S x a : x <> 0 -> nonzeros (x :: a) = 1 + nonzeros a.
Proof. intros H. unfold nonzeros. cbn [filter]. destruct (Z.eqb_spec x 0); [contradiction|]. cbn [negb length]. lia. Qed.
Lemma nonzeros_nonneg a : 0 <= nonzeros a. Proof. unfold nonzeros. lia. Qed.

Lemma xpow_0_mul P : length P = n -> pcong p P (padd (negacyclic n (xpow n 0) P) (repeat 0 n)).
Proof.
  intros LP. pose proof (xpow_length n) as LX. apply (EQ_pcong p w k Hp (Hp2 F tbl k w C) (Hw F tbl k w C)); [len n|len n|]. intros z Hz.
  rewrite ev_add by (len n). rewrite (ev_negacyclic p z n) by (try assumption; apply LX). rewrite (ev_xpow p z n) by (first [apply n0|exact Hz]).
  rewrite zexp_0, ev_zeros. apply cong_of_eq. ring.
Qed.

Definition br_out (E : Z) (t : Z) (m : Z) (P : list Z) (ct : rlwe) : Prop :=
  rlwe_wf p n ct /\ exists e, length e = n /\ bounded (m * ep_noise E) e /\
    pcong p (rphase n s ct) (padd (negacyclic n (xpow n t) P) e).

Lemma binary_loop_correct E z key : 0 <= E -> binary_key F tbl n b s E z key ->
  forall a, length a = length z -> Forall (fun x => 0 <= x < 2 * Z.of_nat n) a ->
  forall ext acc, rl_len n ext -> rlwe_wf p n acc ->
  exists ct, binary_loop F tbl n key a ext acc = Some ct /\ br_out E (dotz a z) (nonzeros a) (rphase n s acc) ct.
Proof.
  intros HE HK. induction HK as [|zi RN z key (Hz & HR) HK IH]; intros [|a0 a] La Ha ext acc Lext Wacc; try discriminate La.
  - exists acc. split; [reflexivity|]. split; [exact Wacc|]. exists (repeat 0 n). split; [apply repeat_length|]. split.
    + change (nonzeros [] * ep_noise E) with 0. apply bounded_zeros.
    + apply xpow_0_mul, rphase_len, (wf_len p), Wacc.
  - injection La as La. inversion Ha as [|? ? Ha0 Ha']; subst. cbn [binary_loop dotz]. destruct (Z.eqb_spec a0 0) as [->|Hnz].
    + rewrite nonzeros_0. apply IH; assumption.
    + destruct (cmux_correct E (monomial n zi 0) RN acc ext (Z.to_nat a0) (a0 * zi) HE (monomial_length _ _ _) HR Wacc Lext ltac:(lia))
        as (x1 & x2 & acc' & E1 & E2 & L2 & E3 & W' & e & Le & Be & Pe).
      { intros y Hy. rewrite (ev_monomial p y n) by (try exact Hy; pose proof n0; lia). rewrite npow_0, (zexp_small y n a0) by assumption.
        destruct Hz as [-> | ->]; [rewrite (Z.mul_0_r a0), zexp_0|rewrite (Z.mul_1_r a0)]; apply cong_of_eq; ring. }
      rewrite E1. cbn [bind]. rewrite E2. cbn [bind]. rewrite E3. cbn [bind].
      destruct (IH a La Ha' x2 acc' L2 W') as (ct & Ec & Wc & e2 & Le2 & Be2 & Pe2). exists ct. split; [exact Ec|]. split; [exact Wc|].
      rewrite nonzeros_S by exact Hnz. rewrite Z.mul_add_distr_r, Z.mul_1_l.
      eapply rot_compose; try exact Pe; try exact Pe2; try assumption; try (apply rphase_len, (wf_len p); assumption). apply ep_noise_nonneg. exact HE.
Qed.

Lemma start_acc lut : length lut = n -> canonical p lut -> rlwe_wf p n (mk_rlwe (repeat 0 n) lut) /\
  pcong p (rphase n s (mk_rlwe (repeat 0 n) lut)) lut.
Proof.
  intros L Hl. assert (P0 : 0 < p) by exact (p0 F tbl k w C). split.
  - split; [apply repeat_length|]. split; [exact L|]. split; [|exact Hl]. unfold canonical. apply Forall_forall. intros x Hx. apply repeat_spec in Hx. cbn in *. lia.
  - assert (LL : rl_len n (mk_rlwe (repeat 0 n) lut)) by (split; [apply repeat_length|exact L]).
    apply (EQ_pcong p w k Hp (Hp2 F tbl k w C) (Hw F tbl k w C)); [apply rphase_len; exact LL|exact L|]. intros z Hz.
    rewrite (ev_rphase p k z) by assumption. cbn [ra rb]. rewrite ev_zeros. apply cong_of_eq. ring.
Qed.

Lemma finish E t m lut c ct acc : length lut = n -> canonical p lut -> rlwe_wf p n acc ->
  pcong p (rphase n s acc) (negacyclic n (xpow n c) lut) ->
  br_out E t m (rphase n s acc) ct -> br_out E (c + t) m lut ct.
Proof.
  intros L Hl Wa Pa (Wc & e & Le & Be & Pe). split; [exact Wc|].
  replace (m * ep_noise E) with (0 + m * ep_noise E) by ring.
  apply (rot_compose 0 (m * ep_noise E) c t lut (rphase n s acc) (repeat 0 n)) with (e2 := e); try assumption; try lia;
    try (apply rphase_len, (wf_len p); assumption); try apply repeat_length; try apply bounded_zeros.
  eapply pcong_trans; [exact Pa|]. pose proof (xpow_length n) as LX.
  apply (EQ_pcong p w k Hp (Hp2 F tbl k w C) (Hw F tbl k w C)); [len n|len n|]. intros z Hz. rewrite ev_add, ev_zeros by (len n). apply cong_of_eq. ring.
Qed.

Lemma rotated_lut lut c : length lut = n -> canonical p lut -> 0 <= c < 2 * Z.of_nat n ->
  exists acc lut', lut_rotate F lut c = Some lut' /\ rlwe_new (repeat 0 n) lut' = Some acc /\ rlwe_wf p n acc /\
    pcong p (rphase n s acc) (negacyclic n (xpow n (- c)) lut).
Proof.
  intros L Hl Hc. assert (P0 : 0 < p) by exact (p0 F tbl k w C).
  pose proof (lut_rotate_correct lut c ltac:(rewrite L; apply n0) Hl ltac:(rewrite L; exact Hc)) as E. rewrite L in E.
  set (lut' := pmod p (negacyclic n (xpow n (- c)) lut)) in *.
  assert (L' : length lut' = n) by (unfold lut'; len n).
  assert (C' : canonical p lut') by (apply pmod_canonical; exact P0).
  exists (mk_rlwe (repeat 0 n) lut'), lut'. split; [exact E|]. split.
  { unfold rlwe_new, same_len. rewrite repeat_length, L', Nat.eqb_refl. reflexivity. }
  destruct (start_acc lut' L' C') as (W & P). split; [exact W|]. eapply pcong_trans; [exact P|]. apply pcong_pmod. lia.
Qed.

Theorem binary_blind_rotate_correct E z key lut x : 0 <= E -> binary_key F tbl n b s E z key ->
  length lut = n -> canonical p lut -> lwe_wf (2 * Z.of_nat n) (length z) x ->
  exists ct, binary_blind_rotate F tbl key lut x = Some ct /\ br_out E (dotz (la x) z - lb x) (nonzeros (la x)) lut ct.
Proof.
  intros HE HK L Hl (Lx & Hb' & Ha).
  destruct (rotated_lut lut (lb x) L Hl Ha) as (acc & lut' & E1 & E2 & Wa & Pa).
  destruct (binary_loop_correct E z key HE HK (la x) Lx Hb' (rlwe_zero n) acc (zero_len k) Wa) as (ct & Ec & Hc).
  exists ct. unfold binary_blind_rotate. rewrite L, E1. cbn [bind]. rewrite E2. cbn [bind]. split; [exact Ec|].
  replace (dotz (la x) z - lb x) with (- lb x + dotz (la x) z) by ring. eapply finish; eassumption.
Qed.

(** * Ternary keys *)
Local Notation ntt := (ntt_of F w k).
Definition comb (v : list Z) (x g : rlwe) : rlwe := rl_mod p (rl_add x (rl_mul n v g)).
Fixpoint combs (v : list Z) (xs gs : list rlwe) : list rlwe :=
  match xs, gs with x :: xs', g :: gs' => comb v x g :: combs v xs' gs' | _, _ => [] end.
Fixpoint ecombs (v : list Z) (xs gs : list (list Z)) : list (list Z) :=
  match xs, gs with x :: xs', g :: gs' => padd x (negacyclic n v g) :: ecombs v xs' gs' | _, _ => [] end.

Lemma ntt_comb x g v d : length x = n -> length g = n -> length v = n -> length d = n ->
  ntt_add_mul_inplace F (ntt x) (ntt g) (ntt v) d = Some (ntt (pmod p (padd x (negacyclic n v g)))).
Proof.
  intros Lx Lg Lv Ld. assert (LN : forall u, length (ntt u) = n) by (intros; apply ntt_of_length).
  rewrite (ntt_add_mul_inplace_correct F Hok); rewrite ?LN; try assumption; try reflexivity; try (apply (canonical_word F Hok), (ntt_canon F Hok)).
  f_equal. rewrite (ntt_pmod F Hok). rewrite <- (pmod_id (ntt (padd x _))) by apply (ntt_canon F Hok). apply pmod_eq; [exact (p0 F tbl k w C)|].
  eapply pcong_trans; [|apply (ntt_add F Hok); len n]. apply padd_proper; [apply pcong_refl|].
  eapply pcong_trans; [apply (ntt_mul F Hok tbl k w C); assumption|]. erewrite (ntt_proper F Hok); [apply pcong_refl|].
  apply (EQ_pcong p w k Hp (Hp2 F tbl k w C) (Hw F tbl k w C)); [len n|len n|]. intros z Hz.
  rewrite !(ev_negacyclic p z n) by assumption. apply cong_of_eq. ring.
Qed.
Lemma combs_len v xs gs : length xs = length gs -> length (combs v xs gs) = length xs.
Proof. revert gs. induction xs; intros [|g gs] H; try discriminate H; cbn; [reflexivity|]. rewrite IHxs; [reflexivity|]. injection H. auto. Qed.
Lemma combs_wf v xs gs : Forall (rlwe_wf p n) xs -> Forall (rlwe_wf p n) gs -> Forall (rlwe_wf p n) (combs v xs gs).
Proof.
  intros Hx. revert gs. induction Hx as [|x xs Wx Hx IH]; intros gs Hg; [constructor|]. inversion Hg; subst; cbn; constructor; [|apply IH; assumption].
  apply rl_mod_wf; [exact (p0 F tbl k w C)|]. apply rl_add_len; [apply (wf_len p); exact Wx|apply rl_mul_len].
Qed.
Lemma rows_comb v xs gs : length v = n -> Forall (rlwe_wf p n) xs -> Forall (rlwe_wf p n) gs ->
  forall dst, length gs = length xs -> length dst = length xs -> Forall (rl_len n) dst ->
  ng_add_mul_inplace F (map nform xs) (map nform gs) (ntt v) dst = Some (map nform (combs v xs gs)).
Proof.
  intros Lv Hx. revert gs. induction Hx as [|x xs Wx Hx IH]; intros gs Hg [|d dst] L1 L2 Hd; try discriminate L2; [reflexivity|].
  destruct Hg as [|g gs Wg Hg]; [discriminate L1|]. inversion Hd as [|? ? (D1 & D2) Hd']; subst.
  pose proof (wf_len p n x Wx) as (X1 & X2). pose proof (wf_len p n g Wg) as (G1 & G2).
  cbn [map ng_add_mul_inplace combs]. unfold nrlwe_add_mul_inplace. change (ra (nform x)) with (ntt (ra x)). change (rb (nform x)) with (ntt (rb x)). change (ra (nform g)) with (ntt (ra g)). change (rb (nform g)) with (ntt (rb g)).
  rewrite !ntt_comb by assumption. cbn [bind]. injection L1 as L1. injection L2 as L2. rewrite IH by assumption. reflexivity.
Qed.
Definition rcomb (v : list Z) (R S : rgsw) : rgsw :=
  mk_rgsw (mk_gadget (combs v (gd (c_neg R)) (gd (c_neg S))) b) (mk_gadget (combs v (gd (c_m R)) (gd (c_m S))) b).
Lemma rcomb_wf v R S : rgsw_wf p n b R -> rgsw_wf p n b S -> rgsw_wf p n b (rcomb v R S).
Proof.
  intros ((_ & L0 & W0) & (_ & L1 & W1)) ((_ & L2 & W2) & (_ & L3 & W3)).
  split; (split; [reflexivity|]; split; cbn [c_neg c_m gd rcomb]; [rewrite combs_len; congruence|apply combs_wf; assumption]).
Qed.
Definition gspace (R : rgsw) : Prop :=
  (gb (c_neg R) = b /\ length (gd (c_neg R)) = bs_len b /\ Forall (rl_len n) (gd (c_neg R))) /\
  (gb (c_m R) = b /\ length (gd (c_m R)) = bs_len b /\ Forall (rl_len n) (gd (c_m R))).
Lemma nform_len X : rl_len n (nform X).
Proof. split; apply ntt_of_length. Qed.
Lemma nrgsw_space R : rgsw_wf p n b R -> gspace (nrgsw F k w b R).
Proof.
  intros ((_ & L0 & W0) & (_ & L1 & W1)).
  split; (split; [reflexivity|]; cbn [nrgsw c_neg c_m gd]; split; [rewrite map_length; assumption|]);
    apply Forall_forall; intros x Hx; apply in_map_iff in Hx; destruct Hx as (y & <- & _); apply nform_len.
Qed.
Lemma zero_space : gspace (nrgsw_zero n b).
Proof.
  unfold nrgsw_zero. split; (split; [reflexivity|]; cbn [c_neg c_m gd]; split; [apply repeat_length|]);
    apply Forall_forall; intros x Hx; apply repeat_spec in Hx; subst; apply zero_len.
Qed.
Lemma rgsw_comb v R S dst : length v = n -> rgsw_wf p n b R -> rgsw_wf p n b S -> gspace dst ->
  nrgsw_add_mul_inplace F (nrgsw F k w b R) (nrgsw F k w b S) (ntt v) dst = Some (nrgsw F k w b (rcomb v R S)).
Proof.
  intros Lv ((_ & L0 & W0) & (_ & L1 & W1)) ((_ & L2 & W2) & (_ & L3 & W3)) ((B0 & D0 & V0) & (B1 & D1 & V1)).
  unfold nrgsw_add_mul_inplace, gadget_add_mul_inplace. cbn [nrgsw c_neg c_m gd].
  rewrite !rows_comb by (try assumption; congruence). cbn [bind]. rewrite B0, B1. reflexivity.
Qed.

Lemma genc_comb v c m0 m1 xs gs es es' : length v = n -> length m0 = n -> length m1 = n ->
  Forall (rl_len n) xs -> Forall (rl_len n) gs ->
  genc p n s (2 ^ bits) c m0 xs es -> genc p n s (2 ^ bits) c m1 gs es' -> length gs = length xs ->
  genc p n s (2 ^ bits) c (padd m0 (negacyclic n v m1)) (combs v xs gs) (ecombs v es es').
Proof.
  intros Lv L0 L1 Hx. revert c gs es es'. induction Hx as [|x xs Lx Hx IH]; intros c gs es es' Hg H0 H1 L.
  - destruct gs; [|discriminate L]. destruct es; [|contradiction H0]. exact I.
  - destruct gs as [|g gs]; [discriminate L|]. destruct es as [|e es]; [contradiction H0|]. destruct es' as [|e' es']; [contradiction H1|].
    inversion Hg as [|? ? Lg Hg']; subst. destruct H0 as (Le & P & H0), H1 as (Le' & P' & H1). cbn [combs ecombs genc].
    split; [len n|]. injection L as L. split; [|apply IH; assumption].
    assert (LA : rl_len n (rl_add x (rl_mul n v g))) by (apply rl_add_len; [exact Lx|apply rl_mul_len]).
    eapply pcong_trans; [apply (rl_mod_phase F Hp tbl k w C); assumption|].
    assert (LX : length (rphase n s x) = n) by (apply rphase_len; exact Lx).
    assert (LG : length (rphase n s g) = n) by (apply rphase_len; exact Lg).
    apply (EQ_pcong p w k Hp (Hp2 F tbl k w C) (Hw F tbl k w C)); [apply rphase_len; exact LA|len n|]. intros z Hz.
    pose proof (ev_cong p z z _ _ (cong_refl p z) P) as E1. pose proof (ev_cong p z z _ _ (cong_refl p z) P') as E2.
    rewrite (ev_rphase p k z) in E1, E2 by assumption. rewrite (ev_rphase p k z) by assumption.
    destruct Lx as (X1 & X2), Lg as (G1 & G2). cbn [rl_add rl_mul ra rb].
    rewrite !ev_add in E1, E2 by (len n). rewrite !ev_scale in E1, E2.
    rewrite !ev_add by (len n). rewrite ev_scale, !ev_add by (len n). rewrite !(ev_negacyclic p z n) by assumption.
    transitivity ((ev z (rb x) - ev z (ra x) * ev z s) + ev z v * (ev z (rb g) - ev z (ra g) * ev z s)); [apply cong_of_eq; ring|].
    rewrite E1, E2. apply cong_of_eq. ring.
Qed.
Lemma ecombs_bound v d E es es' : 0 <= E -> v = monomial n 1 d -> Forall (fun e => length e = n /\ bounded E e) es ->
  Forall (fun e => length e = n /\ bounded E e) es' -> Forall (bounded (2 * E)) (ecombs v es es').
Proof.
  intros HE -> H. revert es'. induction H as [|e es (Le & Be) H IH]; intros es' H'; [constructor|]. destruct H' as [|e' es' (Le' & Be') H']; [constructor|].
  cbn [ecombs]. constructor; [|apply IH; exact H']. replace (2 * E) with (E + E) by ring. apply bounded_padd; [exact Be|].
  apply bounded_mono; [apply n0|assumption..].
Qed.

Lemma rgsw_of_comb v d E m0 m1 R0 R1 dst : 0 <= E -> v = monomial n 1 d -> length m0 = n -> length m1 = n ->
  rgsw_of F tbl n b s E m0 R0 -> rgsw_of F tbl n b s E m1 R1 -> gspace dst ->
  exists ek, nrgsw_add_mul_inplace F R0 R1 (ntt v) dst = Some ek /\ gspace ek /\
    rgsw_of F tbl n b s (2 * E) (padd m0 (negacyclic n v m1)) ek.
Proof.
  intros HE Hv L0 L1 (X & es0 & es0' & N0 & W0 & (P0 & P0') & B0 & B0') (Y & es1 & es1' & N1 & W1 & (P1 & P1') & B1 & B1') Hd.
  assert (Lv : length v = n) by (rewrite Hv; apply monomial_length).
  pose proof (rgsw_to_ntt_correct F Hok tbl k w C b X W0) as T0. pose proof (rgsw_to_ntt_correct F Hok tbl k w C b Y W1) as T1.
  rewrite N0 in T0. injection T0 as ->. rewrite N1 in T1. injection T1 as ->.
  exists (nrgsw F k w b (rcomb v X Y)). split; [apply rgsw_comb; assumption|].
  pose proof (rcomb_wf v X Y W0 W1) as WC. split; [apply nrgsw_space; exact WC|].
  rewrite (base_eq F Hok b bits Hb Hbits) in *.
  exists (rcomb v X Y), (ecombs v es0 es1), (ecombs v es0' es1').
  split; [apply (rgsw_to_ntt_correct F Hok tbl k w C); exact WC|]. split; [exact WC|].
  destruct W0 as ((_ & A0 & W0) & (_ & A1 & W0')), W1 as ((_ & A2 & W1) & (_ & A3 & W1')).
  pose proof (wf_lens F k _ W0). pose proof (wf_lens F k _ W0'). pose proof (wf_lens F k _ W1). pose proof (wf_lens F k _ W1').
  rewrite (base_eq F Hok b bits Hb Hbits).
  split.
  - split; cbn [rcomb c_neg c_m gd].
    + apply (enc_cong F k s bits (padd (pneg (negacyclic n m0 s)) (negacyclic n v (pneg (negacyclic n m1 s))))).
      * apply (EQ_pcong p w k Hp (Hp2 F tbl k w C) (Hw F tbl k w C)); [len n|len n|]. intros z Hz.
        assert (LN1 : length (negacyclic n m1 s) = n) by (len n). assert (LN2 : length (negacyclic n v m1) = n) by (len n).
        rewrite ev_add by (len n). rewrite !ev_neg. rewrite (ev_negacyclic p z n v _ Lv (len_pneg n _ LN1) Hz), ev_neg.
        rewrite !(ev_negacyclic p z n) by (first [assumption|len n]). rewrite ev_add by (len n). rewrite !(ev_negacyclic p z n) by assumption. apply cong_of_eq. ring.
      * apply genc_elim. apply genc_comb; try assumption; [len n|len n|apply genc_intro; exact P0|apply genc_intro; exact P1|congruence].
    + apply genc_elim. apply genc_comb; try assumption; [apply genc_intro; exact P0'|apply genc_intro; exact P1'|congruence].
  - split; apply (ecombs_bound v d); try assumption; eapply enc_lens; eassumption.
Qed.

Lemma ternary_loop_correct E z key T : 0 <= E -> (k <= 31)%nat -> ternary_key F tbl n b s E z key -> tbl k = Some T -> tab_ok F w k T ->
  forall a, length a = length z -> Forall (fun x => 0 <= x < 2 * Z.of_nat n) a ->
  forall ext ek acc, rl_len n ext -> gspace ek -> rlwe_wf p n acc ->
  exists ct, ternary_loop F tbl T n key a ext ek acc = Some ct /\ br_out (2 * E) (dotz a z) (nonzeros a) (rphase n s acc) ct.
Proof.
  intros HE H31 HK ET HT. induction HK as [|zi [R0 R1] z key (Hz & HR0 & HR1) HK IH]; intros [|a0 a] La Ha ext ek acc Lext Hek Wacc; try discriminate La.
  - exists acc. split; [reflexivity|]. split; [exact Wacc|]. exists (repeat 0 n). split; [apply repeat_length|]. split.
    + change (nonzeros [] * ep_noise (2 * E)) with 0. apply bounded_zeros.
    + apply xpow_0_mul, rphase_len, (wf_len p), Wacc.
  - injection La as La. inversion Ha as [|? ? Ha0 Ha']; subst. cbn [ternary_loop dotz]. destruct (Z.eqb_spec a0 0) as [->|Hnz].
    + rewrite nonzeros_0. apply IH; assumption.
    + unfold usub. replace (a0 <=? 2 * Z.of_nat n) with true by (symmetry; apply Z.leb_le; lia). cbn [bind].
      assert (Hn31 : Z.of_nat n <= 2 ^ 31).
      { replace (2 ^ 31) with (Z.of_nat (2 ^ 31)) by (rewrite Nat2Z.inj_pow; reflexivity). apply inj_le. apply Nat.pow_le_mono_r; lia. }
      pose proof C as (H2 & H63 & Hroot & _).
      rewrite (t_neg_one_correct F Hok w k T H2 H31 Hroot HT) by lia. cbn [bind].
      rewrite (mono_ntt_transform F w k H2 H63 Hroot). cbn [fst snd] in HR0, HR1.
      set (v := monomial n (-1) (Z.to_nat (2 * Z.of_nat n - a0))).
      destruct (rgsw_of_comb v (Z.to_nat (2 * Z.of_nat n - a0) + n) E _ _ R0 R1 ek HE (monomial_neg _ _ n0) (monomial_length _ _ _) (monomial_length _ _ _) HR0 HR1 Hek)
        as (ek' & Eek & Sek & HR). rewrite Eek. cbn [bind].
      assert (Lm : length (padd (monomial n (if zi =? 1 then 1 else 0) 0) (negacyclic n v (monomial n (if zi =? -1 then 1 else 0) 0))) = n)
        by (apply len_padd; [apply monomial_length|apply negacyclic_length]).
      destruct (cmux_correct (2 * E) _ ek' acc ext (Z.to_nat a0) (a0 * zi) ltac:(lia) Lm HR Wacc Lext ltac:(lia))
        as (x1 & x2 & acc' & E1 & E2 & L2 & E3 & W' & e & Le & Be & Pe).
      { intros y Hy. assert (Hy' : cong p (npow y n) (-1)) by exact Hy.
        rewrite ev_add by (rewrite monomial_length, negacyclic_length; reflexivity).
        unfold v. rewrite (ev_negacyclic p y n _ _ (monomial_length _ _ _) (monomial_length _ _ _) Hy').
        rewrite !(ev_monomial p y n) by (try exact Hy; pose proof n0; lia). rewrite npow_0, (zexp_small y n a0) by assumption.
        destruct Hz as [-> | [-> | ->]].
        - rewrite (Z.mul_0_r a0), zexp_0. cbn [Z.eqb]. apply cong_of_eq. ring.
        - rewrite (Z.mul_1_r a0). cbn [Z.eqb Pos.eqb]. apply cong_of_eq. ring.
        - cbn [Z.eqb Pos.eqb].
          assert (Ez : cong p (npow y (Z.to_nat (2 * Z.of_nat n - a0))) (zexp y n (a0 * -1))).
          { eapply cong_trans; [apply (npow_zexp p y n _ n0 Hy')|]. apply cong_of_eq. unfold zexp. do 2 f_equal.
            rewrite Z2Nat.id by lia. replace (2 * Z.of_nat n - a0) with (a0 * -1 + 1 * (2 * Z.of_nat n)) by ring. apply Z_mod_plus_full. }
          rewrite Ez. pose proof (zexp_add p y n a0 (a0 * -1) n0 Hy') as EA. replace (a0 + a0 * -1) with 0 in EA by ring. rewrite zexp_0 in EA.
          transitivity (zexp y n (a0 * -1) - zexp y n a0 * zexp y n (a0 * -1)); [apply cong_of_eq; ring|]. rewrite <- EA. apply cong_refl. }
      rewrite E1. cbn [bind]. rewrite E2. cbn [bind]. rewrite E3. cbn [bind].
      destruct (IH a La Ha' x2 ek' acc' L2 Sek W') as (ct & Ec & Wc & e2 & Le2 & Be2 & Pe2). exists ct. split; [exact Ec|]. split; [exact Wc|].
      rewrite nonzeros_S by exact Hnz. rewrite Z.mul_add_distr_r, Z.mul_1_l.
      eapply rot_compose; try exact Pe; try exact Pe2; try assumption; try (apply rphase_len, (wf_len p); assumption). apply ep_noise_nonneg. lia.
Qed.

Theorem ternary_blind_rotate_correct E z key lut x : 0 <= E -> (k <= 31)%nat -> ternary_key F tbl n b s E z key ->
  length lut = n -> canonical p lut -> lwe_wf (2 * Z.of_nat n) (length z) x ->
  exists ct, ternary_blind_rotate F tbl key lut x b = Some ct /\ br_out (2 * E) (dotz (la x) z - lb x) (nonzeros (la x)) lut ct.
Proof.
  intros HE H31 HK L Hl (Lx & Hb' & Ha).
  destruct (rotated_lut lut (lb x) L Hl Ha) as (acc & lut' & E1 & E2 & Wa & Pa).
  destruct (lookup_ok F tbl k w C lut L) as (T & ET' & ET & HT).
  destruct (ternary_loop_correct E z key T HE H31 HK ET HT (la x) Lx Hb' (rlwe_zero n) (nrgsw_zero n b) acc (zero_len k) zero_space Wa) as (ct & Ec & Hc).
  exists ct. unfold ternary_blind_rotate. unfold lookup in ET'. rewrite L in ET' |- *. rewrite len_pow2_ok in ET'. cbn [bind] in ET'. rewrite ET'. cbn [bind].
  rewrite E1. cbn [bind]. rewrite E2. cbn [bind]. split; [exact Ec|].
  replace (dotz (la x) z - lb x) with (- lb x + dotz (la x) z) by ring. eapply finish; eassumption.
Qed.
End Field.
