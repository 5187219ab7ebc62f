(** Moments of the noise of a blind rotation over the noise drawn for its key. *)
From Coq Require Import ZArith Znumtheory List Bool Arith Lia Setoid Morphisms.
From Verif Require Import Spec.Basic Spec.Poly Spec.Ring Spec.Lattice Spec.Blind Spec.Moment Spec.Noise Spec.SubGauss Model.Base Model.Field Model.NTT Model.Concrete Model.Poly Model.Lwe Model.Rlwe Model.Gadget Model.BlindRotation
  Proofs.Arith Proofs.BarrettProofs Proofs.NumTheory Proofs.FieldProofs Proofs.PolyMath Proofs.NTTProofs Proofs.NTTTableProofs
  Proofs.ConcreteProofs Proofs.PolyProofs Proofs.MonomialProofs Proofs.RingProofs Proofs.GadgetProofs Proofs.RlweProofs Proofs.GadgetMain Proofs.RgswProofs Proofs.SampleProofs Proofs.BlindProofs Proofs.BlindKeyProofs Proofs.MomentProofs Proofs.SubGaussProofs.
Import ListNotations.
Local Open Scope Z_scope.

Lemma negacyclic_coeff_comm n a b k : (k < n)%nat -> negacyclic_coeff n a b k = negacyclic_coeff n b a k.
Proof.
  intros Hk. unfold negacyclic_coeff. assert (ES : forall f, zsum f n = zsum f (S k) + zsum (fun i => f (S k + i)%nat) (n - S k)).
  { intros f. rewrite <- zsum_split. f_equal. lia. }
  rewrite !ES. f_equal.
  - rewrite zsum_rev. apply zsum_ext. intros i Hi. replace (S k - 1 - i <=? k)%nat with true by (symmetry; apply Nat.leb_le; lia).
    replace (i <=? k)%nat with true by (symmetry; apply Nat.leb_le; lia). replace (S k - 1 - i)%nat with (k - i)%nat by lia.
    replace (k - (k - i))%nat with i by lia. ring.
  - rewrite zsum_rev. apply zsum_ext. intros i Hi. replace (S k + (n - S k - 1 - i) <=? k)%nat with false by (symmetry; apply Nat.leb_gt; lia).
    replace (S k + i <=? k)%nat with false by (symmetry; apply Nat.leb_gt; lia).
    replace (S k + (n - S k - 1 - i))%nat with (n + k - (S k + i))%nat by lia. replace (n + k - (n + k - (S k + i)))%nat with (S k + i)%nat by lia. ring.
Qed.

(** A linear form of independent draws, for any notion of size [R]. *)
Section Linear.
Variable R : forall A : Type, dist A -> (A -> Z) -> Z -> Prop.
Hypothesis CR : calculus R.
Arguments R {A}.
Variables (D : dist Z) (V C : Z).
Hypothesis HD : nonneg D.
Hypothesis HR : forall c, R D (fun x => c * x) (c * c * V).
Hypothesis HV : 0 <= V.
Hypothesis HC : 0 <= C.
Lemma R_form n (c : nat -> Z) : (forall i, Z.abs (c i) <= C) -> R (each n D) (fun e => zsum (fun i => nth i e 0 * c i) n) (Z.of_nat n * (C * C * V)).
Proof.
  revert c. induction n as [|n IH]; intros c Hc; [apply (cal_zero _ CR)|].
  replace (Z.of_nat (S n) * (C * C * V)) with (C * C * V + Z.of_nat n * (C * C * V)) by lia.
  apply (cal_each_S _ CR _ D n (fun x => c 0%nat * x) (fun _ e => zsum (fun i => nth i e 0 * c (S i)) n)).
  - exact HD.
  - apply (cal_weaken _ CR _ _ _ (c 0%nat * c 0%nat * V)); [exact HD| |apply HR].
    apply Z.mul_le_mono_nonneg_r; [exact HV|]. rewrite <- (Z.abs_square (c 0%nat)). specialize (Hc 0%nat). nia.
  - nia.
  - intros x w _. apply IH. intros i. apply Hc.
  - intros x l. rewrite zsum_shift. cbn [nth]. f_equal. ring.
Qed.
Lemma R_negacyclic n d t : (t < n)%nat -> (forall i, Z.abs (nth i d 0) <= C) ->
  R (each n D) (fun e => nth t (negacyclic n d e) 0) (Z.of_nat n * (C * C * V)).
Proof.
  intros Ht Hd. apply (cal_ext _ CR _ _ (fun e => zsum (fun i => nth i e 0 * (if (i <=? t)%nat then nth (t - i) d 0 else - nth (n + t - i) d 0)) n)).
  - intros e w _. rewrite nth_negacyclic, negacyclic_coeff_comm by exact Ht. unfold negacyclic_coeff. apply zsum_ext. intros i _. destruct (i <=? t)%nat; ring.
  - apply R_form. intros i. destruct (i <=? t)%nat; [|rewrite Z.abs_opp]; apply Hd.
Qed.
Lemma R_lincomb n l ds t : (t < n)%nat -> length ds = l -> Forall (fun d => forall i, Z.abs (nth i d 0) <= C) ds ->
  R (each l (each n D)) (fun es => nth t (lincomb n ds es) 0) (Z.of_nat l * (Z.of_nat n * (C * C * V))).
Proof.
  intros Ht <- Hds. induction Hds as [|d ds Hd Hds IH].
  - apply (cal_ext _ CR _ _ (fun _ => 0)); [|apply (cal_zero _ CR)]. intros es w H. cbn [lincomb]. symmetry. (destruct (Nat.lt_ge_cases t n); [apply nth_repeat|apply nth_overflow; rewrite repeat_length; lia]).
  - cbn [length]. replace (Z.of_nat (S (length ds)) * (Z.of_nat n * (C * C * V))) with (Z.of_nat n * (C * C * V) + Z.of_nat (length ds) * (Z.of_nat n * (C * C * V))) by lia.
    apply (cal_each_S _ CR _ (each n D) (length ds) (fun e => nth t (negacyclic n d e) 0) (fun _ es => nth t (lincomb n ds es) 0)).
    + apply nonneg_each. exact HD.
    + apply R_negacyclic; assumption.
    + assert (0 <= C * C * V) by nia. nia.
    + intros x w _. exact IH.
    + intros e es. cbn [lincomb]. apply nth_padd. rewrite negacyclic_length, lincomb_len. reflexivity.
Qed.
End Linear.

Lemma nz_0 a : nonzeros (0 :: a) = nonzeros a. Proof. reflexivity. Qed.
Lemma nz_S x a : x <> 0 -> nonzeros (x :: a) = 1 + nonzeros a.
Proof. intros H. unfold nonzeros. cbn [filter]. destruct (Z.eqb_spec x 0); [contradiction|]. cbn [negb length]. lia. Qed.

Lemma nonzeros_le a : nonzeros a <= Z.of_nat (length a).
Proof. unfold nonzeros. induction a as [|x a IH]; cbn [filter length]; [lia|]. destruct (negb _); cbn [length]; lia. Qed.

(** The accumulated noise of a rotation loop, for any kind of key entry. *)
Section Loop.
Context {U X : Type}.
Variables (n : nat) (noise1 : Z -> Z -> rlwe -> X -> list Z) (next1 : Z -> Z -> U -> rlwe -> X -> rlwe).
Fixpoint loop_noise (z a : list Z) (us : list U) (acc : rlwe) (xs : list X) : list Z :=
  match z, a, us, xs with
  | z0 :: z', a0 :: a', u :: us', x :: xs' =>
      if a0 =? 0 then loop_noise z' a' us' acc xs'
      else padd (noise1 (dotz a' z') a0 acc x) (loop_noise z' a' us' (next1 z0 a0 u acc x) xs')
  | _, _, _, _ => repeat 0 n
  end.
(** The accumulator after the loop. *)
Fixpoint loop_out (z a : list Z) (us : list U) (acc : rlwe) (xs : list X) : rlwe :=
  match z, a, us, xs with
  | z0 :: z', a0 :: a', u :: us', x :: xs' =>
      if a0 =? 0 then loop_out z' a' us' acc xs' else loop_out z' a' us' (next1 z0 a0 u acc x) xs'
  | _, _, _, _ => acc
  end.
Hypothesis L1 : forall v a acc x, length (noise1 v a acc x) = n.
Lemma loop_noise_len z a us acc xs : length (loop_noise z a us acc xs) = n.
Proof.
  revert a us acc xs. induction z as [|z0 z IH]; intros a us acc xs; [apply repeat_length|]. destruct a, us, xs; cbn [loop_noise]; try apply repeat_length.
  destruct (_ =? 0); [apply IH|]. rewrite padd_length by (rewrite L1, IH; reflexivity). apply L1.
Qed.
Variable R : forall A : Type, dist A -> (A -> Z) -> Z -> Prop.
Hypothesis CR : calculus R.
Arguments R {A}.
Variables (D : dist X) (t : nat) (V : Z).
Hypothesis HD : nonneg D.
Hypothesis HV : 0 <= V.
Hypothesis H1 : forall v a acc, R D (fun x => nth t (noise1 v a acc x) 0) V.
Lemma R_loop z : forall a us acc, length a = length z -> length us = length z ->
  R (each (length z) D) (fun xs => nth t (loop_noise z a us acc xs) 0) (nonzeros a * V).
Proof.
  induction z as [|z0 z IH]; intros [|a0 a] [|u us] acc La Lu; try discriminate La; try discriminate Lu.
  - apply (cal_ext _ CR _ _ (fun _ => 0)); [|apply (cal_zero _ CR)]. intros xs w _. cbn [loop_noise]. symmetry. apply nth_repeat.
  - injection La as La. injection Lu as Lu. cbn [length]. assert (N0 : 0 <= nonzeros a * V) by (unfold nonzeros; nia). destruct (Z.eqb_spec a0 0) as [->|Hnz].
    + rewrite nz_0. replace (nonzeros a * V) with (0 + nonzeros a * V) by ring.
      apply (cal_each_S _ CR _ D (length z) (fun _ => 0) (fun _ xs => nth t (loop_noise z a us acc xs) 0)); [exact HD|apply (cal_zero _ CR)|exact N0| |].
      * intros x w _. apply IH; assumption.
      * intros x l. cbn [loop_noise Z.eqb]. ring.
    + rewrite nz_S, Z.mul_add_distr_r, Z.mul_1_l by exact Hnz.
      apply (cal_each_S _ CR _ D (length z) (fun x => nth t (noise1 (dotz a z) a0 acc x) 0) (fun x xs => nth t (loop_noise z a us (next1 z0 a0 u acc x) xs) 0)); [exact HD|apply H1|exact N0| |].
      * intros x w _. apply IH; assumption.
      * intros x l. cbn [loop_noise]. destruct (Z.eqb_spec a0 0) as [|_]; [contradiction|]. apply nth_padd. rewrite L1, loop_noise_len. reflexivity.
Qed.
End Loop.

Lemma nn0 k : (0 < 2 ^ k)%nat. Proof. pose proof (Nat.pow_nonzero 2 k). lia. Qed.

Section Field.
Variable F : field.
Hypothesis Hok : fok F.
Local Notation p := (fp F).
Hypothesis Hp : prime p.
Variables (tbl : tables) (k : nat) (w : Z).
Hypothesis C : ctx F tbl k w.
Hypothesis Hk : (0 < k)%nat.
Local Notation n := (2 ^ k)%nat.
Variables (b : basis) (bits : Z).
Hypothesis Hb : basis_new F bits = Some b.
Hypothesis Hbits : 0 <= bits.
Variable s : list Z.
Hypothesis Ls : length s = n.
Local Notation ntt := (ntt_of F w k).
Local Notation l := (bs_len b).

(** [RN] encrypts [m] with exactly these noises. *)
Definition rgsw_is (m : list Z) (RN : rgsw) (e : rows2) : Prop :=
  exists R, rgsw_to_ntt F tbl R = Some RN /\ rgsw_wf p n b R /\ rgsw_encrypts p n s (2 ^ bits) m R (fst e) (snd e).

Definition stepx (a : nat) (acc : rlwe) : rlwe := rl_mod p (rl_sub (rl_mul n (monomial n 1 a) acc) acc).
Definition next (RN : rgsw) (a : nat) (acc : rlwe) : rlwe :=
  match rlwe_mul_assign_ntt_rgsw F tbl (stepx a acc) RN n n (rlwe_zero n) with Some ct => rl_mod p (rl_add acc ct) | None => acc end.
Definition digs (f : list Z) : list (list Z) := pdigs bits l f.
Definition rotd (v : Z) (ds : list (list Z)) : list (list Z) := map (negacyclic n (xpow n v)) ds.
Definition stepnoise (v : Z) (x : rlwe) (e : rows2) : list Z :=
  padd (lincomb n (rotd v (digs (ra x))) (fst e)) (lincomb n (rotd v (digs (rb x))) (snd e)).

Lemma stepx_wf a acc : rlwe_wf p n acc -> rlwe_wf p n (stepx a acc).
Proof.
  intros W. apply rl_mod_wf; [exact (p0 F tbl k w C)|]. apply rl_sub_len; [apply rl_mul_len|apply (wf_len p); exact W].
Qed.
Lemma stepnoise_len v x e : length (stepnoise v x e) = n.
Proof. unfold stepnoise. apply len_padd; apply lincomb_len. Qed.

Lemma cmux_exact m RN e acc ext a u :
  length m = n -> rgsw_is m RN e -> rlwe_wf p n acc -> rl_len n ext -> (a <= 2 * n)%nat ->
  (forall z, root p k z -> cong p ((npow z a - 1) * ev z m) (zexp z n u - 1)) ->
  exists ct, mul_monic_monomial_sub_one F acc n a ext = Some (stepx a acc) /\
    rlwe_mul_assign_ntt_rgsw F tbl (stepx a acc) RN n n (rlwe_zero n) = Some ct /\ rl_len n ct /\
    rlwe_add_assign F acc ct = Some (next RN a acc) /\ rlwe_wf p n (next RN a acc) /\
    pcong p (rphase n s (next RN a acc)) (padd (negacyclic n (xpow n u) (rphase n s acc))
      (padd (lincomb n (digs (ra (stepx a acc))) (fst e)) (lincomb n (digs (rb (stepx a acc))) (snd e)))).
Proof.
  intros Lm (R & HN & WR & HEnc) Wacc Lext Ha Hm.
  assert (P0 : 0 < p) by exact (p0 F tbl k w C).
  pose proof (wf_len p n acc Wacc) as Lacc. pose proof (stepx_wf a acc Wacc) as W1.
  assert (L1 : rl_len n (rl_sub (rl_mul n (monomial n 1 a) acc) acc)) by (apply rl_sub_len; [apply rl_mul_len|exact Lacc]).
  pose proof (rgsw_to_ntt_correct F Hok tbl k w C b R WR) as EN. rewrite HN in EN. injection EN as ->.
  set (ct := rl_mod p (extp k bits (stepx a acc) (gd (c_neg R)) (gd (c_m R)))).
  assert (HM : rlwe_mul_assign_ntt_rgsw F tbl (stepx a acc) (nrgsw F k w b R) n n (rlwe_zero n) = Some ct).
  { apply (mul_ntt_rgsw_inplace_correct F Hok Hp tbl k w C Hk b bits Hb Hbits); try assumption; [apply zero_len|apply (wf_len p); exact W1]. }
  assert (Wct : rlwe_wf p n ct) by (apply rl_mod_wf; [exact P0|apply extp_len]).
  assert (Hct : pcong p (rphase n s ct) (padd (negacyclic n m (rphase n s (stepx a acc))) (padd (lincomb n (digs (ra (stepx a acc))) (fst e)) (lincomb n (digs (rb (stepx a acc))) (snd e))))).
  { assert (LR0 : length (gd (c_neg R)) = l) by apply WR. assert (LR1 : length (gd (c_m R)) = l) by apply WR. unfold digs. rewrite <- LR0 at 1. rewrite <- LR1.
    apply (extp_phase F Hok Hp tbl k w C b bits Hb Hbits); try assumption. }
  exists ct. pose proof (wf_len p n ct Wct) as Lct.
  assert (EX : next (nrgsw F k w b R) a acc = rl_mod p (rl_add acc ct)) by (unfold next; rewrite HM; reflexivity).
  rewrite EX.
  split; [apply (mono_sub_one_correct F Hok); [apply nn0|assumption..]|]. split; [exact HM|]. split; [exact Lct|].
  split; [apply (rlwe_add_assign_correct F Hok n); assumption|]. split; [apply rl_mod_wf; [exact P0|apply rl_add_len; assumption]|].
  set (ds := padd (lincomb n (digs (ra (stepx a acc))) (fst e)) (lincomb n (digs (rb (stepx a acc))) (snd e))) in *.
  assert (Lds : length ds = n) by (unfold ds; len n).
  pose proof (monomial_length n 1 a) as LM. pose proof (xpow_length n u) as LX.
  assert (LP : rl_len n (stepx a acc)) by (apply (wf_len p); exact W1).
  assert (L2 : rl_len n (rl_add acc ct)) by (apply rl_add_len; assumption).
  eapply pcong_trans; [apply (rl_mod_phase F Hp tbl k w C); assumption|].
  pose proof (rl_mod_phase F Hp tbl k w C s _ L1 Ls) as HP1. fold (stepx a acc) in HP1.
  assert (LR : length (rphase n s acc) = n) by (apply rphase_len; exact Lacc).
  assert (LR1' : length (rphase n s (stepx a acc)) = n) by (apply rphase_len; exact LP).
  apply (EQ_pcong p w k Hp (Hp2 F tbl k w C) (Hw F tbl k w C)); [apply rphase_len; assumption|len n|].
  intros z Hz. pose proof (ev_cong p z z _ _ (cong_refl p z) Hct) as E1. pose proof (ev_cong p z z _ _ (cong_refl p z) HP1) as E2.
  assert (Hz' : cong p (npow z n) (-1)) by exact Hz.
  rewrite (ev_add z (negacyclic n m _)) in E1 by (len n).
  rewrite (ev_negacyclic p z n m _ Lm LR1' Hz') in E1.
  rewrite (ev_rphase p k z) in E1 by assumption.
  rewrite (ev_rphase p k z) in E1 by assumption.
  rewrite (ev_rphase p k z) by assumption. rewrite (ev_add z (negacyclic n (xpow n u) _)) by (len n).
  rewrite (ev_negacyclic p z n _ _ LX LR Hz'). rewrite (ev_xpow p z n u (nn0 k) Hz'). rewrite (ev_rphase p k z) by assumption.
  destruct Lacc as (La1 & La2), Lct as (Lc1 & Lc2). cbn [rl_add ra rb]. rewrite !ev_add by (len n).
  rewrite (ev_rphase p k z) in E2 by assumption. rewrite (ev_rphase p k z s (rl_sub _ _) Hz L1 Ls) in E2.
  cbn [rl_sub rl_mul ra rb] in E2. rewrite !ev_sub in E2 by (len n).
  rewrite !(ev_negacyclic p z n) in E2 by assumption. rewrite !(ev_monomial p z n 1 a) in E2 by (try exact Hz'; pose proof (nn0 k); lia).
  rewrite E2 in E1. specialize (Hm z Hz).
  set (A := ev z (ra acc)) in *. set (Bb := ev z (rb acc)) in *. set (S := ev z s) in *. set (mm := ev z m) in *. set (za := npow z a) in *.
  set (ee := ev z ds) in *.
  transitivity ((Bb - A * S) + (ev z (rb ct) - ev z (ra ct) * S)); [apply cong_of_eq; ring|]. rewrite E1.
  transitivity ((Bb - A * S) + ((za - 1) * mm) * (Bb - A * S) + ee); [apply cong_of_eq; ring|]. rewrite Hm. apply cong_of_eq. ring.
Qed.

(** Moving a power of X from the noise combination to the digits. *)
Lemma rotd_lens v ds : Forall (fun d => length d = n) (rotd v ds).
Proof. apply Forall_forall. intros d Hd. apply in_map_iff in Hd. destruct Hd as (y & <- & _). apply negacyclic_length. Qed.
Lemma ev_lincomb_rot z (Hz : root p k z) u v ds es : Forall (fun d => length d = n) ds -> Forall (fun e => length e = n) es ->
  cong p (ev z (lincomb n (rotd (u + v) ds) es)) (zexp z n u * ev z (lincomb n (rotd v ds) es)).
Proof.
  intros Hd. revert es. unfold rotd. induction Hd as [|d ds Ld Hd IH]; intros es He; cbn [map lincomb].
  - rewrite ev_zeros. apply cong_of_eq. ring.
  - destruct He as [|e es Le He]; [rewrite ev_zeros; apply cong_of_eq; ring|]. rewrite !ev_add by (rewrite negacyclic_length, lincomb_len; reflexivity).
    assert (Hz' : cong p (npow z n) (-1)) by exact Hz.
    rewrite !(ev_negacyclic p z n) by (first [exact Hz'|apply xpow_length|apply negacyclic_length|assumption]).
    rewrite !(ev_xpow p z n) by (first [exact Hz'|apply nn0]). rewrite (zexp_add p z n u v (nn0 k) Hz'), (IH es He). apply cong_of_eq. ring.
Qed.
Lemma ev_rotd_0 z (Hz : root p k z) ds es : Forall (fun d => length d = n) ds -> Forall (fun e => length e = n) es ->
  cong p (ev z (lincomb n (rotd 0 ds) es)) (ev z (lincomb n ds es)).
Proof.
  intros Hd. revert es. unfold rotd. induction Hd as [|d ds Ld Hd IH]; intros es He; cbn [map lincomb]; [apply cong_refl|].
  destruct He as [|e es Le He]; [apply cong_refl|]. rewrite !ev_add by (rewrite negacyclic_length, lincomb_len; reflexivity).
  assert (Hz' : cong p (npow z n) (-1)) by exact Hz.
  rewrite !(ev_negacyclic p z n) by (first [exact Hz'|apply xpow_length|apply negacyclic_length|assumption]).
  rewrite (ev_xpow p z n) by (first [exact Hz'|apply nn0]). rewrite zexp_0, (IH es He). apply cong_of_eq. ring.
Qed.
Lemma ev_stepnoise z (Hz : root p k z) v x (e : rows2) : rl_len n x -> Forall (fun e => length e = n) (fst e) -> Forall (fun e => length e = n) (snd e) ->
  cong p (ev z (stepnoise v x e)) (zexp z n v * (ev z (lincomb n (digs (ra x)) (fst e)) + ev z (lincomb n (digs (rb x)) (snd e)))).
Proof.
  intros (Lx & Lx') H1 H2. unfold stepnoise. rewrite ev_add by (rewrite !lincomb_len; reflexivity).
  replace v with (v + 0) at 1 2 by ring. rewrite !(ev_lincomb_rot z Hz) by (first [assumption|apply pdigs_lens; assumption]).
  rewrite !(ev_rotd_0 z Hz) by (first [assumption|apply pdigs_lens; assumption]). apply cong_of_eq. ring.
Qed.

(** Bound on the digits. *)
Lemma negacyclic_fit y d : negacyclic n d y = negacyclic n d (firstn n (y ++ repeat 0 n)).
Proof.
  assert (HN : forall i, (i < n)%nat -> nth i (firstn n (y ++ repeat 0 n)) 0 = nth i y 0).
  { intros i Hi. transitivity (nth i (y ++ repeat 0 n) 0).
    - rewrite <- (firstn_skipn n (y ++ repeat 0 n)) at 2. rewrite app_nth1; [reflexivity|]. rewrite firstn_length, app_length, repeat_length. lia.
    - destruct (Nat.lt_ge_cases i (length y)) as [H|H]; [apply app_nth1; exact H|]. rewrite app_nth2 by exact H. rewrite (nth_overflow y) by exact H. apply nth_repeat. }
  unfold negacyclic. apply map_ext_in. intros t Ht. apply in_seq in Ht. unfold negacyclic_coeff. apply zsum_ext. intros i Hi.
  destruct (Nat.leb_spec i t); rewrite HN by lia; reflexivity.
Qed.
Lemma fit_bounded E y : 0 <= E -> bounded E y -> bounded E (firstn n (y ++ repeat 0 n)).
Proof.
  intros HE H. unfold bounded in *. rewrite Forall_forall in *. intros x Hx. assert (In x (y ++ repeat 0 n)) as Hi.
  { rewrite <- (firstn_skipn n (y ++ repeat 0 n)). apply in_or_app. left. exact Hx. }
  apply in_app_or in Hi. destruct Hi as [Hi|Hi]; [apply H; exact Hi|]. apply repeat_spec in Hi. subst x. exact HE.
Qed.
Lemma digs_bound f : Forall (fun d => Forall (fun x => Z.abs x <= 2 ^ bits - 1) d) (digs f).
Proof.
  unfold digs. generalize l. intros m. revert f. induction m; intros f; cbn [pdigs]; constructor; [|apply IHm].
  apply Forall_forall. intros x Hx. apply in_map_iff in Hx. destruct Hx as (y & <- & _). pose proof (Z.mod_pos_bound y (2 ^ bits) (Z.pow_pos_nonneg 2 bits ltac:(lia) Hbits)). lia.
Qed.
Lemma rotd_bound v f : Forall (fun d => forall i, Z.abs (nth i d 0) <= 2 ^ bits - 1) (rotd v (digs f)).
Proof.
  pose proof (digs_bound f) as HB. pose proof (Z.pow_pos_nonneg 2 bits ltac:(lia) Hbits) as P.
  unfold rotd. apply Forall_forall. intros d Hd. apply in_map_iff in Hd. destruct Hd as (y & <- & Hy).
  rewrite Forall_forall in HB. apply (bounded_nth (2 ^ bits - 1)); [lia|]. rewrite negacyclic_fit.
  apply bounded_mono; [apply nn0|lia|rewrite firstn_length, app_length, repeat_length; lia|]. apply fit_bounded; [lia|apply HB; exact Hy].
Qed.
Lemma digs_length f : length (digs f) = l.
Proof. unfold digs. generalize l. intros m. revert f. induction m; intros f; cbn; [reflexivity|]. f_equal. apply IHm. Qed.

Section Step.
Variable R : forall A : Type, dist A -> (A -> Z) -> Z -> Prop.
Hypothesis CR : calculus R.
Arguments R {A}.
Variables (D : dist Z) (V : Z).
Hypothesis HD : nonneg D.
Hypothesis HR : forall c, R D (fun x => c * x) (c * c * V).
Hypothesis HV : 0 <= V.
Definition step_var : Z := 2 * (Z.of_nat l * (Z.of_nat n * ((2 ^ bits - 1) * (2 ^ bits - 1) * V))).
Lemma step_var_nonneg : 0 <= step_var.
Proof.
  unfold step_var. generalize (2 ^ bits - 1). intros c. assert (HE : 0 <= c * c * V) by (apply Z.mul_nonneg_nonneg; [apply Z.square_nonneg|exact HV]).
  revert HE. generalize (c * c * V). intros E HE. nia.
Qed.
Lemma nonneg_rows2 : nonneg (noise_rows2 n l D).
Proof. apply nonneg_both; apply nonneg_each, nonneg_each; exact HD. Qed.
Lemma R_stepnoise v x t : (t < n)%nat -> R (noise_rows2 n l D) (fun e => nth t (stepnoise v x e) 0) step_var.
Proof.
  intros Ht. pose proof (Z.pow_pos_nonneg 2 bits ltac:(lia) Hbits) as P.
  apply (cal_ext _ CR _ _ (fun e => nth t (lincomb n (rotd v (digs (ra x))) (fst e)) 0 + nth t (lincomb n (rotd v (digs (rb x))) (snd e)) 0)).
  { intros e w' _. unfold stepnoise. symmetry. apply nth_padd. rewrite !lincomb_len. reflexivity. }
  replace step_var with (Z.of_nat l * (Z.of_nat n * ((2 ^ bits - 1) * (2 ^ bits - 1) * V)) + Z.of_nat l * (Z.of_nat n * ((2 ^ bits - 1) * (2 ^ bits - 1) * V))) by (unfold step_var; ring).
  apply (cal_both _ CR _ _ _ _ (fun e0 => nth t (lincomb n (rotd v (digs (ra x))) e0) 0) (fun _ e1 => nth t (lincomb n (rotd v (digs (rb x))) e1) 0)).
  - apply nonneg_each, nonneg_each; exact HD.
  - apply nonneg_each, nonneg_each; exact HD.
  - apply (R_lincomb (@R) CR); try assumption; try lia; [unfold rotd; rewrite map_length; apply digs_length|apply rotd_bound].
  - pose proof step_var_nonneg. unfold step_var in *. lia.
  - intros e0 w' _. apply (R_lincomb (@R) CR); try assumption; try lia; [unfold rotd; rewrite map_length; apply digs_length|apply rotd_bound].
Qed.
End Step.

(** * Key entries with known noise *)
Definition good_u (u : rows2) : Prop := rows2_shape n l (canonical p) u.
Definition good_e (e : rows2) : Prop := rows2_shape n l (fun _ => True) e.
Lemma good_e_lens e : good_e e -> Forall (fun e => length e = n) (fst e) /\ Forall (fun e => length e = n) (snd e).
Proof. intros ((_ & H1) & (_ & H2)). split; eapply Forall_impl; try eassumption; cbn beta; tauto. Qed.

Lemma half_draw (u e : list (list Z)) : length u = l -> Forall (fun a => length a = n /\ canonical p a) u -> length e = l -> Forall (fun a => length a = n /\ True) e ->
  rnd_ok F k (combine u (map (pmod p) e)) /\ length (combine u (map (pmod p) e)) = l /\ map snd (combine u (map (pmod p) e)) = map (pmod p) e.
Proof.
  intros Lu Hu Le He. assert (LL : length u = length e) by congruence.
  split; [|split; [rewrite combine_length, map_length; lia|]].
  - clear Lu Le. revert e He LL. induction Hu as [|a u (La & Ca) Hu IH]; intros [|x e] He LL; try discriminate LL; cbn [map combine]; constructor.
    + inversion He as [|? ? (Lx & _) He']; subst. cbn [fst snd]. unfold pwf. split; (split; [|]); try assumption; [rewrite pmod_length; exact Lx|]. apply pmod_canonical. exact (p0 F tbl k w C).
    + inversion He; subst. injection LL as LL. apply IH; assumption.
  - clear Lu Le Hu He. revert e LL. induction u as [|a u IH]; intros [|x e] LL; try discriminate LL; cbn [map combine snd]; [reflexivity|]. f_equal. apply IH. injection LL. auto.
Qed.
Lemma pmod_congs (e : list (list Z)) : Forall2 (pcong p) (map (pmod p) e) e.
Proof. pose proof (p0 F tbl k w C). induction e; cbn [map]; constructor; [apply pcong_pmod; lia|assumption]. Qed.
Lemma enc_draw m rows e : gadget_encrypts p n s (2 ^ bits) m rows (map (pmod p) e) -> gadget_encrypts p n s (2 ^ bits) m rows e.
Proof. intros H. apply genc_elim. eapply genc_econg; [apply genc_intro; exact H|apply pmod_congs]. Qed.

Lemma zero_rgsw_is u e : good_u u -> good_e e -> exists RN, nrgsw_zero_sample F tbl (ntt s) b (fst (draw p u e)) (snd (draw p u e)) = Some RN /\
  rgsw_is (monomial n 0 0) RN e.
Proof.
  intros ((U1 & U2) & (U3 & U4)) ((E1 & E2) & (E3 & E4)). destruct (half_draw _ _ U1 U2 E1 E2) as (R0 & L0 & S0). destruct (half_draw _ _ U3 U4 E3 E4) as (R1 & L1 & S1).
  cbn [draw fst snd]. destruct (nrgsw_zero_main F Hok Hp tbl k w C Hk s Ls b bits _ _ R0 R1 L0 L1) as (RN & R & X1 & X2 & W & P0 & P1).
  rewrite S0 in P0. rewrite S1 in P1. exists RN. split; [exact X1|]. exists R. rewrite <- (zero_monomial k). split; [exact X2|]. split; [exact W|]. split; apply enc_draw; assumption.
Qed.
Lemma one_rgsw_is u e : good_u u -> good_e e -> exists RN, nrgsw_one_sample F tbl (ntt s) b (fst (draw p u e)) (snd (draw p u e)) = Some RN /\
  rgsw_is (monomial n 1 0) RN e.
Proof.
  intros ((U1 & U2) & (U3 & U4)) ((E1 & E2) & (E3 & E4)). destruct (half_draw _ _ U1 U2 E1 E2) as (R0 & L0 & S0). destruct (half_draw _ _ U3 U4 E3 E4) as (R1 & L1 & S1).
  cbn [draw fst snd]. destruct (nrgsw_one_main F Hok Hp tbl k w C Hk s Ls b bits Hb Hbits _ _ R0 R1 L0 L1) as (RN & R & X1 & X2 & W & P0 & P1).
  rewrite S0 in P0. rewrite S1 in P1. exists RN. split; [exact X1|]. exists R. split; [exact X2|]. split; [exact W|]. split; apply enc_draw; assumption.
Qed.

(** One step followed by the rest of the loop. *)
Lemma compose_exact u v P Q ns0 ns R e2 : length P = n -> length Q = n -> length ns0 = n -> length ns = n -> length e2 = n -> length R = n ->
  pcong p Q (padd (negacyclic n (xpow n u) P) ns0) -> (forall z, root p k z -> cong p (ev z ns) (zexp z n v * ev z ns0)) ->
  pcong p R (padd (negacyclic n (xpow n v) Q) e2) -> pcong p R (padd (negacyclic n (xpow n (u + v)) P) (padd ns e2)).
Proof.
  intros LP LQ Ln0 Ln Le2 LR HQ Hns HR. pose proof (xpow_length n) as LX. eapply pcong_trans; [exact HR|].
  apply (EQ_pcong p w k Hp (Hp2 F tbl k w C) (Hw F tbl k w C)); [len n|len n|]. intros z Hz.
  assert (Hz' : cong p (npow z n) (-1)) by exact Hz. pose proof (ev_cong p z z _ _ (cong_refl p z) HQ) as E.
  rewrite ev_add in E by (len n). rewrite !ev_add by (len n).
  rewrite !(ev_negacyclic p z n) in E by (try assumption; apply LX). rewrite !(ev_negacyclic p z n) by (try assumption; apply LX).
  rewrite E, (Hns z Hz), !(ev_xpow p z n) by (first [apply nn0|assumption]).
  rewrite (zexp_add p z n u v (nn0 k) Hz'). apply cong_of_eq. ring.
Qed.
Lemma base_case P : length P = n -> pcong p P (padd (negacyclic n (xpow n 0) P) (repeat 0 n)).
Proof. apply (xpow_0_mul F Hp tbl k w C Hk s Ls). Qed.

(** * Binary keys *)
Definition bin_entry (z0 : Z) (u e : rows2) : rgsw :=
  match (if z0 =? 0 then nrgsw_zero_sample F tbl (ntt s) b (fst (draw p u e)) (snd (draw p u e))
         else nrgsw_one_sample F tbl (ntt s) b (fst (draw p u e)) (snd (draw p u e))) with
  | Some RN => RN | None => nrgsw_zero n b end.
Definition bin_noise1 (v a0 : Z) (acc : rlwe) (e : rows2) : list Z := stepnoise v (stepx (Z.to_nat a0) acc) e.
Definition bin_next1 (z0 a0 : Z) (u : rows2) (acc : rlwe) (e : rows2) : rlwe := next (bin_entry z0 u e) (Z.to_nat a0) acc.
Definition bin_noise := loop_noise n bin_noise1 bin_next1.
Lemma bin_noise_len z a us acc es : length (bin_noise z a us acc es) = n.
Proof. apply loop_noise_len. intros. apply stepnoise_len. Qed.

Lemma binary_loop_exact z : Forall (fun x => x = 0 \/ x = 1) z -> forall us es, length us = length z -> length es = length z ->
  Forall good_u us -> Forall good_e es ->
  exists key, binary_generate F tbl z (ntt s) b (draws p us es) = Some key /\
  forall a, length a = length z -> Forall (fun x => 0 <= x < 2 * Z.of_nat n) a ->
  forall ext acc, rl_len n ext -> rlwe_wf p n acc ->
  exists ct, binary_loop F tbl n key a ext acc = Some ct /\ rlwe_wf p n ct /\
    pcong p (rphase n s ct) (padd (negacyclic n (xpow n (dotz a z)) (rphase n s acc)) (bin_noise z a us acc es)) /\
    ct = loop_out bin_next1 z a us acc es.
Proof.
  induction 1 as [|z0 z Hz0 Hz IH]; intros [|u us] [|e es] Lu Le Hu He; try discriminate Lu; try discriminate Le.
  - exists []. split; [reflexivity|]. intros [|a0 a] La Ha ext acc Lext Wacc; [|discriminate La]. exists acc. split; [reflexivity|]. split; [exact Wacc|].
    split; [apply base_case, rphase_len, (wf_len p), Wacc|reflexivity].
  - injection Lu as Lu. injection Le as Le. inversion Hu as [|? ? Gu Hu']; subst. inversion He as [|? ? Ge He']; subst.
    destruct (IH us es Lu Le Hu' He') as (key & EK & HK).
    assert (HE : exists RN, (if z0 =? 0 then nrgsw_zero_sample F tbl (ntt s) b (fst (draw p u e)) (snd (draw p u e))
         else nrgsw_one_sample F tbl (ntt s) b (fst (draw p u e)) (snd (draw p u e))) = Some RN /\ rgsw_is (monomial n z0 0) RN e).
    { destruct Hz0 as [-> | ->]; cbn [Z.eqb]; [apply zero_rgsw_is|apply one_rgsw_is]; assumption. }
    destruct HE as (RN & ER & HR). exists (RN :: key).
    split. { unfold binary_generate in *. unfold draws in *. cbn [combine map mapM2]. cbn [fst snd] in *. rewrite ER. cbn [bind]. rewrite EK. reflexivity. }
    intros [|a0 a] La Ha ext acc Lext Wacc; [discriminate La|]. injection La as La. inversion Ha as [|? ? Ha0 Ha']; subst. cbn [binary_loop dotz].
    unfold bin_noise. cbn [loop_noise loop_out]. fold bin_noise. destruct (Z.eqb_spec a0 0) as [->|Hnz]; [apply HK; assumption|].
    assert (EN : bin_next1 z0 a0 u acc e = next RN (Z.to_nat a0) acc) by (unfold bin_next1, bin_entry; rewrite ER; reflexivity).
    destruct (cmux_exact (monomial n z0 0) RN e acc ext (Z.to_nat a0) (a0 * z0) (monomial_length _ _ _) HR Wacc Lext ltac:(lia))
        as (x2 & X1 & X2 & L2 & X3 & W' & Pe).
    { intros y Hy. rewrite (ev_monomial p y n) by (try exact Hy; pose proof (nn0 k); lia). rewrite npow_0, (zexp_small y n a0) by assumption.
      destruct Hz0 as [-> | ->]; [rewrite (Z.mul_0_r a0), zexp_0|rewrite (Z.mul_1_r a0)]; apply cong_of_eq; ring. }
    rewrite X1. cbn [bind]. rewrite X2. cbn [bind]. rewrite X3. cbn [bind].
    destruct (HK a La Ha' x2 _ L2 W') as (ct & Ec & Wc & Pc & Oc). exists ct. split; [exact Ec|]. split; [exact Wc|].
    rewrite EN. split; [|exact Oc]. pose proof (good_e_lens e Ge) as (G1 & G2).
    pose proof (wf_len p n _ (stepx_wf (Z.to_nat a0) acc Wacc)) as LX.
    eapply compose_exact; [| | | | | |exact Pe| |exact Pc].
    + apply rphase_len, (wf_len p), Wacc.
    + apply rphase_len, (wf_len p), W'.
    + apply len_padd; apply lincomb_len.
    + apply stepnoise_len.
    + apply bin_noise_len.
    + apply rphase_len, (wf_len p), Wc.
    + intros y Hy. unfold bin_noise1. rewrite (ev_stepnoise y Hy) by assumption. rewrite ev_add by (rewrite !lincomb_len; reflexivity). apply cong_refl.
Qed.

(** * Ternary keys *)
Local Notation ecombs := (ecombs k).
Definition ek_of (v : list Z) (R0 R1 : rgsw) : rgsw :=
  match nrgsw_add_mul_inplace F R0 R1 (ntt v) (nrgsw_zero n b) with Some ek => ek | None => R0 end.
Lemma rgsw_is_comb v m0 m1 R0 R1 e0 e1 dst : length v = n -> length m0 = n -> length m1 = n ->
  rgsw_is m0 R0 e0 -> rgsw_is m1 R1 e1 -> gspace k b dst ->
  nrgsw_add_mul_inplace F R0 R1 (ntt v) dst = Some (ek_of v R0 R1) /\ gspace k b (ek_of v R0 R1) /\
    rgsw_is (padd m0 (negacyclic n v m1)) (ek_of v R0 R1) (ecombs v (fst e0) (fst e1), ecombs v (snd e0) (snd e1)).
Proof.
  intros Lv L0 L1 (X & N0 & W0 & (P0 & P0')) (Y & N1 & W1 & (P1 & P1')) Hd.
  pose proof (rgsw_to_ntt_correct F Hok tbl k w C b X W0) as T0. pose proof (rgsw_to_ntt_correct F Hok tbl k w C b Y W1) as T1.
  rewrite N0 in T0. injection T0 as ->. rewrite N1 in T1. injection T1 as ->.
  assert (EE : ek_of v (nrgsw F k w b X) (nrgsw F k w b Y) = nrgsw F k w b (rcomb F k b v X Y)).
  { unfold ek_of. rewrite (rgsw_comb F Hok Hp tbl k w C b) by (try assumption; apply zero_space). reflexivity. }
  rewrite EE. split; [apply (rgsw_comb F Hok Hp tbl k w C b); assumption|].
  pose proof (rcomb_wf F tbl k w C b v X Y W0 W1) as WC. split; [apply nrgsw_space; exact WC|].
  exists (rcomb F k b v X Y). split; [apply (rgsw_to_ntt_correct F Hok tbl k w C); exact WC|]. split; [exact WC|].
  destruct W0 as ((_ & A0 & W0) & (_ & A1 & W0')), W1 as ((_ & A2 & W1) & (_ & A3 & W1')).
  pose proof (wf_lens F k _ W0). pose proof (wf_lens F k _ W0'). pose proof (wf_lens F k _ W1). pose proof (wf_lens F k _ W1').
  split; cbn [rcomb c_neg c_m gd fst snd].
  - apply (enc_cong F k s bits (padd (pneg (negacyclic n m0 s)) (negacyclic n v (pneg (negacyclic n m1 s))))).
    + apply (EQ_pcong p w k Hp (Hp2 F tbl k w C) (Hw F tbl k w C)); [len n|len n|]. intros z Hz.
      assert (LN1 : length (negacyclic n m1 s) = n) by (len n). assert (LN2 : length (negacyclic n v m1) = n) by (len n).
      rewrite ev_add by (len n). rewrite !ev_neg. rewrite (ev_negacyclic p z n v _ Lv (len_pneg n _ LN1) Hz), ev_neg.
      rewrite !(ev_negacyclic p z n) by (first [assumption|len n]). rewrite ev_add by (len n). rewrite !(ev_negacyclic p z n) by assumption. apply cong_of_eq. ring.
    + apply genc_elim. apply (genc_comb F Hp tbl k w C); try assumption; [len n|len n|apply genc_intro; exact P0|apply genc_intro; exact P1|congruence].
  - apply genc_elim. apply (genc_comb F Hp tbl k w C); try assumption; [apply genc_intro; exact P0'|apply genc_intro; exact P1'|congruence].
Qed.
Lemma ev_ecombs z (Hz : root p k z) v ds es es' : length v = n -> Forall (fun d => length d = n) ds -> Forall (fun e => length e = n) es -> Forall (fun e => length e = n) es' ->
  length es = length es' ->
  cong p (ev z (lincomb n ds (ecombs v es es'))) (ev z (lincomb n ds es) + ev z v * ev z (lincomb n ds es')).
Proof.
  intros Lv Hd. revert es es'. induction Hd as [|d ds Ld Hd IH]; intros es es' H H' LL; cbn [lincomb].
  - rewrite ev_zeros. apply cong_of_eq. ring.
  - destruct H as [|e es Le H], H' as [|e' es' Le' H']; try discriminate LL; cbn [BlindProofs.ecombs lincomb]; [rewrite ev_zeros; apply cong_of_eq; ring|].
    injection LL as LL. assert (Hz' : cong p (npow z n) (-1)) by exact Hz.
    rewrite !ev_add by (rewrite negacyclic_length, lincomb_len; reflexivity).
    rewrite !(ev_negacyclic p z n) by (first [exact Hz'|assumption|len n]).
    rewrite ev_add by (len n). rewrite !(ev_negacyclic p z n) by (first [exact Hz'|assumption]). rewrite (IH es es' H H' LL). apply cong_of_eq. ring.
Qed.

Definition ter_v (a0 : Z) : list Z := monomial n (-1) (Z.to_nat (2 * Z.of_nat n - a0)).
Lemma ev_ter_v z (Hz : root p k z) a0 : 0 <= a0 < 2 * Z.of_nat n -> cong p (ev z (ter_v a0)) (zexp z n (Z.of_nat n - a0)).
Proof.
  intros Ha. assert (Hz' : cong p (npow z n) (-1)) by exact Hz. unfold ter_v. rewrite monomial_neg by apply nn0.
  rewrite (ev_monomial p z n) by (try exact Hz'; pose proof (nn0 k); lia). rewrite (npow_zexp p z n _ (nn0 k) Hz'). apply cong_of_eq. rewrite Z.mul_1_l. unfold zexp. do 2 f_equal.
  rewrite Nat2Z.inj_add, Z2Nat.id by lia. replace (2 * Z.of_nat n - a0 + Z.of_nat n) with (Z.of_nat n - a0 + 1 * (2 * Z.of_nat n)) by ring. apply Z_mod_plus_full.
Qed.
Definition ter_entry (z0 : Z) (u e : rows2 * rows2) : rgsw * rgsw :=
  (bin_entry (if z0 =? 1 then 1 else 0) (fst u) (fst e), bin_entry (if z0 =? -1 then 1 else 0) (snd u) (snd e)).
Definition ter_noise1 (v a0 : Z) (acc : rlwe) (e : rows2 * rows2) : list Z :=
  padd (stepnoise v (stepx (Z.to_nat a0) acc) (fst e)) (stepnoise (v + (Z.of_nat n - a0)) (stepx (Z.to_nat a0) acc) (snd e)).
Definition ter_next1 (z0 a0 : Z) (u : rows2 * rows2) (acc : rlwe) (e : rows2 * rows2) : rlwe :=
  next (ek_of (ter_v a0) (fst (ter_entry z0 u e)) (snd (ter_entry z0 u e))) (Z.to_nat a0) acc.
Definition ter_noise := loop_noise n ter_noise1 ter_next1.
Lemma ter_noise1_len v a0 acc e : length (ter_noise1 v a0 acc e) = n.
Proof. apply len_padd; apply stepnoise_len. Qed.
Lemma ter_noise_len z a us acc es : length (ter_noise z a us acc es) = n.
Proof. apply loop_noise_len. apply ter_noise1_len. Qed.
Definition good_uu (u : rows2 * rows2) : Prop := good_u (fst u) /\ good_u (snd u).
Definition good_ee (e : rows2 * rows2) : Prop := good_e (fst e) /\ good_e (snd e).

Lemma bin_entry_is m u e : m = 0 \/ m = 1 -> good_u u -> good_e e -> 
  (if m =? 0 then nrgsw_zero_sample F tbl (ntt s) b (fst (draw p u e)) (snd (draw p u e))
   else nrgsw_one_sample F tbl (ntt s) b (fst (draw p u e)) (snd (draw p u e))) = Some (bin_entry m u e) /\
  rgsw_is (monomial n m 0) (bin_entry m u e) e.
Proof.
  intros Hm Gu Ge. unfold bin_entry. destruct Hm as [-> | ->]; cbn [Z.eqb].
  - destruct (zero_rgsw_is u e Gu Ge) as (RN & E & HR). rewrite E. split; [reflexivity|exact HR].
  - destruct (one_rgsw_is u e Gu Ge) as (RN & E & HR). rewrite E. split; [reflexivity|exact HR].
Qed.

Lemma ternary_loop_exact q T : (k <= 31)%nat -> 2 < q -> tbl k = Some T -> tab_ok F w k T ->
  forall z, Forall (fun x => x = 0 \/ x = 1 \/ x = -1) z -> forall us es, length us = length z -> length es = length z ->
  Forall good_uu us -> Forall good_ee es ->
  exists key, ternary_generate F tbl (map (fun x => x mod q) z) (ntt s) b (draws2 p us es) = Some key /\
  forall a, length a = length z -> Forall (fun x => 0 <= x < 2 * Z.of_nat n) a ->
  forall ext ek acc, rl_len n ext -> gspace k b ek -> rlwe_wf p n acc ->
  exists ct, ternary_loop F tbl T n key a ext ek acc = Some ct /\ rlwe_wf p n ct /\
    pcong p (rphase n s ct) (padd (negacyclic n (xpow n (dotz a z)) (rphase n s acc)) (ter_noise z a us acc es)) /\
    ct = loop_out ter_next1 z a us acc es.
Proof.
  intros H31 Hq ET HT.
  induction 1 as [|z0 z Hz0 Hz IH]; intros [|u us] [|e es] Lu Le Hu He; try discriminate Lu; try discriminate Le.
  - exists []. split; [reflexivity|]. intros [|a0 a] La Ha ext ek acc Lext Hek Wacc; [|discriminate La]. exists acc. split; [reflexivity|]. split; [exact Wacc|].
    split; [apply base_case, rphase_len, (wf_len p), Wacc|reflexivity].
  - injection Lu as Lu. injection Le as Le. inversion Hu as [|? ? Gu Hu']; subst. inversion He as [|? ? Ge He']; subst.
    destruct (IH us es Lu Le Hu' He') as (key & EK & HK). destruct Gu as (Gu0 & Gu1). destruct Ge as (Ge0 & Ge1).
    set (m0 := if z0 =? 1 then 1 else 0). set (m1 := if z0 =? -1 then 1 else 0).
    destruct (bin_entry_is m0 (fst u) (fst e) ltac:(unfold m0; destruct (z0 =? 1); tauto) Gu0 Ge0) as (ER0 & HR0).
    destruct (bin_entry_is m1 (snd u) (snd e) ltac:(unfold m1; destruct (z0 =? -1); tauto) Gu1 Ge1) as (ER1 & HR1).
    set (R0 := bin_entry m0 (fst u) (fst e)) in *. set (R1 := bin_entry m1 (snd u) (snd e)) in *.
    exists ((R0, R1) :: key).
    split.
    { unfold ternary_generate in *. unfold draws2 in *. cbn [combine map mapM2 fst snd]. rewrite EK.
      destruct (draw p (fst u) (fst e)) as [r0 r0'] eqn:D0. destruct (draw p (snd u) (snd e)) as [r1 r1'] eqn:D1. cbn [fst snd] in ER0, ER1.
      unfold m0 in ER0. unfold m1 in ER1. destruct Hz0 as [-> | [-> | ->]].
      - rewrite Zmod_0_l. cbn [Z.eqb] in *. rewrite ER0. cbn [bind]. rewrite ER1. reflexivity.
      - rewrite Z.mod_1_l by lia. cbn [Z.eqb Pos.eqb] in *. rewrite ER0. cbn [bind]. rewrite ER1. reflexivity.
      - assert (Em : -1 mod q = q - 1) by (symmetry; apply (Z.mod_unique _ _ (-1)); lia). rewrite Em.
        replace (q - 1 =? 1) with false by (symmetry; apply Z.eqb_neq; lia). replace (q - 1 =? 0) with false by (symmetry; apply Z.eqb_neq; lia).
        cbn [Z.eqb Pos.eqb] in *. rewrite ER0. cbn [bind]. rewrite ER1. reflexivity. }
    intros [|a0 a] La Ha ext ek acc Lext Hek Wacc; [discriminate La|]. injection La as La. inversion Ha as [|? ? Ha0 Ha']; subst. cbn [ternary_loop dotz].
    unfold ter_noise. cbn [loop_noise loop_out]. fold ter_noise. destruct (Z.eqb_spec a0 0) as [->|Hnz]; [apply HK; assumption|].
    unfold usub. replace (a0 <=? 2 * Z.of_nat n) with true by (symmetry; apply Z.leb_le; lia). cbn [bind].
    assert (Hn31 : Z.of_nat n <= 2 ^ 31).
    { replace (2 ^ 31) with (Z.of_nat (2 ^ 31)) by (rewrite Nat2Z.inj_pow; reflexivity). apply inj_le. apply Nat.pow_le_mono_r; lia. }
    pose proof C as (H2 & H63 & Hroot & _).
    rewrite (t_neg_one_correct F Hok w k T H2 H31 Hroot HT) by lia. cbn [bind].
    rewrite (mono_ntt_transform F w k H2 H63 Hroot). fold (ter_v a0).
    assert (Lv : length (ter_v a0) = n) by apply monomial_length.
    destruct (rgsw_is_comb (ter_v a0) _ _ R0 R1 _ _ ek Lv (monomial_length _ _ _) (monomial_length _ _ _) HR0 HR1 Hek) as (Eek & Sek & HR). rewrite Eek. cbn [bind].
    assert (Lm : length (padd (monomial n m0 0) (negacyclic n (ter_v a0) (monomial n m1 0))) = n)
        by (apply len_padd; [apply monomial_length|apply negacyclic_length]).
    assert (EN : ter_next1 z0 a0 u acc e = next (ek_of (ter_v a0) R0 R1) (Z.to_nat a0) acc) by reflexivity.
    destruct (cmux_exact _ _ _ acc ext (Z.to_nat a0) (a0 * z0) Lm HR Wacc Lext ltac:(lia))
        as (x2 & X1 & X2 & L2 & X3 & W' & Pe).
    { intros y Hy. assert (Hy' : cong p (npow y n) (-1)) by exact Hy.
      rewrite ev_add by (rewrite monomial_length, negacyclic_length; reflexivity).
      rewrite (ev_negacyclic p y n _ _ Lv (monomial_length _ _ _) Hy').
      unfold ter_v. rewrite !(ev_monomial p y n) by (try exact Hy; pose proof (nn0 k); lia). rewrite npow_0, (zexp_small y n a0) by assumption. unfold m0, m1.
      destruct Hz0 as [-> | [-> | ->]].
      - rewrite (Z.mul_0_r a0), zexp_0. cbn [Z.eqb]. apply cong_of_eq. ring.
      - rewrite (Z.mul_1_r a0). cbn [Z.eqb Pos.eqb]. apply cong_of_eq. ring.
      - cbn [Z.eqb Pos.eqb].
        assert (Ez : cong p (npow y (Z.to_nat (2 * Z.of_nat n - a0))) (zexp y n (a0 * -1))).
        { eapply cong_trans; [apply (npow_zexp p y n _ (nn0 k) Hy')|]. apply cong_of_eq. unfold zexp. do 2 f_equal.
          rewrite Z2Nat.id by lia. replace (2 * Z.of_nat n - a0) with (a0 * -1 + 1 * (2 * Z.of_nat n)) by ring. apply Z_mod_plus_full. }
        rewrite Ez. pose proof (zexp_add p y n a0 (a0 * -1) (nn0 k) Hy') as EA. replace (a0 + a0 * -1) with 0 in EA by ring. rewrite zexp_0 in EA.
        transitivity (zexp y n (a0 * -1) - zexp y n a0 * zexp y n (a0 * -1)); [apply cong_of_eq; ring|]. rewrite <- EA. apply cong_refl. }
    rewrite X1. cbn [bind]. rewrite X2. cbn [bind]. rewrite X3. cbn [bind].
    destruct (HK a La Ha' x2 _ _ L2 Sek W') as (ct & Ec & Wc & Pc & Oc). exists ct. split; [exact Ec|]. split; [exact Wc|].
    rewrite EN. split; [|exact Oc]. pose proof (good_e_lens _ Ge0) as (G1 & G2). pose proof (good_e_lens _ Ge1) as (G3 & G4).
    pose proof (wf_len p n _ (stepx_wf (Z.to_nat a0) acc Wacc)) as LX.
    assert (LL : length (fst (fst e)) = length (fst (snd e)) /\ length (snd (fst e)) = length (snd (snd e))).
    { destruct Ge0 as ((? & _) & (? & _)), Ge1 as ((? & _) & (? & _)). split; congruence. }
    eapply compose_exact; [| | | | | |exact Pe| |exact Pc].
    + apply rphase_len, (wf_len p), Wacc.
    + apply rphase_len, (wf_len p), W'.
    + apply len_padd; apply lincomb_len.
    + apply ter_noise1_len.
    + apply ter_noise_len.
    + apply rphase_len, (wf_len p), Wc.
    + intros y Hy. unfold ter_noise1. rewrite ev_add by (rewrite !stepnoise_len; reflexivity). rewrite !(ev_stepnoise y Hy) by assumption.
      rewrite ev_add by (rewrite !lincomb_len; reflexivity). cbn [fst snd].
      destruct LX as (LX1 & LX2). destruct LL as (LL1 & LL2).
      rewrite !(ev_ecombs y Hy) by (first [assumption|apply pdigs_lens; assumption]). rewrite (ev_ter_v y Hy) by exact Ha0.
      rewrite (zexp_add p y n _ _ (nn0 k) Hy). apply cong_of_eq. ring.
Qed.

(** * Mean squares of the two rotations *)
Lemma exact_error z lut x t acc c ct noise : length lut = n -> length noise = n -> (t < n)%nat -> rlwe_wf p n acc -> rlwe_wf p n ct ->
  pcong p (rphase n s acc) (negacyclic n (xpow n (- c)) lut) -> c = lb x ->
  pcong p (rphase n s ct) (padd (negacyclic n (xpow n (dotz (la x) z)) (rphase n s acc)) noise) ->
  Z.abs (rotation_error p n s z lut x t ct) <= Z.abs (nth t noise 0).
Proof.
  intros Ll Ln Ht Wa Wc Pa -> Pc. pose proof (p0 F tbl k w C) as P0. unfold rotation_error. apply nearest_le; [lia|].
  assert (H : pcong p (rphase n s ct) (padd (negacyclic n (xpow n (- lb x + dotz (la x) z)) lut) (padd (repeat 0 n) noise))).
  { eapply compose_exact; [exact Ll| | | |exact Ln| | | |exact Pc].
    - apply rphase_len, (wf_len p), Wa.
    - apply repeat_length with (n := n).
    - apply repeat_length.
    - apply rphase_len, (wf_len p), Wc.
    - eapply pcong_trans; [exact Pa|]. pose proof (xpow_length n) as LX.
      apply (EQ_pcong p w k Hp (Hp2 F tbl k w C) (Hw F tbl k w C)); [len n|len n|]. intros y Hy. rewrite ev_add, ev_zeros by (len n). apply cong_of_eq. ring.
    - intros y Hy. rewrite !ev_zeros. apply cong_of_eq. ring. }
  pose proof (pcong_nth_inv _ _ _ t H) as Hn. assert (Lr : length (repeat 0 n) = length noise) by (rewrite repeat_length, Ln; reflexivity).
  rewrite nth_padd in Hn by (rewrite padd_length, negacyclic_length, repeat_length by exact Lr; reflexivity). rewrite (nth_padd _ _ _ Lr), nth_repeat in Hn.
  replace (- (lb x - dotz (la x) z)) with (- lb x + dotz (la x) z) by ring.
  destruct Hn as (q & Hq). replace (nth t (rphase n s ct) 0 - nth t (negacyclic n (xpow n (- lb x + dotz (la x) z)) lut) 0) with (nth t noise 0 + q * p) by lia.
  apply Z_mod_plus_full.
Qed.

Section Final.
Variables (D : dist Z) (V : Z).
Hypothesis HV : 0 <= V.
Lemma rows_good e wt : In (e, wt) (noise_rows2 n l D) -> good_e e.
Proof.
  destruct e as [e0 e1]. intros H. apply in_both in H. destruct H as ((v0 & H0) & (v1 & H1)).
  apply in_each in H0, H1. destruct H0 as (L0 & H0), H1 as (L1 & H1).
  split; (split; [assumption|]); cbn [fst snd]; eapply Forall_impl; try eassumption; intros a (v & Ha); apply in_each in Ha; tauto.
Qed.

Definition bin_run (us : list rows2) (z lut : list Z) (x : lwe) (es : list rows2) : option rlwe :=
  let* key := binary_generate F tbl z (ntt s) b (draws p us es) in blind_rotate F tbl (BrBinary key) lut x b.
Section Forms.
Variable R : forall A : Type, dist A -> (A -> Z) -> Z -> Prop.
Hypothesis CR : calculus R.
Arguments R {A}.
Hypothesis HD : nonneg D.
Hypothesis HR : forall c, R D (fun x => c * x) (c * c * V).
Lemma binary_form z us lut x t : Forall (fun x => x = 0 \/ x = 1) z -> length us = length z -> Forall good_u us ->
  length lut = n -> canonical p lut -> lwe_wf (2 * Z.of_nat n) (length z) x -> (t < n)%nat ->
  (forall es wt, In (es, wt) (each (length z) (noise_rows2 n l D)) -> exists ct, bin_run us z lut x es = Some ct /\ rlwe_wf p n ct) /\
  exists f, R (each (length z) (noise_rows2 n l D)) f (nonzeros (la x) * step_var V) /\
    forall es wt, In (es, wt) (each (length z) (noise_rows2 n l D)) -> Z.abs (run_error p n s z lut x t (bin_run us z lut x es)) <= Z.abs (f es).
Proof.
  intros Hz Lu Hu Ll Cl (Lx & Hx & Hbx) Ht.
  destruct (rotated_lut F Hp tbl k w C Hk s Ls lut (lb x) Ll Cl Hbx) as (acc & lut' & E1 & E2 & Wa & Pa).
  assert (R0 : forall es wt, In (es, wt) (each (length z) (noise_rows2 n l D)) -> exists ct, bin_run us z lut x es = Some ct /\ rlwe_wf p n ct /\
    Z.abs (rotation_error p n s z lut x t ct) <= Z.abs (nth t (bin_noise z (la x) us acc es) 0)).
  { intros es wt Hin. apply in_each in Hin. destruct Hin as (Le & Hin).
    assert (He : Forall good_e es) by (eapply Forall_impl; [|exact Hin]; intros e (v & He); eapply rows_good; exact He).
    destruct (binary_loop_exact z Hz us es Lu Le Hu He) as (key & EK & HK).
    destruct (HK (la x) Lx Hx (rlwe_zero n) acc (zero_len k) Wa) as (ct & Ec & Wc & Pc & _). exists ct.
    split; [|split; [exact Wc|apply (exact_error z lut x t acc (lb x) ct); try assumption; [apply bin_noise_len|reflexivity]]].
    unfold bin_run. rewrite EK. cbn [bind blind_rotate]. unfold binary_blind_rotate. rewrite Ll, E1. cbn [bind]. rewrite E2. cbn [bind]. exact Ec. }
  split; [intros es wt Hin; destruct (R0 es wt Hin) as (ct & H1 & H2 & _); exists ct; split; assumption|].
  exists (fun es => nth t (bin_noise z (la x) us acc es) 0). split.
  - apply (R_loop n bin_noise1 bin_next1 ltac:(intros; apply stepnoise_len) (@R) CR (noise_rows2 n l D) t (step_var V)
      (nonneg_rows2 D HD) (step_var_nonneg V HV)); try assumption. intros. apply (R_stepnoise (@R) CR); assumption.
  - intros es wt Hin. destruct (R0 es wt Hin) as (ct & E & _ & H). rewrite E. exact H.
Qed.

Definition ter_run (q : Z) (us : list (rows2 * rows2)) (z lut : list Z) (x : lwe) (es : list (rows2 * rows2)) : option rlwe :=
  let* key := ternary_generate F tbl (map (fun x => x mod q) z) (ntt s) b (draws2 p us es) in blind_rotate F tbl (BrTernary key) lut x b.
Lemma ternary_form q z us lut x t : (k <= 31)%nat -> 2 < q -> Forall (fun x => x = 0 \/ x = 1 \/ x = -1) z -> length us = length z -> Forall good_uu us ->
  length lut = n -> canonical p lut -> lwe_wf (2 * Z.of_nat n) (length z) x -> (t < n)%nat ->
  let DD := each (length z) (both (noise_rows2 n l D) (noise_rows2 n l D)) in
  (forall es wt, In (es, wt) DD -> exists ct, ter_run q us z lut x es = Some ct /\ rlwe_wf p n ct) /\
  exists f, R DD f (nonzeros (la x) * (2 * step_var V)) /\
    forall es wt, In (es, wt) DD -> Z.abs (run_error p n s z lut x t (ter_run q us z lut x es)) <= Z.abs (f es).
Proof.
  intros H31 Hq Hz Lu Hu Ll Cl (Lx & Hx & Hbx) Ht DD.
  destruct (rotated_lut F Hp tbl k w C Hk s Ls lut (lb x) Ll Cl Hbx) as (acc & lut' & E1 & E2 & Wa & Pa).
  destruct (lookup_ok F tbl k w C lut Ll) as (T & ET' & ET & HT).
  assert (R0 : forall es wt, In (es, wt) DD -> exists ct, ter_run q us z lut x es = Some ct /\ rlwe_wf p n ct /\
    Z.abs (rotation_error p n s z lut x t ct) <= Z.abs (nth t (ter_noise z (la x) us acc es) 0)).
  { intros es wt Hin. apply in_each in Hin. destruct Hin as (Le & Hin).
    assert (He : Forall good_ee es).
    { eapply Forall_impl; [|exact Hin]. intros [e0 e1] (v & He). apply in_both in He. destruct He as ((v0 & H0) & (v1 & H1)).
      split; eapply rows_good; eassumption. }
    destruct (ternary_loop_exact q T H31 Hq ET HT z Hz us es Lu Le Hu He) as (key & EK & HK).
    destruct (HK (la x) Lx Hx (rlwe_zero n) (nrgsw_zero n b) acc (zero_len k) (zero_space k b) Wa) as (ct & Ec & Wc & Pc & _). exists ct.
    split; [|split; [exact Wc|apply (exact_error z lut x t acc (lb x) ct); try assumption; [apply ter_noise_len|reflexivity]]].
    unfold ter_run. rewrite EK. cbn [bind blind_rotate]. unfold ternary_blind_rotate. unfold lookup in ET'. rewrite Ll in ET' |- *. rewrite len_pow2_ok in ET'. cbn [bind] in ET'. rewrite ET'. cbn [bind].
    rewrite E1. cbn [bind]. rewrite E2. cbn [bind]. exact Ec. }
  split; [intros es wt Hin; destruct (R0 es wt Hin) as (ct & H1 & H2 & _); exists ct; split; assumption|].
  pose proof (nonneg_rows2 D HD) as HN. pose proof (nonneg_both _ _ HN HN) as HNN. pose proof (step_var_nonneg V HV) as HS.
  exists (fun es => nth t (ter_noise z (la x) us acc es) 0). split.
  - apply (R_loop n ter_noise1 ter_next1 ter_noise1_len (@R) CR _ t (2 * step_var V) HNN ltac:(lia)); try assumption.
    intros v a0 acc'. replace (2 * step_var V) with (step_var V + step_var V) by ring.
    apply (cal_ext _ CR _ _ (fun e => nth t (stepnoise v (stepx (Z.to_nat a0) acc') (fst e)) 0 + nth t (stepnoise (v + (Z.of_nat n - a0)) (stepx (Z.to_nat a0) acc') (snd e)) 0)).
    { intros e wt _. unfold ter_noise1. symmetry. apply nth_padd. rewrite !stepnoise_len. reflexivity. }
    apply (cal_both _ CR _ _ _ _ (fun e0 => nth t (stepnoise v (stepx (Z.to_nat a0) acc') e0) 0) (fun _ e1 => nth t (stepnoise (v + (Z.of_nat n - a0)) (stepx (Z.to_nat a0) acc') e1) 0) _ _ HN HN); [|exact HS|].
    + apply (R_stepnoise (@R) CR); assumption.
    + intros _ _ _. apply (R_stepnoise (@R) CR); assumption.
  - intros es wt Hin. destruct (R0 es wt Hin) as (ct & E & _ & H). rewrite E. exact H.
Qed.
End Forms.

(** Mean squares. *)
Section Squares.
Hypothesis HD : centred_dist V D.
Lemma sv_draw c : sv D (fun x => c * x) (c * c * V).
Proof. apply sv_scale. split; apply HD. Qed.
Lemma sv_square {A : Type} (DD : dist A) (f g : A -> Z) B : nonneg DD -> sv DD f B -> (forall x w, In (x, w) DD -> Z.abs (g x) <= Z.abs (f x)) ->
  wsum DD (fun x => g x * g x) <= B * mass DD.
Proof.
  intros HN (_ & H) Hg. eapply Z.le_trans; [|exact H]. apply wsum_le; [exact HN|]. intros x w0 Hx. specialize (Hg x w0 Hx). nia.
Qed.
Lemma binary_moment z us lut x t : Forall (fun x => x = 0 \/ x = 1) z -> length us = length z -> Forall good_u us ->
  length lut = n -> canonical p lut -> lwe_wf (2 * Z.of_nat n) (length z) x -> (t < n)%nat ->
  (forall es wt, In (es, wt) (each (length z) (noise_rows2 n l D)) -> exists ct, bin_run us z lut x es = Some ct /\ rlwe_wf p n ct) /\
  wsum (each (length z) (noise_rows2 n l D)) (fun es => run_error p n s z lut x t (bin_run us z lut x es) * run_error p n s z lut x t (bin_run us z lut x es))
    <= nonzeros (la x) * step_var V * mass (each (length z) (noise_rows2 n l D)).
Proof.
  intros Hz Lu Hu Ll Cl Hx Ht. destruct (binary_form (@sv) sv_calculus (proj1 HD) sv_draw z us lut x t Hz Lu Hu Ll Cl Hx Ht) as (H & f & Hf & He).
  split; [exact H|]. apply (sv_square _ f); [apply nonneg_each, nonneg_rows2, HD|exact Hf|exact He].
Qed.
Lemma ternary_moment q z us lut x t : (k <= 31)%nat -> 2 < q -> Forall (fun x => x = 0 \/ x = 1 \/ x = -1) z -> length us = length z -> Forall good_uu us ->
  length lut = n -> canonical p lut -> lwe_wf (2 * Z.of_nat n) (length z) x -> (t < n)%nat ->
  let DD := each (length z) (both (noise_rows2 n l D) (noise_rows2 n l D)) in
  (forall es wt, In (es, wt) DD -> exists ct, ter_run q us z lut x es = Some ct /\ rlwe_wf p n ct) /\
  wsum DD (fun es => run_error p n s z lut x t (ter_run q us z lut x es) * run_error p n s z lut x t (ter_run q us z lut x es))
    <= nonzeros (la x) * (2 * step_var V) * mass DD.
Proof.
  intros H31 Hq Hz Lu Hu Ll Cl Hx Ht DD. destruct (ternary_form (@sv) sv_calculus (proj1 HD) sv_draw q z us lut x t H31 Hq Hz Lu Hu Ll Cl Hx Ht) as (H & f & Hf & He).
  split; [exact H|]. apply (sv_square _ f); [apply nonneg_each, nonneg_both; apply nonneg_rows2, HD|exact Hf|exact He].
Qed.
End Squares.

(** All even moments. *)
Section Gauss.
Hypothesis HD : sub_gaussian V D.
Lemma sg_power {A : Type} (DD : dist A) (f g : A -> Z) B m : nonneg DD -> sg DD f B -> (forall x w, In (x, w) DD -> Z.abs (g x) <= Z.abs (f x)) ->
  wsum DD (fun x => g x ^ Z.of_nat (2 * m)) <= odd_product m * B ^ Z.of_nat m * mass DD.
Proof.
  intros HN H Hg. eapply Z.le_trans; [|apply sg_moment; exact H]. apply wsum_le; [exact HN|]. intros x w0 Hx. specialize (Hg x w0 Hx).
  assert (Ev : Z.Even (Z.of_nat (2 * m))) by (exists (Z.of_nat m); lia).
  rewrite (Z.pow_even_abs (g x)), (Z.pow_even_abs (f x)) by exact Ev. apply Z.pow_le_mono_l. lia.
Qed.
Lemma binary_gauss z us lut x t m : Forall (fun x => x = 0 \/ x = 1) z -> length us = length z -> Forall good_u us ->
  length lut = n -> canonical p lut -> lwe_wf (2 * Z.of_nat n) (length z) x -> (t < n)%nat ->
  wsum (each (length z) (noise_rows2 n l D)) (fun es => run_error p n s z lut x t (bin_run us z lut x es) ^ Z.of_nat (2 * m))
    <= odd_product m * (nonzeros (la x) * step_var V) ^ Z.of_nat m * mass (each (length z) (noise_rows2 n l D)).
Proof.
  intros Hz Lu Hu Ll Cl Hx Ht. destruct (binary_form (@sg) sg_calculus (proj1 HD) (fun c => sg_scale D V c HV HD) z us lut x t Hz Lu Hu Ll Cl Hx Ht) as (H & f & Hf & He).
  apply (sg_power _ f); [apply nonneg_each, nonneg_rows2, HD|exact Hf|exact He].
Qed.
Lemma ternary_gauss q z us lut x t m : (k <= 31)%nat -> 2 < q -> Forall (fun x => x = 0 \/ x = 1 \/ x = -1) z -> length us = length z -> Forall good_uu us ->
  length lut = n -> canonical p lut -> lwe_wf (2 * Z.of_nat n) (length z) x -> (t < n)%nat ->
  let DD := each (length z) (both (noise_rows2 n l D) (noise_rows2 n l D)) in
  wsum DD (fun es => run_error p n s z lut x t (ter_run q us z lut x es) ^ Z.of_nat (2 * m))
    <= odd_product m * (nonzeros (la x) * (2 * step_var V)) ^ Z.of_nat m * mass DD.
Proof.
  intros H31 Hq Hz Lu Hu Ll Cl Hx Ht DD. destruct (ternary_form (@sg) sg_calculus (proj1 HD) (fun c => sg_scale D V c HV HD) q z us lut x t H31 Hq Hz Lu Hu Ll Cl Hx Ht) as (H & f & Hf & He).
  apply (sg_power _ f); [apply nonneg_each, nonneg_both; apply nonneg_rows2, HD|exact Hf|exact He].
Qed.
End Gauss.
End Final.
End Field.
