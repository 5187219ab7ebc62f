(** Moments of sums of independent draws, against those of a Gaussian. *)
From Coq Require Import ZArith List Bool Arith Lia.
From Verif Require Import Spec.Moment Spec.SubGauss Proofs.MomentProofs.
Import ListNotations.
Local Open Scope Z_scope.

(** Binomial convolution of two sequences, by Leibniz' rule. *)
Fixpoint conv (k : nat) (a b : nat -> Z) : Z :=
  match k with O => a O * b O | S k' => conv k' (fun i => a (S i)) b + conv k' a (fun i => b (S i)) end.

Lemma conv_ext k : forall a a' b b', (forall i, a i = a' i) -> (forall i, b i = b' i) -> conv k a b = conv k a' b'.
Proof.
  induction k as [|k IH]; intros a a' b b' Ha Hb; cbn [conv]; [rewrite Ha, Hb; reflexivity|].
  f_equal; apply IH; intros i; first [apply Ha|apply Hb].
Qed.
Lemma conv_sym k : forall a b, conv k a b = conv k b a.
Proof.
  induction k as [|k IH]; intros a b; cbn [conv]; [ring|]. rewrite (IH (fun i => a (S i)) b), (IH a (fun i => b (S i))). ring.
Qed.
Lemma conv_lin k : forall a a' b c, conv k (fun i => a i + c * a' i) b = conv k a b + c * conv k a' b.
Proof.
  induction k as [|k IH]; intros a a' b c; cbn [conv]; [ring|].
  rewrite (IH (fun i => a (S i)) (fun i => a' (S i)) b c), (IH a a' (fun i => b (S i)) c). ring.
Qed.
Lemma conv_lin_r k a b b' c : conv k a (fun i => b i + c * b' i) = conv k a b + c * conv k a b'.
Proof. rewrite conv_sym, conv_lin, (conv_sym k b), (conv_sym k b'). reflexivity. Qed.

Definition der (a : nat -> Z) (i : nat) : Z := Z.of_nat i * a (pred i).
Lemma conv_der k : forall a b, conv (S k) (der a) b = Z.of_nat (S k) * conv k a b.
Proof.
  induction k as [|k IH]; intros a b.
  - cbn [conv]. unfold der. cbn [pred]. lia.
  - cbn [conv]. cbn [conv] in IH. specialize (IH (fun i => a (S i)) b) as I1. specialize (IH a (fun i => b (S i))) as I2.
    assert (E : forall i, der a (S i) = der (fun i => a (S i)) i + 1 * a i).
    { intros [|i]; unfold der; cbn [pred]; lia. }
    assert (E2 : forall i, der a (S (S i)) = der (fun i => a (S i)) (S i) + 1 * a (S i)) by (intros i; apply E).
    rewrite (conv_ext k (fun i => der a (S (S i))) _ b b E2) by reflexivity.
    rewrite (conv_ext k (fun i => der a (S i)) _ (fun i => b (S i)) (fun i => b (S i)) E) at 1 by reflexivity.
    rewrite !conv_lin. 
    set (A1 := conv k (fun i => der (fun i0 => a (S i0)) (S i)) b) in *.
    set (A2 := conv k (der (fun i => a (S i))) (fun i => b (S i))) in *.
    set (A3 := conv k (fun i => der a (S i)) (fun i => b (S i))) in *.
    set (A4 := conv k (der a) (fun i => b (S (S i)))) in *.
    set (A5 := conv k (fun i => a (S i)) b) in *. set (A6 := conv k a (fun i => b (S i))) in *.
    assert (Ex : A3 = A2 + 1 * A6).
    { unfold A3, A2, A6. rewrite (conv_ext k (fun i => der a (S i)) _ (fun i => b (S i)) (fun i => b (S i)) E) by reflexivity. apply conv_lin. }
    replace (Z.of_nat (S (S k))) with (1 + Z.of_nat (S k)) by lia. lia.
Qed.

(** Moments of s + a Gaussian of variance V. *)
Fixpoint gm2 (k : nat) (s V : Z) : Z * Z :=
  match k with O => (1, s) | S k' => let ab := gm2 k' s V in (snd ab, s * snd ab + Z.of_nat k * V * fst ab) end.
Definition gm (k : nat) (s V : Z) : Z := fst (gm2 k s V).
Lemma gm_0 s V : gm 0 s V = 1. Proof. reflexivity. Qed.
Lemma gm_1 s V : gm 1 s V = s. Proof. reflexivity. Qed.
Lemma gm_SS k s V : gm (S (S k)) s V = s * gm (S k) s V + Z.of_nat (S k) * V * gm k s V.
Proof. reflexivity. Qed.
Lemma gm_S k s V : gm (S k) s V = s * gm k s V + V * der (fun i => gm i s V) k.
Proof. destruct k; [rewrite gm_0, gm_1; unfold der; cbn; ring|]. rewrite gm_SS. unfold der. cbn [pred]. ring. Qed.

Lemma two_step (P : nat -> Prop) : P 0%nat -> P 1%nat -> (forall k, P k -> P (S k) -> P (S (S k))) -> forall k, P k.
Proof. intros H0 H1 HS k. assert (H : P k /\ P (S k)) by (induction k as [|k (A & B)]; split; auto). apply H. Qed.

Lemma gm_pow k y : gm k y 0 = y ^ Z.of_nat k.
Proof.
  induction k as [| |k _ IH] using two_step; [reflexivity|rewrite gm_1; cbn; ring|]. rewrite gm_SS, IH.
  rewrite (Nat2Z.inj_succ (S k)), Z.pow_succ_r by lia. ring.
Qed.
Lemma gm_even m W : gm (2 * m) 0 W = odd_product m * W ^ Z.of_nat m.
Proof.
  induction m as [|m IH]; [reflexivity|]. replace (2 * S m)%nat with (S (S (2 * m))) by lia. rewrite gm_SS, IH.
  cbn [odd_product]. rewrite (Nat2Z.inj_succ m), Z.pow_succ_r by lia. replace (Z.of_nat (S (2 * m))) with (2 * Z.of_nat m + 1) by lia. ring.
Qed.
Lemma gm_odd m W : gm (2 * m + 1) 0 W = 0.
Proof. induction m as [|m IH]; [reflexivity|]. replace (2 * S m + 1)%nat with (S (S (2 * m + 1))) by lia. rewrite gm_SS, IH. ring. Qed.

Lemma gm_add s s' V V' : forall k, gm k (s + s') (V + V') = conv k (fun i => gm i s V) (fun i => gm i s' V').
Proof.
  assert (Z0 : forall k a, conv k (fun _ => 0) a = 0) by (clear; induction k as [|k IH]; intros a; cbn [conv]; [ring|rewrite !IH; ring]).
  assert (R0 : forall k a b, (forall i, a (S i) = s * a i + V * der a i) -> (forall i, b (S i) = s' * b i + V' * der b i) ->
    conv (S k) a b = (s + s') * conv k a b + V * conv k (der a) b + V' * conv k a (der b)).
  { intros k a b Ea Eb. cbn [conv].
    rewrite (conv_ext k (fun i => a (S i)) (fun i => (fun i => 0 + s * a i) i + V * der a i) b b) by (try reflexivity; intros i; rewrite Ea; ring).
    rewrite (conv_ext k a a (fun i => b (S i)) (fun i => (fun i => 0 + s' * b i) i + V' * der b i)) by (try reflexivity; intros i; rewrite Eb; ring).
    rewrite conv_lin, conv_lin_r, (conv_lin k (fun _ => 0) a b s), (conv_lin_r k a (fun _ => 0) b s').
    rewrite (conv_sym k a (fun _ => 0)), !Z0. ring. }
  assert (R : forall k, conv (S k) (fun i => gm i s V) (fun i => gm i s' V') =
    (s + s') * conv k (fun i => gm i s V) (fun i => gm i s' V') + V * conv k (der (fun i => gm i s V)) (fun i => gm i s' V') + V' * conv k (fun i => gm i s V) (der (fun i => gm i s' V')))
    by (intros k; apply R0; intros i; apply gm_S).
  intros k. induction k as [| |k I1 I2] using two_step.
  - rewrite gm_0. reflexivity.
  - rewrite gm_1. cbn [conv]. rewrite !gm_0, !gm_1. ring.
  - rewrite R, gm_SS, I1, I2. rewrite (conv_der k (fun i => gm i s V)). rewrite (conv_sym (S k) _ (der _)), (conv_der k (fun i => gm i s' V')), (conv_sym k (fun i => gm i s' V')). ring.
Qed.

(** Positivity, by parity. *)
Definition par (o : bool) (i : nat) : bool := Bool.eqb (Nat.odd i) o.
Definition pos (o : bool) (a : nat -> Z) : Prop := forall i, Nat.odd i = o -> 0 <= a i.
Definition only (o : bool) (a : nat -> Z) : Prop := forall i, Nat.odd i = negb o -> a i = 0.
Lemma odd_S i : Nat.odd (S i) = negb (Nat.odd i).
Proof. rewrite Nat.odd_succ, <- Nat.negb_odd. reflexivity. Qed.
Lemma conv_nonneg k : forall a c o o', pos o a -> pos o' c -> only o' c -> Nat.odd k = xorb o o' -> 0 <= conv k a c.
Proof.
  induction k as [|k IH]; intros a c o o' Ha Hc Oc Hk; cbn [conv].
  - destruct o'.
    + rewrite (Oc 0%nat eq_refl). lia.
    + destruct o; [discriminate Hk|]. apply Z.mul_nonneg_nonneg; [apply Ha|apply Hc]; reflexivity.
  - rewrite odd_S in Hk. apply Z.add_nonneg_nonneg.
    + apply (IH _ _ (negb o) o'); [|exact Hc|exact Oc|].
      * intros i Hi. apply Ha. rewrite odd_S, Hi. apply negb_involutive.
      * destruct (Nat.odd k), o, o'; cbn in *; congruence.
    + apply (IH _ _ o (negb o')); [exact Ha| | |].
      * intros i Hi. apply Hc. rewrite odd_S, Hi. apply negb_involutive.
      * intros i Hi. apply Oc. rewrite odd_S, Hi. rewrite negb_involutive. reflexivity.
      * destruct (Nat.odd k), o, o'; cbn in *; congruence.
Qed.
Lemma even_double i : Nat.odd i = false -> exists m, i = (2 * m)%nat.
Proof. intros H. assert (E : Nat.even i = true) by (rewrite <- Nat.negb_odd, H; reflexivity). apply Nat.even_spec in E. exact E. Qed.
Lemma odd_double i : Nat.odd i = true -> exists m, i = (2 * m + 1)%nat.
Proof. intros H. apply Nat.odd_spec in H. exact H. Qed.
Lemma odd_2 m : Nat.odd (2 * m) = false.
Proof. destruct (Nat.odd (2 * m)) eqn:E; [|reflexivity]. apply odd_double in E. destruct E. lia. Qed.

Lemma odd_product_pos m : 0 < odd_product m.
Proof. induction m; cbn [odd_product]; nia. Qed.
Lemma gm0_nonneg W i : 0 <= W -> 0 <= gm i 0 W.
Proof.
  intros HW. destruct (Nat.odd i) eqn:E.
  - apply odd_double in E. destruct E as (m & ->). rewrite gm_odd. lia.
  - apply even_double in E. destruct E as (m & ->). rewrite gm_even. pose proof (odd_product_pos m). apply Z.mul_nonneg_nonneg; [lia|apply Z.pow_nonneg; exact HW].
Qed.
Lemma gm0_only W : only false (fun i => gm i 0 W).
Proof. intros i Hi. apply odd_double in Hi. destruct Hi as (m & ->). apply gm_odd. Qed.
Lemma gm_pos s W : 0 <= W -> pos false (fun i => gm i s W).
Proof.
  intros HW i Hi. replace (gm i s W) with (gm i (s + 0) (0 + W)) by (f_equal; ring). rewrite gm_add.
  apply (conv_nonneg i _ _ false false); [|intros j _; apply gm0_nonneg; exact HW|apply gm0_only|exact Hi].
  intros j Hj. rewrite gm_pow. apply even_double in Hj. destruct Hj as (m & ->). rewrite Nat2Z.inj_mul. apply Z.pow_even_nonneg. exists (Z.of_nat m). reflexivity.
Qed.
(** More noise, larger even moments. *)
Lemma gm_le k s U c W : Nat.odd k = false -> 0 <= U ->
  (forall i, Nat.odd i = true -> c i = 0) -> (forall i, Nat.odd i = false -> c i <= gm i 0 W) ->
  conv k (fun i => gm i s U) c <= gm k s (U + W).
Proof.
  intros Hk HU Hodd Heven. replace (gm k s (U + W)) with (gm k (s + 0) (U + W)) by (f_equal; ring). rewrite gm_add.
  assert (H : 0 <= conv k (fun i => gm i s U) (fun i => gm i 0 W + (-1) * c i)).
  { apply (conv_nonneg k _ _ false false); [apply gm_pos; exact HU| | |rewrite Hk; reflexivity].
    - intros i Hi. specialize (Heven i Hi). lia.
    - intros i Hi. rewrite (gm0_only W i Hi), (Hodd i Hi). ring. }
  rewrite conv_lin_r in H. lia.
Qed.
Lemma gm_mono k s U V : Nat.odd k = false -> 0 <= U <= V -> gm k s U <= gm k s V.
Proof.
  intros Hk HU. replace V with (U + (V - U)) by ring. etransitivity; [|apply (gm_le k s U (fun i => gm i 0 0) (V - U) Hk)].
  - rewrite <- gm_add. rewrite !Z.add_0_r. reflexivity.
  - lia.
  - intros i Hi. apply (gm0_only 0 i Hi).
  - intros i Hi. destruct i as [|i]; [rewrite !gm_0; lia|]. rewrite gm_pow, Z.pow_0_l by lia. apply gm0_nonneg. lia.
Qed.

(** [f] adds at most the noise of a Gaussian of variance [B]. *)
Definition sg {A : Type} (D : dist A) (f : A -> Z) (B : Z) : Prop :=
  0 <= B /\ forall m s U, 0 <= U -> wsum D (fun x => gm (2 * m) (s + f x) U) <= gm (2 * m) s (U + B) * mass D.

Lemma sg_ext {A : Type} (D : dist A) f g B : (forall x w, In (x, w) D -> f x = g x) -> sg D f B -> sg D g B.
Proof.
  intros H (HB & Hs). split; [exact HB|]. intros m s U HU. rewrite <- (wsum_ext D (fun x => gm (2 * m) (s + f x) U)); [apply Hs; exact HU|].
  intros x w Hx. rewrite (H x w Hx). reflexivity.
Qed.
Lemma sg_weaken {A : Type} (D : dist A) f B B' : nonneg D -> B <= B' -> sg D f B -> sg D f B'.
Proof.
  intros HD HB (H0 & H). split; [lia|]. intros m s U HU. etransitivity; [apply H; exact HU|].
  apply Z.mul_le_mono_nonneg_r; [apply mass_nonneg; exact HD|]. apply gm_mono; [apply odd_2|lia].
Qed.
Lemma sg_zero {A : Type} (D : dist A) : sg D (fun _ => 0) 0.
Proof. split; [lia|]. intros m s U HU. rewrite wsum_const, !Z.add_0_r. apply Z.le_refl. Qed.
Lemma sg_both {A B : Type} (D : dist A) (D' : dist B) f g V V' : nonneg D -> nonneg D' ->
  sg D f V -> 0 <= V' -> (forall x w, In (x, w) D -> sg D' (g x) V') -> sg (both D D') (fun xy => f (fst xy) + g (fst xy) (snd xy)) (V + V').
Proof.
  intros HD HD' (HV & HF) HV' HG. split; [lia|]. intros m s U HU. rewrite wsum_both. cbn [fst snd].
  apply Z.le_trans with (wsum D (fun x => mass D' * gm (2 * m) (s + f x) (U + V'))).
  - apply wsum_le; [exact HD|]. intros x w Hx. destruct (HG x w Hx) as (_ & G). specialize (G m (s + f x) U HU).
    rewrite (wsum_ext D' _ (fun y => gm (2 * m) (s + f x + g x y) U)) by (intros; f_equal; ring). lia.
  - rewrite wsum_scale, mass_both. specialize (HF m s (U + V') ltac:(lia)). replace (U + (V + V')) with (U + V' + V) by ring.
    pose proof (mass_nonneg D' HD'). nia.
Qed.
Lemma sg_each_S {A : Type} (D : dist A) n (f : A -> Z) (g : A -> list A -> Z) (h : list A -> Z) V V' : nonneg D ->
  sg D f V -> 0 <= V' -> (forall x w, In (x, w) D -> sg (each n D) (g x) V') -> (forall x l, h (x :: l) = f x + g x l) -> sg (each (S n) D) h (V + V').
Proof.
  intros HD HF HV' HG HE. destruct (sg_both D (each n D) f g V V' HD (nonneg_each D n HD) HF HV' HG) as (H0 & H).
  split; [exact H0|]. intros m s U HU. specialize (H m s U HU). rewrite wsum_both in H. cbn [fst snd] in H.
  rewrite wsum_each_S, mass_each_S, <- mass_both. etransitivity; [|exact H]. apply Z.eq_le_incl. apply wsum_ext. intros x w _. apply wsum_ext. intros l v _. rewrite HE. reflexivity.
Qed.

Lemma sg_calculus : calculus (@sg).
Proof.
  constructor.
  - intros A. apply sg_ext.
  - intros A. apply sg_weaken.
  - intros A. apply sg_zero.
  - intros A B. apply sg_both.
  - intros A. apply sg_each_S.
Qed.

(** A multiple of a sub-Gaussian draw. *)
Lemma wsum_conv {A : Type} (D : dist A) (y : A -> nat -> Z) k : forall a,
  wsum D (fun x => conv k a (y x)) = conv k a (fun i => wsum D (fun x => y x i)).
Proof.
  revert y. induction k as [|k IH]; intros y a; cbn [conv].
  - rewrite wsum_scale. reflexivity.
  - rewrite wsum_add. rewrite (IH y (fun i => a (S i))). f_equal. apply (IH (fun x i => y x (S i)) a).
Qed.
Lemma conv_scale_r k a b c : conv k a (fun i => c * b i) = c * conv k a b.
Proof.
  revert a b. induction k as [|k IH]; intros a b; cbn [conv]; [ring|]. rewrite (IH (fun i => a (S i)) b), (IH a (fun i => b (S i))). ring.
Qed.
Lemma conv_nonneg_le k s U c c' : Nat.odd k = false -> 0 <= U ->
  (forall i, Nat.odd i = true -> c i = c' i) -> (forall i, Nat.odd i = false -> c i <= c' i) ->
  conv k (fun i => gm i s U) c <= conv k (fun i => gm i s U) c'.
Proof.
  intros Hk HU Ho He. assert (H : 0 <= conv k (fun i => gm i s U) (fun i => c' i + (-1) * c i)).
  { apply (conv_nonneg k _ _ false false); [apply gm_pos; exact HU| | |rewrite Hk; reflexivity].
    - intros i Hi. specialize (He i Hi). lia.
    - intros i Hi. rewrite (Ho i Hi). ring. }
  rewrite conv_lin_r in H. lia.
Qed.
Lemma sg_scale D V c : 0 <= V -> sub_gaussian V D -> sg D (fun x => c * x) (c * c * V).
Proof.
  intros HV (HD & H). split; [nia|]. intros m s U HU.
  rewrite (wsum_ext D _ (fun x => conv (2 * m) (fun i => gm i s U) (fun i => (c * x) ^ Z.of_nat i))).
  2:{ intros x w _. rewrite <- (Z.add_0_r U) at 1. rewrite gm_add. apply conv_ext; [reflexivity|]. intros i. apply gm_pow. }
  rewrite (wsum_conv D (fun x i => (c * x) ^ Z.of_nat i)).
  replace (gm (2 * m) s (U + c * c * V)) with (gm (2 * m) (s + 0) (U + c * c * V)) by (f_equal; ring).
  rewrite gm_add, Z.mul_comm, <- conv_scale_r. apply conv_nonneg_le; [apply odd_2|exact HU| |].
  - intros i Hi. apply odd_double in Hi. destruct Hi as (j & ->). rewrite gm_odd.
    rewrite (wsum_ext D _ (fun x => c ^ Z.of_nat (2 * j + 1) * x ^ Z.of_nat (2 * j + 1))) by (intros; apply Z.pow_mul_l). rewrite wsum_scale, (proj1 (H j)). ring.
  - intros i Hi. apply even_double in Hi. destruct Hi as (j & ->). rewrite gm_even.
    rewrite (wsum_ext D _ (fun x => c ^ Z.of_nat (2 * j) * x ^ Z.of_nat (2 * j))) by (intros; apply Z.pow_mul_l). rewrite wsum_scale.
    destruct (H j) as (_ & H2). replace (c ^ Z.of_nat (2 * j)) with ((c * c) ^ Z.of_nat j).
    2:{ rewrite Nat2Z.inj_mul. change (Z.of_nat 2) with 2. rewrite Z.pow_mul_r, Z.pow_2_r by lia. reflexivity. }
    rewrite (Z.pow_mul_l (c * c) V). assert (HE : 0 <= (c * c) ^ Z.of_nat j) by (apply Z.pow_nonneg; nia).
    set (E := (c * c) ^ Z.of_nat j) in *. apply (Z.mul_le_mono_nonneg_l _ _ E HE) in H2. etransitivity; [exact H2|]. apply Z.eq_le_incl. ring.
Qed.

(** Even moments and the Markov bound. *)
Lemma sg_moment {A : Type} (D : dist A) f B m : sg D f B -> wsum D (fun x => f x ^ Z.of_nat (2 * m)) <= odd_product m * B ^ Z.of_nat m * mass D.
Proof.
  intros (_ & H). specialize (H m 0 0 ltac:(lia)). rewrite Z.add_0_l, gm_even in H. etransitivity; [|exact H].
  apply Z.eq_le_incl. apply wsum_ext. intros x w _. rewrite Z.add_0_l, gm_pow. reflexivity.
Qed.
Lemma markov {A : Type} (D : dist A) (f : A -> Z) (bad : A -> bool) B T m : nonneg D -> 0 <= T ->
  wsum D (fun x => f x ^ Z.of_nat (2 * m)) <= B -> (forall x w, In (x, w) D -> bad x = true -> T <= Z.abs (f x)) ->
  wsum D (fun x => if bad x then 1 else 0) * T ^ Z.of_nat (2 * m) <= B.
Proof.
  intros HD HT HB H. rewrite Z.mul_comm, <- wsum_scale. etransitivity; [|exact HB]. apply wsum_le; [exact HD|]. intros x w Hx. specialize (H x w Hx).
  assert (Ev : Z.Even (Z.of_nat (2 * m))) by (exists (Z.of_nat m); lia).
  destruct (bad x).
  - specialize (H eq_refl). rewrite Z.mul_1_r. rewrite (Z.pow_even_abs (f x)) by exact Ev. apply Z.pow_le_mono_l. lia.
  - rewrite Z.mul_0_r. apply Z.pow_even_nonneg. exact Ev.
Qed.
