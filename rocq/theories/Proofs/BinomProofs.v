(** Moments of the centred binomial distribution and of its sampler. *)
From Coq Require Import ZArith List Bool Arith Lia.
From Verif Require Import Model.Base Model.Field Model.Sample Proofs.FieldProofs Proofs.RandomProofs
  Spec.Moment Spec.Count Spec.SubGauss Proofs.MomentProofs Proofs.SubGaussProofs.
Import ListNotations.
Local Open Scope Z_scope.

(** Sum of [f] over the [n] first naturals. *)
Fixpoint upto (n : nat) (f : nat -> Z) : Z := match n with O => 0 | S n' => upto n' f + f n' end.
Lemma upto_ext n f g : (forall i, f i = g i) -> upto n f = upto n g.
Proof. intros H. induction n; cbn [upto]; congruence. Qed.
Lemma upto_add n f g : upto n (fun i => f i + g i) = upto n f + upto n g.
Proof. induction n; cbn [upto]; lia. Qed.
Lemma upto_shift n f : upto (S n) f = f O + upto n (fun i => f (S i)).
Proof. induction n as [|n IH]; [cbn; ring|]. cbn [upto] in *. lia. Qed.
Lemma upto_seq n f : forall a, wsum (map (fun j => (j, f j)) (seq a n)) (fun _ => 1) = upto n (fun i => f (a + i)%nat).
Proof.
  induction n as [|n IH]; intros a; [reflexivity|]. rewrite upto_shift. cbn [seq map wsum]. rewrite IH, Nat.add_0_r, Z.mul_1_r. f_equal.
  apply upto_ext. intros i. f_equal. lia.
Qed.

Definition bsum (N : nat) (f : nat -> Z) : Z := upto (S N) (fun j => binomial N (Z.of_nat j) * f j).
Lemma pascal_len N : length (pascal N) = S N.
Proof. induction N as [|N IH]; [reflexivity|]. cbn [pascal]. rewrite map_length, combine_length, app_length. cbn [length]. lia. Qed.
Lemma binomial_over N : binomial N (Z.of_nat (S N)) = 0.
Proof. unfold binomial. destruct (Z.ltb_spec (Z.of_nat (S N)) 0); [lia|]. apply nth_overflow. rewrite pascal_len. lia. Qed.
Lemma binomial_under N : binomial N (-1) = 0.
Proof. reflexivity. Qed.
Lemma bsum_S N f : bsum (S N) f = bsum N f + bsum N (fun j => f (S j)).
Proof.
  unfold bsum. rewrite (upto_ext _ _ (fun j => binomial N (Z.of_nat j) * f j + binomial N (Z.of_nat j - 1) * f j)) by (intros j; rewrite binomial_step; ring).
  rewrite upto_add. f_equal.
  - change (upto (S (S N)) (fun j => binomial N (Z.of_nat j) * f j)) with (upto (S N) (fun j => binomial N (Z.of_nat j) * f j) + binomial N (Z.of_nat (S N)) * f (S N)).
    rewrite binomial_over. ring.
  - rewrite upto_shift. change (Z.of_nat 0 - 1) with (-1). rewrite binomial_under. rewrite Z.mul_0_l, Z.add_0_l. apply upto_ext. intros i. f_equal. f_equal. lia.
Qed.
Lemma bsum_ext N f g : (forall i, f i = g i) -> bsum N f = bsum N g.
Proof. intros H. apply upto_ext. intros i. rewrite H. reflexivity. Qed.
Lemma bsum_0 f : bsum 0 f = f O.
Proof. unfold bsum. cbn [upto]. rewrite binomial_0. cbn. destruct (f O); reflexivity. Qed.
Lemma bsum_one N : bsum N (fun _ => 1) = 2 ^ Z.of_nat N.
Proof. induction N as [|N IH]; [rewrite bsum_0; reflexivity|]. rewrite bsum_S, IH, Nat2Z.inj_succ, Z.pow_succ_r by lia. ring. Qed.
Lemma bsum_scale N c f : bsum N (fun i => c * f i) = c * bsum N f.
Proof. revert f. induction N as [|N IH]; intros f; [rewrite !bsum_0; reflexivity|]. rewrite !bsum_S, IH, (IH (fun i => f (S i))). ring. Qed.

Lemma binomial_nonneg N : forall j, 0 <= binomial N j.
Proof. induction N as [|N IH]; intros j; [rewrite binomial_0; destruct (_ =? _); lia|]. rewrite binomial_step. pose proof (IH j). pose proof (IH (j - 1)). lia. Qed.

(** The walk of N signs. *)
Lemma bsum_flip N : forall g, bsum N (fun j => g (2 * Z.of_nat j - Z.of_nat N)) = bsum N (fun j => g (Z.of_nat N - 2 * Z.of_nat j)).
Proof.
  induction N as [|N IH]; intros g; [rewrite !bsum_0; reflexivity|]. rewrite !bsum_S.
  rewrite (bsum_ext N _ (fun j => g (2 * Z.of_nat j - Z.of_nat N - 1))) by (intros i; f_equal; lia).
  rewrite (bsum_ext N (fun j => g (2 * Z.of_nat (S j) - Z.of_nat (S N))) (fun j => g (2 * Z.of_nat j - Z.of_nat N + 1))) by (intros i; f_equal; lia).
  rewrite (bsum_ext N (fun j => g (Z.of_nat (S N) - 2 * Z.of_nat j)) (fun j => g (Z.of_nat N - 2 * Z.of_nat j + 1))) by (intros i; f_equal; lia).
  rewrite (bsum_ext N (fun j => g (Z.of_nat (S N) - 2 * Z.of_nat (S j))) (fun j => g (Z.of_nat N - 2 * Z.of_nat j - 1))) by (intros i; f_equal; lia).
  pose proof (IH (fun y => g (y - 1))) as E1. pose proof (IH (fun y => g (y + 1))) as E2. cbv beta in E1, E2. lia.
Qed.
Definition sign : dist Z := [(1, 1); (-1, 1)].
Lemma pow1_even m : (-1) ^ Z.of_nat (2 * m) = 1.
Proof. rewrite Nat2Z.inj_mul, Z.pow_mul_r by lia. change ((-1) ^ Z.of_nat 2) with 1. apply Z.pow_1_l. lia. Qed.
Lemma sign_gauss : sub_gaussian 1 sign.
Proof.
  split; [repeat constructor; cbn; lia|]. intros m. unfold sign, mass. cbn [wsum]. split.
  - rewrite Nat2Z.inj_add, !Z.pow_add_r, pow1_even, Z.pow_1_l by lia. reflexivity.
  - rewrite pow1_even, !Z.pow_1_l by lia. pose proof (odd_product_pos m). lia.
Qed.
Lemma walk_gauss N m : forall s U, 0 <= U -> bsum N (fun j => gm (2 * m) (s + (2 * Z.of_nat j - Z.of_nat N)) U) <= gm (2 * m) s (U + Z.of_nat N) * 2 ^ Z.of_nat N.
Proof.
  induction N as [|N IH]; intros s U HU.
  - rewrite bsum_0. cbn. rewrite !Z.add_0_r. lia.
  - rewrite bsum_S. rewrite (bsum_ext N _ (fun j => gm (2 * m) ((s - 1) + (2 * Z.of_nat j - Z.of_nat N)) U)) by (intros i; f_equal; lia).
    rewrite (bsum_ext N (fun j => gm (2 * m) (s + (2 * Z.of_nat (S j) - Z.of_nat (S N))) U) (fun j => gm (2 * m) ((s + 1) + (2 * Z.of_nat j - Z.of_nat N)) U)) by (intros i; f_equal; lia).
    pose proof (IH (s - 1) U HU) as H1. pose proof (IH (s + 1) U HU) as H2.
    destruct (sg_scale sign 1 1 ltac:(lia) sign_gauss) as (_ & H). specialize (H m s (U + Z.of_nat N) ltac:(lia)).
    unfold sign, mass in H. cbn [wsum] in H. change (1 * 1) with 1 in H. change (1 * -1) with (-1) in H. rewrite ?Z.mul_1_l, ?Z.mul_1_r, ?Z.add_0_r in H.
    rewrite Nat2Z.inj_succ, Z.pow_succ_r by lia. replace (U + Z.succ (Z.of_nat N)) with (U + Z.of_nat N + 1) by lia.
    change (s + -1) with (s - 1) in H. pose proof (Z.pow_pos_nonneg 2 (Z.of_nat N) ltac:(lia) ltac:(lia)) as P. nia.
Qed.

Lemma wsum_binomial h f : wsum (centred_binomial h) f = bsum (2 * h) (fun j => f (Z.of_nat j - Z.of_nat h)).
Proof.
  unfold centred_binomial, bsum. replace (2 * h + 1)%nat with (S (2 * h)) by lia.
  etransitivity; [|exact (upto_seq (S (2 * h)) (fun j => binomial (2 * h) (Z.of_nat j) * f (Z.of_nat j - Z.of_nat h)) 0)].
  generalize (seq 0 (S (2 * h))). intros l. induction l as [|j l IH]; [reflexivity|]. cbn [map wsum]. rewrite IH. ring.
Qed.
Lemma binomial_gauss h V : Z.of_nat h <= 2 * V -> sub_gaussian V (centred_binomial h).
Proof.
  intros HV. split; [unfold centred_binomial; apply Forall_forall; intros xw Hx; apply in_map_iff in Hx; destruct Hx as (j & <- & _); apply binomial_nonneg|].
  intros m. unfold mass. rewrite !wsum_binomial, bsum_one. split.
  - set (K := (2 * m + 1)%nat). assert (E : 2 ^ Z.of_nat K * bsum (2 * h) (fun j => (Z.of_nat j - Z.of_nat h) ^ Z.of_nat K) = bsum (2 * h) (fun j => (2 * Z.of_nat j - Z.of_nat (2 * h)) ^ Z.of_nat K)).
    { rewrite <- bsum_scale. apply bsum_ext. intros i. rewrite <- Z.pow_mul_l. f_equal. lia. }
    pose proof (bsum_flip (2 * h) (fun y => y ^ Z.of_nat K)) as HF. cbv beta in HF.
    rewrite (bsum_ext _ (fun j => (Z.of_nat (2 * h) - 2 * Z.of_nat j) ^ Z.of_nat K) (fun j => (-1) * (2 * Z.of_nat j - Z.of_nat (2 * h)) ^ Z.of_nat K)) in HF.
    + rewrite bsum_scale in HF. pose proof (Z.pow_pos_nonneg 2 (Z.of_nat K) ltac:(lia) ltac:(lia)). nia.
    + intros i. replace (Z.of_nat (2 * h) - 2 * Z.of_nat i) with (- (2 * Z.of_nat i - Z.of_nat (2 * h))) by ring.
      rewrite Z.pow_opp_odd; [ring|]. exists (Z.of_nat m). unfold K. lia.
  - pose proof (walk_gauss (2 * h) m 0 0 ltac:(lia)) as H. rewrite Z.add_0_l, gm_even in H.
    rewrite (bsum_ext _ _ (fun j => 2 ^ Z.of_nat (2 * m) * (Z.of_nat j - Z.of_nat h) ^ Z.of_nat (2 * m))) in H.
    2:{ intros i. rewrite Z.add_0_l, gm_pow, <- Z.pow_mul_l. f_equal. lia. }
    rewrite bsum_scale in H. set (S0 := bsum (2 * h) _) in *.
    assert (E4 : 2 ^ Z.of_nat (2 * m) = 4 ^ Z.of_nat m) by (rewrite Nat2Z.inj_mul, Z.pow_mul_r by lia; reflexivity). rewrite E4 in H.
    pose proof (Z.pow_pos_nonneg 4 (Z.of_nat m) ltac:(lia) ltac:(lia)) as P4. pose proof (Z.pow_pos_nonneg 2 (Z.of_nat (2 * h)) ltac:(lia) ltac:(lia)) as P2.
    pose proof (odd_product_pos m) as PO.
    assert (L : Z.of_nat (2 * h) ^ Z.of_nat m <= 4 ^ Z.of_nat m * V ^ Z.of_nat m) by (rewrite <- Z.pow_mul_l; apply Z.pow_le_mono_l; lia).
    apply (Z.mul_le_mono_pos_l _ _ (4 ^ Z.of_nat m) P4). etransitivity; [exact H|].
    replace (4 ^ Z.of_nat m * (odd_product m * V ^ Z.of_nat m * 2 ^ Z.of_nat (2 * h))) with (odd_product m * (4 ^ Z.of_nat m * V ^ Z.of_nat m) * 2 ^ Z.of_nat (2 * h)) by ring.
    apply Z.mul_le_mono_nonneg_r; [lia|]. apply Z.mul_le_mono_nonneg_l; lia.
Qed.

(** Grouping equally likely outcomes by value. *)
Lemma group {A : Type} (L : list A) (v : A -> Z) h : (forall a, In a L -> - Z.of_nat h <= v a <= Z.of_nat h) -> forall f,
  wsum (map (fun a => (v a, 1)) L) f = upto (2 * h + 1) (fun j => count (fun a => v a =? Z.of_nat j - Z.of_nat h) L * f (Z.of_nat j - Z.of_nat h)).
Proof.
  intros H f. induction L as [|a L IH].
  - cbn [map wsum]. rewrite (upto_ext _ _ (fun _ => 0)) by reflexivity. generalize (2 * h + 1)%nat. induction n; cbn [upto]; lia.
  - cbn [map wsum]. rewrite IH by (intros; apply H; right; assumption). 
    rewrite (upto_ext _ (fun j => count (fun a => v a =? Z.of_nat j - Z.of_nat h) (a :: L) * f (Z.of_nat j - Z.of_nat h))
      (fun j => (if v a =? Z.of_nat j - Z.of_nat h then 1 else 0) * f (Z.of_nat j - Z.of_nat h) + count (fun a => v a =? Z.of_nat j - Z.of_nat h) L * f (Z.of_nat j - Z.of_nat h)))
      by (intros j; rewrite count_cons; ring).
    rewrite upto_add. f_equal. rewrite Z.mul_1_l.
    assert (G : forall n, upto n (fun j => (if v a =? Z.of_nat j - Z.of_nat h then 1 else 0) * f (Z.of_nat j - Z.of_nat h)) = if v a + Z.of_nat h <? Z.of_nat n then f (v a) else 0).
    { pose proof (H a (or_introl eq_refl)) as Ha. clear - Ha. induction n as [|n IH]; cbn [upto]; [destruct (Z.ltb_spec (v a + Z.of_nat h) (Z.of_nat 0)); [lia|reflexivity]|].
      rewrite IH. destruct (Z.ltb_spec (v a + Z.of_nat h) (Z.of_nat n)), (Z.ltb_spec (v a + Z.of_nat h) (Z.of_nat (S n))), (Z.eqb_spec (v a) (Z.of_nat n - Z.of_nat h)); try lia.
      rewrite e. lia. }
    rewrite G. pose proof (H a (or_introl eq_refl)) as Ha. destruct (Z.ltb_spec (v a + Z.of_nat h) (Z.of_nat (2 * h + 1))); [reflexivity|lia].
Qed.
Lemma sub_gaussian_scaled V D D' c : 0 < c -> Forall (fun xw => 0 <= snd xw) D' -> (forall f, wsum D' f = c * wsum D f) -> sub_gaussian V D -> sub_gaussian V D'.
Proof.
  intros Hc HN H (_ & HG). split; [exact HN|]. intros m. destruct (HG m) as (H1 & H2). rewrite !H. unfold mass in *. rewrite H. split; [rewrite H1; ring|]. nia.
Qed.

Section Cbd.
Variable F : field.
Hypothesis Hok : fok F.
Notation p := (fp F).
Hypothesis H42 : 42 < p.
Definition cbd_draw (bs : list Z) : Z := match sample_cbd_field_vec F 1 (stream bs) with Some [x] => nearest p x | _ => p end.
Lemma cbd_draw_eq bs : length bs = 6%nat -> Forall byte bs -> cbd_draw bs = lin cbd_fs bs /\ -21 <= lin cbd_fs bs <= 21.
Proof.
  intros L H. destruct bs as [|x0 [|x1 [|x2 [|x3 [|x4 [|x5 [|]]]]]]]; try discriminate L. clear L.
  repeat match goal with H : Forall _ (_ :: _) |- _ => inversion H; clear H; subst end.
  unfold cbd_draw. cbn [sample_cbd_field_vec].
  change (stream [x0; x1; x2; x3; x4; x5] 0) with x0. change (stream [x0; x1; x2; x3; x4; x5] 1) with x1.
  change (stream [x0; x1; x2; x3; x4; x5] 2) with x2. change (stream [x0; x1; x2; x3; x4; x5] 3) with x3.
  change (stream [x0; x1; x2; x3; x4; x5] 4) with x4. change (stream [x0; x1; x2; x3; x4; x5] 5) with x5.
  edestruct (cbd_value_ok F Hok ltac:(lia) x0 x1 x2 x3 x4 x5) as (-> & Hb); try assumption. split; [|exact Hb].
  set (y := lin cbd_fs _) in *. cbn [bind]. unfold nearest. rewrite Z.mod_mod by lia. cbv zeta.
  destruct (Z.ltb_spec y 0).
  - assert (E : y mod p = y + p) by (symmetry; apply (Z.mod_unique _ _ (-1)); lia). rewrite E. destruct (Z.ltb_spec (2 * (y + p)) p); lia.
  - rewrite Z.mod_small by lia. destruct (Z.ltb_spec (2 * y) p); lia.
Qed.
Lemma cbd_weights f : wsum (map (fun bs => (cbd_draw bs, 1)) (tuples 6 256)) f = 64 * wsum (centred_binomial 21) f.
Proof.
  assert (HT : forall l, In l (tuples 6 256) -> length l = 6%nat /\ Forall byte l) by (intros l Hl; apply (tuples_in 6); exact Hl).
  rewrite (group _ cbd_draw 21) by (intros bs Hin; destruct (HT bs Hin) as (L & HB); destruct (cbd_draw_eq bs L HB) as (-> & HR); exact HR).
  rewrite wsum_binomial, <- bsum_scale. unfold bsum. apply upto_ext. intros j. 
  rewrite (count_ext_in _ (fun l => lin cbd_fs l =? Z.of_nat j - Z.of_nat 21)) by (intros bs Hin; destruct (HT bs Hin) as (L & HB); destruct (cbd_draw_eq bs L HB) as (-> & HR); reflexivity).
  pose proof (dist_cbd (Z.of_nat j - Z.of_nat 21)) as HD. unfold RandomProofs.dist in HD. change (length cbd_fs) with 6%nat in HD. rewrite HD.
  replace (21 + (Z.of_nat j - Z.of_nat 21)) with (Z.of_nat j) by lia. change (2 * 21)%nat with 42%nat. ring.
Qed.
Lemma cbd_gauss : sub_gaussian 11 (map (fun bs => (cbd_draw bs, 1)) (tuples 6 256)).
Proof.
  apply (sub_gaussian_scaled 11 (centred_binomial 21) _ 64); [lia| |exact cbd_weights|apply binomial_gauss; lia].
  generalize (tuples 6 256). intros L. induction L; constructor; [cbn; lia|assumption].
Qed.
End Cbd.
