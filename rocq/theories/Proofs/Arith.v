(** Arithmetic helpers: powers of two, congruences, bits. *)
From Coq Require Import ZArith List Bool Lia Znumtheory Setoid Morphisms.
From Verif Require Import Model.Base.
From Verif Require Export Spec.Basic.
Import ListNotations.
Local Open Scope Z_scope.

Ltac inv H := inversion H; subst; clear H.

Lemma cong_refl p a : cong p a a.
Proof. exists 0; ring. Qed.
Lemma cong_sym p a b : cong p a b -> cong p b a.
Proof. intros [k H]; exists (- k); lia. Qed.
Lemma cong_trans p a b c : cong p a b -> cong p b c -> cong p a c.
Proof. intros [k H] [l H']; exists (k + l); lia. Qed.

Global Instance cong_equiv p : Equivalence (cong p).
Proof.
  split; [exact (cong_refl p) | exact (cong_sym p) | exact (cong_trans p)].
Qed.

Global Instance cong_add p : Proper (cong p ==> cong p ==> cong p) Z.add.
Proof. intros a b [k H] c d [l H']; exists (k + l); lia. Qed.
Global Instance cong_sub p : Proper (cong p ==> cong p ==> cong p) Z.sub.
Proof. intros a b [k H] c d [l H']; exists (k - l); lia. Qed.
Global Instance cong_opp p : Proper (cong p ==> cong p) Z.opp.
Proof. intros a b [k H]; exists (- k); lia. Qed.
Global Instance cong_mul p : Proper (cong p ==> cong p ==> cong p) Z.mul.
Proof.
  intros a b [k H] c d [l H']; exists (k * c + b * l).
  replace (a * c - b * d) with ((a - b) * c + b * (c - d)) by ring.
  rewrite H, H'; ring.
Qed.

Lemma cong_pow p a b n : cong p a b -> cong p (a ^ n) (b ^ n).
Proof.
  intros H. destruct (Z.leb_spec 0 n).
  - revert n H0. refine (natlike_ind _ _ _).
    + reflexivity.
    + intros n Hn IH. rewrite !Z.pow_succ_r by lia. apply cong_mul; assumption.
  - rewrite !Z.pow_neg_r by lia. reflexivity.
Qed.

Lemma cong_mod p a : p <> 0 -> cong p (a mod p) a.
Proof.
  intros Hp. exists (- (a / p)). pose proof (Z.div_mod a p Hp). lia.
Qed.

Lemma cong_iff p a b : 0 < p -> (cong p a b <-> a mod p = b mod p).
Proof.
  intros Hp; split.
  - intros [k H]. replace a with (b + k * p) by lia. apply Z.mod_add; lia.
  - intros H. apply cong_trans with (a mod p).
    + apply cong_sym, cong_mod; lia.
    + rewrite H. apply cong_mod; lia.
Qed.

Lemma cong_small p a b : 0 <= a < p -> 0 <= b < p -> cong p a b -> a = b.
Proof.
  intros Ha Hb H. apply cong_iff in H; [|lia].
  rewrite !Z.mod_small in H by lia. exact H.
Qed.

Lemma cong_eq_mod p a b : 0 <= a < p -> cong p a b -> a = b mod p.
Proof.
  intros Ha H. apply cong_iff in H; [|lia]. rewrite Z.mod_small in H by lia. exact H.
Qed.

Lemma cong_0 p a : cong p a 0 <-> (p | a).
Proof. unfold cong. replace (a - 0) with a by ring. reflexivity. Qed.

Lemma cong_divide p q a b : (q | p) -> cong p a b -> cong q a b.
Proof. intros H H'. eapply Z.divide_trans; eassumption. Qed.

Lemma cong_of_eq p a b : a = b -> cong p a b.
Proof. intros ->. reflexivity. Qed.

Lemma cong_add_mul p a k : cong p (a + k * p) a.
Proof. exists k; ring. Qed.

Lemma pow2_pos n : 0 <= n -> 0 < 2 ^ n.
Proof. intros; apply Z.pow_pos_nonneg; lia. Qed.

Lemma pow2_double n : 0 <= n -> 2 ^ (2 * n) = 2 ^ n * 2 ^ n.
Proof. intros. replace (2 * n) with (n + n) by ring. apply Z.pow_add_r; lia. Qed.

Lemma pow2_succ n : 0 <= n -> 2 ^ (n + 1) = 2 * 2 ^ n.
Proof. intros. rewrite Z.pow_add_r by lia. lia. Qed.

Lemma pow2_pred n : 1 <= n -> 2 ^ n = 2 * 2 ^ (n - 1).
Proof.
  intros. replace n with ((n - 1) + 1) at 1 by ring.
  rewrite pow2_succ by lia. reflexivity.
Qed.

Lemma bit_len_lt a n : 0 <= a -> 0 <= n -> (bit_len a <= n <-> a < 2 ^ n).
Proof.
  intros Ha Hn. unfold bit_len. destruct (Z.eqb_spec a 0).
  - subst. pose proof (pow2_pos n Hn). lia.
  - rewrite (Z.log2_lt_pow2 a n) by lia. lia.
Qed.

Lemma bit_len_nonneg a : 0 <= bit_len a.
Proof.
  unfold bit_len. destruct (a =? 0); [lia|]. pose proof (Z.log2_nonneg a). lia.
Qed.

Lemma bit_len_bounds a : 0 < a -> 2 ^ (bit_len a - 1) <= a < 2 ^ bit_len a.
Proof.
  intros H. unfold bit_len. destruct (Z.eqb_spec a 0); [lia|].
  pose proof (Z.log2_spec a H). replace (Z.log2 a + 1 - 1) with (Z.log2 a) by ring.
  replace (Z.log2 a + 1) with (Z.succ (Z.log2 a)) by lia. lia.
Qed.

(** Trailing zeros. *)
Lemma pos_tz_nonneg p : 0 <= pos_tz p.
Proof. induction p; cbn [pos_tz]; lia. Qed.

Lemma pos_tz_spec p : exists o, Zpos p = o * 2 ^ pos_tz p /\ Z.odd o = true /\ 0 < o.
Proof.
  induction p as [p IH|p IH|]; cbn [pos_tz].
  - exists (Zpos p~1). rewrite Z.pow_0_r. repeat split; lia.
  - destruct IH as (o & H & Ho & Hp). exists o. split; [|auto].
    rewrite Pos2Z.inj_xO, H, Z.pow_add_r by (try apply pos_tz_nonneg; lia). ring.
  - exists 1. repeat split.
Qed.

Lemma tz_nonneg B a : 0 <= B -> 0 <= trailing_zeros B a.
Proof. intros; destruct a; cbn; auto using pos_tz_nonneg. Qed.

Lemma tz_spec B a : 0 < a ->
  exists o, a = o * 2 ^ trailing_zeros B a /\ Z.odd o = true /\ 0 < o.
Proof. intros H. destruct a as [|p|p]; try lia. apply pos_tz_spec. Qed.

Lemma tz_lt B a : 0 <= B -> 0 < a < 2 ^ B -> trailing_zeros B a < B.
Proof.
  intros HB [H0 H1]. destruct (tz_spec B a H0) as (o & Ha & Ho & Hp).
  destruct (Z.ltb_spec (trailing_zeros B a) B); [assumption|exfalso].
  assert (2 ^ B <= 2 ^ trailing_zeros B a) by (apply Z.pow_le_mono_r; lia).
  rewrite Ha in H1. nia.
Qed.

Lemma is_pow2_spec a : is_pow2 a = true <-> exists k, 0 <= k /\ a = 2 ^ k.
Proof.
  unfold is_pow2. rewrite andb_true_iff, Z.ltb_lt, Z.eqb_eq. split.
  - intros [H E]. exists (Z.log2 a). split; [apply Z.log2_nonneg|exact E].
  - intros (k & Hk & ->). split; [apply pow2_pos; lia|].
    rewrite Z.log2_pow2 by lia. reflexivity.
Qed.

Lemma land_mask a k : 0 <= k -> Z.land a (2 ^ k - 1) = a mod 2 ^ k.
Proof. intros. rewrite <- Z.land_ones by lia. rewrite Z.ones_equiv. reflexivity. Qed.

Lemma mod_mod_pow2 a j k : 0 <= j <= k -> (a mod 2 ^ k) mod 2 ^ j = a mod 2 ^ j.
Proof.
  intros H. apply cong_iff; [apply pow2_pos; lia|].
  apply cong_divide with (2 ^ k).
  - exists (2 ^ (k - j)). rewrite <- Z.pow_add_r by lia. f_equal; ring.
  - apply cong_mod. pose proof (pow2_pos k); lia.
Qed.

Lemma testbit_high b k n : 0 <= b < 2 ^ k -> 0 <= k <= n -> Z.testbit b n = false.
Proof.
  intros Hb Hn. destruct (Z.eq_dec b 0) as [->|]; [apply Z.bits_0|].
  apply Z.bits_above_log2; [lia|].
  apply Z.lt_le_trans with k; [|lia]. apply Z.log2_lt_pow2; lia.
Qed.

Lemma lor_add a b k : 0 <= k -> 0 <= b < 2 ^ k -> Z.lor (a * 2 ^ k) b = a * 2 ^ k + b.
Proof.
  intros Hk Hb.
  assert (E : Z.land (a * 2 ^ k) b = 0).
  { apply Z.bits_inj'. intros n Hn. rewrite Z.land_spec, Z.bits_0.
    destruct (Z.ltb_spec n k).
    - rewrite Z.mul_pow2_bits_low by lia. reflexivity.
    - rewrite (testbit_high b k n) by lia. apply andb_false_r. }
  rewrite <- Z.lxor_lor by exact E. symmetry. apply Z.add_nocarry_lxor, E.
Qed.

(** Option-monad inversion. *)
Lemma bind_some {A C} (x : option A) (f : A -> option C) r :
  bind x f = Some r <-> exists a, x = Some a /\ f a = Some r.
Proof.
  destruct x as [a|]; cbn; split.
  - intros H; exists a; auto.
  - intros (a' & [= <-] & H); exact H.
  - discriminate.
  - intros (a' & H & _); discriminate.
Qed.

Lemma assert_true b : b = true -> assert b = Some tt.
Proof. intros ->; reflexivity. Qed.

Lemma uadd_some B a b : a + b < 2 ^ B -> uadd B a b = Some (a + b).
Proof. intros H. unfold uadd. apply Z.ltb_lt in H. rewrite H. reflexivity. Qed.
Lemma usub_some a b : b <= a -> usub a b = Some (a - b).
Proof. intros H. unfold usub. apply Z.leb_le in H. rewrite H. reflexivity. Qed.
Lemma umul_some B a b : a * b < 2 ^ B -> umul B a b = Some (a * b).
Proof. intros H. unfold umul. apply Z.ltb_lt in H. rewrite H. reflexivity. Qed.
Lemma ushl_some B a s : 0 <= a -> 0 <= s < B -> a * 2 ^ s < 2 ^ B ->
  ushl B a s = Some (a * 2 ^ s).
Proof.
  intros Ha Hs H. unfold ushl. destruct (Z.ltb_spec s B); [|lia].
  rewrite Z.mod_small; [reflexivity|]. pose proof (pow2_pos s). nia.
Qed.
Lemma ushr_some B a s : s < B -> ushr B a s = Some (a / 2 ^ s).
Proof. intros H. unfold ushr. apply Z.ltb_lt in H. rewrite H. reflexivity. Qed.
Lemma udiv_some a b : b <> 0 -> udiv a b = Some (a / b).
Proof. intros H. unfold udiv. apply Z.eqb_neq in H. rewrite H. reflexivity. Qed.
Lemma urem_some a b : b <> 0 -> urem a b = Some (a mod b).
Proof. intros H. unfold urem. apply Z.eqb_neq in H. rewrite H. reflexivity. Qed.

Lemma mapM_some {A C} (f : A -> option C) (g : A -> C) l :
  (forall x, In x l -> f x = Some (g x)) -> mapM f l = Some (map g l).
Proof.
  induction l as [|x l IH]; intros H; [reflexivity|].
  cbn. rewrite (H x) by (left; reflexivity). cbn.
  rewrite IH by (intros; apply H; right; assumption). reflexivity.
Qed.

Lemma foldM_some {A C} (f : C -> A -> option C) (g : C -> A -> C) (P : C -> Prop) l acc :
  P acc ->
  (forall c x, P c -> In x l -> f c x = Some (g c x) /\ P (g c x)) ->
  foldM f acc l = Some (fold_left g l acc) /\ P (fold_left g l acc).
Proof.
  revert acc; induction l as [|x l IH]; intros acc Hacc H; [split; [reflexivity|exact Hacc]|].
  cbn. destruct (H acc x Hacc) as [E HP]; [left; reflexivity|].
  rewrite E. cbn. apply IH; [exact HP|]. intros; apply H; [assumption|right; assumption].
Qed.

Lemma iterM_inv {A} (f : A -> option A) (P : nat -> A -> Prop) n s :
  P O s ->
  (forall i x, (i < n)%nat -> P i x -> exists y, f x = Some y /\ P (S i) y) ->
  exists y, iterM n f s = Some y /\ P n y.
Proof.
  revert P s; induction n as [|n IH]; intros P s H0 HS; cbn.
  - eauto.
  - destruct (HS O s) as (y & E & HP); [lia|exact H0|]. rewrite E. cbn.
    apply (IH (fun i => P (S i))); [exact HP|].
    intros i x Hi HPi. apply HS; [lia|exact HPi].
Qed.
