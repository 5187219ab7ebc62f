(** Polynomials over Z: evaluation, root counting modulo a prime, negacyclic products. *)
From Coq Require Import ZArith List Arith Bool Lia Znumtheory Setoid Morphisms.
From Verif Require Import Model.Base Proofs.Arith Proofs.NumTheory.
From Verif Require Export Spec.Poly.
Import ListNotations.
Local Open Scope Z_scope.

(** * Sums *)
Lemma zsum_ext f g n : (forall i, (i < n)%nat -> f i = g i) -> zsum f n = zsum g n.
Proof. induction n; intros H; cbn; [reflexivity|]. rewrite IHn, H; auto. Qed.
Lemma zsum_cong p f g n : (forall i, (i < n)%nat -> cong p (f i) (g i)) -> cong p (zsum f n) (zsum g n).
Proof. induction n; intros H; cbn; [reflexivity|]. rewrite IHn, H by auto. reflexivity. Qed.
Lemma zsum_add f g n : zsum (fun i => f i + g i) n = zsum f n + zsum g n.
Proof. induction n; cbn; lia. Qed.
Lemma zsum_sub f g n : zsum (fun i => f i - g i) n = zsum f n - zsum g n.
Proof. induction n; cbn; lia. Qed.
Lemma zsum_mul c f n : zsum (fun i => c * f i) n = c * zsum f n.
Proof. induction n; cbn; [lia|]. rewrite IHn. ring. Qed.
Lemma zsum_mul_r c f n : zsum (fun i => f i * c) n = zsum f n * c.
Proof. induction n; cbn; [lia|]. rewrite IHn. ring. Qed.
Lemma zsum_zero n : zsum (fun _ => 0) n = 0.
Proof. induction n; cbn; lia. Qed.
Lemma zsum_split f a b : zsum f (a + b) = zsum f a + zsum (fun i => f (a + i)%nat) b.
Proof.
  induction b; cbn; [rewrite Nat.add_0_r; lia|]. rewrite Nat.add_succ_r. cbn. rewrite IHb. lia.
Qed.
Lemma zsum_swap (f : nat -> nat -> Z) n m :
  zsum (fun i => zsum (f i) m) n = zsum (fun j => zsum (fun i => f i j) n) m.
Proof.
  induction n; cbn; [rewrite zsum_zero; reflexivity|]. rewrite IHn, <- zsum_add. reflexivity.
Qed.
Lemma zsum_shift f n : zsum f (S n) = f O + zsum (fun i => f (S i)) n.
Proof. induction n; [cbn; lia|]. cbn in *. lia. Qed.
Lemma zsum_abs f n B : (forall i, (i < n)%nat -> Z.abs (f i) <= B) -> Z.abs (zsum f n) <= Z.of_nat n * B.
Proof.
  induction n; intros H; cbn [zsum]; [lia|]. pose proof (IHn ltac:(auto)).
  pose proof (H n ltac:(lia)). lia.
Qed.

(** * Powers with natural exponents *)
Definition npow (x : Z) (n : nat) : Z := x ^ Z.of_nat n.
Lemma npow_0 x : npow x 0 = 1. Proof. reflexivity. Qed.
Lemma npow_1 x : npow x 1 = x. Proof. unfold npow. cbn [Z.of_nat]. apply Z.pow_1_r. Qed.
Lemma npow_S x n : npow x (S n) = x * npow x n.
Proof. unfold npow. rewrite Nat2Z.inj_succ, Z.pow_succ_r by lia. reflexivity. Qed.
Lemma npow_add x a b : npow x (a + b) = npow x a * npow x b.
Proof. unfold npow. rewrite Nat2Z.inj_add, Z.pow_add_r by lia. reflexivity. Qed.
Lemma npow_mul x a b : npow x (a * b) = npow (npow x a) b.
Proof. unfold npow. rewrite Nat2Z.inj_mul, Z.pow_mul_r by lia. reflexivity. Qed.
Lemma npow_cong p x y n : cong p x y -> cong p (npow x n) (npow y n).
Proof. apply cong_pow. Qed.
Lemma npow_mul_base x y n : npow (x * y) n = npow x n * npow y n.
Proof. unfold npow. apply Z.pow_mul_l. Qed.
Lemma npow_one n : npow 1 n = 1.
Proof. unfold npow. apply Z.pow_1_l. lia. Qed.

(** * Evaluation *)
Lemma ev_zsum x a : ev x a = zsum (fun i => nth i a 0 * npow x i) (length a).
Proof.
  induction a as [|c a IH]; [reflexivity|]. cbn [ev length]. rewrite zsum_shift, IH. cbn [nth].
  rewrite npow_0, <- zsum_mul. f_equal; [lia|]. apply zsum_ext. intros i _. rewrite npow_S. ring.
Qed.
Lemma ev_app x a b : ev x (a ++ b) = ev x a + npow x (length a) * ev x b.
Proof.
  induction a as [|c a IH]; cbn [ev app length]; [rewrite npow_0; lia|].
  rewrite IH, npow_S. ring.
Qed.
Lemma ev_cong p x y a b : cong p x y -> pcong p a b -> cong p (ev x a) (ev y b).
Proof.
  intros Hx H. induction H; [reflexivity|]. cbn [ev]. rewrite H, IHForall2, Hx. reflexivity.
Qed.
Lemma ev_add x a b : length a = length b -> ev x (padd a b) = ev x a + ev x b.
Proof. revert b; induction a; destruct b; cbn; intros H; try lia. rewrite IHa by lia. ring. Qed.
Lemma ev_sub x a b : length a = length b -> ev x (psub a b) = ev x a - ev x b.
Proof. revert b; induction a; destruct b; cbn; intros H; try lia. rewrite IHa by lia. ring. Qed.
Lemma ev_neg x a : ev x (pneg a) = - ev x a.
Proof. induction a; cbn; [lia|]. unfold pneg in IHa. rewrite IHa. ring. Qed.
Lemma ev_scale x c a : ev x (pscale c a) = c * ev x a.
Proof. induction a; cbn; [lia|]. unfold pscale in IHa. rewrite IHa. ring. Qed.
Lemma ev_zeros x n : ev x (repeat 0 n) = 0.
Proof. induction n; cbn; [lia|]. rewrite IHn. lia. Qed.
Lemma ev_pmod p x a : p <> 0 -> cong p (ev x (pmod p a)) (ev x a).
Proof.
  intros Hp. apply ev_cong; [reflexivity|]. induction a; cbn; constructor; [apply cong_mod; auto|auto].
Qed.

Lemma padd_length a b : length a = length b -> length (padd a b) = length a.
Proof. revert b; induction a; destruct b; cbn; intros; try lia. rewrite IHa; lia. Qed.
Lemma psub_length a b : length a = length b -> length (psub a b) = length a.
Proof. revert b; induction a; destruct b; cbn; intros; try lia. rewrite IHa; lia. Qed.
Lemma pneg_length a : length (pneg a) = length a. Proof. apply map_length. Qed.
Lemma pscale_length c a : length (pscale c a) = length a. Proof. apply map_length. Qed.
Lemma pmod_length p a : length (pmod p a) = length a. Proof. apply map_length. Qed.

Lemma pcong_refl p a : pcong p a a.
Proof. induction a; constructor; [reflexivity|assumption]. Qed.
Lemma pcong_sym p a b : pcong p a b -> pcong p b a.
Proof. induction 1; constructor; [symmetry|]; assumption. Qed.
Lemma pcong_trans p a b c : pcong p a b -> pcong p b c -> pcong p a c.
Proof.
  intros H. revert c. induction H; intros c Hc; inv Hc; constructor; [etransitivity; eauto|].
  apply IHForall2; assumption.
Qed.
Global Instance pcong_equiv p : Equivalence (pcong p).
Proof. split; [exact (pcong_refl p)|exact (pcong_sym p)|exact (pcong_trans p)]. Qed.
Lemma pcong_length p a b : pcong p a b -> length a = length b.
Proof. induction 1; cbn; auto. Qed.
Lemma pcong_pmod p a : p <> 0 -> pcong p (pmod p a) a.
Proof. intros. induction a; constructor; [apply cong_mod; assumption|assumption]. Qed.
Lemma pmod_canonical p a : 0 < p -> canonical p (pmod p a).
Proof. intros. induction a; constructor; [apply Z.mod_pos_bound; assumption|assumption]. Qed.
Lemma pmod_small p a : canonical p a -> pmod p a = a.
Proof. induction 1; cbn; [reflexivity|]. rewrite Z.mod_small by assumption. f_equal. assumption. Qed.
Lemma pcong_eq p a b : canonical p a -> canonical p b -> pcong p a b -> a = b.
Proof.
  intros Ha Hb H. induction H; [reflexivity|]. inv Ha. inv Hb.
  f_equal; [eapply cong_small; eauto|auto].
Qed.
Lemma pcong_canon p a b : 0 < p -> canonical p a -> pcong p a b -> a = pmod p b.
Proof.
  intros Hp Ha H. apply (pcong_eq p); [assumption|apply pmod_canonical; assumption|].
  rewrite H. symmetry. apply pcong_pmod. lia.
Qed.
Lemma pmod_eq p a b : 0 < p -> (pmod p a = pmod p b <-> pcong p a b).
Proof.
  intros Hp. split.
  - intros H. rewrite <- (pcong_pmod p a), H by lia. apply pcong_pmod. lia.
  - intros H. apply pcong_canon; [assumption|apply pmod_canonical; assumption|].
    rewrite pcong_pmod by lia. assumption.
Qed.
Lemma pcong_nth p a b : length a = length b -> (forall i, (i < length a)%nat -> cong p (nth i a 0) (nth i b 0)) -> pcong p a b.
Proof.
  revert b. induction a; destruct b; cbn; intros Hl H; try lia; constructor.
  - apply (H O). lia.
  - apply IHa; [lia|]. intros i Hi. apply (H (S i)). lia.
Qed.
Lemma pcong_nth_inv p a b i : pcong p a b -> cong p (nth i a 0) (nth i b 0).
Proof.
  intros H. revert i. induction H; intros i; [reflexivity|]. destruct i; cbn; auto.
Qed.
Global Instance padd_proper p : Proper (pcong p ==> pcong p ==> pcong p) padd.
Proof.
  intros a b H. induction H; intros c d H'; [constructor|]. inv H'; cbn; constructor.
  - apply cong_add; assumption.
  - apply IHForall2. assumption.
Qed.
Global Instance psub_proper p : Proper (pcong p ==> pcong p ==> pcong p) psub.
Proof.
  intros a b H. induction H; intros c d H'; [constructor|]. inv H'; cbn; constructor.
  - apply cong_sub; assumption.
  - apply IHForall2. assumption.
Qed.
Global Instance pneg_proper p : Proper (pcong p ==> pcong p) pneg.
Proof. intros a b H. induction H; constructor; [apply cong_opp|]; assumption. Qed.
Lemma pscale_cong p c d a b : cong p c d -> pcong p a b -> pcong p (pscale c a) (pscale d b).
Proof. intros Hc H. induction H; constructor; [apply cong_mul|]; assumption. Qed.

Lemma nth_padd a b i : length a = length b -> nth i (padd a b) 0 = nth i a 0 + nth i b 0.
Proof. revert b i; induction a; destruct b, i; cbn; intros; try lia. apply IHa. lia. Qed.
Lemma nth_psub a b i : length a = length b -> nth i (psub a b) 0 = nth i a 0 - nth i b 0.
Proof. revert b i; induction a; destruct b, i; cbn; intros; try lia. apply IHa. lia. Qed.
Lemma nth_pneg a i : nth i (pneg a) 0 = - nth i a 0.
Proof. unfold pneg. change 0 with (- 0) at 1. rewrite map_nth. reflexivity. Qed.
Lemma nth_pscale c a i : nth i (pscale c a) 0 = c * nth i a 0.
Proof. unfold pscale. replace 0 with (c * 0) at 1 by lia. rewrite (map_nth (Z.mul c)). reflexivity. Qed.

(** * Root counting *)
Fixpoint synth (z : Z) (a : list Z) : list Z :=
  match a with [] => [] | _ :: a' => match a' with [] => [] | _ => ev z a' :: synth z a' end end.

Lemma synth_length z a : length (synth z a) = pred (length a).
Proof. induction a as [|x [|y a] IH]; [reflexivity..|]. cbn in *. rewrite IH. reflexivity. Qed.

Lemma synth_spec x z a : ev x a - ev z a = (x - z) * ev x (synth z a).
Proof.
  induction a as [|c a IH]; [cbn; ring|]. destruct a as [|d a]; [cbn; ring|].
  change (synth z (c :: d :: a)) with (ev z (d :: a) :: synth z (d :: a)).
  change (ev x (c :: d :: a)) with (c + x * ev x (d :: a)).
  change (ev z (c :: d :: a)) with (c + z * ev z (d :: a)).
  set (A := ev x (d :: a)) in *. set (Az := ev z (d :: a)) in *. cbn [ev].
  fold Az. replace ((x - z) * (Az + x * ev x (synth z (d :: a))))
    with ((x - z) * Az + x * ((x - z) * ev x (synth z (d :: a)))) by ring.
  rewrite <- IH. ring.
Qed.

Lemma synth_zero p z a : cong p (ev z a) 0 -> Forall (fun c => cong p c 0) (synth z a) ->
  Forall (fun c => cong p c 0) a.
Proof.
  induction a as [|c a IH]; intros He Hs; [constructor|]. destruct a as [|d a].
  - constructor; [|constructor]. cbn in He. rewrite <- He. apply cong_of_eq. ring.
  - change (synth z (c :: d :: a)) with (ev z (d :: a) :: synth z (d :: a)) in Hs. inv Hs.
    specialize (IH H1 H2). constructor; [|exact IH].
    change (ev z (c :: d :: a)) with (c + z * ev z (d :: a)) in He.
    rewrite H1 in He. rewrite <- He. apply cong_of_eq. ring.
Qed.

(** Pairwise incongruent points. *)
Fixpoint incong (p : Z) (l : list Z) : Prop :=
  match l with [] => True | x :: l' => Forall (fun y => ~ cong p x y) l' /\ incong p l' end.

Lemma roots_zero p a : prime p -> forall l, incong p l -> (length a <= length l)%nat ->
  Forall (fun z => cong p (ev z a) 0) l -> Forall (fun c => cong p c 0) a.
Proof.
  intros Hp. remember (length a) as n eqn:En. revert a En.
  induction n as [|n IH]; intros a En l Hl Hle Hz.
  - destruct a; [constructor|discriminate].
  - destruct l as [|z l]; [cbn in Hle; lia|]. destruct Hl as [Hz1 Hl]. inv Hz.
    apply synth_zero with z; [assumption|].
    apply (IH (synth z a)) with l; [rewrite synth_length, <- En; reflexivity|assumption|cbn in Hle; lia|].
    rewrite Forall_forall in *. intros x Hx. specialize (Hz1 x Hx). specialize (H2 x Hx).
    pose proof (synth_spec x z a) as Hs.
    assert (Hd : (p | (x - z) * ev x (synth z a))).
    { rewrite <- Hs. unfold cong in H1, H2. rewrite Z.sub_0_r in *. apply Z.divide_sub_r; assumption. }
    apply prime_mult in Hd; [|assumption]. destruct Hd as [Hd|Hd].
    + exfalso. apply Hz1. apply cong_sym. exact Hd.
    + unfold cong. rewrite Z.sub_0_r. exact Hd.
Qed.

Lemma ev_inj p a b l : prime p -> incong p l -> length a = length b -> (length a <= length l)%nat ->
  (forall z, In z l -> cong p (ev z a) (ev z b)) -> pcong p a b.
Proof.
  intros Hp Hl Hab Hle H.
  assert (Hz : Forall (fun c => cong p c 0) (psub a b)).
  { apply (roots_zero p (psub a b) Hp l Hl); [rewrite psub_length; assumption|].
    apply Forall_forall. intros z Hz. rewrite ev_sub by assumption. rewrite (H z Hz).
    apply cong_of_eq. ring. }
  clear H. revert b Hab Hz. induction a as [|x a IH]; destruct b as [|y b]; cbn; intros Hab Hz; try lia.
  - constructor.
  - inv Hz. constructor; [|apply IH; [cbn in Hle; lia|lia|assumption]].
    unfold cong in *. rewrite Z.sub_0_r in H1. exact H1.
Qed.

(** * Negacyclic product *)
Lemma negacyclic_length n a b : length (negacyclic n a b) = n.
Proof. unfold negacyclic. rewrite map_length, seq_length. reflexivity. Qed.
Lemma nth_negacyclic n a b k : (k < n)%nat -> nth k (negacyclic n a b) 0 = negacyclic_coeff n a b k.
Proof.
  intros H. unfold negacyclic.
  rewrite (nth_indep _ 0 (negacyclic_coeff n a b 0)) by (rewrite map_length, seq_length; exact H).
  rewrite map_nth, seq_nth by exact H. reflexivity.
Qed.

Lemma ev_nth x a n : length a = n -> ev x a = zsum (fun i => nth i a 0 * npow x i) n.
Proof. intros <-. apply ev_zsum. Qed.

Lemma ev_negacyclic p z n a b : length a = n -> length b = n -> cong p (npow z n) (-1) ->
  cong p (ev z (negacyclic n a b)) (ev z a * ev z b).
Proof.
  intros Ha Hb Hz. rewrite (ev_nth z (negacyclic n a b) n) by apply negacyclic_length.
  rewrite (ev_nth z a n Ha), (ev_nth z b n Hb).
  rewrite (zsum_ext _ (fun k => zsum (fun i =>
     (if (i <=? k)%nat then nth i a 0 * nth (k - i) b 0 else - (nth i a 0 * nth (n + k - i) b 0)) * npow z k) n)).
  2:{ intros k Hk. rewrite nth_negacyclic by exact Hk. unfold negacyclic_coeff. rewrite zsum_mul_r. reflexivity. }
  rewrite zsum_swap, <- zsum_mul_r. apply zsum_cong. intros i Hi.
  assert (Hs : forall f, zsum f n = zsum f i + zsum (fun j => f (i + j)%nat) (n - i)).
  { intros f. rewrite <- zsum_split. f_equal. lia. }
  assert (Hs' : forall f, zsum f n = zsum f (n - i) + zsum (fun j => f (n - i + j)%nat) i).
  { intros f. rewrite <- zsum_split. f_equal. lia. }
  etransitivity; [apply cong_of_eq, Hs|]. cbv beta.
  rewrite (zsum_ext (fun j => (if (i <=? i + j)%nat then nth i a 0 * nth (i + j - i) b 0
       else - (nth i a 0 * nth (n + (i + j) - i) b 0)) * npow z (i + j))
    (fun j => (nth i a 0 * npow z i) * (nth j b 0 * npow z j))).
  2:{ intros j _. destruct (Nat.leb_spec i (i + j)); [|lia]. replace (i + j - i)%nat with j by lia.
      rewrite npow_add. ring. }
  rewrite zsum_mul.
  transitivity (zsum (fun j => (nth i a 0 * npow z i) * (nth (n - i + j)%nat b 0 * npow z (n - i + j))) i +
     nth i a 0 * npow z i * zsum (fun j => nth j b 0 * npow z j) (n - i)).
  - apply cong_add; [|reflexivity]. apply zsum_cong. intros j Hj.
    destruct (Nat.leb_spec i j); [lia|]. replace (n + j - i)%nat with (n - i + j)%nat by lia.
    transitivity (nth i a 0 * nth (n - i + j)%nat b 0 * (npow z n * npow z j)).
    + rewrite Hz. apply cong_of_eq. ring.
    + apply cong_of_eq. replace (npow z n) with (npow z i * npow z (n - i)).
      * rewrite npow_add. ring.
      * rewrite <- npow_add. f_equal. lia.
  - apply cong_of_eq. rewrite zsum_mul, (Hs' (fun j => nth j b 0 * npow z j)). ring.
Qed.

Lemma negacyclic_abs n a b A C k : (forall i, Z.abs (nth i a 0) <= A) -> (forall i, Z.abs (nth i b 0) <= C) ->
  Z.abs (nth k (negacyclic n a b) 0) <= Z.of_nat n * (A * C).
Proof.
  intros Ha Hb. pose proof (Ha O). pose proof (Hb O).
  destruct (Nat.ltb_spec k n).
  - rewrite nth_negacyclic by assumption. apply zsum_abs. intros i _.
    destruct (Nat.leb_spec i k); rewrite ?Z.abs_opp, Z.abs_mul; apply Z.mul_le_mono_nonneg; auto; lia.
  - rewrite nth_overflow by (rewrite negacyclic_length; assumption). cbn [Z.abs].
    apply Z.mul_nonneg_nonneg; [lia|apply Z.mul_nonneg_nonneg; lia].
Qed.

(** * Bit reversal *)
Lemma bitrev_bound k i : (bitrev k i < 2 ^ k)%nat.
Proof.
  revert i. induction k; intros i; cbn [bitrev Nat.pow]; [lia|].
  specialize (IHk (i / 2)%nat). pose proof (Nat.mod_upper_bound i 2 ltac:(lia)). nia.
Qed.
Lemma bitrev_0 k : bitrev k 0 = 0%nat.
Proof. induction k; cbn; [reflexivity|]. rewrite IHk. reflexivity. Qed.
Lemma bitrev_even k c : bitrev (S k) (2 * c) = bitrev k c.
Proof.
  cbn [bitrev]. rewrite (Nat.mul_comm 2 c), Nat.mod_mul, Nat.div_mul by lia. lia.
Qed.
Lemma bitrev_odd k c : bitrev (S k) (2 * c + 1) = (2 ^ k + bitrev k c)%nat.
Proof.
  cbn [bitrev]. rewrite (Nat.add_comm (2 * c) 1), (Nat.mul_comm 2 c), Nat.mod_add, Nat.div_add by lia.
  change (1 mod 2)%nat with 1%nat. change (1 / 2)%nat with 0%nat. rewrite Nat.add_0_l. lia.
Qed.
(** Low [t] bits [j], the rest [c]. *)
Lemma bitrev_split t s c j : (j < 2 ^ t)%nat ->
  bitrev (t + s) (c * 2 ^ t + j) = (bitrev t j * 2 ^ s + bitrev s c)%nat.
Proof.
  revert j. induction t as [|t IH]; intros j Hj.
  - cbn in *. replace j with O by lia. f_equal. lia.
  - change (S t + s)%nat with (S (t + s)). cbn [bitrev].
    assert (E : (c * 2 ^ S t + j = (c * 2 ^ t) * 2 + j)%nat) by (cbn [Nat.pow]; lia).
    rewrite E. rewrite (Nat.add_comm (c * 2 ^ t * 2) j), Nat.mod_add, Nat.div_add by lia.
    rewrite (Nat.add_comm (j / 2)). rewrite IH.
    + rewrite Nat.pow_add_r. ring.
    + cbn [Nat.pow] in Hj. apply Nat.div_lt_upper_bound; lia.
Qed.
Lemma bitrev_ones k : bitrev k (2 ^ k - 1) = (2 ^ k - 1)%nat.
Proof.
  induction k; [reflexivity|]. pose proof (Nat.pow_nonzero 2 k ltac:(lia)).
  replace (2 ^ S k - 1)%nat with (2 * (2 ^ k - 1) + 1)%nat at 1 by (cbn [Nat.pow]; lia).
  rewrite bitrev_odd, IHk. cbn [Nat.pow]. lia.
Qed.
Lemma bitrev_involutive k i : (i < 2 ^ k)%nat -> bitrev k (bitrev k i) = i.
Proof.
  revert i. induction k as [|k IH]; intros i Hi; [cbn in *; lia|].
  change (bitrev (S k) i) with ((i mod 2) * 2 ^ k + bitrev k (i / 2))%nat. replace (S k) with (k + 1)%nat by lia.
  rewrite bitrev_split by apply bitrev_bound. rewrite IH.
  - change (2 ^ 1)%nat with 2%nat. change (bitrev 1 (i mod 2)) with ((i mod 2) mod 2 * 1 + 0)%nat.
    rewrite Nat.mod_mod by lia. pose proof (Nat.div_mod i 2 ltac:(lia)). lia.
  - cbn [Nat.pow] in Hi. apply Nat.div_lt_upper_bound; lia.
Qed.
Lemma bitrev_inj k i j : (i < 2 ^ k)%nat -> (j < 2 ^ k)%nat -> bitrev k i = bitrev k j -> i = j.
Proof. intros Hi Hj H. rewrite <- (bitrev_involutive k i Hi), H. apply bitrev_involutive. exact Hj. Qed.

(** * Roots of unity of order 2^(k+1) *)
Section Root.
  Variables (p w : Z) (k : nat).
  Hypothesis Hp : prime p.
  Hypothesis Hp2 : 2 < p.
  Hypothesis Hw : cong p (npow w (2 ^ k)) (-1).

  Lemma root_full : cong p (npow w (2 * 2 ^ k)) 1.
  Proof.
    rewrite Nat.mul_comm, npow_mul. rewrite (npow_cong p _ (-1)) by exact Hw. reflexivity.
  Qed.

  Lemma neg_one_ne_one : ~ cong p (-1) 1.
  Proof.
    intros [q H]. assert ((p | 2)) by (exists (-q); lia). apply Z.divide_pos_le in H0; lia.
  Qed.

  Lemma root_order e : (0 < e < 2 * 2 ^ k)%nat -> ~ cong p (npow w e) 1.
  Proof.
    intros He H. set (N := (2 * 2 ^ k)%nat) in *.
    pose proof (pow_gcd_one p w (S N) (Z.of_nat e) (Z.of_nat N) ltac:(lia) ltac:(lia) H root_full) as Hg.
    set (g := Z.gcd (Z.of_nat e) (Z.of_nat N)) in *.
    assert (HN : Z.of_nat N = 2 ^ Z.of_nat (S k)).
    { subst N. change (2 * 2 ^ k)%nat with (2 ^ S k)%nat. rewrite Nat2Z.inj_pow. reflexivity. }
    assert (Hd : (g | 2 ^ Z.of_nat (S k))) by (rewrite <- HN; apply Z.gcd_divide_r).
    assert (Hg0 : 0 < g).
    { pose proof (Z.gcd_nonneg (Z.of_nat e) (Z.of_nat N)). fold g in H0.
      destruct (Z.eq_dec g 0) as [E|]; [|lia]. apply Z.gcd_eq_0_l in E. lia. }
    assert (Hgk : (g | 2 ^ Z.of_nat k)).
    { (* a divisor of 2^(k+1) other than 2^(k+1) divides 2^k *)
      destruct Hd as [q Hq].
      assert (Hq0 : 0 < q) by nia.
      assert (Hlt : g < 2 ^ Z.of_nat (S k)).
      { rewrite <- HN. apply Z.le_lt_trans with (Z.of_nat e); [|lia].
        apply Z.divide_pos_le; [lia|apply Z.gcd_divide_l]. }
      destruct (Zeven_odd_dec q) as [Ev|Od].
      - apply Zeven_div2 in Ev. exists (Z.div2 q). rewrite Nat2Z.inj_succ, Z.pow_succ_r in Hq by lia. nia.
      - exfalso.
        assert (Hr : rel_prime q (2 ^ Z.of_nat (S k))).
        { apply Zpow_facts.rel_prime_Zpower_r; [lia|].
          apply rel_prime_sym. apply prime_not_div_rel; [apply prime_2|].
          intros [t Ht]. apply Zodd_bool_iff in Od. rewrite Ht, Z.odd_mul in Od.
          cbn in Od. rewrite andb_false_r in Od. discriminate. }
        assert (q = 1).
        { destruct Hr as [_ _ Hr]. specialize (Hr q (Z.divide_refl q)).
          assert ((q | 1)). { apply Hr. exists g. lia. }
          apply Z.divide_1_r_nonneg in H0; lia. }
        subst q. lia. }
    assert (Hbad : cong p (w ^ (2 ^ Z.of_nat k)) 1).
    { destruct Hgk as [q Hq]. assert (0 < q) by nia. rewrite Hq, Z.mul_comm, Z.pow_mul_r by lia.
      eapply cong_trans; [apply cong_pow; exact Hg|]. rewrite Z.pow_1_l by lia. reflexivity. }
    apply neg_one_ne_one. transitivity (npow w (2 ^ k)); [symmetry; exact Hw|].
    unfold npow. rewrite Nat2Z.inj_pow. exact Hbad.
  Qed.

  Lemma root_not_div : ~ (p | w).
  Proof.
    intros H. apply neg_one_ne_one. transitivity (npow w (2 ^ k)); [symmetry; exact Hw|].
    exfalso. assert (Hz : cong p w 0) by (unfold cong; rewrite Z.sub_0_r; exact H).
    pose proof (npow_cong p w 0 (2 ^ k) Hz) as E. unfold npow in E at 2.
    pose proof (Nat.pow_nonzero 2 k ltac:(lia)).
    rewrite Z.pow_0_l in E by lia. rewrite Hw in E. destruct E as [q E].
    assert ((p | 1)) by (exists (- q); lia). apply Z.divide_pos_le in H1; lia.
  Qed.

  Lemma root_pow_inj i j : (i < 2 * 2 ^ k)%nat -> (j < 2 * 2 ^ k)%nat ->
    cong p (npow w i) (npow w j) -> i = j.
  Proof.
    assert (Hwlog : forall i j, (i < j)%nat -> (j < 2 * 2 ^ k)%nat -> ~ cong p (npow w i) (npow w j)).
    { intros a b Hab Hb H. apply (root_order (b - a)); [lia|].
      apply (cong_cancel p (npow w a)).
      - apply prime_not_div_rel; [assumption|]. intros Hd. apply root_not_div.
        apply prime_div_pow in Hd; [assumption|assumption|lia].
      - rewrite <- npow_add. replace (a + (b - a))%nat with b by lia. rewrite Z.mul_1_r.
        symmetry. exact H. }
    intros Hi Hj H. destruct (lt_eq_lt_dec i j) as [[L|E]|L]; [|assumption|].
    - destruct (Hwlog i j L Hj H).
    - destruct (Hwlog j i L Hi (cong_sym _ _ _ H)).
  Qed.

  (** The evaluation points. *)
  Definition zeta (i : nat) : Z := npow w (2 * i + 1).

  Lemma zeta_pow i : cong p (npow (zeta i) (2 ^ k)) (-1).
  Proof.
    unfold zeta. rewrite <- npow_mul. replace ((2 * i + 1) * 2 ^ k)%nat with (2 * 2 ^ k * i + 2 ^ k)%nat by ring.
    rewrite npow_add, npow_mul, Hw. rewrite (npow_cong p _ 1) by exact root_full. rewrite npow_one. reflexivity.
  Qed.

  Lemma zetas_incong : incong p (map zeta (seq 0 (2 ^ k))).
  Proof.
    assert (H : forall n s, (s + n <= 2 ^ k)%nat -> incong p (map zeta (seq s n))).
    { induction n as [|n IH]; intros s Hs; cbn; [exact I|]. split; [|apply IH; lia].
      apply Forall_forall. intros y Hy. apply in_map_iff in Hy. destruct Hy as (j & <- & Hj).
      apply in_seq in Hj. intros H. apply root_pow_inj in H; lia. }
    apply H. lia.
  Qed.

  Lemma ev_inj_root a b : length a = (2 ^ k)%nat -> length b = (2 ^ k)%nat ->
    (forall z, cong p (npow z (2 ^ k)) (-1) -> cong p (ev z a) (ev z b)) -> pcong p a b.
  Proof.
    intros Ha Hb H. apply (ev_inj p a b (map zeta (seq 0 (2 ^ k)))); try assumption.
    - apply zetas_incong.
    - congruence.
    - rewrite map_length, seq_length. lia.
    - intros z Hz. apply in_map_iff in Hz. destruct Hz as (j & <- & _). apply H. apply zeta_pow.
  Qed.

  Lemma ev_inj_zeta a b : length a = (2 ^ k)%nat -> length b = (2 ^ k)%nat ->
    (forall i, (i < 2 ^ k)%nat -> cong p (ev (zeta i) a) (ev (zeta i) b)) -> pcong p a b.
  Proof.
    intros Ha Hb H. apply (ev_inj p a b (map zeta (seq 0 (2 ^ k)))); try assumption.
    - apply zetas_incong.
    - congruence.
    - rewrite map_length, seq_length. lia.
    - intros z Hz. apply in_map_iff in Hz. destruct Hz as (j & <- & Hj). apply in_seq in Hj. apply H. lia.
  Qed.

  (** Every solution of x^n = -1 is an odd power of [w]. *)
  Lemma root_all z : cong p (npow z (2 ^ k)) (-1) -> exists i, (i < 2 ^ k)%nat /\ cong p z (zeta i).
  Proof.
    intros Hz.
    set (a := 1 :: repeat 0 (2 ^ k - 1) ++ [1]).
    pose proof (Nat.pow_nonzero 2 k ltac:(lia)) as Hn0.
    assert (Ea : forall x, ev x a = npow x (2 ^ k) + 1).
    { intros x. unfold a. cbn [ev]. rewrite ev_app, ev_zeros, repeat_length. cbn [ev].
      replace (2 ^ k)%nat with (S (2 ^ k - 1)) at 2 by lia. rewrite npow_S. ring. }
    destruct (Exists_dec (fun i => cong p z (zeta i)) (seq 0 (2 ^ k))) as [He|He].
    { intros i. unfold cong. apply Znumtheory.Zdivide_dec. }
    - apply Exists_exists in He. destruct He as (i & Hi & H). apply in_seq in Hi. exists i. split; [lia|exact H].
    - exfalso. assert (Hl : incong p (z :: map zeta (seq 0 (2 ^ k)))).
      { split; [|apply zetas_incong]. apply Forall_forall. intros y Hy.
        apply in_map_iff in Hy. destruct Hy as (i & <- & Hi). intros H. apply He.
        apply Exists_exists. exists i. auto. }
      assert (Hall : Forall (fun c => cong p c 0) a).
      { apply (roots_zero p a Hp _ Hl).
        - unfold a. cbn [length]. rewrite app_length, repeat_length, map_length, seq_length. cbn. lia.
        - assert (Hz0 : forall x, cong p (npow x (2 ^ k)) (-1) -> cong p (ev x a) 0).
          { intros x Hx. rewrite Ea, Hx. reflexivity. }
          constructor; [apply Hz0; exact Hz|]. apply Forall_forall. intros y Hy.
          apply in_map_iff in Hy. destruct Hy as (i & <- & Hi). apply Hz0, zeta_pow. }
      inv Hall. destruct H1 as [q Hq]. assert ((p | 1)) by (exists q; lia).
      apply Z.divide_pos_le in H; lia.
  Qed.
End Root.
