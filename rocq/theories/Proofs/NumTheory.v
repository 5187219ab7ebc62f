(** Number theory over Z: Fermat, Lucas primality certificates, cancellation. *)
From Coq Require Import ZArith Znumtheory Zpow_facts List Bool Lia Permutation.
From Verif Require Import Proofs.Arith.
Import ListNotations.
Local Open Scope Z_scope.

Lemma cong_cancel p c a b : rel_prime p c -> cong p (c * a) (c * b) -> cong p a b.
Proof.
  intros Hc H. unfold cong in *. apply Gauss with c; [|assumption].
  replace (c * (a - b)) with (c * a - c * b) by ring. exact H.
Qed.

Lemma prime_not_div_rel p a : prime p -> ~ (p | a) -> rel_prime p a.
Proof. intros. apply prime_rel_prime; assumption. Qed.

Lemma prime_pos p : prime p -> 2 <= p.
Proof. apply prime_ge_2. Qed.

Lemma prime_mul_nz p a b : prime p -> ~ (p | a) -> ~ (p | b) -> ~ (p | a * b).
Proof. intros Hp Ha Hb H. apply prime_mult in H; tauto. Qed.

Lemma prime_small_nz p a : 0 < a < p -> ~ (p | a).
Proof. intros Ha H. apply Z.divide_pos_le in H; lia. Qed.

(** Products. *)
Fixpoint zprod (l : list Z) : Z := match l with [] => 1 | x :: l' => x * zprod l' end.

Lemma zprod_perm l l' : Permutation l l' -> zprod l = zprod l'.
Proof. induction 1; cbn; lia. Qed.

Lemma zprod_map_mod p a l : 0 < p ->
  cong p (zprod (map (fun i => (a * i) mod p) l)) (a ^ Z.of_nat (length l) * zprod l).
Proof.
  intros Hp. induction l as [|x l IH].
  - cbn. reflexivity.
  - cbn [map zprod length]. rewrite Nat2Z.inj_succ, Z.pow_succ_r by lia.
    rewrite IH. rewrite (cong_mod p (a * x)) by lia. apply cong_of_eq. ring.
Qed.

Definition zseq (n : nat) : list Z := map Z.of_nat (seq 1 n).

Lemma zseq_in n x : In x (zseq n) <-> 1 <= x <= Z.of_nat n.
Proof.
  unfold zseq. rewrite in_map_iff. split.
  - intros (k & <- & H). apply in_seq in H. lia.
  - intros H. exists (Z.to_nat x). rewrite Z2Nat.id by lia. split; [reflexivity|].
    apply in_seq. lia.
Qed.

Lemma NoDup_map_inj {A C} (f : A -> C) l :
  (forall x y, In x l -> In y l -> f x = f y -> x = y) -> NoDup l -> NoDup (map f l).
Proof.
  intros Hf. induction l as [|x l IH]; intros Hnd; cbn; [constructor|].
  inv Hnd. constructor.
  - rewrite in_map_iff. intros (y & E & Hy).
    apply Hf in E; [subst; contradiction|right; assumption|left; reflexivity].
  - apply IH; [|assumption]. intros; apply Hf; auto; right; assumption.
Qed.

Lemma zseq_nodup n : NoDup (zseq n).
Proof. apply NoDup_map_inj; [intros; lia|apply seq_NoDup]. Qed.

Theorem fermat p a : prime p -> ~ (p | a) -> cong p (a ^ (p - 1)) 1.
Proof.
  intros Hp Ha. pose proof (prime_pos p Hp) as H2.
  set (n := Z.to_nat (p - 1)). set (l := zseq n).
  assert (Hin : forall x, In x l <-> 1 <= x < p).
  { intros x. unfold l. rewrite zseq_in. unfold n. lia. }
  assert (Hpm : Permutation (map (fun i => (a * i) mod p) l) l).
  { apply NoDup_Permutation_bis.
    - apply NoDup_map_inj; [|apply zseq_nodup].
      intros x y Hx Hy E. apply Hin in Hx, Hy. apply cong_small with p; try lia.
      apply cong_cancel with a; [apply prime_not_div_rel; assumption|].
      apply cong_iff; [lia|exact E].
    - rewrite map_length. lia.
    - intros z Hz. apply in_map_iff in Hz. destruct Hz as (i & <- & Hi). apply Hin in Hi.
      apply Hin. pose proof (Z.mod_pos_bound (a * i) p ltac:(lia)).
      assert ((a * i) mod p <> 0); [|lia].
      intros E. apply Z.mod_divide in E; [|lia]. revert E. apply prime_mul_nz; try assumption.
      apply prime_small_nz; lia. }
  apply zprod_perm in Hpm.
  pose proof (zprod_map_mod p a l ltac:(lia)) as H. rewrite Hpm in H.
  assert (Hl : Z.of_nat (length l) = p - 1).
  { unfold l, zseq. rewrite map_length, seq_length. unfold n. lia. }
  rewrite Hl in H. apply cong_cancel with (zprod l).
  - apply prime_not_div_rel; [assumption|].
    assert (Hall : forall x, In x l -> ~ (p | x)).
    { intros x Hx. apply Hin in Hx. apply prime_small_nz; lia. }
    clear -Hp Hall. induction l as [|x l IH]; cbn.
    + intros H. apply Z.divide_1_r_nonneg in H; [subst|]; pose proof (prime_pos _ Hp); lia.
    + apply prime_mul_nz; [assumption|apply Hall; left; reflexivity|].
      apply IH. intros; apply Hall; right; assumption.
  - rewrite Z.mul_1_r. symmetry. rewrite Z.mul_comm. exact H.
Qed.

Corollary fermat_inv p a : prime p -> ~ (p | a) -> cong p (a ^ (p - 2) * a) 1.
Proof.
  intros Hp Ha. pose proof (prime_pos p Hp).
  replace (a ^ (p - 2) * a) with (a ^ (p - 1)); [apply fermat; assumption|].
  replace (p - 1) with (Z.succ (p - 2)) by lia. rewrite Z.pow_succ_r by lia. ring.
Qed.

(** Exponents killing [g] are closed under gcd. *)
Lemma pow_mod_one r g a b : 0 <= a -> 0 < b -> cong r (g ^ a) 1 -> cong r (g ^ b) 1 ->
  cong r (g ^ (a mod b)) 1.
Proof.
  intros Ha Hb H1 H2.
  pose proof (Z.div_mod a b ltac:(lia)) as E. pose proof (Z.mod_pos_bound a b Hb) as Hm.
  assert (Hq : 0 <= a / b) by (apply Z.div_pos; lia).
  rewrite <- H1. rewrite E at 2. rewrite Z.pow_add_r by nia. rewrite Z.pow_mul_r by lia.
  transitivity (1 * g ^ (a mod b)); [apply cong_of_eq; ring|].
  apply cong_mul; [|reflexivity]. symmetry.
  eapply cong_trans; [apply cong_pow; exact H2|]. rewrite Z.pow_1_l by lia. reflexivity.
Qed.

Lemma pow_gcd_one r g : forall n a b, 0 <= a -> 0 <= b < Z.of_nat n ->
  cong r (g ^ a) 1 -> cong r (g ^ b) 1 -> cong r (g ^ Z.gcd a b) 1.
Proof.
  induction n as [|n IH]; intros a b Ha Hb H1 H2; [lia|].
  destruct (Z.eq_dec b 0) as [->|].
  - rewrite Z.gcd_0_r, Z.abs_eq by lia. exact H1.
  - rewrite Z.gcd_comm. rewrite <- Z.gcd_mod by lia. rewrite Z.gcd_comm.
    pose proof (Z.mod_pos_bound a b ltac:(lia)).
    apply IH; try lia; [assumption|]. apply pow_mod_one; try assumption; lia.
Qed.

Lemma prime_divisor_exists n : 1 < n -> exists q, prime q /\ (q | n).
Proof.
  intros Hn. assert (H0 : 0 <= n) by lia. revert n H0 Hn.
  apply (Z_lt_induction (fun n => 1 < n -> exists q, prime q /\ (q | n))).
  intros n IH Hn. destruct (prime_dec n) as [Hp|Hp].
  - exists n. split; [assumption|apply Z.divide_refl].
  - apply not_prime_divide in Hp; [|lia]. destruct Hp as (d & Hd & Hdiv).
    destruct (IH d ltac:(lia) ltac:(lia)) as (q & Hq & Hqd).
    exists q. split; [assumption|]. apply Z.divide_trans with d; assumption.
Qed.

Theorem lucas_prime p g (qs : list Z) : 1 < p ->
  (forall q, prime q -> (q | p - 1) -> In q qs) ->
  cong p (g ^ (p - 1)) 1 ->
  (forall q, In q qs -> rel_prime (g ^ ((p - 1) / q) - 1) p) ->
  prime p.
Proof.
  intros Hp Hqs H1 Hrel.
  destruct (prime_divisor_exists p Hp) as (r & Hr & Hrp).
  pose proof (prime_pos r Hr) as Hr2.
  assert (Hg : ~ (r | g)).
  { intros Hd. assert (Hd1 : cong r (g ^ (p - 1)) 1) by (apply cong_divide with p; assumption).
    assert (cong r (g ^ (p - 1)) 0).
    { apply cong_0. replace (p - 1) with (Z.succ (p - 2)) by lia.
      rewrite Z.pow_succ_r by lia. apply Z.divide_mul_l. exact Hd. }
    assert (cong r 1 0) by (rewrite <- Hd1; assumption).
    apply cong_0 in H0. apply Z.divide_1_r_nonneg in H0; lia. }
  pose proof (fermat r g Hr Hg) as H2.
  assert (Hd : cong r (g ^ Z.gcd (p - 1) (r - 1)) 1).
  { apply pow_gcd_one with (Z.to_nat r); try lia; [|exact H2].
    apply cong_divide with p; assumption. }
  set (d := Z.gcd (p - 1) (r - 1)) in *.
  assert (Hdp : (d | p - 1)) by apply Z.gcd_divide_l.
  assert (Hdr : (d | r - 1)) by apply Z.gcd_divide_r.
  assert (Hdpos : 0 < d).
  { pose proof (Z.gcd_nonneg (p - 1) (r - 1)). fold d in H.
    assert (d <> 0); [|lia]. intros E. destruct Hdp as [k Hk]. rewrite E in Hk. lia. }
  destruct Hdp as [k Hk].
  assert (Hk0 : 0 < k) by nia.
  destruct (Z.eq_dec k 1) as [Hk1|Hk1].
  - subst k. assert (p - 1 <= r - 1).
    { rewrite Hk, Z.mul_1_l. apply Z.divide_pos_le; [lia|assumption]. }
    assert (r <= p) by (apply Z.divide_pos_le; [lia|assumption]).
    replace p with r by lia. exact Hr.
  - exfalso. destruct (prime_divisor_exists k ltac:(lia)) as (q & Hq & [j Hj]).
    pose proof (prime_pos q Hq).
    assert (Hin : In q qs).
    { apply Hqs; [assumption|]. rewrite Hk, Hj. exists (j * d). ring. }
    specialize (Hrel q Hin).
    assert (E : (p - 1) / q = d * j).
    { rewrite Hk, Hj. replace (j * q * d) with ((d * j) * q) by ring. apply Z.div_mul. lia. }
    rewrite E in Hrel. assert (0 <= j) by nia.
    rewrite Z.pow_mul_r in Hrel by lia.
    assert (Hr1 : (r | (g ^ d) ^ j - 1)).
    { assert (Hc : cong r ((g ^ d) ^ j) (1 ^ j)) by (apply cong_pow; exact Hd).
      rewrite Z.pow_1_l in Hc by lia. exact Hc. }
    assert (Hc1 : (r | 1)).
    { destruct Hrel as [_ _ Hx]. apply Hx; assumption. }
    apply Z.divide_1_r_nonneg in Hc1; lia.
Qed.

(** Computable form of the certificate. *)
Lemma lucas_check p g qs : 1 < p ->
  (forall q, prime q -> (q | p - 1) -> In q qs) ->
  Zpow_mod g (p - 1) p = 1 ->
  forallb (fun q => Z.gcd (Zpow_mod g ((p - 1) / q) p - 1) p =? 1) qs = true ->
  (forall q, In q qs -> 0 < q) ->
  prime p.
Proof.
  intros Hp Hqs H1 H2 Hpos. apply (lucas_prime p g qs); try assumption.
  - apply cong_iff; [lia|]. rewrite <- Zpow_mod_correct by lia.
    rewrite H1, Z.mod_small by lia. reflexivity.
  - intros q Hq. rewrite forallb_forall in H2. specialize (H2 q Hq). apply Z.eqb_eq in H2.
    assert (Hnn : 0 <= (p - 1) / q) by (apply Z.div_pos; [lia|apply Hpos; assumption]).
    rewrite Zpow_mod_correct in H2 by lia.
    apply Zgcd_1_rel_prime in H2. apply rel_prime_sym in H2.
    apply rel_prime_sym.
    destruct H2 as [_ _ Hx]. constructor; try apply Z.divide_1_l.
    intros x Hxp Hxg. apply Hx; [assumption|].
    replace (g ^ ((p - 1) / q) mod p - 1)
      with ((g ^ ((p - 1) / q) - 1) + (g ^ ((p - 1) / q) mod p - g ^ ((p - 1) / q))) by ring.
    apply Z.divide_add_r; [assumption|].
    apply Z.divide_trans with p; [assumption|]. apply cong_mod. lia.
Qed.

Lemma prime_div_pow q a : prime q -> forall n, 0 <= n -> (q | a ^ n) -> (q | a).
Proof.
  intros Hq. refine (natlike_ind _ _ _).
  - rewrite Z.pow_0_r. intros H. apply Z.divide_1_r_nonneg in H; pose proof (prime_pos q Hq); lia.
  - intros n Hn IH H. rewrite Z.pow_succ_r in H by lia. apply prime_mult in H; [|assumption].
    destruct H; auto.
Qed.

Lemma prime_div_prime_eq q r : prime q -> prime r -> (q | r) -> q = r.
Proof. apply prime_div_prime. Qed.

Lemma small_prime n : 1 < n ->
  forallb (fun i => Z.gcd n (Z.of_nat i) =? 1) (seq 1 (Z.to_nat n - 1)) = true -> prime n.
Proof.
  intros Hn H. constructor; [assumption|]. intros i Hi. apply rel_prime_sym.
  apply Zgcd_1_rel_prime. rewrite forallb_forall in H.
  specialize (H (Z.to_nat i)). rewrite Z2Nat.id in H by lia. apply Z.eqb_eq. apply H.
  apply in_seq. lia.
Qed.
