From Coq Require Import ZArith Znumtheory List Bool Lia.
From Verif Require Import Model.Base Model.Reduce Model.Barrett Model.Prime.
From Verif Require Import Proofs.Arith Proofs.NumTheory Proofs.ReduceProofs Proofs.BarrettProofs.
Import ListNotations.
Local Open Scope Z_scope.

(** Square roots of one modulo a prime. *)
Lemma sqrt_one p x : prime p -> cong p (x * x) 1 -> cong p x 1 \/ cong p x (-1).
Proof.
  intros Hp H. unfold cong in *. replace (x * x - 1) with ((x - 1) * (x - -1)) in H by ring.
  apply prime_mult in H; assumption.
Qed.

Lemma sqrt_one_word p x : prime p -> 0 <= x < p -> cong p (x * x) 1 -> x = 1 \/ x = p - 1.
Proof.
  intros Hp Hx H. pose proof (prime_pos p Hp). destruct (sqrt_one p x Hp H) as [C|C].
  - left. apply cong_small with p; [lia|lia|exact C].
  - right. apply cong_small with p; [lia|lia|]. eapply cong_trans; [exact C|]. exists (-1). ring.
Qed.

Section MR.
Variables (B : Z) (m : barrett).
Hypothesis HB : wwidth B.
Hypothesis Hok : barrett_ok B m.
Let p := bval m.

Lemma p_word : 2 <= p < 2 ^ B.
Proof. pose proof (v_range B m HB Hok). unfold p. lia. Qed.

(** The inner loop accepts when [x^(2^(n+1))] is one modulo a prime and [x] is not [±1]. *)
Lemma mr_inner_prime n x : prime p -> 0 <= x < p -> x <> 1 -> x <> p - 1 ->
  cong p (x ^ (2 ^ (Z.of_nat n + 1))) 1 -> mr_inner B m n x = Some true.
Proof.
  intros Hp. pose proof p_word. revert x. induction n as [|n IH]; intros x Hx H1 H2 Hc.
  - exfalso. change (2 ^ (Z.of_nat 0 + 1)) with 2 in Hc. rewrite Z.pow_2_r in Hc.
    apply sqrt_one_word in Hc; [tauto|assumption|assumption].
  - cbn [mr_inner]. rewrite bmul_correct by (assumption || (fold p; lia)). cbn [bind].
    fold p. destruct (Z.eqb_spec ((x * x) mod p) (p - 1)); [reflexivity|].
    pose proof (Z.mod_pos_bound (x * x) p ltac:(lia)).
    assert (Hsq : cong p ((x * x) mod p) (x * x)) by (apply cong_mod; lia).
    destruct (Z.eqb_spec ((x * x) mod p) 1) as [E|E].
    + exfalso. rewrite E in Hsq. symmetry in Hsq. apply sqrt_one_word in Hsq; tauto.
    + apply IH; try assumption. eapply cong_trans; [apply cong_pow; exact Hsq|].
      rewrite <- Z.pow_2_r, <- Z.pow_mul_r by (try apply Z.pow_nonneg; lia).
      replace (2 * 2 ^ (Z.of_nat n + 1)) with (2 ^ (Z.of_nat (S n) + 1)); [exact Hc|].
      rewrite (pow2_succ (Z.of_nat (S n))) by lia. f_equal. f_equal. lia.
Qed.

Lemma mr_rounds_prime q r draw : prime p -> 1 <= r -> 0 < q -> p - 1 = q * 2 ^ r ->
  (forall i, 3 <= draw i <= p - 1) -> 64 <= p ->
  forall n i, mr_rounds B m q r draw n i = Some true.
Proof.
  intros Hp Hr Hq Hpq Hd H64 n. pose proof p_word as Hpw.
  assert (HB0 : 0 <= B) by (destruct HB as (h & ? & ?); lia).
  induction n as [|n IH]; intros i; [reflexivity|].
  cbn [mr_rounds]. set (a := if Nat.eqb i 0 then 2 else draw i).
  assert (Ha : 2 <= a <= p - 1) by (unfold a; destruct (Nat.eqb i 0); [lia|specialize (Hd i); lia]).
  rewrite bexp_correct by (assumption || (fold p; lia)). cbn [bind]. fold p.
  set (x := a ^ q mod p).
  pose proof (Z.mod_pos_bound (a ^ q) p ltac:(lia)) as Hx. fold x in Hx.
  destruct (Z.eqb_spec x 1); [apply IH|]. destruct (Z.eqb_spec x (p - 1)); [apply IH|].
  cbn [orb]. apply mr_inner_prime; try assumption.
  replace (Z.of_nat (Z.to_nat (r - 1)) + 1) with r by lia.
  eapply cong_trans; [apply cong_pow; apply cong_mod; lia|].
  rewrite <- Z.pow_mul_r by (try apply Z.pow_nonneg; lia). rewrite <- Hpq.
  apply fermat; [assumption|]. apply prime_small_nz. lia.
Qed.

Lemma small_table v : 0 <= v < 64 -> prime v ->
  negb (Z.land prime_bit_mask (2 ^ v) =? 0) = true.
Proof.
  intros Hv Hp.
  assert (Hall : forallb (fun n : nat => let z := Z.of_nat n in
     negb (Z.land prime_bit_mask (2 ^ z) =? 0) ||
     (z <? 2) || existsb (fun d => (z mod d =? 0) && (d <? z)) [2; 3; 5; 7]) (seq 0 64) = true)
    by (vm_compute; reflexivity).
  rewrite forallb_forall in Hall. specialize (Hall (Z.to_nat v)).
  cbv zeta in Hall. rewrite Z2Nat.id in Hall by lia.
  assert (Hin : In (Z.to_nat v) (seq 0 64)) by (apply in_seq; lia).
  specialize (Hall Hin). rewrite !orb_true_iff in Hall. destruct Hall as [[H|H]|H].
  - exact H.
  - apply Z.ltb_lt in H. pose proof (prime_pos v Hp). lia.
  - exfalso. apply existsb_exists in H. destruct H as (d & Hd & H).
    apply andb_true_iff in H. destruct H as [H H']. apply Z.eqb_eq in H. apply Z.ltb_lt in H'.
    assert (Hd2 : 2 <= d) by (cbn in Hd; intuition lia).
    apply Z.mod_divide in H; [|lia].
    destruct (prime_divisors v Hp d H) as [E|[E|[E|E]]]; lia.
Qed.

Lemma trial_prime v : 64 <= v -> prime v -> existsb (fun d => v mod d =? 0) trial_divisors = false.
Proof.
  intros Hv Hp. apply not_true_is_false. intros H. apply existsb_exists in H.
  destruct H as (d & Hd & H). apply Z.eqb_eq in H.
  assert (Hd2 : 2 <= d <= 53) by (cbn in Hd; intuition lia).
  apply Z.mod_divide in H; [|lia]. destruct (prime_divisors v Hp d H) as [E|[E|[E|E]]]; lia.
Qed.

Lemma split_tz : 3 <= p ->
  exists o, p - 1 = o * 2 ^ trailing_zeros B (p - 1) /\ Z.odd o = true /\ 0 < o /\
    0 <= trailing_zeros B (p - 1) < B /\ (p - 1) / 2 ^ trailing_zeros B (p - 1) = o.
Proof.
  intros H. pose proof p_word. assert (HB0 : 0 <= B) by (destruct HB as (h & ? & ?); lia).
  destruct (tz_spec B (p - 1) ltac:(lia)) as (o & E & Ho & Hpos).
  exists o. split; [exact E|]. split; [exact Ho|]. split; [exact Hpos|].
  pose proof (tz_nonneg B (p - 1) HB0). pose proof (tz_lt B (p - 1) HB0 ltac:(lia)).
  split; [lia|]. rewrite E at 1. apply Z.div_mul. pose proof (pow2_pos (trailing_zeros B (p - 1))). lia.
Qed.

Theorem probably_prime_prime rounds draw : prime p ->
  (forall i, 3 <= draw i <= p - 1) -> probably_prime B m rounds draw = Some true.
Proof.
  intros Hp Hd. pose proof p_word as Hw. unfold probably_prime. fold p.
  destruct (Z.eqb_spec p 0); [lia|]. destruct (Z.ltb_spec p 64).
  { rewrite small_table by (assumption || lia). reflexivity. }
  assert (Hodd : Z.land p 1 = 1).
  { change 1 with (2 ^ 1 - 1) at 1. rewrite land_mask by lia. change (2 ^ 1) with 2.
    rewrite Zmod_odd. destruct (Z.odd p) eqn:E; [reflexivity|exfalso].
    rewrite Zodd_even_bool in E. apply negb_false_iff in E. apply Z.even_spec in E.
    destruct E as [k Ek]. assert (Hdv : (2 | p)) by (exists k; lia).
    destruct (prime_divisors p Hp 2 Hdv) as [E|[E|[E|E]]]; lia. }
  rewrite Hodd. cbn [Z.eqb]. rewrite trial_prime by (assumption || lia).
  rewrite usub_some by lia. cbn [bind].
  destruct (split_tz ltac:(lia)) as (o & E & Ho & Hpos & Htz & Eo).
  rewrite ushr_some by lia. cbn [bind]. rewrite Eo.
  apply mr_rounds_prime; try assumption.
  destruct (Z.eq_dec (trailing_zeros B (p - 1)) 0) as [E0|]; [exfalso|lia].
  rewrite E0 in E. change (2 ^ 0) with 1 in E. change (Z.land p 1) with (Z.land p (2 ^ 1 - 1)) in Hodd.
  rewrite land_mask in Hodd by lia. change (2 ^ 1) with 2 in Hodd.
  rewrite Zmod_odd in Hodd. replace p with (o + 1) in Hodd by lia.
  rewrite Z.odd_add, Ho in Hodd. cbn in Hodd. discriminate.
Qed.


Lemma mr_inner_true n x y : 0 <= x < p -> cong p x y -> mr_inner B m n x = Some true ->
  exists j, 1 <= j <= Z.of_nat n /\ cong p (y ^ (2 ^ j)) (-1).
Proof.
  pose proof p_word. revert x y. induction n as [|n IH]; intros x y Hx C E; [discriminate|].
  cbn [mr_inner] in E. rewrite bmul_correct in E by (assumption || (fold p; lia)). cbn [bind] in E.
  fold p in E. pose proof (Z.mod_pos_bound (x * x) p ltac:(lia)).
  assert (Hsq : cong p ((x * x) mod p) (y * y)).
  { eapply cong_trans; [apply cong_mod; lia|]. apply cong_mul; exact C. }
  destruct (Z.eqb_spec ((x * x) mod p) (p - 1)) as [E1|E1].
  - exists 1. split; [lia|]. change (2 ^ 1) with 2. rewrite Z.pow_2_r. rewrite <- Hsq, E1.
    exists 1. ring.
  - destruct (Z.eqb_spec ((x * x) mod p) 1); [discriminate|].
    destruct (IH _ _ H0 Hsq E) as (j & Hj & Cj). exists (j + 1). split; [lia|].
    rewrite pow2_succ by lia. rewrite Z.pow_mul_r by (try apply Z.pow_nonneg; lia).
    rewrite Z.pow_2_r. exact Cj.
Qed.

Theorem probably_prime_sprp2 rounds draw : 64 <= p ->
  probably_prime B m (S rounds) draw = Some true ->
  Z.odd p = true /\ (forall d, In d trial_divisors -> ~ (d | p)) /\ strong_probable_prime p 2.
Proof.
  intros H64 E. pose proof p_word as Hw. unfold probably_prime in E. fold p in E.
  assert (HB0 : 0 <= B) by (destruct HB as (h & ? & ?); lia).
  destruct (Z.eqb_spec p 0); [lia|]. destruct (Z.ltb_spec p 64); [lia|].
  change (Z.land p 1) with (Z.land p (2 ^ 1 - 1)) in E. rewrite land_mask in E by lia.
  change (2 ^ 1) with 2 in E. rewrite Zmod_odd in E.
  destruct (Z.odd p) eqn:Ho; [|discriminate]. cbn [Z.eqb] in E.
  destruct (existsb _ trial_divisors) eqn:Et; [discriminate|].
  rewrite usub_some in E by lia. cbn [bind] in E.
  destruct (split_tz ltac:(lia)) as (o & Eo & Hoo & Hpos & Htz & Eq).
  rewrite ushr_some in E by lia. cbn [bind] in E. rewrite Eq in E.
  split; [reflexivity|]. split.
  { intros d Hd Hdv. apply Z.mod_divide in Hdv; [|cbn in Hd; intuition lia].
    apply not_true_iff_false in Et. apply Et. apply existsb_exists. exists d.
    split; [exact Hd|]. apply Z.eqb_eq. exact Hdv. }
  exists o, (trailing_zeros B (p - 1)). split; [exact Eo|]. split; [lia|]. split; [exact Hoo|].
  cbn [mr_rounds Nat.eqb] in E. rewrite bexp_correct in E by (assumption || (fold p; lia)).
  cbn [bind] in E. fold p in E. pose proof (Z.mod_pos_bound (2 ^ o) p ltac:(lia)).
  assert (C : cong p (2 ^ o mod p) (2 ^ o)) by (apply cong_mod; lia).
  assert (Htz1 : 1 <= trailing_zeros B (p - 1)).
  { destruct (Z.eq_dec (trailing_zeros B (p - 1)) 0) as [E0|]; [exfalso|lia].
    rewrite E0 in Eo. change (2 ^ 0) with 1 in Eo.
    replace p with (o + 1) in Ho by lia. rewrite Z.odd_add, Hoo in Ho. discriminate. }
  destruct (Z.eqb_spec (2 ^ o mod p) 1) as [E1|E1].
  { left. rewrite <- C, E1. reflexivity. }
  destruct (Z.eqb_spec (2 ^ o mod p) (p - 1)) as [E2|E2].
  { right. exists 0. split; [lia|]. change (2 ^ 0) with 1. rewrite Z.mul_1_r, <- C, E2.
    exists 1. ring. }
  cbn [orb] in E. destruct (mr_inner_true _ _ _ H0 C E) as (j & Hj & Cj).
  right. exists j. split; [lia|]. rewrite Z.pow_mul_r by (try apply Z.pow_nonneg; lia). exact Cj.
Qed.
End MR.

Lemma probably_prime_small B v m rounds draw :
  wwidth B -> barrett_new B v = Some m -> 0 <= v < 64 ->
  exists b, probably_prime B m rounds draw = Some b /\ (b = true <-> prime v).
Proof.
  intros HB Hm Hv. apply barrett_new_inv in Hm; [|assumption|lia].
  destruct Hm as (Hr & <- & Hok). unfold probably_prime.
  destruct (Z.eqb_spec (bval m) 0); [lia|]. destruct (Z.ltb_spec (bval m) 64); [|lia].
  eexists. split; [reflexivity|]. split.
  - intros Hb.
    assert (Hall : forallb (fun n : nat => let z := Z.of_nat n in
       (Z.land prime_bit_mask (2 ^ z) =? 0) ||
       ((1 <? z) && forallb (fun i => Z.gcd z (Z.of_nat i) =? 1) (seq 1 (n - 1)))) (seq 0 64) = true)
      by (vm_compute; reflexivity).
    rewrite forallb_forall in Hall. specialize (Hall (Z.to_nat (bval m))).
    cbv zeta in Hall. rewrite Z2Nat.id in Hall by lia.
    assert (Hin : In (Z.to_nat (bval m)) (seq 0 64)) by (apply in_seq; lia).
    specialize (Hall Hin). apply negb_true_iff in Hb. rewrite Hb in Hall. cbn [orb] in Hall.
    apply andb_true_iff in Hall. destruct Hall as [H1 H2]. apply Z.ltb_lt in H1.
    apply small_prime; assumption.
  - intros Hp. apply small_table; try assumption; lia.
Qed.

Lemma pseudoprime_accepted : exists (v : Z) (m : barrett),
  v = 157 * 313 /\ ~ prime v /\ barrett_new 32 v = Some m /\
  forall (rounds : nat) (draw : nat -> Z), probably_prime 32 m rounds draw = Some true.
Proof.
  exists 49141, (mk_barrett 49141 3836549610 87400). split; [reflexivity|]. split.
  { intros Hp. destruct (prime_divisors 49141 Hp 157) as [E|[E|[E|E]]]; try discriminate.
    exists 313. reflexivity. }
  split; [vm_compute; reflexivity|]. intros rounds draw.
  unfold probably_prime. cbn [bval].
  replace (existsb (fun d => 49141 mod d =? 0) trial_divisors) with false by (vm_compute; reflexivity).
  change (if 49141 =? 0 then Some false
    else if 49141 <? 64 then Some (negb (Z.land prime_bit_mask (2 ^ 49141) =? 0))
    else if Z.land 49141 1 =? 0 then Some false
    else let* v1 := usub 49141 1 in
      let r := trailing_zeros 32 v1 in
      let* q := ushr 32 v1 r in
      mr_rounds 32 (mk_barrett 49141 3836549610 87400) q r draw rounds 0)
    with (mr_rounds 32 (mk_barrett 49141 3836549610 87400) 12285 2 draw rounds 0).
  destruct rounds as [|n]; [reflexivity|]. cbn [mr_rounds Nat.eqb].
  replace (bexp 32 32 (mk_barrett 49141 3836549610 87400) 2 12285) with (Some 32527)
    by (vm_compute; reflexivity).
  vm_compute. reflexivity.
Qed.
