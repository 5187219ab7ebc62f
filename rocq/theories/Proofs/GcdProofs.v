(** Binary gcd, extended gcd, modular inverse. *)
From Coq Require Import ZArith Znumtheory Zpow_facts List Bool Lia.
From Verif Require Import Model.Base Model.Gcd Proofs.Arith.
Import ListNotations.
Local Open Scope Z_scope.

Lemma odd_rel_prime_2 g : Z.odd g = true -> rel_prime g 2.
Proof.
  intros H. apply bezout_rel_prime. apply Z.odd_spec in H. destruct H as [h ->].
  apply Bezout_intro with 1 (- h). ring.
Qed.

Lemma odd_divisor g n : Z.odd n = true -> (g | n) -> Z.odd g = true.
Proof. intros Hn [k ->]. rewrite Z.odd_mul in Hn. apply andb_true_iff in Hn. tauto. Qed.

Lemma gcd_strip o k n : 0 <= k -> Z.odd n = true -> Z.gcd (o * 2 ^ k) n = Z.gcd o n.
Proof.
  intros Hk Hn. apply Z.divide_antisym_nonneg; try apply Z.gcd_nonneg.
  - apply Z.gcd_greatest; [|apply Z.gcd_divide_r].
    set (g := Z.gcd (o * 2 ^ k) n).
    apply Gauss with (2 ^ k).
    + rewrite Z.mul_comm. apply Z.gcd_divide_l.
    + apply rel_prime_Zpower_r; [lia|]. apply odd_rel_prime_2.
      apply odd_divisor with n; [assumption|apply Z.gcd_divide_r].
  - apply Z.gcd_greatest; [|apply Z.gcd_divide_r].
    apply Z.divide_mul_l. apply Z.gcd_divide_l.
Qed.

Lemma strip_tz_some B d : 0 <= B -> 0 < d < 2 ^ B ->
  exists o k, strip_tz B d = Some o /\ d = o * 2 ^ k /\ Z.odd o = true /\ 0 < o <= d /\ 0 <= k /\
              (Z.even d = true -> 2 * o <= d).
Proof.
  intros HB Hd. destruct (tz_spec B d) as (o & E & Ho & Hp); [lia|].
  pose proof (tz_lt B d HB Hd) as Hlt. pose proof (tz_nonneg B d HB) as Hnn.
  set (k := trailing_zeros B d) in *. pose proof (pow2_pos k Hnn) as Hp2.
  exists o, k. unfold strip_tz. fold k. rewrite ushr_some by lia.
  rewrite E at 1. rewrite Z.div_mul by lia.
  repeat split; try assumption; try nia.
  intros Hev. destruct (Z.eq_dec k 0) as [Ek|].
  - exfalso. rewrite Ek, Z.pow_0_r, Z.mul_1_r in E. subst o.
    rewrite <- Z.negb_odd, Ho in Hev. discriminate.
  - rewrite E, (pow2_pred k) by lia. pose proof (pow2_pos (k - 1) ltac:(lia)). nia.
Qed.

Lemma gcd_sub_l m n : Z.gcd (m - n) n = Z.gcd m n.
Proof.
  rewrite (Z.gcd_comm (m - n)), (Z.gcd_comm m).
  replace (m - n) with (m + (-1) * n) by ring.
  apply Z.gcd_add_mult_diag_r.
Qed.

Lemma even_sub_odd m n : Z.odd m = true -> Z.odd n = true -> Z.even (m - n) = true.
Proof. intros H H'. rewrite Z.even_sub, <- !Z.negb_odd, H, H'. reflexivity. Qed.

Lemma gcd_loop_correct B : 0 <= B -> forall fuel m n,
  0 < m < 2 ^ B -> 0 < n < 2 ^ B -> Z.odd m = true -> Z.odd n = true ->
  m * n < 2 ^ Z.of_nat fuel -> gcd_loop fuel B m n = Some (Z.gcd m n).
Proof.
  intros HB. induction fuel as [|fuel IH]; intros m n Hm Hn Om On Hf.
  - change (2 ^ Z.of_nat 0) with 1 in Hf. nia.
  - rewrite Nat2Z.inj_succ in Hf. rewrite <- Z.add_1_r, pow2_succ in Hf by lia.
    cbn [gcd_loop]. destruct (Z.eqb_spec m n) as [->|Hne].
    + rewrite Z.gcd_diag, Z.abs_eq by lia. reflexivity.
    + destruct (Z.ltb_spec n m).
      * rewrite usub_some by lia. cbn [bind].
        destruct (strip_tz_some B (m - n) HB ltac:(lia)) as (o & k & -> & E & Oo & Ho & Hk & Hh).
        cbn [bind]. specialize (Hh (even_sub_odd m n Om On)).
        rewrite IH; try assumption; try lia; [|nia].
        f_equal. rewrite <- (gcd_sub_l m n), E. symmetry. apply gcd_strip; assumption.
      * rewrite usub_some by lia. cbn [bind].
        destruct (strip_tz_some B (n - m) HB ltac:(lia)) as (o & k & -> & E & Oo & Ho & Hk & Hh).
        cbn [bind]. specialize (Hh (even_sub_odd n m On Om)).
        rewrite IH; try assumption; try lia; [|nia].
        f_equal. rewrite (Z.gcd_comm m n), <- (gcd_sub_l n m), E, (Z.gcd_comm m o).
        symmetry. apply gcd_strip; assumption.
Qed.

Lemma lor_mod x y k : 0 <= k -> (Z.lor x y) mod 2 ^ k = Z.lor (x mod 2 ^ k) (y mod 2 ^ k).
Proof. intros. rewrite <- !Z.land_ones by lia. apply Z.land_lor_distr_l. Qed.

Lemma lor_divide x y k : 0 <= k -> ((2 ^ k | Z.lor x y) <-> (2 ^ k | x) /\ (2 ^ k | y)).
Proof.
  intros Hk. pose proof (pow2_pos k Hk).
  rewrite <- !Z.mod_divide by lia. rewrite lor_mod by lia. apply Z.lor_eq_0_iff.
Qed.

Lemma lor_word B x y : 0 <= B -> 0 < x < 2 ^ B -> 0 < y < 2 ^ B -> 0 < Z.lor x y < 2 ^ B.
Proof.
  intros HB Hx Hy.
  assert (0 <= Z.lor x y) by (apply Z.lor_nonneg; lia).
  assert (Z.lor x y <> 0) by (rewrite Z.lor_eq_0_iff; lia).
  split; [lia|]. pose proof (lor_mod x y B HB) as E.
  rewrite (Z.mod_small x), (Z.mod_small y) in E by lia.
  pose proof (Z.mod_pos_bound (Z.lor x y) (2 ^ B) ltac:(lia)). lia.
Qed.

(** The common power of two. *)
Lemma shift_spec B x y : 0 <= B -> 0 < x < 2 ^ B -> 0 < y < 2 ^ B ->
  let s := trailing_zeros B (Z.lor x y) in
  0 <= s < B /\ exists X Y, x = X * 2 ^ s /\ y = Y * 2 ^ s /\ 0 < X /\ 0 < Y /\
    (Z.odd X || Z.odd Y = true).
Proof.
  intros HB Hx Hy s. pose proof (lor_word B x y HB Hx Hy) as Hl.
  pose proof (tz_lt B _ HB Hl) as Hlt. pose proof (tz_nonneg B (Z.lor x y) HB) as Hnn.
  fold s in Hlt, Hnn. split; [lia|].
  destruct (tz_spec B (Z.lor x y)) as (o & E & Ho & Hp); [lia|]. fold s in E.
  assert (D : (2 ^ s | x) /\ (2 ^ s | y)).
  { apply lor_divide; [lia|]. exists o. exact E. }
  destruct D as [[X EX] [Y EY]]. exists X, Y. pose proof (pow2_pos s Hnn).
  repeat split; try assumption; try nia.
  destruct (Z.odd X) eqn:OX; [reflexivity|]. destruct (Z.odd Y) eqn:OY; [reflexivity|].
  exfalso.
  assert (D : (2 ^ (s + 1) | x) /\ (2 ^ (s + 1) | y)).
  { rewrite <- Z.negb_even, negb_false_iff in OX, OY. apply Z.even_spec in OX, OY.
    destruct OX as [X' ->], OY as [Y' ->]. rewrite pow2_succ by lia.
    split; [exists X'|exists Y']; lia. }
  apply lor_divide in D; [|lia]. destruct D as [q Eq].
  rewrite pow2_succ in Eq by lia. assert (o = 2 * q) by nia. subst o.
  rewrite Z.odd_mul in Ho. discriminate.
Qed.

Lemma odd_pow_le o k s q : 0 <= s -> 0 <= k -> Z.odd o = true -> o * 2 ^ k = q * 2 ^ s -> s <= k.
Proof.
  intros Hs Hk Ho E. destruct (Z.leb_spec s k); [assumption|exfalso].
  replace s with ((s - k) + k) in E by ring. rewrite Z.pow_add_r in E by lia.
  pose proof (pow2_pos k Hk). assert (E' : o = q * 2 ^ (s - k)) by nia.
  rewrite (pow2_pred (s - k)) in E' by lia. subst o.
  rewrite !Z.odd_mul in Ho. cbn [Z.odd] in Ho. rewrite andb_false_l, andb_false_r in Ho. discriminate.
Qed.

Theorem gcd_correct B x y : 0 <= B -> 0 <= x < 2 ^ B -> 0 <= y < 2 ^ B ->
  gcd B x y = Some (Z.gcd x y).
Proof.
  intros HB Hx Hy. unfold gcd.
  destruct (Z.eqb_spec x 0) as [->|Hx0].
  { rewrite Z.lor_0_l, Z.gcd_0_l, Z.abs_eq by lia. reflexivity. }
  destruct (Z.eqb_spec y 0) as [->|Hy0].
  { rewrite Z.lor_0_r, Z.gcd_0_r, Z.abs_eq by lia. reflexivity. }
  cbn [orb].
  destruct (shift_spec B x y HB ltac:(lia) ltac:(lia)) as (Hs & X & Y & EX & EY & HX & HY & Hodd).
  set (s := trailing_zeros B (Z.lor x y)) in *.
  destruct (strip_tz_some B x HB ltac:(lia)) as (m & i & -> & Em & Om & Hm & Hi & _).
  destruct (strip_tz_some B y HB ltac:(lia)) as (n & j & -> & En & On & Hn & Hj & _).
  cbn [bind]. pose proof (pow2_pos s ltac:(lia)) as Hps.
  rewrite gcd_loop_correct; try assumption; try lia.
  2:{ unfold gcd_fuel. rewrite Z2Nat.id by lia. rewrite pow2_double by lia. nia. }
  cbn [bind].
  assert (G : Z.gcd x y = Z.gcd m n * 2 ^ s).
  { rewrite EX, EY, Z.gcd_mul_mono_r_nonneg by lia. f_equal.
    assert (s <= i) by (apply (odd_pow_le m i s X); try assumption; lia).
    assert (s <= j) by (apply (odd_pow_le n j s Y); try assumption; lia).
    assert (X = m * 2 ^ (i - s)).
    { replace i with ((i - s) + s) in Em by ring. rewrite Z.pow_add_r in Em by lia. nia. }
    assert (Y = n * 2 ^ (j - s)).
    { replace j with ((j - s) + s) in En by ring. rewrite Z.pow_add_r in En by lia. nia. }
    destruct (Z.odd Y) eqn:OY.
    - transitivity (Z.gcd m Y).
      + rewrite H1. apply gcd_strip; [lia|exact OY].
      + rewrite Z.gcd_comm, (Z.gcd_comm m n), H2. apply gcd_strip; [lia|exact Om].
    - rewrite orb_false_r in Hodd.
      transitivity (Z.gcd X n).
      + rewrite Z.gcd_comm, (Z.gcd_comm X n), H2. apply gcd_strip; [lia|exact Hodd].
      + rewrite H1. apply gcd_strip; [lia|exact On]. }
  assert (Hle : Z.gcd x y <= x).
  { apply Z.divide_pos_le; [lia|]. apply Z.gcd_divide_l. }
  rewrite ushl_some; [rewrite G; reflexivity|apply Z.gcd_nonneg|lia|rewrite <- G; lia].
Qed.

Theorem coprime_correct B x y : 0 <= B -> 0 <= x < 2 ^ B -> 0 <= y < 2 ^ B -> x <> 0 \/ y <> 0 ->
  exists c, coprime B x y = Some c /\ (c = true <-> rel_prime x y) /\
  not_coprime B x y = Some (negb c).
Proof.
  intros HB Hx Hy Hnz. unfold coprime, not_coprime. rewrite gcd_correct by assumption.
  cbn [bind]. eexists. split; [reflexivity|]. split.
  - rewrite Z.leb_le. rewrite <- Zgcd_1_rel_prime.
    assert (Z.gcd x y <> 0) by (rewrite Z.gcd_eq_0; lia).
    pose proof (Z.gcd_nonneg x y). lia.
  - f_equal. destruct (Z.leb_spec (Z.gcd x y) 1); destruct (Z.ltb_spec 1 (Z.gcd x y)); reflexivity || lia.
Qed.

(** * Extended gcd *)

Section X.
  Variables (B X Y : Z).
  Hypothesis HB : 2 <= B.
  Hypothesis HX : 0 < X < 2 ^ (B - 2).
  Hypothesis HY : 0 < Y < 2 ^ (B - 2).
  Hypothesis Hodd : Z.odd X || Z.odd Y = true.

  Let H4 : 2 ^ (B - 1) = 2 * 2 ^ (B - 2).
  Proof.
    replace (B - 1) with ((B - 2) + 1) by ring. apply pow2_succ. lia.
  Qed.

  Lemma scast_x : scast B X = X.
  Proof. unfold scast. destruct (Z.ltb_spec X (2 ^ (B - 1))); [reflexivity|lia]. Qed.
  Lemma scast_y : scast B Y = Y.
  Proof. unfold scast. destruct (Z.ltb_spec Y (2 ^ (B - 1))); [reflexivity|lia]. Qed.

  Lemma schk_ok a : - 2 ^ (B - 1) <= a < 2 ^ (B - 1) -> schk B a = Some a.
  Proof.
    intros H. unfold schk. destruct (Z.leb_spec (- 2 ^ (B - 1)) a); [|lia].
    destruct (Z.ltb_spec a (2 ^ (B - 1))); [reflexivity|lia].
  Qed.

  Lemma halve_parity a b u : a * X + b * Y = u -> Z.even u = true ->
    Z.even a && Z.even b = false ->
    (exists a', a = 2 * a' + Y \/ a = 2 * a' - Y) /\ Z.even (a - Y) = true /\ Z.even (b + X) = true
    /\ Z.even (a + Y) = true /\ Z.even (b - X) = true.
  Proof.
    intros E Hu Hab.
    assert (Hp : Z.even (a * X + b * Y) = true) by (rewrite E; exact Hu).
    rewrite Z.even_add, !Z.even_mul in Hp.
    rewrite <- !Z.negb_even in Hodd.
    assert (Ha : Z.even (a - Y) = true /\ Z.even (b + X) = true).
    { rewrite Z.even_sub, Z.even_add.
      destruct (Z.even a), (Z.even b), (Z.even X), (Z.even Y); cbn in *; auto; discriminate. }
    destruct Ha as [H1 H2]. split; [|split; [exact H1|split; [exact H2|]]].
    - apply Z.even_spec in H1. destruct H1 as [k Hk]. exists k. left; lia.
    - rewrite Z.even_sub in *. rewrite Z.even_add in *. auto.
  Qed.

  Lemma even_half z : Z.even z = true -> z = 2 * (z / 2).
  Proof.
    intros H. apply Z.even_spec in H. destruct H as [k ->].
    rewrite Z.mul_comm, Z.div_mul by lia. ring.
  Qed.

  (** One inner loop. *)
  Lemma halve_correct : forall fuel u a b,
    0 < u <= X + Y -> u < 2 ^ Z.of_nat fuel -> a * X + b * Y = u ->
    - (2 * Y) <= a <= 2 * Y -> - (2 * X) <= b <= 2 * X ->
    exists u' a' b', halve fuel B X Y u a b = Some (u', a', b') /\
      0 < u' <= u /\ Z.odd u' = true /\ a' * X + b' * Y = u' /\
      (forall k, (k | u') -> (k | u)) /\
      (Z.even u = true -> 2 * u' <= u /\ - Y <= a' <= Y /\ - X <= b' <= X) /\
      (Z.odd u = true -> u' = u /\ a' = a /\ b' = b).
  Proof.
    induction fuel as [|fuel IH]; intros u a b Hu Hf E Ha Hb.
    - change (2 ^ Z.of_nat 0) with 1 in Hf. lia.
    - rewrite Nat2Z.inj_succ in Hf. rewrite <- Z.add_1_r, pow2_succ in Hf by lia.
      cbn [halve]. destruct (Z.even u) eqn:Eu.
      2:{ exists u, a, b. rewrite <- Z.negb_even, Eu.
          split; [reflexivity|]. split; [lia|]. split; [reflexivity|]. split; [exact E|].
          split; [auto|]. split; [discriminate|auto]. }
      pose proof (even_half u Eu) as E2.
      (* it is enough to treat one step landing in the small box *)
      assert (STEP : forall a1 b1, a1 * X + b1 * Y = u / 2 -> - Y <= a1 <= Y -> - X <= b1 <= X ->
        exists u' a' b', halve fuel B X Y (u / 2) a1 b1 = Some (u', a', b') /\
          0 < u' <= u /\ Z.odd u' = true /\ a' * X + b' * Y = u' /\
          (forall k, (k | u') -> (k | u)) /\
          (true = true -> 2 * u' <= u /\ - Y <= a' <= Y /\ - X <= b' <= X) /\
          (Z.odd u = true -> u' = u /\ a' = a /\ b' = b)).
      { intros a1 b1 E1 Ha1 Hb1.
        destruct (IH (u / 2) a1 b1) as (u' & a' & b' & R & Hu' & Ou' & E' & D & Cev & Codd); try lia.
        exists u', a', b'. split; [exact R|]. split; [lia|]. split; [exact Ou'|].
        split; [exact E'|]. split.
        { intros k Hk. rewrite E2. apply Z.divide_mul_r. apply D. exact Hk. }
        split.
        - intros _. split; [lia|]. destruct (Z.even (u / 2)) eqn:Ev.
          + destruct (Cev eq_refl) as (_ & H1 & H2). auto.
          + destruct Codd as (_ & -> & ->); [rewrite <- Z.negb_even, Ev; reflexivity|]. auto.
        - rewrite <- Z.negb_even, Eu. discriminate. }
      destruct (Z.even a && Z.even b) eqn:Eab.
      + apply andb_true_iff in Eab. destruct Eab as [Eva Evb].
        pose proof (even_half a Eva). pose proof (even_half b Evb).
        apply STEP; nia.
      + destruct (halve_parity a b u E Eu Eab) as (_ & P1 & P2 & P3 & P4).
        rewrite scast_x, scast_y. destruct (Z.ltb_spec X b).
        * assert (a <= Y) by nia.
          unfold sadd, ssub. rewrite !schk_ok by lia. cbn [bind].
          pose proof (even_half _ P3). pose proof (even_half _ P4).
          apply STEP; nia.
        * assert (- Y <= a) by nia.
          unfold sadd, ssub. rewrite !schk_ok by lia. cbn [bind].
          pose proof (even_half _ P1). pose proof (even_half _ P2).
          apply STEP; nia.
  Qed.

  Definition box (u a b : Z) : Prop :=
    a * X + b * Y = u /\ - (2 * Y) <= a <= 2 * Y /\ - (2 * X) <= b <= 2 * X /\
    (Z.odd u = true -> - Y <= a <= Y /\ - X <= b <= X).

  Lemma box_halve u a b : 0 < u <= X + Y -> u < 2 ^ B -> box u a b ->
    exists u' a' b', halve (Z.to_nat B) B X Y u a b = Some (u', a', b') /\
      0 < u' <= u /\ Z.odd u' = true /\ a' * X + b' * Y = u' /\
      - Y <= a' <= Y /\ - X <= b' <= X /\
      (forall k, (k | u') -> (k | u)) /\ (Z.even u = true -> 2 * u' <= u).
  Proof.
    intros Hu Hlt (E & Ha & Hb & Ho).
    destruct (halve_correct (Z.to_nat B) u a b) as (u' & a' & b' & R & Hu' & Ou' & E' & D & Cev & Codd);
      try assumption; [rewrite Z2Nat.id by lia; exact Hlt|].
    exists u', a', b'. split; [exact R|]. split; [exact Hu'|]. split; [exact Ou'|].
    split; [exact E'|].
    destruct (Z.even u) eqn:Ev.
    - destruct (Cev eq_refl) as (H1 & H2 & H3). auto 10.
    - assert (Oo : Z.odd u = true) by (rewrite <- Z.negb_even, Ev; reflexivity).
      destruct (Codd Oo) as (-> & -> & ->). destruct (Ho Oo). split; [assumption|].
      split; [assumption|]. split; [exact D|]. discriminate.
  Qed.

  (** The invariant at the head of the outer loop. *)
  Definition inv_x (u v a b c d : Z) : Prop :=
    0 < u <= X + Y /\ 0 < v <= X + Y /\ u < 2 ^ B /\ v < 2 ^ B /\ box u a b /\ box v c d /\
    (forall k, (k | u) -> (k | v) -> (k | X) /\ (k | Y)).

  Definition res_x (r : Z * Z * Z) : Prop :=
    let '(c, d, v) := r in
    c * X + d * Y = v /\ v = Z.gcd X Y /\ - Y <= c <= Y /\ - X <= d <= X.

  Lemma xgcd_step fuel u v a b c d : inv_x u v a b c d ->
    (exists r, xgcd_loop (S fuel) B X Y u v a b c d = Some r /\ res_x r) \/
    exists u' v' a' b' c' d', inv_x u' v' a' b' c' d' /\ u' * v' <= u * v /\
      (Z.even u = true \/ Z.even v = true -> 2 * (u' * v') <= u * v) /\
      (Z.even u' = true \/ Z.even v' = true) /\
      xgcd_loop (S fuel) B X Y u v a b c d = xgcd_loop fuel B X Y u' v' a' b' c' d'.
  Proof.
    intros (Hu & Hv & Hlu & Hlv & Bu & Bv & D).
    destruct (box_halve u a b Hu Hlu Bu) as (u1 & a1 & b1 & R1 & Hu1 & Ou1 & E1 & Ha1 & Hb1 & D1 & Ev1).
    destruct (box_halve v c d Hv Hlv Bv) as (v1 & c1 & d1 & R2 & Hv1 & Ov1 & E2 & Hc1 & Hd1 & D2 & Ev2).
    cbn [xgcd_loop]. rewrite R1. cbn [bind]. rewrite R2. cbn [bind].
    assert (Hbox1 : box u1 a1 b1) by (unfold box; repeat split; try assumption; lia).
    assert (Hbox2 : box v1 c1 d1) by (unfold box; repeat split; try assumption; lia).
    assert (HD : forall k, (k | u1) -> (k | v1) -> (k | X) /\ (k | Y)) by auto.
    assert (Hprod : u1 * v1 <= u * v) by nia.
    assert (Hprod2 : Z.even u = true \/ Z.even v = true -> 2 * (u1 * v1) <= u * v).
    { intros [He|He]; [specialize (Ev1 He)|specialize (Ev2 He)]; nia. }
    destruct (Z.leb_spec v1 u1).
    - rewrite usub_some by lia. unfold ssub. rewrite !schk_ok by lia. cbn [bind].
      destruct (Z.eqb_spec (u1 - v1) 0).
      + left. eexists. split; [reflexivity|]. unfold res_x.
        split; [exact E2|]. split; [|split; assumption].
        assert (Euv : u1 = v1) by lia. rewrite Euv in HD.
        apply Z.divide_antisym_nonneg; [lia|apply Z.gcd_nonneg| |].
        * destruct (HD v1) as [H1 H2]; [apply Z.divide_refl|apply Z.divide_refl|].
          apply Z.gcd_greatest; assumption.
        * rewrite <- E2. apply Z.divide_add_r; apply Z.divide_mul_r;
            [apply Z.gcd_divide_l|apply Z.gcd_divide_r].
      + right. exists (u1 - v1), v1, (a1 - c1), (b1 - d1), c1, d1.
        assert (Hev : Z.even (u1 - v1) = true).
        { rewrite Z.even_sub, <- !Z.negb_odd, Ou1, Ov1. reflexivity. }
        split.
        { unfold inv_x. split; [lia|]. split; [lia|]. split; [lia|]. split; [lia|].
          split.
          - unfold box. split; [lia|]. split; [lia|]. split; [lia|].
            rewrite <- Z.negb_even, Hev. discriminate.
          - split; [exact Hbox2|]. intros k Hk1 Hk2. apply HD; [|exact Hk2].
            replace u1 with ((u1 - v1) + v1) by ring. apply Z.divide_add_r; assumption. }
        split; [nia|]. split; [intros Hor; specialize (Hprod2 Hor); nia|].
        split; [left; exact Hev|reflexivity].
    - rewrite usub_some by lia. unfold ssub. rewrite !schk_ok by lia. cbn [bind].
      destruct (Z.eqb_spec u1 0); [lia|].
      right. exists u1, (v1 - u1), a1, b1, (c1 - a1), (d1 - b1).
      assert (Hev : Z.even (v1 - u1) = true).
      { rewrite Z.even_sub, <- !Z.negb_odd, Ou1, Ov1. reflexivity. }
      split.
      { unfold inv_x. split; [lia|]. split; [lia|]. split; [lia|]. split; [lia|].
        split; [exact Hbox1|]. split.
        - unfold box. split; [lia|]. split; [lia|]. split; [lia|].
          rewrite <- Z.negb_even, Hev. discriminate.
        - intros k Hk1 Hk2. apply HD; [exact Hk1|].
          replace v1 with ((v1 - u1) + u1) by ring. apply Z.divide_add_r; assumption. }
      split; [nia|]. split; [intros Hor; specialize (Hprod2 Hor); nia|].
      split; [right; exact Hev|reflexivity].
  Qed.

  Lemma xgcd_run : forall fuel u v a b c d, inv_x u v a b c d ->
    Z.even u = true \/ Z.even v = true -> u * v < 2 ^ Z.of_nat fuel ->
    exists r, xgcd_loop fuel B X Y u v a b c d = Some r /\ res_x r.
  Proof.
    induction fuel as [|fuel IH]; intros u v a b c d HI Hev Hf.
    - change (2 ^ Z.of_nat 0) with 1 in Hf. destruct HI as (Hu & Hv & _). nia.
    - rewrite Nat2Z.inj_succ in Hf. rewrite <- Z.add_1_r, pow2_succ in Hf by lia.
      destruct (xgcd_step fuel u v a b c d HI)
        as [H|(u' & v' & a' & b' & c' & d' & HI' & _ & Hp & Hev' & ->)]; [exact H|].
      apply IH; [assumption|assumption|]. specialize (Hp Hev). lia.
  Qed.

  Lemma xgcd_loop_correct :
    exists r, xgcd_loop (S (gcd_fuel B)) B X Y X Y 1 0 0 1 = Some r /\ res_x r.
  Proof.
    assert (HX' : X < 2 ^ B /\ Y < 2 ^ B).
    { pose proof (Z.pow_le_mono_r 2 (B - 2) B ltac:(lia) ltac:(lia)). lia. }
    assert (HI : inv_x X Y 1 0 0 1).
    { unfold inv_x, box. repeat split; try lia; auto. }
    destruct (xgcd_step (gcd_fuel B) _ _ _ _ _ _ HI)
      as [H|(u' & v' & a' & b' & c' & d' & HI' & Hle & _ & Hev' & ->)]; [exact H|].
    apply xgcd_run; [assumption|assumption|].
    unfold gcd_fuel. rewrite Z2Nat.id by lia. rewrite pow2_double by lia. nia.
  Qed.
End X.

Theorem extended_gcd_correct B x y :
  2 <= B -> 0 < x < 2 ^ (B - 2) -> 0 < y < 2 ^ (B - 2) ->
  exists c d, extended_gcd B x y = Some (c, d, Z.gcd x y) /\ c * x + d * y = Z.gcd x y /\
    - y <= c <= y /\ - x <= d <= x.
Proof.
  intros HB Hx Hy. unfold extended_gcd.
  destruct (Z.eqb_spec x 0); [lia|]. destruct (Z.eqb_spec y 0); [lia|]. cbn [orb].
  pose proof (Z.pow_le_mono_r 2 (B - 2) B ltac:(lia) ltac:(lia)) as Hpow.
  destruct (shift_spec B x y ltac:(lia) ltac:(lia) ltac:(lia)) as (Hs & X & Y & EX & EY & HX & HY & Hodd).
  set (s := trailing_zeros B (Z.lor x y)) in *.
  pose proof (pow2_pos s ltac:(lia)) as Hps.
  rewrite !ushr_some by lia. cbn [bind].
  rewrite EX, EY, !Z.div_mul by lia.
  rewrite ushl_some; [|lia|lia|].
  2:{ rewrite Z.mul_1_l. apply Z.pow_lt_mono_r; lia. }
  cbn [bind]. rewrite Z.mul_1_l.
  destruct (xgcd_loop_correct B X Y) as ([[c d] v] & -> & E & Hv & Hc & Hd); try assumption; try nia.
  cbn [bind].
  assert (G : 2 ^ s * v = Z.gcd x y).
  { rewrite EX, EY, Z.gcd_mul_mono_r_nonneg by lia. rewrite Hv. ring. }
  assert (Hle : Z.gcd x y <= x).
  { apply Z.divide_pos_le; [lia|]. apply Z.gcd_divide_l. }
  rewrite umul_some by lia. cbn [bind]. rewrite <- EX, <- EY.
  exists c, d. rewrite <- G at 1. split; [reflexivity|].
  split; [|nia]. rewrite <- G, <- E, EX, EY. ring.
Qed.

Lemma extended_gcd_zero B x y : x = 0 \/ y = 0 -> extended_gcd B x y = Some (0, 0, 0).
Proof.
  intros [->| ->]; unfold extended_gcd; [reflexivity|]. destruct (x =? 0); reflexivity.
Qed.

(** * Inverse *)

Lemma inv_fix_correct B a m d c : 2 <= B -> 0 < a < m -> m < 2 ^ (B - 2) ->
  c * m + d * a = 1 -> - m <= d <= m ->
  exists r, inv_fix B d m = Some r /\ 0 <= r < m /\ cong m (r * a) 1.
Proof.
  intros HB Ha Hm E Hd.
  pose proof (Z.pow_le_mono_r 2 (B - 2) B ltac:(lia) ltac:(lia)) as Hpow.
  pose proof (Z.pow_le_mono_r 2 (B - 2) (B - 1) ltac:(lia) ltac:(lia)) as Hpow1.
  assert (Hne : forall k, d <> k * m).
  { intros k ->. assert ((c + k * a) * m = 1) by lia.
    assert (m = 1) by (apply Z.divide_1_r_nonneg; [lia|exists (c + k * a); lia]). lia. }
  pose proof (Hne 0). pose proof (Hne 1). pose proof (Hne (-1)).
  unfold inv_fix. destruct (Z.ltb_spec 0 d).
  - exists d. unfold ucast. rewrite Z.mod_small by lia. split; [reflexivity|]. split; [lia|].
    exists (- c). lia.
  - unfold scast. destruct (Z.ltb_spec m (2 ^ (B - 1))); [|lia].
    unfold sadd. rewrite schk_ok by lia. cbn [bind]. unfold ucast.
    rewrite Z.mod_small by lia. exists (d + m). split; [reflexivity|]. split; [lia|].
    exists (a - c). lia.
Qed.

Theorem inv_reduce_correct B a m :
  2 <= B -> 0 <= a < m -> m < 2 ^ (B - 2) ->
  (a <> 0 /\ Z.gcd m a = 1 ->
     exists r, inv_reduce B a m = Some r /\ try_inv_reduce B a m = Some (Some r) /\
               0 <= r < m /\ cong m (r * a) 1) /\
  (~ (a <> 0 /\ Z.gcd m a = 1) ->
     inv_reduce B a m = None /\ try_inv_reduce B a m = Some None).
Proof.
  intros HB Ha Hm. unfold inv_reduce, try_inv_reduce.
  rewrite assert_true by (apply Z.ltb_lt; lia). cbn [bind].
  destruct (Z.eq_dec a 0) as [->|Hnz].
  - split; [tauto|]. intros _. rewrite extended_gcd_zero by auto. cbn. auto.
  - destruct (extended_gcd_correct B m a HB ltac:(lia) ltac:(lia)) as (c & d & -> & E & Hc & Hd).
    cbn [bind]. destruct (Z.eqb_spec (Z.gcd m a) 1) as [G|G].
    + split; [|tauto]. intros _. cbn [assert bind]. rewrite G in E.
      destruct (inv_fix_correct B a m d c HB ltac:(lia) ltac:(lia) E Hd) as (r & -> & Hr & Hcong).
      exists r. cbn. auto.
    + split; [tauto|]. intros _. cbn. auto.
Qed.

Lemma inv_reduce_spec B a m :
  2 <= B -> 0 <= a < m -> m < 2 ^ (B - 2) ->
  (a <> 0 /\ Z.gcd m a = 1 ->
     exists r, inv_reduce B a m = Some r /\ try_inv_reduce B a m = Some (Some r) /\
               0 <= r < m /\ (r * a) mod m = 1) /\
  (~ (a <> 0 /\ Z.gcd m a = 1) ->
     inv_reduce B a m = None /\ try_inv_reduce B a m = Some None).
Proof.
  intros HB Ha Hm. destruct (inv_reduce_correct B a m HB Ha Hm) as [H1 H2].
  split; [|exact H2]. intros H. destruct (H1 H) as (r & E & E' & Hr & C).
  exists r. repeat split; try assumption; try lia.
  symmetry. apply cong_eq_mod; [lia|]. symmetry. exact C.
Qed.
