(** Modular inversion below half the word: what is returned, if anything is, is the inverse. *)
From Coq Require Import ZArith Znumtheory List Bool Lia.
From Verif Require Import Spec.Basic Model.Base Model.Gcd Proofs.Arith Proofs.GcdProofs Proofs.GcdMore.
Local Open Scope Z_scope.

Section W.
  Variables (B X Y : Z).
  Hypothesis HB : 2 <= B.
  Hypothesis HX : 0 < X < 2 ^ (B - 1).
  Hypothesis HY : 0 < Y < 2 ^ (B - 1).
  Hypothesis Hodd : Z.odd X || Z.odd Y = true.

  Lemma scast_half z : 0 < z < 2 ^ (B - 1) -> scast B z = z.
  Proof. intros Hz. unfold scast. destruct (Z.ltb_spec z (2 ^ (B - 1))); [reflexivity|lia]. Qed.

  Definition wide (u a b : Z) : Prop :=
    0 < u <= X + Y /\ a * X + b * Y = u /\ - (2 * Y) <= a <= 2 * Y /\ - (2 * X) <= b <= 2 * X /\
    (Z.odd u = true -> - Y <= a <= Y /\ - X <= b <= X).

  Lemma halve_wide : forall fuel u a b u' a' b', wide u a b ->
    halve fuel B X Y u a b = Some (u', a', b') ->
    0 < u' <= X + Y /\ Z.odd u' = true /\ a' * X + b' * Y = u' /\ - Y <= a' <= Y /\ - X <= b' <= X.
  Proof.
    induction fuel as [|fuel IH]; intros u a b u' a' b' (Hu & E & Ha & Hb & Ho) R; cbn [halve] in R; destruct (Z.even u) eqn:Eu; try discriminate.
    1, 3: injection R as <- <- <-; assert (Oo : Z.odd u = true) by (rewrite <- Z.negb_even, Eu; reflexivity); destruct (Ho Oo);
      split; [lia|]; split; [exact Oo|]; split; [exact E|]; split; assumption.
    pose proof (even_half B u Eu) as E2.
    assert (ST : forall a1 b1, a1 * X + b1 * Y = u / 2 -> - Y <= a1 <= Y -> - X <= b1 <= X -> wide (u / 2) a1 b1).
    { intros a1 b1 E1 H1 H2. split; [lia|]. split; [exact E1|]. split; [lia|]. split; [lia|]. intros _. split; assumption. }
    destruct (Z.even a && Z.even b) eqn:Eab.
    - apply andb_true_iff in Eab as (Eva & Evb). pose proof (even_half B a Eva). pose proof (even_half B b Evb).
      apply (IH _ _ _ _ _ _) in R; [exact R|]. apply ST; nia.
    - destruct (halve_parity B X Y HB Hodd a b u E Eu Eab) as (_ & P1 & P2 & P3 & P4).
      rewrite (scast_half X HX), (scast_half Y HY) in R.
      destruct (Z.ltb_spec X b); apply bind_some in R as (a1 & E1 & R); apply bind_some in R as (b1 & E3 & R);
        apply schk_val in E1; apply schk_val in E3; subst a1 b1; (apply (IH _ _ _ _ _ _) in R; [exact R|]).
      + assert (a <= Y) by nia. pose proof (even_half B _ P3). pose proof (even_half B _ P4). apply ST; nia.
      + assert (- Y <= a) by nia. pose proof (even_half B _ P1). pose proof (even_half B _ P2). apply ST; nia.
  Qed.

  Lemma xgcd_wide : forall fuel u v a b c d c' d' r, wide u a b -> wide v c d ->
    xgcd_loop fuel B X Y u v a b c d = Some (c', d', r) -> - Y <= c' <= Y /\ - X <= d' <= X.
  Proof.
    induction fuel as [|fuel IH]; intros u v a b c d c' d' r Wu Wv E; cbn [xgcd_loop] in E; [discriminate|].
    apply bind_some in E as ([[u1 a1] b1] & Eu & E). apply bind_some in E as ([[v1 c1] d1] & Ev & E).
    apply (halve_wide _ _ _ _ _ _ _ Wu) in Eu as (Hu1 & Ou & Bu & Ha & Hb). apply (halve_wide _ _ _ _ _ _ _ Wv) in Ev as (Hv1 & Ov & Bv & Hc & Hd).
    assert (W1 : wide u1 a1 b1) by (split; [exact Hu1|]; split; [exact Bu|]; split; [lia|]; split; [lia|]; intros _; split; assumption).
    assert (W2 : wide v1 c1 d1) by (split; [exact Hv1|]; split; [exact Bv|]; split; [lia|]; split; [lia|]; intros _; split; assumption).
    destruct (Z.leb_spec v1 u1).
    - apply bind_some in E as (u2 & E2 & E). apply usub_val in E2 as (-> & _).
      apply bind_some in E as (a2 & E3 & E). apply bind_some in E as (b2 & E4 & E). apply schk_val in E3, E4. subst a2 b2.
      destruct (Z.eqb_spec (u1 - v1) 0); [injection E as <- <- <-; split; assumption|].
      apply (IH _ _ _ _ _ _ _ _ _) in E; [exact E| |exact W2].
      split; [lia|]. split; [lia|]. split; [lia|]. split; [lia|]. rewrite Z.odd_sub, Ou, Ov. discriminate.
    - apply bind_some in E as (v2 & E2 & E). apply usub_val in E2 as (-> & _).
      apply bind_some in E as (c2 & E3 & E). apply bind_some in E as (d2 & E4 & E). apply schk_val in E3, E4. subst c2 d2.
      destruct (Z.eqb_spec u1 0); [lia|].
      apply (IH _ _ _ _ _ _ _ _ _) in E; [exact E|exact W1|].
      split; [lia|]. split; [lia|]. split; [lia|]. split; [lia|]. rewrite Z.odd_sub, Ou, Ov. discriminate.
  Qed.

  Lemma xgcd_wide_start fuel c d r : xgcd_loop fuel B X Y X Y 1 0 0 1 = Some (c, d, r) -> - Y <= c <= Y /\ - X <= d <= X.
  Proof.
    intros E. apply (xgcd_wide _ _ _ _ _ _ _ _ _ _) in E; [exact E| |]; (split; [lia|]; split; [lia|]; split; [lia|]; split; [lia|]; intros _; lia).
  Qed.
End W.

Lemma inv_fix_wide B m a c d : 2 <= B -> 0 < a < m -> m < 2 ^ (B - 1) -> c * m + d * a = 1 -> - m <= d <= m ->
  exists r, inv_fix B d m = Some r /\ 0 <= r < m /\ (r * a) mod m = 1.
Proof.
  intros HB Ha Hm E Hd. pose proof (pow2_succ (B - 1) ltac:(lia)) as P. replace (B - 1 + 1) with B in P by ring.
  assert (M : forall k, ((d + k * m) * a) mod m = 1).
  { intros k. replace ((d + k * m) * a) with (1 + (k * a - c) * m) by (rewrite <- E at 1; ring). rewrite Z.mod_add by lia. apply Z.mod_small. lia. }
  assert (N1 : d <> m) by (intros ->; assert (m * (c + a) = 1) by lia; assert (m = 1 \/ m = -1) by (apply Z.divide_1_r; exists (c + a); lia); lia).
  assert (N2 : d <> - m) by (intros ->; assert (m * (c - a) = 1) by lia; assert (m = 1 \/ m = -1) by (apply Z.divide_1_r; exists (c - a); lia); lia).
  assert (SM : scast B m = m) by (unfold scast; destruct (Z.ltb_spec m (2 ^ (B - 1))); [reflexivity|lia]).
  unfold inv_fix. destruct (Z.ltb_spec 0 d).
  - exists d. unfold ucast. rewrite Z.mod_small by lia. split; [reflexivity|]. split; [lia|]. specialize (M 0). rewrite Z.mul_0_l, Z.add_0_r in M. exact M.
  - rewrite SM. unfold sadd, schk. destruct (Z.leb_spec (- 2 ^ (B - 1)) (d + m)); [|lia]. destruct (Z.ltb_spec (d + m) (2 ^ (B - 1))); [|lia]. cbn [andb bind].
    exists (d + m). unfold ucast.
    assert (d <> 0) by (intros ->; assert (m = 1 \/ m = -1) by (apply Z.divide_1_r; exists c; lia); lia).
    rewrite Z.mod_small by lia. split; [reflexivity|]. split; [lia|]. specialize (M 1). rewrite Z.mul_1_l in M. exact M.
Qed.

Lemma inv_reduce_wide B a m : 2 <= B -> 0 <= a < m -> m < 2 ^ (B - 1) ->
  (forall r, inv_reduce B a m = Some r -> 0 <= r < m /\ (r * a) mod m = 1 /\ try_inv_reduce B a m = Some (Some r)) /\
  (forall r, try_inv_reduce B a m = Some (Some r) -> inv_reduce B a m = Some r) /\
  (try_inv_reduce B a m = Some None -> a = 0 \/ Z.gcd a m <> 1).
Proof.
  intros HB Ha Hm. pose proof (Z.pow_le_mono_r 2 (B - 1) B ltac:(lia) ltac:(lia)) as Hpow.
  unfold inv_reduce, try_inv_reduce. rewrite assert_true by (apply Z.ltb_lt; lia). cbn [assert bind].
  destruct (Z.eq_dec a 0) as [->|Hne].
  { unfold extended_gcd. rewrite Z.eqb_refl, orb_true_r. cbn [bind assert Z.eqb]. split; [discriminate|]. split; [discriminate|]. auto. }
  destruct (extended_gcd B m a) as [[[c d] g]|] eqn:E; cbn [bind]; [|split; [discriminate|]; split; discriminate].
  destruct (extended_gcd_bezout B m a c d g HB ltac:(lia) ltac:(lia) E) as (Hg & Hb).
  destruct (Z.eqb_spec g 1) as [Eg|Ng]; cbn [assert bind].
  - destruct (extended_gcd_open B m a c d g ltac:(lia) ltac:(lia) ltac:(lia) E) as (s & X & Y & r & Hs & EX & EY & HX & HY & Hodd & Eg' & El).
    pose proof (pow2_pos s Hs) as Hp.
    assert (Ds : 2 ^ s = 1) by (assert (2 ^ s = 1 \/ 2 ^ s = -1) by (apply Z.divide_1_r; exists r; lia); lia).
    rewrite Ds, Z.mul_1_r in EX, EY. subst X Y.
    destruct (xgcd_wide_start B m a HB ltac:(lia) ltac:(lia) Hodd _ _ _ _ El) as (_ & Hd).
    destruct (inv_fix_wide B m a c d HB ltac:(lia) Hm ltac:(lia) Hd) as (z & Ez & Hz & Mz). rewrite Ez. cbn [bind].
    split; [intros ? [= <-]; auto|]. split; [intros ? [= <-]; reflexivity|discriminate].
  - split; [discriminate|]. split; [discriminate|]. intros _. right. rewrite Z.gcd_comm. lia.
Qed.
