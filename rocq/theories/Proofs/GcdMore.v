(** Extended gcd on all words: what is returned, if anything is. *)
From Coq Require Import ZArith Znumtheory List Bool Lia.
From Verif Require Import Spec.Basic Model.Base Model.Gcd Proofs.Arith Proofs.GcdProofs.
Import ListNotations.
Local Open Scope Z_scope.

Lemma odd_rel2 k : Z.odd k = true -> rel_prime k 2.
Proof.
  intros H. apply Z.odd_spec in H as (j & ->). apply bezout_rel_prime. apply (Bezout_intro _ _ _ 1 (- j)). ring.
Qed.
Lemma odd_dvd_double k m : Z.odd k = true -> (k | 2 * m) <-> (k | m).
Proof.
  intros H. split; [|apply Z.divide_mul_r]. intros Hd. apply (Gauss k 2 m Hd). apply odd_rel2. exact H.
Qed.
Lemma schk_val B a r : schk B a = Some r -> r = a.
Proof. unfold schk. destruct (_ && _); congruence. Qed.
Lemma usub_val a b r : usub a b = Some r -> r = a - b /\ b <= a.
Proof. unfold usub. destruct (Z.leb_spec b a); [|discriminate]. intros [= <-]. auto. Qed.

Lemma halve_div fuel B x y : forall u a b u' a' b', 0 < u -> halve fuel B x y u a b = Some (u', a', b') ->
  0 < u' /\ Z.odd u' = true /\ forall k, Z.odd k = true -> ((k | u') <-> (k | u)).
Proof.
  induction fuel as [|fuel IH]; intros u a b u' a' b' Hu E; cbn [halve] in E; destruct (Z.even u) eqn:Ee; try discriminate.
  1, 3: injection E as <- _ _; split; [exact Hu|]; split; [rewrite <- Z.negb_even, Ee; reflexivity|reflexivity].
  pose proof (even_half B u Ee) as E2.
  assert (HS : forall a1 b1, halve fuel B x y (u / 2) a1 b1 = Some (u', a', b') -> 0 < u' /\ Z.odd u' = true /\ forall k, Z.odd k = true -> ((k | u') <-> (k | u))).
  { intros a1 b1 E1. destruct (IH (u / 2) a1 b1 u' a' b' ltac:(lia) E1) as (H1 & H2 & H3). split; [exact H1|]. split; [exact H2|].
    intros k Hk. rewrite (H3 k Hk). rewrite E2 at 2. symmetry. apply odd_dvd_double. exact Hk. }
  destruct (Z.even a && Z.even b); [exact (HS _ _ E)|].
  destruct (scast B x <? b); apply bind_some in E as (a1 & _ & E); apply bind_some in E as (b1 & _ & E); exact (HS _ _ E).
Qed.

Lemma halve_bez fuel B X Y : 2 <= B -> Z.odd X || Z.odd Y = true -> 0 <= X < 2 ^ (B - 1) -> 0 <= Y < 2 ^ (B - 1) ->
  forall u a b u' a' b', a * X + b * Y = u -> halve fuel B X Y u a b = Some (u', a', b') -> a' * X + b' * Y = u'.
Proof.
  intros HB Hodd HX HY.
  assert (SX : scast B X = X) by (unfold scast; destruct (Z.ltb_spec X (2 ^ (B - 1))); [reflexivity|lia]).
  assert (SY : scast B Y = Y) by (unfold scast; destruct (Z.ltb_spec Y (2 ^ (B - 1))); [reflexivity|lia]).
  induction fuel as [|fuel IH]; intros u a b u' a' b' Hb E; cbn [halve] in E; destruct (Z.even u) eqn:Ee; try discriminate.
  1, 3: injection E as <- <- <-; exact Hb.
  pose proof (even_half B u Ee) as E2. rewrite SX, SY in E. destruct (Z.even a && Z.even b) eqn:Eab.
  - apply andb_true_iff in Eab as (Ea & Eb). pose proof (even_half B a Ea). pose proof (even_half B b Eb). apply (IH _ _ _ _ _ _) in E; [exact E|nia].
  - destruct (halve_parity B X Y HB Hodd a b u Hb Ee Eab) as (_ & P1 & P2 & P3 & P4).
    destruct (X <? b); apply bind_some in E as (a1 & E1 & E); apply bind_some in E as (b1 & E3 & E);
      apply schk_val in E1; apply schk_val in E3; subst a1 b1; (apply (IH _ _ _ _ _ _) in E; [exact E|]).
    + pose proof (even_half B _ P3). pose proof (even_half B _ P4). nia.
    + pose proof (even_half B _ P1). pose proof (even_half B _ P2). nia.
Qed.

Definition same_odd (u v X Y : Z) : Prop := forall k, Z.odd k = true -> ((k | u) /\ (k | v) <-> (k | X) /\ (k | Y)).

Lemma xgcd_gcd fuel B x y X Y : forall u v a b c d c' d' r, 0 < u -> 0 < v -> same_odd u v X Y ->
  xgcd_loop fuel B x y u v a b c d = Some (c', d', r) ->
  0 < r /\ Z.odd r = true /\ forall k, Z.odd k = true -> ((k | r) <-> (k | X) /\ (k | Y)).
Proof.
  induction fuel as [|fuel IH]; intros u v a b c d c' d' r Hu Hv Hs E; cbn [xgcd_loop] in E; [discriminate|].
  apply bind_some in E as ([[u1 a1] b1] & Eu & E). apply bind_some in E as ([[v1 c1] d1] & Ev & E).
  destruct (halve_div _ _ _ _ _ _ _ _ _ _ Hu Eu) as (Hu1 & Ou1 & Du). destruct (halve_div _ _ _ _ _ _ _ _ _ _ Hv Ev) as (Hv1 & Ov1 & Dv).
  assert (Hs1 : same_odd u1 v1 X Y) by (intros k Hk; rewrite (Du k Hk), (Dv k Hk); apply Hs; exact Hk).
  destruct (Z.leb_spec v1 u1).
  - apply bind_some in E as (u2 & E2 & E). apply usub_val in E2 as (-> & _).
    apply bind_some in E as (a2 & _ & E). apply bind_some in E as (b2 & _ & E).
    destruct (Z.eqb_spec (u1 - v1) 0).
    + injection E as _ _ <-. split; [exact Hv1|]. split; [exact Ov1|]. intros k Hk. rewrite <- (Hs1 k Hk). replace u1 with v1 by lia. tauto.
    + apply (IH (u1 - v1) v1 _ _ _ _ _ _ _ ltac:(lia) Hv1) in E; [exact E|]. intros k Hk. rewrite <- (Hs1 k Hk).
      split; intros (H1 & H2); (split; [|exact H2]); [replace u1 with (u1 - v1 + v1) by ring; apply Z.divide_add_r; assumption|apply Z.divide_sub_r; assumption].
  - apply bind_some in E as (v2 & E2 & E). apply usub_val in E2 as (-> & _).
    apply bind_some in E as (c2 & _ & E). apply bind_some in E as (d2 & _ & E).
    destruct (Z.eqb_spec u1 0); [lia|].
    apply (IH u1 (v1 - u1) _ _ _ _ _ _ _ Hu1 ltac:(lia)) in E; [exact E|]. intros k Hk. rewrite <- (Hs1 k Hk).
    split; intros (H1 & H2); (split; [exact H1|]); [replace v1 with (v1 - u1 + u1) by ring; apply Z.divide_add_r; assumption|apply Z.divide_sub_r; assumption].
Qed.

Lemma xgcd_bez fuel B X Y : 2 <= B -> Z.odd X || Z.odd Y = true -> 0 <= X < 2 ^ (B - 1) -> 0 <= Y < 2 ^ (B - 1) ->
  forall u v a b c d c' d' r, a * X + b * Y = u -> c * X + d * Y = v ->
  xgcd_loop fuel B X Y u v a b c d = Some (c', d', r) -> c' * X + d' * Y = r.
Proof.
  intros HB Hodd HX HY. induction fuel as [|fuel IH]; intros u v a b c d c' d' r Hu Hv E; cbn [xgcd_loop] in E; [discriminate|].
  apply bind_some in E as ([[u1 a1] b1] & Eu & E). apply bind_some in E as ([[v1 c1] d1] & Ev & E).
  apply (halve_bez _ B X Y HB Hodd HX HY _ _ _ _ _ _ Hu) in Eu. apply (halve_bez _ B X Y HB Hodd HX HY _ _ _ _ _ _ Hv) in Ev.
  destruct (v1 <=? u1).
  - apply bind_some in E as (u2 & E2 & E). apply usub_val in E2 as (-> & _).
    apply bind_some in E as (a2 & E3 & E). apply bind_some in E as (b2 & E4 & E). apply schk_val in E3, E4. subst a2 b2.
    destruct (u1 - v1 =? 0); [injection E as <- <- <-; exact Ev|]. apply (IH _ _ _ _ _ _ _ _ _) in E; [exact E|lia|exact Ev].
  - apply bind_some in E as (v2 & E2 & E). apply usub_val in E2 as (-> & _).
    apply bind_some in E as (c2 & E3 & E). apply bind_some in E as (d2 & E4 & E). apply schk_val in E3, E4. subst c2 d2.
    destruct (u1 =? 0); [injection E as <- <- <-; lia|]. apply (IH _ _ _ _ _ _ _ _ _) in E; [exact E|exact Eu|lia].
Qed.

Lemma extended_gcd_open B x y c d v : 0 < B -> 0 < x < 2 ^ B -> 0 < y < 2 ^ B -> extended_gcd B x y = Some (c, d, v) ->
  exists s X Y r, 0 <= s /\ x = X * 2 ^ s /\ y = Y * 2 ^ s /\ 0 < X /\ 0 < Y /\ Z.odd X || Z.odd Y = true /\ v = 2 ^ s * r /\
    xgcd_loop (S (gcd_fuel B)) B X Y X Y 1 0 0 1 = Some (c, d, r).
Proof.
  intros HB Hx Hy E. unfold extended_gcd in E. destruct (Z.eqb_spec x 0); [lia|]. destruct (Z.eqb_spec y 0); [lia|]. cbn [orb] in E.
  destruct (shift_spec B x y ltac:(lia) ltac:(lia) ltac:(lia)) as (Hs & X & Y & EX & EY & HX & HY & Hodd).
  set (s := trailing_zeros B (Z.lor x y)) in *. pose proof (pow2_pos s ltac:(lia)) as Hps.
  rewrite !ushr_some in E by lia. cbn [bind] in E. rewrite EX, EY, !Z.div_mul in E by lia.
  rewrite ushl_some in E; [|lia|lia|rewrite Z.mul_1_l; apply Z.pow_lt_mono_r; lia]. cbn [bind] in E. rewrite Z.mul_1_l in E.
  apply bind_some in E as ([[c1 d1] r] & El & E). apply bind_some in E as (gv & Eg & E). injection E as -> -> ->.
  exists s, X, Y, r. split; [lia|]. split; [exact EX|]. split; [exact EY|]. split; [exact HX|]. split; [exact HY|]. split; [exact Hodd|]. split; [|exact El].
  unfold umul in Eg. destruct (_ <? _); congruence.
Qed.

Lemma extended_gcd_value B x y c d v : 0 < B -> 0 < x < 2 ^ B -> 0 < y < 2 ^ B -> extended_gcd B x y = Some (c, d, v) -> v = Z.gcd x y.
Proof.
  intros HB Hx Hy E. destruct (extended_gcd_open B x y c d v HB Hx Hy E) as (s & X & Y & r & Hs & EX & EY & HX & HY & Hodd & -> & El).
  destruct (xgcd_gcd _ _ _ _ X Y _ _ _ _ _ _ _ _ _ HX HY (fun k _ => iff_refl _) El) as (Hr & Or & Dr).
  rewrite EX, EY, Z.gcd_mul_mono_r_nonneg by (apply Z.pow_nonneg; lia). rewrite Z.mul_comm. f_equal.
  assert (Og : Z.odd (Z.gcd X Y) = true).
  { destruct (Z.odd (Z.gcd X Y)) eqn:Eo; [reflexivity|]. exfalso. rewrite <- Z.negb_even in Eo. apply negb_false_iff in Eo.
    apply Z.even_spec in Eo as (j & Ej). assert (D2 : (2 | Z.gcd X Y)) by (exists j; lia).
    pose proof (Z.divide_trans _ _ _ D2 (Z.gcd_divide_l X Y)) as (x2 & Ex). pose proof (Z.divide_trans _ _ _ D2 (Z.gcd_divide_r X Y)) as (y2 & Ey).
    rewrite Ex, Ey in Hodd. rewrite !Z.odd_mul in Hodd. cbn in Hodd. rewrite !andb_false_r in Hodd. discriminate. }
  apply Z.divide_antisym_nonneg; [lia|apply Z.gcd_nonneg| |].
  - apply Z.gcd_greatest; apply (Dr r Or), Z.divide_refl.
  - apply (Dr _ Og). split; [apply Z.gcd_divide_l|apply Z.gcd_divide_r].
Qed.

Lemma extended_gcd_bezout B x y c d v : 2 <= B -> 0 < x < 2 ^ (B - 1) -> 0 < y < 2 ^ (B - 1) ->
  extended_gcd B x y = Some (c, d, v) -> v = Z.gcd x y /\ c * x + d * y = v.
Proof.
  intros HB Hx Hy E. pose proof (Z.pow_le_mono_r 2 (B - 1) B ltac:(lia) ltac:(lia)) as Hpow. split; [apply (extended_gcd_value B x y c d v); try lia; exact E|].
  destruct (extended_gcd_open B x y c d v ltac:(lia) ltac:(lia) ltac:(lia) E) as (s & X & Y & r & Hs & EX & EY & HX & HY & Hodd & -> & El).
  pose proof (pow2_pos s Hs). assert (H1 : X < 2 ^ (B - 1)) by nia. assert (H2 : Y < 2 ^ (B - 1)) by nia.
  pose proof (xgcd_bez _ B X Y HB Hodd ltac:(lia) ltac:(lia) X Y 1 0 0 1 c d r ltac:(ring) ltac:(ring) El) as Hb.
  rewrite EX, EY, <- Hb. ring.
Qed.

(** A common power of two does not count. *)
Lemma shift_le s t X Y X' Y' : 0 <= s -> 0 <= t -> 0 < X -> 0 < Y -> 0 < X' -> 0 < Y' -> X * 2 ^ s = X' * 2 ^ t -> Y * 2 ^ s = Y' * 2 ^ t ->
  Z.odd X' || Z.odd Y' = true -> X' <= X /\ Y' <= Y.
Proof.
  intros Hs Ht HX HY HX' HY' EX EY Ho. destruct (Z.le_gt_cases s t) as [L|L].
  - pose proof (pow2_pos s Hs). replace t with (s + (t - s)) in EX, EY by ring. rewrite Z.pow_add_r in EX, EY by lia.
    pose proof (pow2_pos (t - s) ltac:(lia)).
    assert (X = X' * 2 ^ (t - s)) by (apply (Z.mul_reg_r _ _ (2 ^ s)); [lia|rewrite EX; ring]).
    assert (Y = Y' * 2 ^ (t - s)) by (apply (Z.mul_reg_r _ _ (2 ^ s)); [lia|rewrite EY; ring]). nia.
  - exfalso. pose proof (pow2_pos t Ht). replace s with (t + 1 + (s - t - 1)) in EX, EY by ring. rewrite !Z.pow_add_r, Z.pow_1_r in EX, EY by lia.
    assert (E1 : X' = 2 * (X * 2 ^ (s - t - 1))) by (apply (Z.mul_reg_r _ _ (2 ^ t)); [lia|rewrite <- EX; ring]).
    assert (E2 : Y' = 2 * (Y * 2 ^ (s - t - 1))) by (apply (Z.mul_reg_r _ _ (2 ^ t)); [lia|rewrite <- EY; ring]).
    rewrite E1, E2, !Z.odd_mul in Ho. discriminate.
Qed.

Lemma extended_gcd_shifted B s X Y : 2 <= B -> 0 <= s -> 0 < X < 2 ^ (B - 2) -> 0 < Y < 2 ^ (B - 2) -> X * 2 ^ s < 2 ^ B -> Y * 2 ^ s < 2 ^ B ->
  exists c d, extended_gcd B (X * 2 ^ s) (Y * 2 ^ s) = Some (c, d, Z.gcd X Y * 2 ^ s) /\ c * X + d * Y = Z.gcd X Y /\ - Y <= c <= Y /\ - X <= d <= X.
Proof.
  intros HB Hs HX HY Wx Wy. pose proof (pow2_pos s Hs) as Hp.
  assert (Px : 0 < X * 2 ^ s) by nia. assert (Py : 0 < Y * 2 ^ s) by nia.
  unfold extended_gcd. destruct (Z.eqb_spec (X * 2 ^ s) 0); [lia|]. destruct (Z.eqb_spec (Y * 2 ^ s) 0); [lia|]. cbn [orb].
  destruct (shift_spec B (X * 2 ^ s) (Y * 2 ^ s) ltac:(lia) ltac:(lia) ltac:(lia)) as (Ht & X' & Y' & EX & EY & HX' & HY' & Hodd).
  set (t := trailing_zeros B (Z.lor (X * 2 ^ s) (Y * 2 ^ s))) in *. pose proof (pow2_pos t ltac:(lia)) as Hpt.
  destruct (shift_le s t X Y X' Y' Hs ltac:(lia) ltac:(lia) ltac:(lia) HX' HY' EX EY Hodd) as [Lx Ly].
  assert (Hgle : Z.gcd (X * 2 ^ s) (Y * 2 ^ s) <= X * 2 ^ s) by (apply Z.divide_pos_le; [lia|apply Z.gcd_divide_l]).
  assert (G1 : Z.gcd (X * 2 ^ s) (Y * 2 ^ s) = Z.gcd X Y * 2 ^ s) by (apply Z.gcd_mul_mono_r_nonneg; lia).
  rewrite !ushr_some by lia. cbn [bind]. rewrite EX, EY, !Z.div_mul by lia.
  rewrite ushl_some; [|lia|lia|rewrite Z.mul_1_l; apply Z.pow_lt_mono_r; lia]. cbn [bind]. rewrite Z.mul_1_l.
  destruct (xgcd_loop_correct B X' Y') as ([[c d] v] & -> & E & Hv & Hc & Hd); try assumption; try nia.
  cbn [bind].
  assert (G : 2 ^ t * v = Z.gcd (X * 2 ^ s) (Y * 2 ^ s)) by (rewrite EX, EY, Z.gcd_mul_mono_r_nonneg by lia; rewrite Hv; ring).
  rewrite umul_some by lia. cbn [bind]. exists c, d. rewrite <- G1, <- G. split; [reflexivity|].
  split; [|nia]. apply (Z.mul_reg_r _ _ (2 ^ s)); [lia|]. rewrite <- G1, <- G, <- E.
  transitivity (c * (X * 2 ^ s) + d * (Y * 2 ^ s)); [ring|]. rewrite EX, EY. ring.
Qed.
