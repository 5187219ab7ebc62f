(** The extended gcd in an optimised build: the loop ends and the divisor is right for all words. *)
From Coq Require Import ZArith Znumtheory List Bool Lia.
From Verif Require Import Spec.Basic Model.Base Model.Gcd Model.OptArith Proofs.Arith Proofs.GcdProofs Proofs.GcdMore.
Local Open Scope Z_scope.

Lemma halve_o_total B x y : forall fuel u a b, 0 < u < 2 ^ Z.of_nat fuel ->
  exists u' a' b', halve_o fuel B x y u a b = Some (u', a', b') /\ 0 < u' <= u /\ Z.odd u' = true /\
    (forall k, Z.odd k = true -> ((k | u') <-> (k | u))) /\ (Z.even u = true -> 2 * u' <= u).
Proof.
  induction fuel as [|fuel IH]; intros u a b Hu; [change (2 ^ Z.of_nat 0) with 1 in Hu; lia|].
  rewrite Nat2Z.inj_succ, <- Z.add_1_r, pow2_succ in Hu by lia. cbn [halve_o]. destruct (Z.even u) eqn:Eu.
  2:{ exists u, a, b. split; [reflexivity|]. split; [lia|]. split; [rewrite <- Z.negb_even, Eu; reflexivity|]. split; [reflexivity|discriminate]. }
  pose proof (even_half B u Eu) as E2.
  assert (HS : forall a1 b1, exists u' a' b', halve_o fuel B x y (u / 2) a1 b1 = Some (u', a', b') /\ 0 < u' <= u /\ Z.odd u' = true /\
    (forall k, Z.odd k = true -> ((k | u') <-> (k | u))) /\ (true = true -> 2 * u' <= u)).
  { intros a1 b1. destruct (IH (u / 2) a1 b1 ltac:(lia)) as (u' & a' & b' & R & H1 & H2 & H3 & _).
    exists u', a', b'. split; [exact R|]. split; [lia|]. split; [exact H2|]. split; [|lia].
    intros k Hk. rewrite (H3 k Hk). rewrite E2 at 2. symmetry. apply odd_dvd_double. exact Hk. }
  destruct (Z.even a && Z.even b); [apply HS|]. unfold sadd_o, ssub_o, schk_o. cbn [bind].
  destruct (scast B x <? b); apply HS.
Qed.

Section L.
  Variables (B x y X Y : Z).
  Hypothesis HB : 0 < B.

  Lemma xgcd_o_step fuel u v a b c d : 0 < u < 2 ^ B -> 0 < v < 2 ^ B -> same_odd u v X Y ->
    (exists c' d' r, xgcd_loop_o (S fuel) B x y u v a b c d = Some (c', d', r) /\ 0 < r /\ Z.odd r = true /\
       forall k, Z.odd k = true -> ((k | r) <-> (k | X) /\ (k | Y))) \/
    exists u' v' a' b' c' d', 0 < u' < 2 ^ B /\ 0 < v' < 2 ^ B /\ same_odd u' v' X Y /\ u' * v' <= u * v /\
      (Z.even u = true \/ Z.even v = true -> 2 * (u' * v') <= u * v) /\ (Z.even u' = true \/ Z.even v' = true) /\
      xgcd_loop_o (S fuel) B x y u v a b c d = xgcd_loop_o fuel B x y u' v' a' b' c' d'.
  Proof.
    intros Hu Hv Hs.
    destruct (halve_o_total B x y (Z.to_nat B) u a b) as (u1 & a1 & b1 & R1 & Hu1 & Ou1 & D1 & Ev1); [rewrite Z2Nat.id; lia|].
    destruct (halve_o_total B x y (Z.to_nat B) v c d) as (v1 & c1 & d1 & R2 & Hv1 & Ov1 & D2 & Ev2); [rewrite Z2Nat.id; lia|].
    cbn [xgcd_loop_o]. rewrite R1. cbn [bind]. rewrite R2. cbn [bind].
    assert (Hs1 : same_odd u1 v1 X Y) by (intros k Hk; rewrite (D1 k Hk), (D2 k Hk); apply Hs; exact Hk).
    assert (Hprod : u1 * v1 <= u * v) by nia.
    assert (Hprod2 : Z.even u = true \/ Z.even v = true -> 2 * (u1 * v1) <= u * v).
    { intros [He|He]; [specialize (Ev1 He)|specialize (Ev2 He)]; nia. }
    unfold ssub_o, schk_o. destruct (Z.leb_spec v1 u1).
    - rewrite usub_some by lia. cbn [bind]. destruct (Z.eqb_spec (u1 - v1) 0).
      + left. eexists. eexists. eexists. split; [reflexivity|]. split; [lia|]. split; [exact Ov1|].
        intros k Hk. rewrite <- (Hs1 k Hk). replace u1 with v1 by lia. tauto.
      + right. eexists. eexists. eexists. eexists. eexists. eexists.
        assert (Hev : Z.even (u1 - v1) = true) by (rewrite Z.even_sub, <- !Z.negb_odd, Ou1, Ov1; reflexivity).
        split; [|split; [|split; [|split; [|split; [|split; [|reflexivity]]]]]]; [lia|lia| |nia|intros Hor; specialize (Hprod2 Hor); nia|left; exact Hev].
        intros k Hk. rewrite <- (Hs1 k Hk).
        split; intros (H1 & H2); (split; [|exact H2]); [replace u1 with (u1 - v1 + v1) by ring; apply Z.divide_add_r; assumption|apply Z.divide_sub_r; assumption].
    - rewrite usub_some by lia. cbn [bind]. destruct (Z.eqb_spec u1 0); [lia|].
      right. eexists. eexists. eexists. eexists. eexists. eexists.
      assert (Hev : Z.even (v1 - u1) = true) by (rewrite Z.even_sub, <- !Z.negb_odd, Ou1, Ov1; reflexivity).
      split; [|split; [|split; [|split; [|split; [|split; [|reflexivity]]]]]]; [lia|lia| |nia|intros Hor; specialize (Hprod2 Hor); nia|right; exact Hev].
      intros k Hk. rewrite <- (Hs1 k Hk).
      split; intros (H1 & H2); (split; [exact H1|]); [replace v1 with (v1 - u1 + u1) by ring; apply Z.divide_add_r; assumption|apply Z.divide_sub_r; assumption].
  Qed.

  Lemma xgcd_o_run : forall fuel u v a b c d, 0 < u < 2 ^ B -> 0 < v < 2 ^ B -> same_odd u v X Y ->
    Z.even u = true \/ Z.even v = true -> u * v < 2 ^ Z.of_nat fuel ->
    exists c' d' r, xgcd_loop_o fuel B x y u v a b c d = Some (c', d', r) /\ 0 < r /\ Z.odd r = true /\
       forall k, Z.odd k = true -> ((k | r) <-> (k | X) /\ (k | Y)).
  Proof.
    induction fuel as [|fuel IH]; intros u v a b c d Hu Hv Hs Hev Hf; [change (2 ^ Z.of_nat 0) with 1 in Hf; nia|].
    rewrite Nat2Z.inj_succ, <- Z.add_1_r, pow2_succ in Hf by lia.
    destruct (xgcd_o_step fuel u v a b c d Hu Hv Hs) as [H|(u' & v' & a' & b' & c' & d' & H1 & H2 & H3 & _ & Hp & Hev' & ->)]; [exact H|].
    apply IH; try assumption. specialize (Hp Hev). lia.
  Qed.

  Lemma xgcd_o_all u v a b c d : 0 < u < 2 ^ B -> 0 < v < 2 ^ B -> same_odd u v X Y ->
    exists c' d' r, xgcd_loop_o (S (gcd_fuel B)) B x y u v a b c d = Some (c', d', r) /\ 0 < r /\ Z.odd r = true /\
       forall k, Z.odd k = true -> ((k | r) <-> (k | X) /\ (k | Y)).
  Proof.
    intros Hu Hv Hs.
    destruct (xgcd_o_step (gcd_fuel B) u v a b c d Hu Hv Hs) as [H|(u' & v' & a' & b' & c' & d' & H1 & H2 & H3 & Hle & _ & Hev' & ->)]; [exact H|].
    apply xgcd_o_run; try assumption. unfold gcd_fuel. rewrite Z2Nat.id by lia. rewrite pow2_double by lia. nia.
  Qed.
End L.

Lemma odd_gcd X Y : Z.odd X || Z.odd Y = true -> Z.odd (Z.gcd X Y) = true.
Proof.
  intros Hodd. destruct (Z.odd (Z.gcd X Y)) eqn:Eo; [reflexivity|]. exfalso. rewrite <- Z.negb_even in Eo. apply negb_false_iff in Eo.
  apply Z.even_spec in Eo as (j & Ej). assert (D2 : (2 | Z.gcd X Y)) by (exists j; lia).
  pose proof (Z.divide_trans _ _ _ D2 (Z.gcd_divide_l X Y)) as (x2 & Ex). pose proof (Z.divide_trans _ _ _ D2 (Z.gcd_divide_r X Y)) as (y2 & Ey).
  rewrite Ex, Ey in Hodd. rewrite !Z.odd_mul in Hodd. cbn in Hodd. rewrite !andb_false_r in Hodd. discriminate.
Qed.

Lemma extended_gcd_o_value B x y : 0 < B -> 0 < x < 2 ^ B -> 0 < y < 2 ^ B ->
  exists c d, extended_gcd_o B x y = Some (c, d, Z.gcd x y).
Proof.
  intros HB Hx Hy. unfold extended_gcd_o. destruct (Z.eqb_spec x 0); [lia|]. destruct (Z.eqb_spec y 0); [lia|]. cbn [orb].
  destruct (shift_spec B x y ltac:(lia) ltac:(lia) ltac:(lia)) as (Hs & X & Y & EX & EY & HX & HY & Hodd).
  set (s := trailing_zeros B (Z.lor x y)) in *. pose proof (pow2_pos s ltac:(lia)) as Hps.
  unfold ushr_o, ushl_o. destruct (Z.ltb_spec s B); [|lia]. cbn [bind].
  rewrite EX, EY, !Z.div_mul by lia.
  assert (Hlt : 2 ^ s < 2 ^ B) by (apply Z.pow_lt_mono_r; lia). rewrite Z.mul_1_l, Z.mod_small by lia.
  destruct (xgcd_o_all B X Y X Y HB X Y 1 0 0 1) as (c & d & r & -> & Hr & Or & Dr); [nia|nia|intros k _; reflexivity|]. cbn [bind].
  assert (Er : r = Z.gcd X Y).
  { apply Z.divide_antisym_nonneg; [lia|apply Z.gcd_nonneg| |].
    - apply Z.gcd_greatest; apply (Dr r Or), Z.divide_refl.
    - apply (Dr _ (odd_gcd X Y Hodd)). split; [apply Z.gcd_divide_l|apply Z.gcd_divide_r]. }
  assert (G : 2 ^ s * r = Z.gcd x y).
  { rewrite EX, EY, Z.gcd_mul_mono_r_nonneg by lia. rewrite Er. ring. }
  assert (Hle : Z.gcd x y <= x) by (apply Z.divide_pos_le; [lia|]; apply Z.gcd_divide_l).
  unfold umul_o. rewrite G. destruct (Z.ltb_spec (Z.gcd x y) (2 ^ B)); [|lia]. cbn [bind].
  exists c, d. rewrite <- EX, <- EY. reflexivity.
Qed.

Lemma try_inv_reduce_o_err B a m : 0 < B -> 0 < a < 2 ^ B -> 0 < m < 2 ^ B ->
  (Z.gcd a m <> 1 -> try_inv_reduce_o B a m = Some None /\ inv_reduce_o B a m = None) /\
  (Z.gcd a m = 1 -> exists r, try_inv_reduce_o B a m = Some (Some r) /\ inv_reduce_o B a m = Some r).
Proof.
  intros HB Ha Hm. destruct (extended_gcd_o_value B m a HB Hm Ha) as (c & d & E).
  unfold try_inv_reduce_o, inv_reduce_o, debug_assert_o. cbn [bind]. rewrite E. cbn [bind]. rewrite (Z.gcd_comm m a).
  destruct (Z.eqb_spec (Z.gcd a m) 1); cbn [assert bind]; (split; intros Hg; [|]); try contradiction.
  - unfold inv_fix_o, sadd_o, schk_o. destruct (0 <? d); cbn [bind]; eexists; (split; reflexivity).
  - split; reflexivity.
Qed.
