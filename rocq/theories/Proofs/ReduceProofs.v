(** Plain word modulus and the exponentiation skeleton. *)
From Coq Require Import ZArith List Bool Lia.
From Verif Require Import Model.Base Model.Reduce Proofs.Arith.
Import ListNotations.
Local Open Scope Z_scope.

Lemma mod_in a m : 0 < m -> 0 <= a mod m < m.
Proof. intros; apply Z.mod_pos_bound; lia. Qed.

Lemma add_reduce_correct B a b m :
  0 <= a < m -> 0 <= b < m -> a + b < 2 ^ B -> add_reduce B a b m = Some ((a + b) mod m).
Proof.
  intros Ha Hb Hs. unfold add_reduce. rewrite uadd_some by lia. cbn.
  destruct (Z.leb_spec m (a + b)).
  - rewrite usub_some by lia. f_equal.
    apply cong_eq_mod; [lia|]. exists (-1). ring.
  - rewrite Z.mod_small by lia. reflexivity.
Qed.

Lemma sub_reduce_correct B a b m :
  m <= 2 ^ B -> 0 <= a < m -> 0 <= b < m -> sub_reduce B a b m = Some ((a - b) mod m).
Proof.
  intros Hm Ha Hb. unfold sub_reduce. destruct (Z.leb_spec b a).
  - rewrite usub_some by lia. rewrite Z.mod_small by lia. reflexivity.
  - rewrite usub_some by lia. cbn. rewrite uadd_some by lia. f_equal.
    apply cong_eq_mod; [lia|]. exists 1. ring.
Qed.

Lemma sub_reduce_assign_correct B a b m :
  m <= 2 ^ B -> 0 <= a < m -> 0 <= b < m -> sub_reduce_assign B a b m = Some ((a - b) mod m).
Proof.
  intros Hm Ha Hb. unfold sub_reduce_assign. destruct (Z.leb_spec b a).
  - rewrite usub_some by lia. rewrite Z.mod_small by lia. reflexivity.
  - rewrite usub_some by lia. cbn. rewrite uadd_some by lia. f_equal.
    apply cong_eq_mod; [lia|]. exists 1. ring.
Qed.

Lemma neg_reduce_correct a m : 0 <= a < m -> neg_reduce a m = Some ((- a) mod m).
Proof.
  intros Ha. unfold neg_reduce. destruct (Z.eqb_spec a 0).
  - subst. rewrite Z.mod_small by lia. reflexivity.
  - rewrite usub_some by lia. f_equal. apply cong_eq_mod; [lia|]. exists 1. ring.
Qed.

(** Exponentiation over any multiplication that is sound on a set [ok] of words with respect
    to a multiplicative "meaning" [val], a congruence modulo [m]. *)
Section Exp.
  Variable m : Z.
  Variable mul : Z -> Z -> option Z.
  Variable ok : Z -> Prop.
  Variable val : Z -> Z.
  Hypothesis mul_ok : forall x y, ok x -> ok y ->
    exists z, mul x y = Some z /\ ok z /\ cong m (val z) (val x * val y).

  Lemma sqr_iter a n : ok a ->
    exists y, iterM n (fun x => mul x x) a = Some y /\ ok y /\
              cong m (val y) (val a ^ (2 ^ Z.of_nat n)).
  Proof.
    intros Ha.
    destruct (iterM_inv (fun x => mul x x)
                (fun i y => ok y /\ cong m (val y) (val a ^ (2 ^ Z.of_nat i))) n a)
      as (y & E & Hy).
    - split; [exact Ha|]. change (2 ^ Z.of_nat 0) with 1. rewrite Z.pow_1_r. reflexivity.
    - intros i x Hi [Hx Hc]. destruct (mul_ok x x Hx Hx) as (z & Ez & Hz & Hv).
      exists z. split; [exact Ez|]. split; [exact Hz|].
      rewrite Hv, Hc. rewrite <- Z.pow_add_r by (apply Z.pow_nonneg; lia).
      replace (Z.of_nat (S i)) with (Z.of_nat i + 1) by lia.
      rewrite pow2_succ by lia.
      replace (2 ^ Z.of_nat i + 2 ^ Z.of_nat i) with (2 * 2 ^ Z.of_nat i) by ring. reflexivity.
    - exists y. split; [exact E|]. exact Hy.
  Qed.

  (** Loop invariant: after [i] steps the exponent still to process is [e0 / 2^i],
      [power = a^(2^i)], [inter = a^(e0 mod 2^(i+1))]. *)
  Lemma exp_loop a e0 n : ok a -> 0 < e0 -> Z.odd e0 = true ->
    exists e p r, iterM n (exp_step mul) (e0, a, a) = Some (e, p, r) /\
      ok p /\ ok r /\ e = e0 / 2 ^ Z.of_nat n /\ cong m (val p) (val a ^ (2 ^ Z.of_nat n)) /\
      cong m (val r) (val a ^ (e0 mod 2 ^ (Z.of_nat n + 1))).
  Proof.
    intros Ha He0 Hodd.
    destruct (iterM_inv (exp_step mul)
      (fun i st => let '(e, p, r) := st in
        ok p /\ ok r /\ e = e0 / 2 ^ Z.of_nat i /\ cong m (val p) (val a ^ (2 ^ Z.of_nat i)) /\
        cong m (val r) (val a ^ (e0 mod 2 ^ (Z.of_nat i + 1)))) n (e0, a, a))
      as ([[e p] r] & E & HP).
    - repeat split; try exact Ha.
      + change (2 ^ Z.of_nat 0) with 1. rewrite Z.div_1_r. reflexivity.
      + change (2 ^ Z.of_nat 0) with 1. rewrite Z.pow_1_r. reflexivity.
      + change (2 ^ (Z.of_nat 0 + 1)) with 2.
        rewrite Zmod_odd, Hodd, Z.pow_1_r. reflexivity.
    - intros i [[e p] r] Hi (Hp & Hr & He & Hcp & Hcr).
      unfold exp_step. destruct (mul_ok p p Hp Hp) as (p' & Ep & Hp' & Hv).
      rewrite Ep. cbn [bind].
      assert (Hcp' : cong m (val p') (val a ^ (2 ^ Z.of_nat (S i)))).
      { rewrite Hv, Hcp. rewrite <- Z.pow_add_r by (apply Z.pow_nonneg; lia).
        replace (Z.of_nat (S i)) with (Z.of_nat i + 1) by lia. rewrite pow2_succ by lia.
        replace (2 ^ Z.of_nat i + 2 ^ Z.of_nat i) with (2 * 2 ^ Z.of_nat i) by ring.
        reflexivity. }
      assert (He' : e / 2 = e0 / 2 ^ Z.of_nat (S i)).
      { subst e. rewrite Z.div_div by (pose proof (pow2_pos (Z.of_nat i)); lia).
        f_equal. replace (Z.of_nat (S i)) with (Z.of_nat i + 1) by lia.
        rewrite pow2_succ by lia. ring. }
      assert (Hmod : e0 mod 2 ^ (Z.of_nat (S i) + 1)
                     = e0 mod 2 ^ (Z.of_nat i + 1) + (if Z.odd (e / 2) then 2 ^ Z.of_nat (S i) else 0)).
      { rewrite pow2_succ by lia. rewrite Z.mul_comm, Z.rem_mul_r.
        2:{ pose proof (pow2_pos (Z.of_nat (S i))); lia. }
        2: lia.
        replace (Z.of_nat i + 1) with (Z.of_nat (S i)) by lia.
        rewrite <- He', Zmod_odd. destruct (Z.odd (e / 2)); ring. }
      destruct (Z.odd (e / 2)) eqn:Eo.
      + destruct (mul_ok r p' Hr Hp') as (r' & Er & Hr' & Hvr). rewrite Er. cbn [bind].
        exists (e / 2, p', r'). split; [reflexivity|]. repeat split; try assumption.
        rewrite Hmod, Z.pow_add_r; [|apply Z.mod_pos_bound, pow2_pos; lia|apply Z.pow_nonneg; lia].
        rewrite Hvr, Hcr, Hcp'. reflexivity.
      + cbn [bind]. exists (e / 2, p', r). split; [reflexivity|].
        repeat split; try assumption. rewrite Hmod, Z.add_0_r. exact Hcr.
    - exists e, p, r. split; [exact E|exact HP].
  Qed.

  Lemma exp_generic_correct EB one b a e :
    0 <= EB -> 0 < e -> ok a -> b = true ->
    exists r, exp_generic EB mul one b a e = Some r /\ ok r /\ cong m (val r) (val a ^ e).
  Proof.
    intros HEB He Ha Hb. unfold exp_generic.
    destruct (Z.eqb_spec e 0); [lia|]. rewrite Hb. cbn [assert bind].
    destruct (tz_spec EB e He) as (o & Ho & Hodd & Hpos).
    pose proof (tz_nonneg EB e HEB) as Htz. set (tz := trailing_zeros EB e) in *.
    destruct (sqr_iter a (Z.to_nat tz) Ha) as (p & Ep & Hp & Hcp).
    rewrite Ep. cbn [bind]. rewrite Z2Nat.id in Hcp by lia.
    assert (Hdiv : e / 2 ^ tz = o).
    { rewrite Ho. apply Z.div_mul. pose proof (pow2_pos tz); lia. }
    rewrite Hdiv.
    assert (Hfin : forall r, cong m (val r) (val p ^ o) -> cong m (val r) (val a ^ e)).
    { intros r Hr. rewrite Hr, Ho. rewrite (Z.mul_comm o), Z.pow_mul_r by (try apply Z.pow_nonneg; lia).
      apply cong_pow, Hcp. }
    destruct (Z.eqb_spec o 1).
    - exists p. repeat split; try assumption. apply Hfin. subst o. rewrite e0, Z.pow_1_r. reflexivity.
    - destruct (exp_loop p o (Z.to_nat (bit_len o - 1)) Hp Hpos Hodd)
        as (e' & p' & r & E & _ & Hr & _ & _ & Hcr).
      rewrite E. cbn [bind]. exists r. repeat split; try assumption.
      apply Hfin. rewrite Hcr.
      pose proof (bit_len_bounds o Hpos) as Hb'.
      assert (1 <= bit_len o).
      { unfold bit_len. destruct (o =? 0) eqn:?; [lia|]. pose proof (Z.log2_nonneg o). lia. }
      rewrite Z2Nat.id by lia.
      replace (bit_len o - 1 + 1) with (bit_len o) by ring.
      rewrite Z.mod_small by lia. reflexivity.
  Qed.

  Lemma exp_pow2_generic_correct a k : 0 <= k -> ok a ->
    exists r, exp_pow2_generic mul a k = Some r /\ ok r /\ cong m (val r) (val a ^ (2 ^ k)).
  Proof.
    intros Hk Ha. unfold exp_pow2_generic.
    destruct (sqr_iter a (Z.to_nat k) Ha) as (y & E & Hy & Hc).
    rewrite Z2Nat.id in Hc by lia. eauto.
  Qed.
End Exp.

Lemma add_reduce_overflow B m : 1 <= m -> 2 ^ B <= 2 * (m - 1) ->
  add_reduce B (m - 1) (m - 1) m = None.
Proof.
  intros Hm H. unfold add_reduce, uadd.
  destruct (Z.ltb_spec (m - 1 + (m - 1)) (2 ^ B)); [lia|reflexivity].
Qed.
