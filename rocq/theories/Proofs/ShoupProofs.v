(** Shoup multiplication. *)
From Coq Require Import ZArith Bool Lia.
From Verif Require Import Model.Base Model.Shoup Proofs.Arith.
Local Open Scope Z_scope.

Lemma shoup_new_correct B w m : 0 <= B -> 0 <= w < m -> m <= 2 ^ B ->
  shoup_new B w m = Some (mk_shoup w ((w * 2 ^ B) / m)).
Proof.
  intros HB Hw Hm. unfold shoup_new. rewrite assert_true by (apply Z.ltb_lt; lia). cbn [bind].
  rewrite udiv_some by lia. cbn [bind]. unfold ucast. pose proof (pow2_pos B HB).
  rewrite Z.mod_small; [reflexivity|]. split; [apply Z.div_pos; nia|].
  apply Z.div_lt_upper_bound; nia.
Qed.

Lemma shoup_set_modulus_correct B s m :
  shoup_set_modulus B s m = shoup_new B (sh_value s) m.
Proof. reflexivity. Qed.

Lemma shoup_set_correct B s w m : shoup_set B s w m = shoup_new B w m.
Proof. reflexivity. Qed.

Section S.
  Variables (B w m : Z).
  Hypothesis HB : 1 <= B.
  Hypothesis Hw : 0 <= w < m.
  Hypothesis Hm : m <= 2 ^ (B - 1).
  Let s := mk_shoup w ((w * 2 ^ B) / m).

  Lemma shoup_mul_lazy_correct x : 0 <= x < 2 ^ B ->
    0 <= shoup_mul_lazy B s x m < 2 * m /\ cong m (shoup_mul_lazy B s x m) (w * x).
  Proof.
    intros Hx. unfold shoup_mul_lazy, widening_mul_hw, wsub, wmul, s. cbn [sh_value sh_quotient].
    pose proof (pow2_pred B HB) as HP. pose proof (pow2_pos (B - 1) ltac:(lia)) as HP'.
    set (b := 2 ^ B) in *. set (q := w * b / m).
    assert (Eq : w * b = m * q + (w * b) mod m) by (apply Z.div_mod; lia).
    pose proof (Z.mod_pos_bound (w * b) m ltac:(lia)) as He. set (e := (w * b) mod m) in *.
    set (h := q * x / b).
    assert (Eh : q * x = b * h + (q * x) mod b) by (apply Z.div_mod; lia).
    pose proof (Z.mod_pos_bound (q * x) b ltac:(lia)) as Hf. set (f := (q * x) mod b) in *.
    rewrite Zminus_mod_idemp_l, Zminus_mod_idemp_r.
    assert (E : (w * x - h * m) * b = e * x + f * m).
    { replace ((w * x - h * m) * b) with ((w * b) * x - (b * h) * m) by ring.
      rewrite Eq. replace (b * h) with (q * x - f) by lia. ring. }
    assert (0 <= e * x <= (m - 1) * b).
    { split; [apply Z.mul_nonneg_nonneg; lia|apply Z.mul_le_mono_nonneg; lia]. }
    assert (0 <= f * m <= b * m).
    { split; [apply Z.mul_nonneg_nonneg; lia|apply Z.mul_le_mono_nonneg_r; lia]. }
    assert (Hr : 0 <= w * x - h * m < 2 * m).
    { split.
      - apply Zmult_le_reg_r with b; lia.
      - apply Zmult_gt_0_lt_reg_r with b; lia. }
    rewrite Z.mod_small by lia. split; [exact Hr|]. exists (- h). ring.
  Qed.

  Lemma shoup_mul_correct x : 0 <= x < 2 ^ B -> shoup_mul B s x m = Some ((w * x) mod m).
  Proof.
    intros Hx. destruct (shoup_mul_lazy_correct x Hx) as [Hr Hc]. unfold shoup_mul.
    destruct (Z.leb_spec m (shoup_mul_lazy B s x m)).
    - rewrite usub_some by lia. f_equal. apply cong_eq_mod; [lia|].
      eapply cong_trans; [|exact Hc]. exists (-1). ring.
    - f_equal. apply cong_eq_mod; [lia|exact Hc].
  Qed.
End S.

Lemma shoup_mul_full B w m x s :
  1 <= B -> 0 <= w < m -> m <= 2 ^ (B - 1) -> 0 <= x < 2 ^ B ->
  shoup_new B w m = Some s ->
  shoup_mul B s x m = Some ((w * x) mod m) /\
  0 <= shoup_mul_lazy B s x m < 2 * m /\ cong m (shoup_mul_lazy B s x m) (w * x).
Proof.
  intros HB Hw Hm Hx E. pose proof (pow2_pred B HB).
  rewrite shoup_new_correct in E by lia. injection E as <-. split.
  - apply shoup_mul_correct; assumption.
  - apply shoup_mul_lazy_correct; assumption.
Qed.

Lemma shoup_new_panics B w m : m <= w -> shoup_new B w m = None.
Proof. intros H. unfold shoup_new. destruct (Z.ltb_spec w m); [lia|reflexivity]. Qed.
