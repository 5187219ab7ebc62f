(** Power-of-two modulus. *)
From Coq Require Import ZArith List Bool Lia.
From Verif Require Import Spec.Basic Model.Base Model.Reduce Model.PowOf2 Proofs.Arith Proofs.ReduceProofs
  Proofs.BarrettProofs.
Import ListNotations.
Local Open Scope Z_scope.

Theorem p2_new_correct v mask : 0 <= v ->
  (p2_new v = Some mask <-> exists k, 1 <= k /\ v = 2 ^ k /\ mask = 2 ^ k - 1).
Proof.
  intros Hv. unfold p2_new. destruct (Z.ltb_spec 1 v); cbn [andb].
  - destruct (is_pow2 v) eqn:E; cbn [assert bind].
    + apply is_pow2_spec in E. destruct E as (k & Hk & ->). rewrite usub_some by lia.
      split.
      * intros [= <-]. exists k. split; [|auto].
        destruct (Z.eq_dec k 0) as [->|]; [cbn in *; lia|lia].
      * intros (k' & _ & E & ->). rewrite E. reflexivity.
    + split; [discriminate|]. intros (k & Hk & -> & _).
      assert (is_pow2 (2 ^ k) = true); [|congruence].
      apply is_pow2_spec. exists k. split; [lia|reflexivity].
  - cbn. split; [discriminate|]. intros (k & Hk & -> & _).
    pose proof (Z.pow_le_mono_r 2 1 k ltac:(lia) ltac:(lia)). lia.
Qed.

Section P.
  Variables (B k : Z).
  Hypothesis Hk : 1 <= k <= B.
  Let mask := 2 ^ k - 1.
  Let q := 2 ^ k.

  Lemma q_pos : 2 <= q.
  Proof. unfold q. pose proof (Z.pow_le_mono_r 2 1 k ltac:(lia) ltac:(lia)). lia. Qed.

  Lemma p2_reduce_correct x : p2_reduce mask x = x mod q.
  Proof. unfold p2_reduce, mask. apply land_mask. lia. Qed.
  Lemma p2_add_correct x y : p2_add B mask x y = (x + y) mod q.
  Proof. unfold p2_add, mask, wadd. rewrite land_mask by lia. apply mod_mod_pow2. lia. Qed.
  Lemma p2_sub_correct x y : p2_sub B mask x y = (x - y) mod q.
  Proof. unfold p2_sub, mask, wsub. rewrite land_mask by lia. apply mod_mod_pow2. lia. Qed.
  Lemma p2_neg_correct x : p2_neg B mask x = (- x) mod q.
  Proof. unfold p2_neg, mask, wneg. rewrite land_mask by lia. apply mod_mod_pow2. lia. Qed.
  Lemma p2_mul_correct x y : p2_mul B mask x y = (x * y) mod q.
  Proof. unfold p2_mul, mask, wmul. rewrite land_mask by lia. apply mod_mod_pow2. lia. Qed.

  Lemma p2_mul_ok x y : 0 <= x < q -> 0 <= y < q ->
    exists z, Some (p2_mul B mask x y) = Some z /\ 0 <= z < q /\ cong q z (x * y).
  Proof.
    intros _ _. eexists. split; [reflexivity|]. rewrite p2_mul_correct. pose proof q_pos.
    split; [apply Z.mod_pos_bound; lia|apply cong_mod; lia].
  Qed.

  Lemma p2_exp_correct EB a e : 0 <= EB -> 0 <= a < q -> 0 <= e ->
    p2_exp B EB mask a e = Some (a ^ e mod q).
  Proof.
    intros HEB Ha He. pose proof q_pos. unfold p2_exp.
    destruct (Z.eq_dec e 0) as [->|].
    - unfold exp_generic. cbn [Z.eqb]. rewrite Z.pow_0_r, Z.mod_small by lia. reflexivity.
    - destruct (exp_generic_correct q (fun x y => Some (p2_mul B mask x y)) (fun x => 0 <= x < q) (fun x => x))
        with (EB := EB) (one := 1) (b := a <=? mask) (a := a) (e := e) as (r' & E & Hr & Hc).
      + apply p2_mul_ok.
      + lia.
      + lia.
      + exact Ha.
      + apply Z.leb_le. unfold mask. fold q. lia.
      + rewrite E. f_equal. apply cong_eq_mod; assumption.
  Qed.

  Lemma p2_exp_pow2_correct a n : 0 <= a < q -> 0 <= n ->
    p2_exp_pow2 B mask a n = Some (a ^ (2 ^ n) mod q).
  Proof.
    intros Ha Hn. unfold p2_exp_pow2.
    destruct (exp_pow2_generic_correct q (fun x y => Some (p2_mul B mask x y)) (fun x => 0 <= x < q) (fun x => x))
      with (a := a) (k := n) as (r' & E & Hr & Hc).
    + apply p2_mul_ok.
    + lia.
    + exact Ha.
    + rewrite E. f_equal. apply cong_eq_mod; assumption.
  Qed.

  Lemma p2_dot_fold : forall l acc,
    (fold_left (fun acc xy => wadd B (wmul B (fst xy) (snd xy)) acc) l acc) mod q
    = (acc + fold_right (fun xy s => fst xy * snd xy + s) 0 l) mod q.
  Proof.
    pose proof q_pos.
    induction l as [|[x y] l IH]; intros acc; cbn [fold_left fold_right fst snd].
    - rewrite Z.add_0_r. reflexivity.
    - rewrite IH. apply cong_iff; [lia|].
      assert (Hw : cong q (wadd B (wmul B x y) acc) (x * y + acc)).
      { unfold wadd, wmul. rewrite Zplus_mod_idemp_l.
        apply cong_iff; [lia|]. unfold q. apply mod_mod_pow2. lia. }
      rewrite Hw. apply cong_of_eq. ring.
  Qed.

  Lemma p2_dot_correct x y : length x = length y -> p2_dot B mask x y = Some (dotz x y mod q).
  Proof.
    intros L. unfold p2_dot. rewrite assert_true by (apply Nat.eqb_eq; exact L). cbn [bind].
    rewrite p2_reduce_correct, p2_dot_fold, fold_combine_dotz. reflexivity.
  Qed.
End P.

Lemma p2_ops_correct B k x y : 1 <= k <= B ->
  p2_reduce (2 ^ k - 1) x = x mod 2 ^ k /\
  p2_add B (2 ^ k - 1) x y = (x + y) mod 2 ^ k /\
  p2_sub B (2 ^ k - 1) x y = (x - y) mod 2 ^ k /\
  p2_neg B (2 ^ k - 1) x = (- x) mod 2 ^ k /\
  p2_mul B (2 ^ k - 1) x y = (x * y) mod 2 ^ k.
Proof.
  intros Hk. split; [apply (p2_reduce_correct B k Hk)|].
  split; [apply (p2_add_correct B k Hk)|]. split; [apply (p2_sub_correct B k Hk)|].
  split; [apply (p2_neg_correct B k Hk)|apply (p2_mul_correct B k Hk)].
Qed.
