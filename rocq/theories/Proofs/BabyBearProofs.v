(** Baby Bear in Montgomery form. *)
From Coq Require Import ZArith Znumtheory Zpow_facts List Bool Lia.
From Verif Require Import Model.Base Model.Reduce Model.BabyBear Proofs.Arith Proofs.ReduceProofs
  Proofs.NumTheory.
Import ListNotations.
Local Open Scope Z_scope.

Lemma prime_2' : prime 2. Proof. exact prime_2. Qed.
Lemma prime_3' : prime 3. Proof. exact prime_3. Qed.
Lemma prime_5 : prime 5. Proof. apply small_prime; [lia|vm_compute; reflexivity]. Qed.

Theorem prime_BP : prime BP.
Proof.
  apply (lucas_check BP 31 [2; 3; 5]).
  - reflexivity.
  - intros q Hq Hd. change (BP - 1) with (2 ^ 27 * (3 * 5)) in Hd.
    apply prime_mult in Hd; [|assumption]. destruct Hd as [Hd|Hd].
    + apply prime_div_pow in Hd; [|assumption|lia].
      left. symmetry. apply prime_div_prime; [assumption|exact prime_2|assumption].
    + apply prime_mult in Hd; [|assumption]. destruct Hd as [Hd|Hd].
      * right; left. symmetry. apply prime_div_prime; [assumption|exact prime_3|assumption].
      * right; right; left. symmetry. apply prime_div_prime; [assumption|exact prime_5|assumption].
  - vm_compute. reflexivity.
  - vm_compute. reflexivity.
  - intros q [<-|[<-|[<-|[]]]]; lia.
Qed.

(** The inverse of 2^32 modulo P. *)
Definition RINV : Z := Zpow_mod (2 ^ 32) (BP - 2) BP.
Lemma RINV_spec : cong BP (2 ^ 32 * RINV) 1.
Proof. apply cong_iff; [reflexivity|]. vm_compute. reflexivity. Qed.

(** The field element a Montgomery word stands for (an integer defined modulo P). *)
Definition bb_val (x : Z) : Z := x * RINV.

Definition bb_ok (x : Z) : Prop := 0 <= x < BP.

Lemma BP_eq : BP = 2013265921. Proof. reflexivity. Qed.

Lemma monty_reduce_correct x : 0 <= x < 2 ^ 32 * BP ->
  exists r, monty_reduce x = Some r /\ 0 <= r < BP /\ cong BP (r * 2 ^ 32) x.
Proof.
  intros Hx. unfold monty_reduce, wmul, MONTY_MASK.
  rewrite land_mask by lia. rewrite mod_mod_pow2 by lia.
  set (t := (x * MONTY_MU) mod 2 ^ 32).
  assert (Ht : 0 <= t < 2 ^ 32) by (apply Z.mod_pos_bound; reflexivity).
  rewrite umul_some.
  2:{ rewrite BP_eq. change (2 ^ 64) with 18446744073709551616. change (2 ^ 32) with 4294967296 in Ht. lia. }
  cbn [bind].
  assert (Hdiv : (2 ^ 32 | x - t * BP)).
  { assert (C : cong (2 ^ 32) (t * BP) x).
    { assert (E1 : cong (2 ^ 32) t (x * MONTY_MU)) by (apply cong_mod; discriminate).
      rewrite E1. transitivity (x * (MONTY_MU * BP)); [apply cong_of_eq; ring|].
      transitivity (x * 1); [|apply cong_of_eq; ring].
      apply cong_mul; [reflexivity|]. apply cong_iff; [reflexivity|]. vm_compute. reflexivity. }
    apply cong_sym in C. exact C. }
  clearbody t. destruct Hdiv as [d Hd]. unfold overflowing_sub, wsub, wadd, ucast, MONTY_BITS.
  change (2 ^ 64) with 18446744073709551616. change (2 ^ 32) with 4294967296 in *.
  rewrite BP_eq in *.
  assert (Hdr : - 2013265921 < d < 2013265921) by lia.
  destruct (Z.ltb_spec x (t * 2013265921)).
  - exists (d + 2013265921). split; [|split; [lia|]].
    + f_equal.
      assert (E : (x - t * 2013265921) mod 18446744073709551616 = (d + 4294967296) * 4294967296).
      { symmetry. apply cong_eq_mod; [lia|]. exists 1. lia. }
      rewrite E, Z.div_mul by lia.
      symmetry. apply cong_eq_mod; [lia|].
      rewrite (cong_mod 4294967296 (d + 4294967296)) by lia. exists (-1). lia.
    + exists (4294967296 - t). lia.
  - exists d. split; [|split; [lia|]].
    + f_equal. rewrite (Z.mod_small (x - _)) by lia. rewrite Hd, Z.div_mul by lia.
      rewrite Z.add_0_r, Zmod_mod, Z.mod_small by lia. reflexivity.
    + exists (- t). lia.
Qed.

Lemma val_of_monty r x : cong BP (r * 2 ^ 32) x -> cong BP r (x * RINV).
Proof.
  intros H. rewrite <- H. transitivity (r * (2 ^ 32 * RINV)); [|apply cong_of_eq; ring].
  rewrite RINV_spec. apply cong_of_eq; ring.
Qed.

Lemma monty_cancel a b : cong BP (a * 2 ^ 32) (b * 2 ^ 32) -> cong BP a b.
Proof.
  intros H. apply val_of_monty in H. rewrite H.
  transitivity (b * (2 ^ 32 * RINV)); [apply cong_of_eq; ring|].
  rewrite RINV_spec. apply cong_of_eq; ring.
Qed.

Lemma bb_val_inj a b : bb_ok a -> bb_ok b -> cong BP (bb_val a) (bb_val b) -> a = b.
Proof.
  intros Ha Hb H. apply cong_small with BP; try assumption.
  unfold bb_val in H.
  transitivity (a * (2 ^ 32 * RINV)); [rewrite RINV_spec; apply cong_of_eq; ring|].
  transitivity (b * (2 ^ 32 * RINV)); [|rewrite RINV_spec; apply cong_of_eq; ring].
  transitivity (2 ^ 32 * (a * RINV)); [apply cong_of_eq; ring|].
  rewrite H. apply cong_of_eq; ring.
Qed.

Lemma to_monty_correct x : bb_ok (to_monty x) /\ cong BP (bb_val (to_monty x)) x.
Proof.
  unfold to_monty, ucast, MONTY_BITS.
  pose proof (Z.mod_pos_bound (x * 2 ^ 32) BP ltac:(reflexivity)) as H.
  assert (HB : BP < 2 ^ 32) by reflexivity.
  rewrite (Z.mod_small ((x * 2 ^ 32) mod BP)) by lia.
  split; [exact H|]. unfold bb_val. rewrite (cong_mod BP (x * 2 ^ 32)) by discriminate.
  transitivity (x * (2 ^ 32 * RINV)); [apply cong_of_eq; ring|].
  rewrite RINV_spec. apply cong_of_eq; ring.
Qed.

Lemma from_monty_correct x : 0 <= x < 2 ^ 32 ->
  from_monty x = Some (bb_val x mod BP).
Proof.
  intros Hx. assert (HB : 1 <= BP) by (rewrite BP_eq; lia).
  destruct (monty_reduce_correct x) as (r & E & Hr & C); [nia|].
  unfold from_monty. rewrite E. f_equal. apply cong_eq_mod; [exact Hr|].
  apply val_of_monty. exact C.
Qed.

Theorem from_to_monty x : 0 <= x < BP -> from_monty (to_monty x) = Some x.
Proof.
  intros Hx. destruct (to_monty_correct x) as [Hok Hv].
  assert (HB : BP < 2 ^ 32) by reflexivity. unfold bb_ok in Hok.
  rewrite from_monty_correct by lia. f_equal. symmetry. apply cong_eq_mod; [exact Hx|].
  symmetry. exact Hv.
Qed.

Theorem to_from_monty x : bb_ok x -> exists y, from_monty x = Some y /\ 0 <= y < BP /\ to_monty y = x.
Proof.
  intros Hx. assert (HB : BP < 2 ^ 32) by reflexivity. unfold bb_ok in Hx.
  rewrite from_monty_correct by lia. eexists. split; [reflexivity|].
  split; [apply Z.mod_pos_bound; reflexivity|].
  apply bb_val_inj; [apply to_monty_correct|exact Hx|].
  rewrite (proj2 (to_monty_correct _)). apply cong_mod. discriminate.
Qed.

Lemma bb_add_correct a b : bb_ok a -> bb_ok b -> bb_add a b = Some ((a + b) mod BP).
Proof.
  unfold bb_ok, bb_add, overflowing_sub, wsub. intros Ha Hb. rewrite BP_eq in *.
  rewrite uadd_some by (change (2 ^ 32) with 4294967296; lia). cbn [bind].
  change (2 ^ 32) with 4294967296.
  destruct (Z.ltb_spec (a + b) 2013265921).
  - rewrite Z.mod_small by lia. reflexivity.
  - f_equal. rewrite Z.mod_small by lia. apply cong_eq_mod; [lia|]. exists (-1). ring.
Qed.

Lemma bb_sub_correct a b : bb_ok a -> bb_ok b -> bb_sub a b = Some ((a - b) mod BP).
Proof.
  unfold bb_ok, bb_sub, overflowing_sub, wsub, wadd. intros Ha Hb. rewrite BP_eq in *.
  change (2 ^ 32) with 4294967296. f_equal.
  destruct (Z.ltb_spec a b).
  - rewrite Zplus_mod_idemp_l. rewrite Z.mod_small by lia. apply cong_eq_mod; [lia|]. exists 1; ring.
  - rewrite Z.add_0_r, Zmod_mod, !Z.mod_small by lia. reflexivity.
Qed.

Lemma bb_neg_correct a : bb_ok a -> bb_neg a = Some ((- a) mod BP).
Proof.
  intros Ha. unfold bb_neg. rewrite bb_sub_correct; [|unfold bb_ok; rewrite BP_eq; lia|assumption].
  reflexivity.
Qed.

Lemma bb_mod_ok a : bb_ok (a mod BP).
Proof. apply Z.mod_pos_bound. reflexivity. Qed.

Lemma bb_mul_ok a b : bb_ok a -> bb_ok b ->
  exists z, bb_mul a b = Some z /\ bb_ok z /\ cong BP (bb_val z) (bb_val a * bb_val b).
Proof.
  unfold bb_ok, bb_mul. intros Ha Hb. rewrite BP_eq in Ha, Hb.
  rewrite umul_some by (change (2 ^ 64) with 18446744073709551616; nia). cbn [bind].
  destruct (monty_reduce_correct (a * b)) as (r & -> & Hr & C).
  { rewrite BP_eq. change (2 ^ 32) with 4294967296. nia. }
  exists r. split; [reflexivity|]. split; [exact Hr|].
  apply val_of_monty in C. unfold bb_val. rewrite C. apply cong_of_eq; ring.
Qed.

(** Independent statement of the result: the word whose value is the given integer. *)
Lemma bb_unique z v : bb_ok z -> cong BP (bb_val z) v -> z = to_monty v.
Proof.
  intros Hz C. destruct (to_monty_correct v) as [Ho Hv].
  apply bb_val_inj; [assumption|assumption|]. rewrite Hv. exact C.
Qed.

Lemma bb_exp_correct EB a e : 0 <= EB -> bb_ok a -> 0 < e ->
  exists z, bb_exp EB a e = Some z /\ bb_ok z /\ cong BP (bb_val z) (bb_val a ^ e).
Proof.
  intros HEB Ha He. unfold bb_exp.
  apply (exp_generic_correct BP bb_mul bb_ok bb_val bb_mul_ok EB 1 (a <? BP) a e); try assumption; try lia.
  apply Z.ltb_lt. apply Ha.
Qed.

Lemma bb_exp_pow2_correct a k : bb_ok a -> 0 <= k ->
  exists z, bb_exp_pow2 a k = Some z /\ bb_ok z /\ cong BP (bb_val z) (bb_val a ^ (2 ^ k)).
Proof.
  intros Ha Hk. exact (exp_pow2_generic_correct BP bb_mul bb_ok bb_val bb_mul_ok a k Hk Ha).
Qed.

(** Powers of a fixed element along an addition chain. *)
Definition bb_isp (V x e : Z) : Prop := bb_ok x /\ cong BP (bb_val x) (V ^ e) /\ 0 <= e.

Lemma bb_mul_isp V x y a b : bb_isp V x a -> bb_isp V y b ->
  exists z, bb_mul x y = Some z /\ bb_isp V z (a + b).
Proof.
  intros (Hx & Cx & Ha) (Hy & Cy & Hb).
  destruct (bb_mul_ok x y Hx Hy) as (z & E & Hz & Cz). exists z. split; [exact E|].
  split; [exact Hz|]. split; [|lia]. rewrite Cz, Cx, Cy, Z.pow_add_r by lia. reflexivity.
Qed.

Lemma bb_pow2_isp V x a k : bb_isp V x a -> 0 <= k ->
  exists z, bb_exp_pow2 x k = Some z /\ bb_isp V z (a * 2 ^ k).
Proof.
  intros (Hx & Cx & Ha) Hk.
  destruct (bb_exp_pow2_correct x k Hx Hk) as (z & E & Hz & Cz). exists z. split; [exact E|].
  split; [exact Hz|]. pose proof (pow2_pos k Hk). split; [|nia].
  rewrite Z.pow_mul_r by lia. eapply cong_trans; [exact Cz|]. apply cong_pow. exact Cx.
Qed.

Theorem bb_try_inverse_correct v : bb_ok v -> v <> 0 ->
  exists r, bb_try_inverse v = Some (Some r) /\ bb_ok r /\ cong BP (bb_val r * bb_val v) 1.
Proof.
  intros Hv Hnz. unfold bb_try_inverse. apply Z.eqb_neq in Hnz. rewrite Hnz.
  apply Z.eqb_neq in Hnz.
  set (V := bb_val v).
  assert (P1 : bb_isp V v 1).
  { split; [exact Hv|]. split; [|lia]. rewrite Z.pow_1_r. reflexivity. }
  cbv zeta.
  Ltac bb_step :=
    match goal with
    | |- context [bind (bb_mul ?x ?x) _] =>
        match goal with
        | Hx : bb_isp ?V x _ |- _ =>
            let z := fresh "z" in let E := fresh "E" in let P := fresh "P" in
            destruct (bb_mul_isp V x x _ _ Hx Hx) as (z & E & P); rewrite E; clear E; cbn [bind]
        end
    | |- context [bind (bb_mul ?x ?y) _] =>
        match goal with
        | Hx : bb_isp ?V x _, Hy : bb_isp ?V y _ |- _ =>
            let z := fresh "z" in let E := fresh "E" in let P := fresh "P" in
            destruct (bb_mul_isp V x y _ _ Hx Hy) as (z & E & P); rewrite E; clear E; cbn [bind]
        end
    | |- context [bind (bb_exp_pow2 ?x ?k) _] =>
        match goal with
        | Hx : bb_isp ?V x _ |- _ =>
            let z := fresh "z" in let E := fresh "E" in let P := fresh "P" in
            destruct (bb_pow2_isp V x _ k Hx ltac:(lia)) as (z & E & P); rewrite E; clear E; cbn [bind]
        end
    end.
  repeat bb_step.
  eexists. split; [reflexivity|].
  match goal with H : bb_isp V ?z ?e |- bb_ok ?z /\ _ =>
    assert (Ee : e = BP - 2) by (vm_compute; reflexivity);
    rewrite Ee in H; destruct H as (Hz & Cz & _) end.
  split; [exact Hz|]. rewrite Cz. fold V. apply fermat_inv; [exact prime_BP|].
  (* V is not divisible by P *)
  intros Hd. apply Hnz. apply bb_val_inj; [exact Hv|unfold bb_ok; rewrite BP_eq; lia|].
  unfold bb_val at 2. rewrite Z.mul_0_l. apply cong_0. exact Hd.
Qed.

Lemma bb_div_correct a b : bb_ok a -> bb_ok b -> b <> 0 ->
  exists z, bb_div a b = Some z /\ bb_ok z /\ cong BP (bb_val z * bb_val b) (bb_val a).
Proof.
  intros Ha Hb Hnz. unfold bb_div, bb_inv.
  destruct (bb_try_inverse_correct b Hb Hnz) as (i & -> & Hi & Ci). cbn [bind].
  destruct (bb_mul_ok a i Ha Hi) as (z & E & Hz & Cz). exists z. split; [exact E|].
  split; [exact Hz|]. rewrite Cz. transitivity (bb_val a * (bb_val i * bb_val b)); [apply cong_of_eq; ring|].
  rewrite Ci. apply cong_of_eq; ring.
Qed.

Lemma bb_dot_correct x y : length x = length y ->
  Forall bb_ok x -> Forall bb_ok y ->
  exists z, bb_dot x y = Some z /\ bb_ok z /\
    cong BP (bb_val z) (fold_right Z.add 0 (map (fun xy => bb_val (fst xy) * bb_val (snd xy)) (combine x y))).
Proof.
  intros L Hx Hy. unfold bb_dot. rewrite assert_true by (apply Nat.eqb_eq; exact L). cbn [bind].
  assert (G : forall l acc, Forall (fun xy => bb_ok (fst xy) /\ bb_ok (snd xy)) l -> bb_ok acc ->
    exists z, foldM (fun acc xy => let* t := bb_mul (fst xy) (snd xy) in bb_add t acc) acc l = Some z /\
      bb_ok z /\ cong BP (bb_val z)
        (bb_val acc + fold_right Z.add 0 (map (fun xy => bb_val (fst xy) * bb_val (snd xy)) l))).
  { induction l as [|[p q] l IH]; intros acc Hl Ha; cbn [foldM map fold_right fst snd].
    - exists acc. split; [reflexivity|]. split; [exact Ha|]. apply cong_of_eq; ring.
    - inversion Hl as [|? ? [Hp Hq] Hl']; subst. cbn [fst snd] in *.
      destruct (bb_mul_ok p q Hp Hq) as (t & -> & Ht & Ct). cbn [bind].
      rewrite bb_add_correct by assumption. cbn [bind].
      destruct (IH ((t + acc) mod BP) Hl' (bb_mod_ok _)) as (z & E & Hz & Cz).
      exists z. split; [exact E|]. split; [exact Hz|]. rewrite Cz.
      unfold bb_val at 1. rewrite (cong_mod BP (t + acc)) by discriminate.
      rewrite Z.mul_add_distr_r. fold (bb_val t) (bb_val acc). rewrite Ct. apply cong_of_eq; ring. }
  destruct (G (combine x y) 0) as (z & E & Hz & Cz).
  - clear -Hx Hy. revert y Hy. induction Hx as [|a x Ha Hx IH]; intros [|b y] Hy; cbn; constructor; inv Hy; auto.
  - unfold bb_ok. rewrite BP_eq. lia.
  - exists z. split; [exact E|]. split; [exact Hz|]. rewrite Cz. apply cong_of_eq. unfold bb_val at 1. ring.
Qed.

(** * Statements through [to_monty] *)

Lemma bb_of_val z v : bb_ok z -> cong BP (bb_val z) v -> z = to_monty v.
Proof. exact (bb_unique z v). Qed.

Lemma tm_ok v : bb_ok (to_monty v). Proof. apply to_monty_correct. Qed.
Lemma tm_val v : cong BP (bb_val (to_monty v)) v. Proof. apply to_monty_correct. Qed.

Lemma to_monty_cong v w : cong BP v w -> to_monty v = to_monty w.
Proof. intros H. apply bb_unique; [apply tm_ok|]. rewrite tm_val. exact H. Qed.

Lemma bb_bijection :
  (forall v, 0 <= v < 2013265921 ->
     0 <= to_monty v < 2013265921 /\ from_monty (to_monty v) = Some v) /\
  (forall x, 0 <= x < 2013265921 ->
     exists v, 0 <= v < 2013265921 /\ to_monty v = x /\ from_monty x = Some v) /\
  (forall v, to_monty v = to_monty (v mod 2013265921)).
Proof.
  split; [|split].
  - intros v Hv. split; [apply (tm_ok v)|]. apply from_to_monty. exact Hv.
  - intros x Hx. destruct (to_from_monty x Hx) as (y & E & Hy & Ey). exists y. auto.
  - intros v. apply to_monty_cong. symmetry. apply cong_mod. discriminate.
Qed.

Lemma mod_to_monty x v : bb_ok (x mod BP) -> cong BP (bb_val x) v -> x mod BP = to_monty v.
Proof.
  intros H C. apply bb_unique; [exact H|]. unfold bb_val in *.
  rewrite (cong_mod BP x) by discriminate. exact C.
Qed.

Lemma bb_ops_spec v w :
  bb_add (to_monty v) (to_monty w) = Some (to_monty (v + w)) /\
  bb_sub (to_monty v) (to_monty w) = Some (to_monty (v - w)) /\
  bb_neg (to_monty v) = Some (to_monty (- v)) /\
  bb_mul (to_monty v) (to_monty w) = Some (to_monty (v * w)).
Proof.
  pose proof (tm_ok v) as Hv. pose proof (tm_ok w) as Hw.
  pose proof (tm_val v) as Cv. pose proof (tm_val w) as Cw.
  split; [|split; [|split]].
  - rewrite bb_add_correct by assumption. f_equal. apply mod_to_monty; [apply bb_mod_ok|].
    unfold bb_val in *. rewrite Z.mul_add_distr_r, Cv, Cw. reflexivity.
  - rewrite bb_sub_correct by assumption. f_equal. apply mod_to_monty; [apply bb_mod_ok|].
    unfold bb_val in *. rewrite Z.mul_sub_distr_r, Cv, Cw. reflexivity.
  - rewrite bb_neg_correct by assumption. f_equal. apply mod_to_monty; [apply bb_mod_ok|].
    unfold bb_val in *. rewrite Z.mul_opp_l, Cv. reflexivity.
  - destruct (bb_mul_ok _ _ Hv Hw) as (z & -> & Hz & Cz). f_equal. apply bb_unique; [exact Hz|].
    rewrite Cz, Cv, Cw. reflexivity.
Qed.

Lemma tm_zero v : to_monty v = 0 <-> v mod 2013265921 = 0.
Proof.
  change 2013265921 with BP. split; intros H.
  - apply Z.mod_divide; [discriminate|]. apply cong_0. rewrite <- (tm_val v), H.
    unfold bb_val. apply cong_of_eq. ring.
  - apply Z.mod_divide in H; [|discriminate]. apply cong_0 in H.
    rewrite (to_monty_cong v 0 H). reflexivity.
Qed.

Lemma bb_inverse_spec v :
  (v mod 2013265921 <> 0 ->
     exists w, bb_try_inverse (to_monty v) = Some (Some (to_monty w)) /\
               bb_inv (to_monty v) = Some (to_monty w) /\ (w * v) mod 2013265921 = 1) /\
  (v mod 2013265921 = 0 -> bb_try_inverse (to_monty v) = Some None /\ bb_inv (to_monty v) = None).
Proof.
  split; intros H.
  - destruct (bb_try_inverse_correct (to_monty v) (tm_ok v)) as (r & E & Hr & C).
    { rewrite tm_zero. exact H. }
    exists (bb_val r). unfold bb_inv. rewrite E. cbn [bind].
    rewrite <- (bb_unique r (bb_val r) Hr) by reflexivity.
    split; [reflexivity|]. split; [reflexivity|]. change 2013265921 with BP.
    symmetry. apply cong_eq_mod; [rewrite BP_eq; lia|]. rewrite tm_val in C. symmetry. exact C.
  - apply tm_zero in H. rewrite H. split; reflexivity.
Qed.

Lemma bb_div_spec v w : w mod 2013265921 <> 0 ->
  exists z, bb_div (to_monty v) (to_monty w) = Some (to_monty z) /\ cong 2013265921 (z * w) v.
Proof.
  intros H. destruct (bb_div_correct (to_monty v) (to_monty w) (tm_ok v) (tm_ok w)) as (z & -> & Hz & C).
  { rewrite tm_zero. exact H. }
  exists (bb_val z). rewrite <- (bb_unique z (bb_val z) Hz) by reflexivity. split; [reflexivity|].
  rewrite !tm_val in C. exact C.
Qed.

Lemma bb_exp_spec EB v e : 0 <= EB -> 0 < e -> bb_exp EB (to_monty v) e = Some (to_monty (v ^ e)).
Proof.
  intros HEB He. destruct (bb_exp_correct EB (to_monty v) e HEB (tm_ok v) He) as (z & -> & Hz & C).
  f_equal. apply bb_unique; [exact Hz|]. eapply cong_trans; [exact C|]. apply cong_pow, tm_val.
Qed.

Lemma bb_exp_pow2_spec v k : 0 <= k -> bb_exp_pow2 (to_monty v) k = Some (to_monty (v ^ (2 ^ k))).
Proof.
  intros Hk. destruct (bb_exp_pow2_correct (to_monty v) k (tm_ok v) Hk) as (z & -> & Hz & C).
  f_equal. apply bb_unique; [exact Hz|]. eapply cong_trans; [exact C|]. apply cong_pow, tm_val.
Qed.

Lemma bb_dot_spec x y : length x = length y ->
  bb_dot (map to_monty x) (map to_monty y) = Some (to_monty (dotz x y)).
Proof.
  intros L. destruct (bb_dot_correct (map to_monty x) (map to_monty y)) as (z & -> & Hz & C).
  - rewrite !map_length. exact L.
  - apply Forall_forall. intros a Ha. apply in_map_iff in Ha. destruct Ha as (? & <- & _). apply tm_ok.
  - apply Forall_forall. intros a Ha. apply in_map_iff in Ha. destruct Ha as (? & <- & _). apply tm_ok.
  - f_equal. apply bb_unique; [exact Hz|]. rewrite C. clear z Hz C.
    revert y L. induction x as [|a x IH]; intros [|b y] L; cbn [length] in L; try lia; cbn [map combine fold_right dotz fst snd].
    + reflexivity.
    + rewrite IH by lia. rewrite !tm_val. reflexivity.
Qed.

Lemma bb_constants v : let x := to_monty v in
  bb_add x MONTY_ZERO = Some x /\ bb_mul x MONTY_ONE = Some x /\ bb_mul x MONTY_TWO = bb_add x x /\ bb_mul x MONTY_NEG_ONE = bb_neg x /\
  bb_add MONTY_ONE MONTY_NEG_ONE = Some MONTY_ZERO.
Proof.
  intros x. unfold x, MONTY_ZERO, MONTY_ONE, MONTY_TWO, MONTY_NEG_ONE.
  destruct (bb_ops_spec v 0) as (A0 & _ & N & _). destruct (bb_ops_spec v 1) as (_ & _ & _ & M1). destruct (bb_ops_spec v 2) as (_ & _ & _ & M2).
  destruct (bb_ops_spec v (BP - 1)) as (_ & _ & _ & M3). destruct (bb_ops_spec v v) as (A & _). destruct (bb_ops_spec 1 (BP - 1)) as (A1 & _).
  rewrite A0, M1, M2, M3, A, N, A1. rewrite Z.add_0_r, Z.mul_1_r. split; [reflexivity|]. split; [reflexivity|].
  split; [do 2 f_equal; ring|]. destruct bb_bijection as (_ & _ & H). split.
  - f_equal. rewrite (H (v * (BP - 1))), (H (- v)). f_equal. change 2013265921 with BP. replace (v * (BP - 1)) with (- v + v * BP) by ring. apply Z_mod_plus_full.
  - reflexivity.
Qed.
Lemma bb_conversions x l : 0 <= x < 2 ^ 64 -> to_monty_64 x = to_monty (x mod 2013265921) /\ to_monty_array l = map to_monty l.
Proof.
  intros Hx. split; [|induction l as [|y l IH]; cbn; [reflexivity|rewrite IH; reflexivity]].
  unfold to_monty_64, to_monty. f_equal. change 2013265921 with BP. unfold ucast. rewrite (Z.mod_small (x * 2 ^ MONTY_BITS)).
  - rewrite Z.mul_mod_idemp_l by discriminate. reflexivity.
  - change (2 ^ MONTY_BITS) with 4294967296. change (2 ^ 64) with 18446744073709551616 in Hx. change (2 ^ 128) with 340282366920938463463374607431768211456. lia.
Qed.
