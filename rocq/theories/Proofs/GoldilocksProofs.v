(** Goldilocks. *)
From Coq Require Import ZArith Znumtheory Zpow_facts List Bool Lia.
From Verif Require Import Model.Base Model.Reduce Model.Goldilocks Proofs.Arith Proofs.ReduceProofs
  Proofs.NumTheory.
Import ListNotations.
Local Open Scope Z_scope.

Lemma prime_65537 : prime 65537.
Proof.
  apply (lucas_check 65537 3 [2]).
  - reflexivity.
  - intros q Hq Hd. change (65537 - 1) with (2 ^ 16) in Hd.
    apply prime_div_pow in Hd; [|assumption|lia].
    left. symmetry. apply prime_div_prime; [assumption|exact prime_2|assumption].
  - vm_compute. reflexivity.
  - vm_compute. reflexivity.
  - cbn [In]. lia.
Qed.

Theorem prime_GP : prime GP.
Proof.
  apply (lucas_check GP 7 [2; 3; 5; 17; 257; 65537]).
  - reflexivity.
  - intros q Hq Hd.
    change (GP - 1) with (2 ^ 32 * (3 * (5 * (17 * (257 * 65537))))) in Hd.
    assert (P5 : prime 5) by (apply small_prime; [lia|vm_compute; reflexivity]).
    assert (P17 : prime 17) by (apply small_prime; [lia|vm_compute; reflexivity]).
    assert (P257 : prime 257) by (apply small_prime; [lia|vm_compute; reflexivity]).
    pose proof prime_65537 as P65537.
    cbn [In].
    repeat (apply prime_mult in Hd; [|assumption]; destruct Hd as [Hd|Hd]).
    + apply prime_div_pow in Hd; [|assumption|lia].
      left. symmetry. apply prime_div_prime; [assumption|exact prime_2|assumption].
    + right; left. symmetry. apply prime_div_prime; [assumption|exact prime_3|assumption].
    + right; right; left. symmetry. apply prime_div_prime; assumption.
    + do 3 right; left. symmetry. apply prime_div_prime; assumption.
    + do 4 right; left. symmetry. apply prime_div_prime; assumption.
    + do 5 right; left. symmetry. apply prime_div_prime; assumption.
  - vm_compute. reflexivity.
  - vm_compute. reflexivity.
  - cbn [In]. lia.
Qed.

Definition word64 (x : Z) : Prop := 0 <= x < 2 ^ 64.

Ltac consts := change (2 ^ 128) with 340282366920938463463374607431768211456 in *;
  change (2 ^ 64) with 18446744073709551616 in *; change (2 ^ 32) with 4294967296 in *;
  change EPSILON with 4294967295 in *; change GP with 18446744069414584321 in *.

Lemma to_canonical_correct x : word64 x -> to_canonical x = Some (x mod GP).
Proof.
  unfold word64, to_canonical. intros Hx. consts.
  destruct (Z.leb_spec 18446744069414584321 x).
  - rewrite usub_some by lia. f_equal. apply cong_eq_mod; [lia|]. exists (-1); ring.
  - rewrite Z.mod_small by lia. reflexivity.
Qed.

Lemma add_no_canon_correct x y : word64 x -> 0 <= y <= 2 ^ 64 - 2 ^ 32 ->
  exists z, add_no_canon x y = Some z /\ word64 z /\ cong GP z (x + y).
Proof.
  unfold word64, add_no_canon, overflowing_add, wadd, b2z. intros Hx Hy. consts.
  destruct (Z.leb_spec 18446744073709551616 (x + y)).
  - assert (E : (x + y) mod 18446744073709551616 = x + y - 18446744073709551616).
    { symmetry. apply cong_eq_mod; [lia|]. exists (-1); ring. }
    rewrite E. rewrite uadd_some by (consts; lia). eexists. split; [reflexivity|].
    split; [lia|]. exists (-1). lia.
  - rewrite Z.mod_small by lia. rewrite uadd_some by (consts; lia).
    eexists. split; [reflexivity|]. split; [lia|]. exists 0. lia.
Qed.

Lemma reduce96_correct lo hi : word64 lo -> 0 <= hi < 2 ^ 32 ->
  exists z, reduce96 lo hi = Some z /\ word64 z /\ cong GP z (lo + hi * 2 ^ 64).
Proof.
  intros Hl Hh. unfold reduce96.
  rewrite umul_some by (consts; lia). cbn [bind].
  destruct (add_no_canon_correct lo (hi * EPSILON) Hl) as (z & E & Hz & Cz); [consts; lia|].
  exists z. split; [exact E|]. split; [exact Hz|]. rewrite Cz.
  exists (- hi). consts. lia.
Qed.

Lemma assembly_eq x y : add_no_canon_x86 x y = add_no_canon x y.
Proof.
  unfold add_no_canon_x86, add_no_canon, asm_add, asm_sbb, overflowing_add. cbn [r0 r1 carry_flag].
  destruct (2 ^ 64 <=? x + y); cbn [b2z]; rewrite Z.sub_diag; f_equal; reflexivity.
Qed.
Lemma assembly_spec x y : word64 x -> word64 y ->
  add_no_canon_x86 x y = add_no_canon x y /\
  (x + y < 2 ^ 64 + GP -> exists z, add_no_canon_x86 x y = Some z /\ word64 z /\ cong GP z (x + y)).
Proof.
  intros Hx Hy. split; [apply assembly_eq|]. rewrite assembly_eq. intros Hs.
  revert Hx Hy Hs. unfold word64, add_no_canon, overflowing_add, wadd, b2z. intros Hx Hy Hs. consts.
  destruct (Z.leb_spec 18446744073709551616 (x + y)).
  - assert (E : (x + y) mod 18446744073709551616 = x + y - 18446744073709551616).
    { symmetry. apply cong_eq_mod; [lia|]. exists (-1); ring. }
    rewrite E. rewrite uadd_some by (consts; lia). eexists. split; [reflexivity|].
    split; [lia|]. exists (-1). lia.
  - rewrite Z.mod_small by lia. rewrite uadd_some by (consts; lia).
    eexists. split; [reflexivity|]. split; [lia|]. exists 0. lia.
Qed.

Lemma reduce128_correct x : 0 <= x < 2 ^ 128 ->
  exists z, reduce128 x = Some z /\ word64 z /\ cong GP z x.
Proof.
  intros Hx. unfold reduce128, ucast, overflowing_sub, wsub.
  assert (HL : forall a, Z.land a EPSILON = a mod 2 ^ 32) by (intros; apply (land_mask a 32); lia).
  rewrite HL. clear HL.
  assert (Hhi : 0 <= x / 2 ^ 64 < 2 ^ 64).
  { split; [apply Z.div_pos; [lia|reflexivity]|]. apply Z.div_lt_upper_bound; [reflexivity|].
    change (2 ^ 64 * 2 ^ 64) with (2 ^ 128). lia. }
  rewrite (Z.mod_small (x / 2 ^ 64)) by lia.
  set (hi := x / 2 ^ 64) in *. set (lo := x mod 2 ^ 64).
  assert (Elo : x = 2 ^ 64 * hi + lo) by (apply Z.div_mod; discriminate).
  assert (Hlo : 0 <= lo < 2 ^ 64) by (apply Z.mod_pos_bound; reflexivity).
  clearbody lo hi.
  set (hh := hi / 2 ^ 32). set (hl := hi mod 2 ^ 32).
  assert (Ehi : hi = 2 ^ 32 * hh + hl) by (apply Z.div_mod; discriminate).
  assert (Hhl : 0 <= hl < 2 ^ 32) by (apply Z.mod_pos_bound; reflexivity).
  clearbody hh hl. consts.
  assert (Hhh : 0 <= hh < 4294967296) by lia.
  assert (T : exists t0, (if lo <? hh then usub ((lo - hh) mod 18446744073709551616) 4294967295
                          else Some ((lo - hh) mod 18446744073709551616)) = Some t0 /\
                word64 t0 /\ cong GP t0 (lo - hh)).
  { unfold word64. consts. destruct (Z.ltb_spec lo hh).
    - assert (E : (lo - hh) mod 18446744073709551616 = lo - hh + 18446744073709551616).
      { symmetry. apply cong_eq_mod; [lia|]. exists 1; ring. }
      rewrite E, usub_some by lia. eexists. split; [reflexivity|]. split; [lia|]. exists 1. lia.
    - rewrite Z.mod_small by lia. eexists. split; [reflexivity|]. split; [lia|]. reflexivity. }
  destruct T as (t0 & -> & Ht0 & Ct0). cbn [bind].
  rewrite umul_some by (consts; lia). cbn [bind].
  destruct (add_no_canon_correct t0 (hl * 4294967295) Ht0) as (z & E & Hz & Cz); [consts; lia|].
  exists z. split; [exact E|]. split; [exact Hz|]. rewrite Cz, Ct0, Elo, Ehi.
  exists (- (hl + hh * 4294967297)). consts. lia.
Qed.

Lemma gl_reduce_correct x : word64 x ->
  exists z, gl_reduce x = Some z /\ 0 <= z <= GP /\ cong GP z x /\ (x <> GP -> z = x mod GP).
Proof.
  unfold word64, gl_reduce. intros Hx. consts.
  destruct (Z.ltb_spec 18446744069414584321 x).
  - rewrite usub_some by lia. eexists. split; [reflexivity|]. split; [lia|].
    split; [exists (-1); ring|]. intros _. apply cong_eq_mod; [lia|]. exists (-1); ring.
  - exists x. split; [reflexivity|]. split; [lia|]. split; [reflexivity|].
    intros Hne. rewrite Z.mod_small by lia. reflexivity.
Qed.

Lemma gl_add_correct a b : word64 a -> word64 b ->
  exists z, gl_add a b = Some z /\ word64 z /\ cong GP z (a + b).
Proof.
  unfold word64, gl_add, overflowing_add, wadd, b2z. intros Ha Hb. consts.
  destruct (Z.leb_spec 18446744073709551616 (a + b)).
  - assert (E : (a + b) mod 18446744073709551616 = a + b - 18446744073709551616).
    { symmetry. apply cong_eq_mod; [lia|]. exists (-1); ring. }
    rewrite E, Z.mul_1_l.
    destruct (Z.leb_spec 18446744073709551616 (a + b - 18446744073709551616 + 4294967295)).
    + assert (E' : (a + b - 18446744073709551616 + 4294967295) mod 18446744073709551616
                   = a + b - 18446744073709551616 + 4294967295 - 18446744073709551616).
      { symmetry. apply cong_eq_mod; [lia|]. exists (-1); ring. }
      rewrite E', uadd_some by (consts; lia). eexists. split; [reflexivity|]. split; [lia|].
      exists (-2). lia.
    + rewrite (Z.mod_small (a + b - _ + _)) by lia. eexists. split; [reflexivity|].
      split; [lia|]. exists (-1). lia.
  - rewrite Z.mul_0_l, Z.add_0_r. rewrite !Z.mod_small by (try apply Z.mod_pos_bound; lia).
    destruct (Z.leb_spec 18446744073709551616 (a + b)); [lia|].
    eexists. split; [reflexivity|]. split; [lia|]. reflexivity.
Qed.

Lemma gl_sub_correct a b : word64 a -> word64 b ->
  exists z, gl_sub a b = Some z /\ word64 z /\ cong GP z (a - b).
Proof.
  unfold word64, gl_sub, overflowing_sub, wsub, b2z. intros Ha Hb. consts.
  destruct (Z.ltb_spec a b).
  - assert (E : (a - b) mod 18446744073709551616 = a - b + 18446744073709551616).
    { symmetry. apply cong_eq_mod; [lia|]. exists 1; ring. }
    rewrite E, Z.mul_1_l.
    destruct (Z.ltb_spec (a - b + 18446744073709551616) 4294967295).
    + assert (E' : (a - b + 18446744073709551616 - 4294967295) mod 18446744073709551616
                   = a - b + 18446744073709551616 - 4294967295 + 18446744073709551616).
      { symmetry. apply cong_eq_mod; [lia|]. exists 1; ring. }
      rewrite E', usub_some by lia. eexists. split; [reflexivity|]. split; [lia|].
      exists 2. lia.
    + rewrite (Z.mod_small (a - b + _ - _)) by lia. eexists. split; [reflexivity|].
      split; [lia|]. exists 1. lia.
  - rewrite Z.mul_0_l, Z.sub_0_r. rewrite (Z.mod_small (a - b)) by lia.
    rewrite (Z.mod_small (a - b)) by lia.
    destruct (Z.ltb_spec (a - b) 0); [lia|].
    eexists. split; [reflexivity|]. split; [lia|]. reflexivity.
Qed.

(** Negation: exact whenever the operand does not exceed P; otherwise it panics. *)
Lemma gl_neg_correct a : 0 <= a <= GP ->
  exists z, gl_neg a = Some z /\ 0 <= z < GP /\ cong GP z (- a).
Proof.
  unfold gl_neg. intros Ha. consts. destruct (Z.eqb_spec a 0).
  - subst. exists 0. split; [reflexivity|]. split; [lia|]. reflexivity.
  - rewrite usub_some by lia. eexists. split; [reflexivity|]. split; [lia|]. exists 1; lia.
Qed.

Lemma gl_neg_panics a : GP < a -> gl_neg a = None.
Proof.
  unfold gl_neg, usub. intros Ha. consts. destruct (Z.eqb_spec a 0); [lia|].
  destruct (Z.leb_spec a 18446744069414584321); [lia|reflexivity].
Qed.

Lemma gl_mul_ok a b : word64 a -> word64 b ->
  exists z, gl_mul a b = Some z /\ word64 z /\ cong GP z (a * b).
Proof.
  intros Ha Hb. unfold gl_mul. apply reduce128_correct. unfold word64 in *. consts. nia.
Qed.

Lemma gl_exp_correct EB a e : 0 <= EB -> 0 <= a < GP -> 0 <= e ->
  exists z, gl_exp EB a e = Some z /\ word64 z /\ cong GP z (a ^ e).
Proof.
  intros HEB Ha He. unfold gl_exp. destruct (Z.eq_dec e 0) as [->|].
  - exists 1. unfold exp_generic. cbn [Z.eqb]. split; [reflexivity|].
    split; [unfold word64; consts; lia|]. rewrite Z.pow_0_r. reflexivity.
  - apply (exp_generic_correct GP gl_mul word64 (fun x => x) gl_mul_ok EB 1 (a <? GP) a e); try lia.
    unfold word64. consts. lia.
Qed.

Lemma gl_exp_pow2_correct a k : word64 a -> 0 <= k ->
  exists z, gl_exp_pow2 a k = Some z /\ word64 z /\ cong GP z (a ^ (2 ^ k)).
Proof.
  intros Ha Hk. exact (exp_pow2_generic_correct GP gl_mul word64 (fun x => x) gl_mul_ok a k Hk Ha).
Qed.

Definition gl_isp (V x e : Z) : Prop := word64 x /\ cong GP x (V ^ e) /\ 0 <= e.

Lemma gl_mul_isp V x y a b : gl_isp V x a -> gl_isp V y b ->
  exists z, gl_mul x y = Some z /\ gl_isp V z (a + b).
Proof.
  intros (Hx & Cx & Ha) (Hy & Cy & Hb).
  destruct (gl_mul_ok x y Hx Hy) as (z & E & Hz & Cz). exists z. split; [exact E|].
  split; [exact Hz|]. split; [|lia].
  eapply cong_trans; [exact Cz|]. rewrite Z.pow_add_r by lia. apply cong_mul; assumption.
Qed.

Lemma gl_exp_acc_isp V n x y a b : gl_isp V x a -> gl_isp V y b -> 0 <= n ->
  exists z, gl_exp_acc n x y = Some z /\ gl_isp V z (a * 2 ^ n + b).
Proof.
  intros (Hx & Cx & Ha) Py Hn. unfold gl_exp_acc.
  destruct (gl_exp_pow2_correct x n Hx Hn) as (t & -> & Ht & Ct). cbn [bind].
  apply gl_mul_isp; [|exact Py]. split; [exact Ht|]. pose proof (pow2_pos n Hn).
  split; [|nia]. rewrite Z.pow_mul_r by lia. eapply cong_trans; [exact Ct|]. apply cong_pow. exact Cx.
Qed.

Lemma gl_chain v : word64 v -> v <> 0 ->
  exists r, gl_try_inverse v = Some (Some r) /\ word64 r /\ cong GP r (v ^ (GP - 2)).
Proof.
  intros Hv Hnz. unfold gl_try_inverse. apply Z.eqb_neq in Hnz. rewrite Hnz.
  assert (P1 : gl_isp v v 1).
  { split; [exact Hv|]. split; [|lia]. rewrite Z.pow_1_r. reflexivity. }
  Ltac gl_step :=
    match goal with
    | |- context [bind (gl_mul ?x ?x) _] =>
        match goal with
        | Hx : gl_isp ?V x _ |- _ =>
            let z := fresh "z" in let E := fresh "E" in let P := fresh "P" in
            destruct (gl_mul_isp V x x _ _ Hx Hx) as (z & E & P); rewrite E; clear E; cbn [bind]
        end
    | |- context [bind (gl_mul ?x ?y) _] =>
        match goal with
        | Hx : gl_isp ?V x _, Hy : gl_isp ?V y _ |- _ =>
            let z := fresh "z" in let E := fresh "E" in let P := fresh "P" in
            destruct (gl_mul_isp V x y _ _ Hx Hy) as (z & E & P); rewrite E; clear E; cbn [bind]
        end
    | |- context [bind (gl_exp_acc ?n ?x ?x) _] =>
        match goal with
        | Hx : gl_isp ?V x _ |- _ =>
            let z := fresh "z" in let E := fresh "E" in let P := fresh "P" in
            destruct (gl_exp_acc_isp V n x x _ _ Hx Hx ltac:(lia)) as (z & E & P);
            rewrite E; clear E; cbn [bind]
        end
    | |- context [bind (gl_exp_acc ?n ?x ?y) _] =>
        match goal with
        | Hx : gl_isp ?V x _, Hy : gl_isp ?V y _ |- _ =>
            let z := fresh "z" in let E := fresh "E" in let P := fresh "P" in
            destruct (gl_exp_acc_isp V n x y _ _ Hx Hy ltac:(lia)) as (z & E & P);
            rewrite E; clear E; cbn [bind]
        end
    end.
  repeat gl_step.
  eexists. split; [reflexivity|].
  match goal with H : gl_isp v ?z ?e |- word64 ?z /\ _ =>
    assert (Ee : e = GP - 2) by (vm_compute; reflexivity);
    rewrite Ee in H; destruct H as (Hz & Cz & _) end.
  split; [exact Hz|exact Cz].
Qed.

Theorem gl_try_inverse_correct v : word64 v -> ~ (GP | v) ->
  exists r, gl_try_inverse v = Some (Some r) /\ word64 r /\ cong GP (r * v) 1.
Proof.
  intros Hv Hd. destruct (gl_chain v Hv) as (r & E & Hr & Cr).
  { intros ->. apply Hd. apply Z.divide_0_r. }
  exists r. split; [exact E|]. split; [exact Hr|]. rewrite Cr. apply fermat_inv; [exact prime_GP|exact Hd].
Qed.

Lemma gl_div_correct a b : word64 a -> word64 b -> ~ (GP | b) ->
  exists z, gl_div a b = Some z /\ word64 z /\ cong GP (z * b) a.
Proof.
  intros Ha Hb Hnz. unfold gl_div, gl_inv.
  destruct (gl_try_inverse_correct b Hb Hnz) as (i & -> & Hi & Ci). cbn [bind].
  destruct (gl_mul_ok a i Ha Hi) as (z & E & Hz & Cz). exists z. split; [exact E|].
  split; [exact Hz|]. rewrite Cz. transitivity (a * (i * b)); [apply cong_of_eq; ring|].
  rewrite Ci. apply cong_of_eq; ring.
Qed.

Lemma gl_dot_correct x y : length x = length y -> Forall word64 x -> Forall word64 y ->
  exists z, gl_dot x y = Some z /\ word64 z /\
    cong GP z (fold_right Z.add 0 (map (fun xy => fst xy * snd xy) (combine x y))).
Proof.
  intros L Hx Hy. unfold gl_dot. rewrite assert_true by (apply Nat.eqb_eq; exact L). cbn [bind].
  assert (G : forall l acc, Forall (fun xy => word64 (fst xy) /\ word64 (snd xy)) l -> word64 acc ->
    exists z, foldM (fun acc xy => let* t := gl_mul (fst xy) (snd xy) in gl_add t acc) acc l = Some z /\
      word64 z /\ cong GP z (acc + fold_right Z.add 0 (map (fun xy => fst xy * snd xy) l))).
  { induction l as [|[p q] l IH]; intros acc Hl Ha; cbn [foldM map fold_right fst snd].
    - exists acc. split; [reflexivity|]. split; [exact Ha|]. apply cong_of_eq; ring.
    - inversion Hl as [|? ? [Hp Hq] Hl']; subst. cbn [fst snd] in *.
      destruct (gl_mul_ok p q Hp Hq) as (t & -> & Ht & Ct). cbn [bind].
      destruct (gl_add_correct t acc Ht Ha) as (s & -> & Hs & Cs). cbn [bind].
      destruct (IH s Hl' Hs) as (z & E & Hz & Cz).
      exists z. split; [exact E|]. split; [exact Hz|]. rewrite Cz, Cs, Ct. apply cong_of_eq; ring. }
  destruct (G (combine x y) 0) as (z & E & Hz & Cz).
  - clear -Hx Hy. revert y Hy. induction Hx as [|a x Ha Hx IH]; intros [|b y] Hy; cbn; constructor; inv Hy; auto.
  - unfold word64. consts. lia.
  - exists z. split; [exact E|]. split; [exact Hz|]. rewrite Cz. apply cong_of_eq. ring.
Qed.

Lemma gl_inverse_spec v : 0 <= v < 2 ^ 64 -> ~ (2 ^ 64 - 2 ^ 32 + 1 | v) ->
  exists r, gl_try_inverse v = Some (Some r) /\ gl_inv v = Some r /\ 0 <= r < 2 ^ 64 /\
            cong (2 ^ 64 - 2 ^ 32 + 1) (r * v) 1.
Proof.
  intros Hv Hd. destruct (gl_try_inverse_correct v Hv Hd) as (r & E & Hr & C).
  exists r. unfold gl_inv. rewrite E. auto.
Qed.

Lemma gl_dot_spec x y : length x = length y -> Forall word64 x -> Forall word64 y ->
  exists z, gl_dot x y = Some z /\ word64 z /\ cong GP z (dotz x y).
Proof.
  intros L Hx Hy. destruct (gl_dot_correct x y L Hx Hy) as (z & E & Hz & C).
  exists z. split; [exact E|]. split; [exact Hz|]. rewrite C. apply cong_of_eq. clear.
  revert y. induction x as [|a x IH]; intros [|b y]; cbn; try reflexivity. rewrite IH. reflexivity.
Qed.
