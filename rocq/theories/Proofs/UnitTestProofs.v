(** The randomised unit tests on words. *)
From Coq Require Import ZArith Znumtheory List Bool Lia SpecFloat.
From Verif Require Import Spec.Basic Model.Base Model.Reduce Model.Barrett Model.Gcd Model.Prime Model.Shoup Model.PowOf2 Model.ModSwitch Model.UnitTests.
From Verif Require Import Proofs.Arith Proofs.BarrettProofs Proofs.GcdProofs Proofs.ShoupProofs Proofs.PowOf2Proofs Proofs.PrimeProofs Proofs.PrimeChanceProofs Proofs.FloatProofs Proofs.NumTheory.
Import ListNotations.
Local Open Scope Z_scope.

Lemma assert_eq_refl x : assert_eq x x = Some tt.
Proof. unfold assert_eq. rewrite Z.eqb_refl. reflexivity. Qed.
Lemma assert_eq_iff x y : assert_eq x y = Some tt <-> x = y.
Proof. unfold assert_eq, assert. destruct (Z.eqb_spec x y); split; congruence. Qed.
Lemma wwidth_pos B : wwidth B -> 4 <= B.
Proof. intros (k & H & ->). lia. Qed.

Section Word.
  Variables (B m : Z).
  Hypothesis HB : wwidth B.
  Hypothesis Hm : 2 <= m < 2 ^ (B - 2).
  Let B4 : 4 <= B := wwidth_pos B HB.

  Lemma m_word : 0 <= m < 2 ^ B.
  Proof. pose proof (Z.pow_lt_mono_r 2 (B - 2) B ltac:(lia) ltac:(lia) ltac:(lia)). lia. Qed.
  Lemma m_new : exists mo, barrett_new B m = Some mo /\ bval mo = m /\ barrett_ok B mo.
  Proof.
    destruct (proj1 (barrett_new_full B m HB m_word) Hm) as (mo & E & V & _). exists mo. split; [exact E|]. split; [exact V|].
    apply barrett_new_inv in E; [|exact HB|lia]. apply E.
  Qed.

  Lemma ut_create_ok : ut_create B m = Some tt.
  Proof. unfold ut_create. destruct m_new as (mo & -> & _). reflexivity. Qed.
  Lemma ut_reduce_ok v : 0 <= v < 2 ^ B -> ut_reduce B m v = Some tt.
  Proof.
    intros Hv. unfold ut_reduce. destruct m_new as (mo & -> & V & Ok). cbn [bind]. rewrite (reduce1_correct B mo HB Ok v Hv), V. cbn [bind].
    rewrite urem_some by lia. cbn [bind]. apply assert_eq_refl.
  Qed.
  Lemma ut_reduce_128_ok lw hw : 0 <= lw < 2 ^ B -> 0 <= hw < 2 ^ B -> ut_reduce_128 B m lw hw = Some tt.
  Proof.
    intros Hl Hh. unfold ut_reduce_128. destruct m_new as (mo & -> & V & Ok). cbn [bind].
    assert (P : 2 ^ (2 * B) = 2 ^ B * 2 ^ B) by (apply pow2_double; lia). pose proof m_word as W.
    rewrite ushl_some by nia. cbn [bind]. rewrite uadd_some by nia. cbn [bind]. rewrite urem_some by lia. cbn [bind].
    rewrite (reduce2_correct B mo HB Ok lw hw Hl Hh), V. cbn [bind]. unfold ucast.
    rewrite (Z.add_comm (hw * 2 ^ B)). rewrite (Z.mod_small (_ mod m)); [apply assert_eq_refl|].
    pose proof (Z.mod_pos_bound (lw + hw * 2 ^ B) m ltac:(lia)). lia.
  Qed.

  (** The reference power. *)
  Lemma simple_loop_ok fuel power inter e : 0 <= power < m -> 0 <= inter < m -> 0 < e < 2 ^ Z.of_nat fuel ->
    simple_loop fuel B m power inter e = Some ((inter * power ^ e) mod m).
  Proof.
    revert power inter e. induction fuel as [|fuel IH]; intros power inter e Hp Hi He; [change (2 ^ Z.of_nat 0) with 1 in He; lia|].
    cbn [simple_loop]. assert (P : 2 ^ (2 * B) = 2 ^ B * 2 ^ B) by (apply pow2_double; lia). pose proof m_word as W.
    rewrite Nat2Z.inj_succ, Z.pow_succ_r in He by lia.
    assert (M : forall x y, 0 <= x < m -> 0 <= y < m ->
      (let* z := umul (2 * B) x y in let* w := urem z m in Some (ucast B w)) = Some ((x * y) mod m) /\ 0 <= (x * y) mod m < m).
    { intros x y Hx Hy. pose proof (Z.mod_pos_bound (x * y) m ltac:(lia)). rewrite umul_some by nia. cbn [bind]. rewrite urem_some by lia. cbn [bind].
      unfold ucast. rewrite Z.mod_small by lia. split; [reflexivity|lia]. }
    assert (S : (if Z.odd e then let* x := umul (2 * B) inter power in let* y := urem x m in Some (ucast B y) else Some inter) = Some ((inter * power ^ (e mod 2)) mod m)).
    { rewrite Zmod_odd. destruct (Z.odd e).
      - rewrite Z.pow_1_r. apply M; assumption.
      - rewrite Z.pow_0_r, Z.mul_1_r, Z.mod_small by lia. reflexivity. }
    rewrite S. cbn [bind]. clear S. pose proof (Z.mod_pos_bound (inter * power ^ (e mod 2)) m ltac:(lia)) as I2.
    pose proof (Z.div_mod e 2 ltac:(lia)) as E2. pose proof (Z.mod_pos_bound e 2 ltac:(lia)) as R2.
    destruct (Z.eqb_spec (e / 2) 0) as [E|E].
    - f_equal. f_equal. f_equal. f_equal. lia.
    - destruct (M power power Hp Hp) as (M1 & M2). rewrite umul_some by nia. cbn [bind]. rewrite urem_some by lia. cbn [bind].
      unfold ucast. rewrite (Z.mod_small _ (2 ^ B)) by lia.
      rewrite IH; [|exact M2|exact I2|split; [assert (0 <= e / 2) by (apply Z.div_pos; lia); lia|apply Z.div_lt_upper_bound; lia]].
      f_equal. apply cong_iff; [lia|].
      apply (cong_trans _ _ ((inter * power ^ (e mod 2)) * (power * power) ^ (e / 2))).
      + apply cong_mul; [apply cong_mod; lia|]. apply cong_pow, cong_mod. lia.
      + apply cong_of_eq. rewrite E2 at 3. rewrite Z.pow_add_r by lia. rewrite Z.pow_mul_r by lia.
        replace (power * power) with (power ^ 2) by ring. ring.
  Qed.
  Lemma simple_pow_ok a e : 0 <= a < m -> 0 <= e < 2 ^ B -> simple_pow B a e m = Some (a ^ e mod m).
  Proof.
    intros Ha He. unfold simple_pow. destruct (Z.eqb_spec e 0) as [->|E0]; [rewrite Z.pow_0_r, Z.mod_small by lia; reflexivity|].
    replace (a <? m) with true by lia. cbn [assert bind]. destruct (Z.eqb_spec e 1) as [->|E1]; [rewrite Z.pow_1_r, Z.mod_small by lia; reflexivity|].
    rewrite simple_loop_ok; [f_equal; f_equal; ring|lia|lia|]. rewrite Z2Nat.id by lia. lia.
  Qed.
  Lemma ut_pow_ok draws : Forall (fun be => 0 <= fst be < m /\ 0 <= snd be < 2 ^ B) draws -> ut_pow B m draws = Some tt.
  Proof.
    intros H. unfold ut_pow. destruct m_new as (mo & -> & V & Ok). cbn [bind].
    induction H as [|(b & e) l (Hb & He) _ IH]; [reflexivity|]. cbn [foldM fst snd] in *.
    rewrite simple_pow_ok by assumption. cbn [bind]. rewrite (bexp_correct B mo HB Ok B b e) by (rewrite ?V; assumption || lia). rewrite V. cbn [bind].
    rewrite assert_eq_refl. exact IH.
  Qed.

  Lemma ut_shoup_ok a b : 0 <= a < m -> 0 <= b < 2 ^ B -> ut_shoup B m a b = Some tt.
  Proof.
    intros Ha Hb. unfold ut_shoup. destruct m_new as (mo & -> & V & Ok). cbn [bind].
    pose proof m_word as W. pose proof (Z.pow_le_mono_r 2 (B - 2) (B - 1) ltac:(lia) ltac:(lia)) as L.
    pose proof (shoup_new_correct B a m ltac:(lia) Ha ltac:(lia)) as S. rewrite S. cbn [bind].
    destruct (shoup_mul_full B a m b _ ltac:(lia) Ha ltac:(lia) Hb S) as (S1 & _). rewrite S1.
    rewrite (reduce1_correct B mo HB Ok b Hb), V. cbn [bind]. pose proof (Z.mod_pos_bound b m ltac:(lia)).
    rewrite (bmul_correct B mo HB Ok a (b mod m)) by lia. rewrite V. cbn [bind]. rewrite Z.mul_mod_idemp_r by lia. apply assert_eq_refl.
  Qed.
End Word.

(** Inversion: the test can only fail on an accepted composite. *)
Lemma ut_inverse_iff B m0 mo draw value : wwidth B -> let m := Z.lor m0 1 in 0 <= m0 -> 2 <= m -> barrett_new B m = Some mo ->
  (64 <= m -> forall i, 3 <= draw i <= m - 1) -> 0 <= value < m ->
  (ut_inverse B m0 draw value = Some tt <-> (probably_prime B mo 20 draw = Some true -> Z.gcd m value = 1)).
Proof.
  intros HB m H0 H2 E Hd Hv. pose proof (wwidth_pos B HB) as B4.
  assert (EM : (if Z.land m0 1 =? 0 then Z.lor m0 1 else m0) = m).
  { destruct (Z.eqb_spec (Z.land m0 1) 0) as [L|L]; [reflexivity|]. unfold m.
    assert (T : Z.testbit m0 0 = true).
    { destruct (Z.testbit m0 0) eqn:T; [reflexivity|]. exfalso. apply L. apply Z.bits_inj'. intros n Hn. rewrite Z.land_spec, Z.bits_0.
      destruct (Z.eq_dec n 0) as [->|N]; [rewrite T; reflexivity|]. change 1 with (2 ^ 0). rewrite Z.pow2_bits_false by lia. apply andb_false_r. }
    apply Z.bits_inj'. intros n Hn. rewrite Z.lor_spec. change 1 with (2 ^ 0). rewrite Z.pow2_bits_eqb by lia.
    destruct (Z.eqb_spec 0 n) as [<-|N]; [rewrite T; reflexivity|rewrite orb_false_r; reflexivity]. }
  unfold ut_inverse. rewrite EM. clear EM. clearbody m. cbv zeta. rewrite E. cbn [bind].
  destruct (barrett_new_inv B m mo HB ltac:(lia) E) as (HR & V & Ok).
  assert (TP : exists b, probably_prime B mo 20 draw = Some b).
  { destruct (Z_lt_dec m 64) as [L|L].
    - destruct (probably_prime_small B m mo 20 draw HB E ltac:(lia)) as (b & Eb & _). exists b. exact Eb.
    - destruct (test_exact B mo HB Ok ltac:(rewrite V; lia) 20 draw ltac:(rewrite V; apply Hd; lia)) as (b & Eb & _). exists b. exact Eb. }
  destruct TP as (b & ->). cbn [bind]. destruct b; [|split; [discriminate|reflexivity]].
  unfold binv. rewrite V. destruct (inv_reduce_spec B value m ltac:(lia) Hv ltac:(lia)) as (I1 & I2). split.
  - intros H _. destruct (Z.eq_dec (Z.gcd m value) 1) as [|N]; [assumption|]. rewrite (proj1 (I2 ltac:(tauto))) in H. discriminate.
  - intros H. specialize (H eq_refl). destruct (Z.eq_dec value 0) as [->|N]; [rewrite Z.gcd_0_r, Z.abs_eq in H; lia|].
    destruct (I1 (conj N H)) as (r & -> & _ & Hrr & Er). cbn [bind]. pose proof (Z.pow_lt_mono_r 2 (B - 2) B ltac:(lia) ltac:(lia) ltac:(lia)).
    rewrite (bmul_correct B mo HB Ok value r) by lia. rewrite V, (Z.mul_comm value r), Er. cbn [bind]. apply assert_eq_refl.
Qed.

(** Powers of two. *)
Lemma next_pow_ok B x : 0 <= B -> 2 <= x <= 2 ^ (B - 1) -> exists k, 1 <= k <= B - 1 /\ x <= 2 ^ k < 2 * x /\ next_power_of_two B x = Some (2 ^ k).
Proof.
  intros HB Hx. exists (bit_len (x - 1)).
  assert (B2 : 2 <= B). { destruct (Z_lt_dec B 2); [|lia]. assert (2 ^ (B - 1) <= 2 ^ 0) by (apply Z.pow_le_mono_r; lia). lia. }
  pose proof (bit_len_bounds (x - 1) ltac:(lia)) as (L & U).
  assert (K : bit_len (x - 1) <= B - 1) by (apply bit_len_lt; lia). pose proof (bit_len_nonneg (x - 1)) as N.
  assert (K1 : 1 <= bit_len (x - 1)). { destruct (Z.eq_dec (bit_len (x - 1)) 0) as [E|]; [rewrite E in U; lia|lia]. }
  rewrite (pow2_pred (bit_len (x - 1))) in U |- * by lia. split; [lia|]. split; [lia|]. unfold next_power_of_two. rewrite (pow2_pred (bit_len (x - 1))) by lia.
  replace (_ <? _) with true; [reflexivity|]. symmetry. rewrite <- (pow2_pred (bit_len (x - 1))) by lia. apply Z.ltb_lt. apply Z.pow_lt_mono_r; lia.
Qed.
Lemma p2_new_pow k : 1 <= k -> p2_new (2 ^ k) = Some (2 ^ k - 1).
Proof. intros H. apply p2_new_correct; [apply Z.pow_nonneg; lia|]. exists k. auto. Qed.
Lemma ut_p2_create_ok B r : 0 <= B -> 2 <= r <= 2 ^ (B - 1) -> ut_p2_create B r = Some tt.
Proof.
  intros HB Hr. unfold ut_p2_create. destruct (next_pow_ok B r HB Hr) as (k & Hk & _ & ->). cbn [bind]. rewrite p2_new_pow by lia. reflexivity.
Qed.
Lemma ut_p2_panic_ok draws : Forall (fun r => 0 <= r) draws ->
  ut_p2_panic draws <> Gaussian.Panicked /\ (ut_p2_panic draws = Gaussian.Got tt <-> exists r, In r draws /\ forall k, 0 <= k -> r <> 2 ^ k).
Proof.
  induction 1 as [|r l Hr _ (I1 & I2)]; cbn [ut_p2_panic].
  - split; [discriminate|]. split; [discriminate|]. intros (r & [] & _).
  - destruct (is_pow2 r) eqn:E.
    + split; [exact I1|]. rewrite I2. split.
      * intros (x & Hx & Nx). exists x. split; [right; exact Hx|exact Nx].
      * intros (x & [<-|Hx] & Nx); [|exists x; auto]. exfalso. apply is_pow2_spec in E as (k & K & Ek). exact (Nx k K Ek).
    + assert (N : forall k, 0 <= k -> r <> 2 ^ k). { intros k K Ek. assert (is_pow2 r = true) by (apply is_pow2_spec; exists k; auto). congruence. }
      unfold p2_new. rewrite E, andb_false_r. cbn. split; [discriminate|]. split; [|reflexivity]. intros _. exists r. split; [left; reflexivity|exact N].
Qed.
Lemma ut_p2_reduce_ok B r v a1 b1 a2 b2 a3 b3 a4 : 2 <= B -> 2 <= r <= 2 ^ (B - 2) ->
  0 <= v -> (exists k, next_power_of_two B r = Some (2 ^ k) /\ 1 <= k <= B - 2 /\ Forall (fun x => 0 <= x < 2 ^ k) [a1; b1; a2; b2; a3; b3; a4]) ->
  ut_p2_reduce B r v a1 b1 a2 b2 a3 b3 a4 = Some tt.
Proof.
  intros HB Hr Hv (k & E & Hk & F). unfold ut_p2_reduce. rewrite E. cbn [bind]. rewrite p2_new_pow by lia. cbn [bind].
  assert (P : 0 < 2 ^ k) by (apply Z.pow_pos_nonneg; lia).
  assert (PB : 4 * 2 ^ k <= 2 ^ B). { replace 4 with (2 ^ 2) by reflexivity. rewrite <- Z.pow_add_r by lia. apply Z.pow_le_mono_r; lia. }
  assert (PP : 2 ^ (2 * B) = 2 ^ B * 2 ^ B) by (apply pow2_double; lia).
  repeat match goal with H : Forall _ (_ :: _) |- _ => inversion_clear H end.
  assert (O : forall x y, _) by exact (fun x y => p2_ops_correct B k x y ltac:(lia)).
  destruct (O v 0) as (O1 & _). rewrite urem_some by lia. cbn [bind]. rewrite O1, assert_eq_refl. cbn [bind].
  destruct (O a1 b1) as (_ & O2 & _). rewrite uadd_some by lia. cbn [bind]. rewrite urem_some by lia. cbn [bind]. rewrite O2, assert_eq_refl. cbn [bind].
  destruct (O a2 b2) as (_ & _ & O3 & _). rewrite uadd_some by lia. cbn [bind]. rewrite usub_some by lia. cbn [bind]. rewrite urem_some by lia. cbn [bind].
  rewrite O3. replace (2 ^ k + a2 - b2) with (a2 - b2 + 1 * 2 ^ k) by ring. rewrite Z.mod_add by lia. rewrite assert_eq_refl. cbn [bind].
  destruct (O a3 b3) as (_ & _ & _ & _ & O4). rewrite umul_some by nia. cbn [bind]. rewrite urem_some by lia. cbn [bind]. rewrite O4. unfold ucast.
  rewrite (Z.mod_small (_ mod _) (2 ^ B)) by (pose proof (Z.mod_pos_bound (a3 * b3) (2 ^ k) P); lia). rewrite assert_eq_refl. cbn [bind].
  destruct (O a4 0) as (_ & _ & _ & O5 & _). destruct (O (p2_neg B (2 ^ k - 1) a4) a4) as (_ & O6 & _). rewrite O6, O5.
  rewrite Z.add_mod_idemp_l, Z.add_opp_diag_l, Z.mod_0_l by lia. rewrite assert_eq_refl. cbn [bind].
  destruct (O 0 0) as (_ & _ & _ & O7 & _). rewrite O7. cbn [Z.opp]. rewrite Z.mod_0_l by lia. apply assert_eq_refl.
Qed.

(** Bezout. *)
Lemma schk_small W x : 0 < W -> - 2 ^ (W - 1) <= x < 2 ^ (W - 1) -> schk W x = Some x.
Proof. intros HW H. unfold schk. destruct (Z.leb_spec (- 2 ^ (W - 1)) x), (Z.ltb_spec x (2 ^ (W - 1))); try lia. reflexivity. Qed.
Lemma ut_gcd_ok B x y : 2 <= B -> 0 <= x < 2 ^ (B - 2) -> 0 <= y < 2 ^ (B - 2) -> ut_gcd B x y = Some tt.
Proof.
  intros HB Hx Hy. unfold ut_gcd. destruct (Z.eq_dec x 0) as [->|Nx].
  { unfold extended_gcd. cbn [Z.eqb orb bind]. rewrite !schk_small; cbn [bind]; rewrite ?schk_small; cbn [bind]; try (rewrite ?schk_small; cbn [bind]); try apply assert_eq_refl; try lia;
    pose proof (Z.pow_pos_nonneg 2 (2 * B - 1) ltac:(lia) ltac:(lia)); lia. }
  destruct (Z.eq_dec y 0) as [->|Ny].
  { unfold extended_gcd. rewrite orb_true_r. cbn [bind]. rewrite !schk_small; cbn [bind]; rewrite ?schk_small; cbn [bind]; try (rewrite ?schk_small; cbn [bind]); try apply assert_eq_refl; try lia;
    pose proof (Z.pow_pos_nonneg 2 (2 * B - 1) ltac:(lia) ltac:(lia)); lia. }
  destruct (extended_gcd_correct B x y HB ltac:(lia) ltac:(lia)) as (c & d & -> & E & Hc & Hd). cbn [bind].
  assert (P : 2 ^ (2 * B - 1) = 8 * (2 ^ (B - 2) * 2 ^ (B - 2))).
  { change 8 with (2 ^ 3). rewrite <- !Z.pow_add_r by lia. f_equal. lia. }
  set (h := 2 ^ (B - 2)) in *.
  rewrite (schk_small _ (c * x)) by (rewrite ?P; nia). cbn [bind]. rewrite (schk_small _ (d * y)) by (rewrite ?P; nia). cbn [bind].
  rewrite (schk_small _ (c * x + d * y)) by (rewrite ?P; nia). cbn [bind]. rewrite E. apply assert_eq_refl.
Qed.
Lemma ut_p2_reduce_all B r m v a1 b1 a2 b2 a3 b3 a4 : 2 <= B -> 2 <= r <= 2 ^ (B - 2) -> next_power_of_two B r = Some m ->
  Forall (fun x => 0 <= x < m) [v; a1; b1; a2; b2; a3; b3; a4] -> ut_p2_reduce B r v a1 b1 a2 b2 a3 b3 a4 = Some tt.
Proof.
  intros HB Hr Em F. destruct (next_pow_ok (B - 1) r ltac:(lia)) as (k & Hk & Hrk & E); [replace (B - 1 - 1) with (B - 2) by lia; exact Hr|].
  assert (E' : next_power_of_two B r = Some (2 ^ k)).
  { destruct (next_pow_ok B r ltac:(lia) ltac:(pose proof (Z.pow_le_mono_r 2 (B - 2) (B - 1) ltac:(lia) ltac:(lia)); lia)) as (k' & Hk' & Hrk' & E'). rewrite E'. f_equal.
    destruct (Z.lt_trichotomy k k') as [L|[->|L]]; [|reflexivity|].
    - pose proof (Z.pow_le_mono_r 2 (k + 1) k' ltac:(lia) ltac:(lia)). rewrite pow2_succ in * by lia. lia.
    - pose proof (Z.pow_le_mono_r 2 (k' + 1) k ltac:(lia) ltac:(lia)). rewrite pow2_succ in * by lia. lia. }
  rewrite E' in Em. injection Em as <-. inversion_clear F. apply ut_p2_reduce_ok; [exact HB|exact Hr|lia|]. exists k. split; [exact E'|]. split; [lia|assumption].
Qed.
